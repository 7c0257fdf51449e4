(** Properties of namespaces: C38, C39. *)
From Coq Require Import Ascii String ZArith Bool List.
From Verif.Base Require Import Bytes.
From Verif.Proof Require Import NamespaceProof.
From Verif.Model Require Import RuleSet Namespace.
From Verif.Spec Require Import NamespaceSpec.
Import ListNotations.
Open Scope Z_scope.

Definition nm (t : Z) : update_meta := mk_um t t (B "user").
Definition ns_empty : namespaces := mk_nsx 3 [].
Definition ns_session : list (ns_edit * update_meta) :=
  [(NsAdd (B "a"), nm 5); (NsAdd (B "b"), nm 6); (NsDelete (B "a") 7, nm 8); (NsDelete (B "a") 9, nm 9); (NsAdd (B "a"), nm 10); (NsAdd (B "a"), nm 11)].

Lemma ns_empty_ok : ns_ok ns_empty.
Proof. split; [constructor|intros n []]. Qed.

(** ** C38: life cycle *)

(** Adding succeeds exactly when the name is unknown (it is then created at version 1, live) or its
    only namespace is deleted (it then gets a live snapshot one version later); nothing else changes. *)
Theorem C38_add : forall x name m x' revived, add_namespace x name m = Some (x', revived) <->
  (revived = false /\ ns_created x x' name (mk_nss 1 false (um_at m) (um_by m))) \/
  (revived = true /\ exists last, nss_tomb last = true /\
     ns_appended x x' name last (mk_nss (nss_version last + 1) false (um_at m) (um_by m))).
Proof. exact add_namespace_exact. Qed.
Print Assumptions C38_add.

(** Deleting succeeds exactly when the only namespace of that name is live. *)
Theorem C38_delete : forall x name curr m x', delete_namespace x name curr m = Some x' <->
  exists last, nss_tomb last = false /\ ns_appended x x' name last (mk_nss (curr + 1) true (um_at m) (um_by m)).
Proof. exact delete_namespace_exact. Qed.
Print Assumptions C38_delete.

(** Names stay unique and histories keep alternating between live and deleted. *)
Theorem C38_invariant : forall es x, ns_ok x -> ns_ok (run_ns_edits x es).
Proof. exact run_ns_edits_ok. Qed.
Print Assumptions C38_invariant.

(** Histories only ever grow at the end. *)
Theorem C38_histories : forall es x, ns_histories_kept x (run_ns_edits x es).
Proof. exact run_ns_edits_kept. Qed.
Print Assumptions C38_histories.

(** The live names and the outcome of every operation are those of a plain set. *)
Theorem C38_set : forall es x live, ns_ok x -> (forall k, live k = true <-> ns_live x k) ->
  let '(live', oks) := set_edits live (map fst es) in
  oks = ns_results x es /\ forall k, live' k = true <-> ns_live (run_ns_edits x es) k.
Proof. exact set_edits_refine. Qed.
Print Assumptions C38_set.

(** The view lists every namespace, deleted or not, with its newest snapshot. *)
Theorem C38_view : forall x v, namespaces_view x = Some v <->
  fst v = nsx_version x /\
  Forall2 (fun n w => exists s, ns_newest n s /\ w = mk_nsv (ns_name n) (nss_version s) (nss_tomb s) (nss_by s) (Z.quot (nss_at s) 1000000))
    (nsx_list x) (snd v).
Proof. exact namespaces_view_spec. Qed.
Print Assumptions C38_view.

Theorem C38_clone : forall x, namespaces_clone x = x.
Proof. exact namespaces_clone_same. Qed.
Print Assumptions C38_clone.

Example C38_nonvacuous :
  ns_ok ns_empty /\ (forall k : bytes, (fun _ : bytes => false) k = true <-> ns_live ns_empty k) /\
  ns_results ns_empty ns_session = [true; true; true; false; true; false] /\
  run_ns_edits ns_empty ns_session =
    mk_nsx 3 [mk_ns (B "a") [mk_nss 1 false 5 (B "user"); mk_nss 8 true 8 (B "user"); mk_nss 9 false 10 (B "user")];
              mk_ns (B "b") [mk_nss 1 false 6 (B "user")]].
Proof.
  split; [exact ns_empty_ok|]. split; [|split; reflexivity].
  intros k. split; [discriminate|]. intros (n & s & [] & _).
Qed.

(** ** C39: storage *)

(** What is read back is the namespaces with each version cut to 32 bits ... *)
Theorem C39_truncates : forall v x, new_namespaces v (Some (namespaces_proto x)) =
  Some (mk_nsx v (map (fun n => mk_ns (ns_name n)
    (map (fun s => mk_nss (to_int32 (nss_version s)) (nss_tomb s) (nss_at s) (nss_by s)) (ns_snapshots n))) (nsx_list x))).
Proof. exact namespaces_proto_trunc. Qed.
Print Assumptions C39_truncates.

(** ... so they are unchanged exactly when every version fits. *)
Theorem C39_round_trip : forall v x,
  new_namespaces v (Some (namespaces_proto x)) = Some (mk_nsx v (nsx_list x)) <-> versions_fit x.
Proof. exact namespaces_proto_iff. Qed.
Print Assumptions C39_round_trip.

Example C39_nonvacuous :
  versions_fit (run_ns_edits ns_empty ns_session) /\
  ~ versions_fit (mk_nsx 1 [mk_ns (B "a") [mk_nss (2 ^ 31) false 0 []]]).
Proof.
  split.
  - intros n s Hn Hs. cbn in Hn. repeat (destruct Hn as [<-|Hn]; [cbn in Hs; repeat (destruct Hs as [<-|Hs]; [split; [discriminate|reflexivity]|]); destruct Hs|]). destruct Hn.
  - intros H. destruct (H _ _ (or_introl eq_refl) (or_introl eq_refl)) as [_ H']. discriminate H'.
Qed.
