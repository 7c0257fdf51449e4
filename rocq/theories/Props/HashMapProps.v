(** C46: the generated byte-keyed hash maps. *)
From Coq Require Import Ascii String NArith Bool List.
From Verif Require Import Proof.HashMapProof.
From Verif Require Import Base.Bytes Model.HashMap Spec.HashMapSpec.
Import ListNotations.
Open Scope N_scope.

(** A hash function under which deleting one key makes another, never deleted,
    disappear from look-ups: two keys with the same hash. *)
Theorem C46_refuted : exists (hash : bytes -> N) (xs : list (hm_op nat)) m k v,
  hm_run hash [] xs = Some m /\ last_set xs k = Some v /\ hm_get hash m k = Some None.
Proof.
  exists (fun _ => 5), [HSet (B "a") 1%nat; HSet (B "b") 2%nat; HDelete (B "a")].
  eexists. exists (B "b"), 2%nat. vm_compute. repeat split; reflexivity.
Qed.
Print Assumptions C46_refuted.

(** Whatever the hash function, while no deletion frees a slot that another key
    was stored beyond, no operation runs forever and the map holds for each key
    the value last set and not deleted. *)
Theorem C46_harmless_partial : forall V (hash : bytes -> N) (xs : list (hm_op V)),
  N.of_nat (length xs) < hash_range -> deletes_harmlessly hash xs ->
  exists m, hm_run hash [] xs = Some m /\ is_map hash m (last_set xs).
Proof. exact @harmless_history. Qed.
Print Assumptions C46_harmless_partial.

(** In particular when no two keys used have the same hash, ... *)
Theorem C46_no_collision : forall V (hash : bytes -> N) (xs : list (hm_op V)),
  N.of_nat (length xs) < hash_range -> no_collision hash (keys_used xs) ->
  exists m, hm_run hash [] xs = Some m /\ is_map hash m (last_set xs).
Proof. intros. apply harmless_history; [assumption|]. apply no_collision_harmless. assumption. Qed.
Print Assumptions C46_no_collision.

(** ... and when nothing is deleted. *)
Theorem C46_no_deletion : forall V (hash : bytes -> N) (xs : list (hm_op V)),
  N.of_nat (length xs) < hash_range -> never_deletes xs ->
  exists m, hm_run hash [] xs = Some m /\ is_map hash m (last_set xs).
Proof. intros. apply harmless_history; [assumption|]. apply never_deletes_harmless. assumption. Qed.
Print Assumptions C46_no_deletion.

(** The condition is the exact one: a deletion leaves every other key as it was
    if and only if it frees no slot that another key was stored beyond. *)
Theorem C46_exact : forall V (hash : bytes -> N) (xs : list (hm_op V)) m k m',
  N.of_nat (length xs) < hash_range -> deletes_harmlessly hash xs ->
  hm_run hash [] xs = Some m -> hm_delete hash m k = Some m' ->
  harmless hash m k <-> forall k', k' <> k -> hm_get hash m' k' = hm_get hash m k'.
Proof. exact @delete_exact. Qed.
Print Assumptions C46_exact.

(** five keys, two of them sharing a hash that wraps around, one deletion *)
Definition c46_hash (k : bytes) : N :=
  match k with
  | [] => 0
  | c :: _ => if Ascii.eqb c "a" || Ascii.eqb c "b" then hash_range - 1 else N_of_ascii c
  end.
Definition c46_ops : list (hm_op nat) :=
  [ HSet (B "a") 1%nat; HSet (B "b") 2%nat; HSet (B "c") 3%nat; HSet (B "d") 4%nat;
    HDelete (B "c"); HSet (B "a") 5%nat; HSet [] 6%nat ].

Example C46_nonvacuous :
  N.of_nat (length c46_ops) < hash_range /\
  match hm_run c46_hash [] c46_ops with
  | Some m =>
      map (hm_get c46_hash m) [B "a"; B "b"; B "c"; B "d"; []] =
        [Some (Some 5%nat); Some (Some 2%nat); Some None; Some (Some 4%nat); Some (Some 6%nat)] /\
      map fst m = [1; 18446744073709551615; 100; 0]
  | None => False
  end.
Proof. vm_compute. repeat split; reflexivity. Qed.

(** the only deletion of this history is harmless *)
Example C46_nonvacuous_harmless : deletes_harmlessly c46_hash
  [ HSet (B "a") 1%nat; HSet (B "b") 2%nat; HDelete (B "b") ].
Proof.
  intros ys k zs m E R.
  destruct ys as [|y1 [|y2 [|y3 [|y4 ys]]]]; try (cbn in E; discriminate).
  injection E as <- <- <- <-. vm_compute in R. injection R as <-.
  intros s v s' k' v' H H' N (d & i & L1 & L2 & E1 & E2).
  destruct H as [H|[H|[]]]; [|discriminate].
  destruct H' as [H'|[H'|[]]].
  - exfalso. apply N. congruence.
  - injection H' as <- <- <-. injection H as <- <-.
    assert (X : 18446744073709551615 = (c46_hash (B "a") + 0) mod hash_range) by (vm_compute; reflexivity).
    rewrite X in E1. apply mod_inj in E1; [|reflexivity|exact L2]. rewrite <- E1 in L1.
    destruct i; discriminate L1.
Qed.
