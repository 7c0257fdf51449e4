(** Specification vocabulary for namespaces. *)
From Coq Require Import Ascii String ZArith Bool List.
From Verif.Base Require Import Bytes.
From Verif.Model Require Import RuleSet Namespace.
Import ListNotations.
Open Scope Z_scope.

(** [s] is the newest snapshot of [n]. *)
Definition ns_newest (n : namespace) (s : ns_snapshot) : Prop := exists h, ns_snapshots n = h ++ [s].
(** The namespace exists and is not deleted. *)
Definition ns_live (x : namespaces) (name : bytes) : Prop :=
  exists n s, In n (nsx_list x) /\ ns_name n = name /\ ns_newest n s /\ nss_tomb s = false.
Definition ns_known (x : namespaces) (name : bytes) : Prop := exists n, In n (nsx_list x) /\ ns_name n = name.

(** Well-formed: each name once; each history starts live, is never empty, and alternates. *)
Inductive alternates : bool -> list ns_snapshot -> Prop :=
| alt_nil b : alternates b []
| alt_cons b s l : nss_tomb s = b -> alternates (negb b) l -> alternates b (s :: l).
Definition ns_ok (x : namespaces) : Prop :=
  NoDup (map ns_name (nsx_list x)) /\
  forall n, In n (nsx_list x) -> ns_snapshots n <> [] /\ alternates false (ns_snapshots n).

(** Exactly one namespace, in its place, gets one more snapshot. *)
Definition ns_appended (x x' : namespaces) (name : bytes) (last s : ns_snapshot) : Prop :=
  nsx_version x' = nsx_version x /\
  exists a n b, nsx_list x = a ++ n :: b /\ ns_name n = name /\ ns_newest n last /\
    (forall n', In n' (a ++ b) -> ns_name n' <> name) /\
    nsx_list x' = a ++ mk_ns name (ns_snapshots n ++ [s]) :: b.
Definition ns_created (x x' : namespaces) (name : bytes) (s : ns_snapshot) : Prop :=
  nsx_version x' = nsx_version x /\ ~ ns_known x name /\ nsx_list x' = nsx_list x ++ [mk_ns name [s]].

(** Every history in [x] is a prefix of the one at the same place in [x']. *)
Definition ns_histories_kept (x x' : namespaces) : Prop :=
  exists kept new, nsx_list x' = kept ++ new /\
    Forall2 (fun n n' => ns_name n' = ns_name n /\ exists t, ns_snapshots n' = ns_snapshots n ++ t) (nsx_list x) kept.

(** Running edits. *)
Definition run_ns_edits (x : namespaces) (es : list (ns_edit * update_meta)) : namespaces :=
  fold_left (fun x em => fst (run_ns_edit x (fst em) (snd em))) es x.
Fixpoint ns_results (x : namespaces) (es : list (ns_edit * update_meta)) : list bool :=
  match es with
  | [] => []
  | (e, m) :: es => let '(x', ok) := run_ns_edit x e m in ok :: ns_results x' es
  end.

(** A plain set of names: adding succeeds if the name is absent, deleting if it is present. *)
Definition set_edit (live : bytes -> bool) (e : ns_edit) : (bytes -> bool) * bool :=
  match e with
  | NsAdd name => (fun k => if beqb k name then true else live k, negb (live name))
  | NsDelete name _ => (fun k => if beqb k name then false else live k, live name)
  end.
Fixpoint set_edits (live : bytes -> bool) (es : list ns_edit) : (bytes -> bool) * list bool :=
  match es with
  | [] => (live, [])
  | e :: es => let '(live1, ok) := set_edit live e in let '(live2, oks) := set_edits live1 es in (live2, ok :: oks)
  end.

(** Versions that fit the 32-bit protobuf field. *)
Definition versions_fit (x : namespaces) : Prop :=
  forall n s, In n (nsx_list x) -> In s (ns_snapshots n) -> - 2 ^ 31 <= nss_version s < 2 ^ 31.
