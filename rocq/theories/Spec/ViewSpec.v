(** Specification vocabulary for comparing and sorting views and changes. *)
From Coq Require Import Ascii String NArith ZArith Bool List Permutation Sorting.Sorted.
From Verif.Base Require Import Bytes.
From Verif.Model Require Import AggType Policy Pipeline Rules RuleSet Json.
From Verif.Spec Require Import PolicySpec MetadataSpec.
Import ListNotations.
Open Scope Z_scope.

(** ** What a rule is, whoever wrote it and whenever it takes effect *)
Definition same_mapping_rule (a b : rule_view mapping_body) : Prop :=
  rv_id a = rv_id b /\ rv_name a = rv_name b /\ rv_filter a = rv_filter b /\
  mb_agg (rv_body a) = mb_agg (rv_body b) /\ Permutation (mb_sps (rv_body a)) (mb_sps (rv_body b)) /\
  mb_drop (rv_body a) = mb_drop (rv_body b).
Definition same_target (a b : target) : Prop :=
  Forall2 op_same (tg_pipeline a) (tg_pipeline b) /\ Permutation (tg_sps a) (tg_sps b).
Definition same_rollup_rule (a b : rule_view (list target)) : Prop :=
  rv_id a = rv_id b /\ rv_name a = rv_name b /\ rv_filter a = rv_filter b /\ Forall2 same_target (rv_body a) (rv_body b).
Definition same_ptr {A} (R : A -> A -> Prop) (a b : option A) : Prop :=
  (a = None /\ b = None) \/ exists x y, a = Some x /\ b = Some y /\ R x y.

Definition equivalence_test {A} (eq : A -> A -> bool) : Prop :=
  (forall a, eq a a = true) /\ (forall a b, eq a b = true -> eq b a = true) /\
  (forall a b c, eq a b = true -> eq b c = true -> eq a c = true).

(** ** Sorting *)

(** The contract of [sort.Sort]: the elements are permuted, and come in order if the comparison orders them. *)
Definition orders {A} (less : A -> A -> bool) (l : list A) : Prop :=
  (forall a, In a l -> less a a = false) /\
  (forall a b c, In a l -> In b l -> In c l -> less a b = true -> less b c = true -> less a c = true) /\
  (forall a b c, In a l -> In b l -> In c l -> less b a = false -> less c b = false -> less c a = false).
Definition go_sort {A} (less : A -> A -> bool) (sort : list A -> list A) : Prop :=
  forall l, Permutation l (sort l) /\
    (orders less l -> StronglySorted (fun a b => less b a = false) (sort l)).

(** Additions and changes carry the rule, deletions its ID only. *)
Definition well_formed {P} (c : view_change P) : Prop :=
  (exists v, vc_data c = Some v /\ (vc_op c = B "add" \/ vc_op c = B "change")) \/
  (exists i, vc_data c = None /\ vc_id c = Some i /\ vc_op c = B "delete").

Definition named {P} (o : string) (c : view_change P) : Prop := vc_op c = B o /\ exists v, vc_data c = Some v.
Definition deletion {P} (c : view_change P) : Prop := vc_op c = B "delete" /\ exists i, vc_id c = Some i.
Definition name_of {P} (c : view_change P) : bytes := match vc_data c with Some v => rv_name v | None => [] end.
Definition id_of {P} (c : view_change P) : bytes := match vc_id c with Some i => i | None => [] end.
Definition ascending {A} (key : A -> bytes) : list A -> Prop := StronglySorted (fun a b => bleb (key a) (key b) = true).
