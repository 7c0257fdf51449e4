(** Specification vocabulary for edits that take effect after a delay. *)
From Coq Require Import Ascii String NArith ZArith Bool List.
From Verif.Base Require Import Bytes.
From Verif.Model Require Import AggType Policy Transformation Pipeline Metadata Filter Rules RuleSet.
From Verif.Spec Require Import RulesSpec.
Import ListNotations.
Open Scope Z_scope.

(** At every time from [t + d] on, the rule says what the edit [e], asked for by [by_] at time [t], says. *)
Definition says_from {P} (t d : Z) (by_ : bytes) (e : rule_edit P) (r : rule P) : Prop :=
  forall T, t + d <= T ->
    in_effect (ru_snapshots r) T (mk_snap (re_name e) false (t + d) None (re_filter e) (re_body e) t by_).
(** From [t + d] on the rule is deleted. *)
Definition deleted_from {P} (t d : Z) (by_ : bytes) (r : rule P) : Prop :=
  exists s, sn_tomb s = true /\ sn_cutover s = t + d /\ sn_at s = t /\ sn_by s = by_ /\
    forall T, t + d <= T -> in_effect (ru_snapshots r) T s.
