(** Model of the comparisons and sorts of package [rules/view] and [rules/view/changes].  Definitions only. *)
From Coq Require Import Ascii String NArith ZArith Bool List.
From Verif.Base Require Import Bytes.
From Verif.Model Require Import AggType Policy Pipeline Rules RuleSet Json.
Import ListNotations.
Open Scope Z_scope.

(** Comparing pointers: both nil, one nil, or the values
    (rules/view/ruleset.go, rules/view/mapping.go, rules/view/rollup.go: [Equal]) *)
Definition ptr_equal {A} (eq : A -> A -> bool) (a b : option A) : bool :=
  match a, b with
  | None, None => true
  | Some x, Some y => eq x y
  | _, _ => false
  end.

(** rules/view/mapping.go 43-57 [MappingRule.Equal]; [sps] is [StoragePolicies.Equal] (Model.Policy) with some sort *)
Definition mapping_view_equal (sort : list storage_policy -> list storage_policy) : option (rule_view mapping_body) -> option (rule_view mapping_body) -> bool :=
  ptr_equal (fun a b =>
    beqb (rv_id a) (rv_id b) && beqb (rv_name a) (rv_name b) && beqb (rv_filter a) (rv_filter b) &&
    (mb_agg (rv_body a) =? mb_agg (rv_body b))%N && sps_equal_with sort (mb_sps (rv_body a)) (mb_sps (rv_body b)) &&
    (mb_drop (rv_body a) =? mb_drop (rv_body b))).

(** rules/view/rollup.go 35-43 [RollupTarget.Equal] *)
Definition view_target_equal (sort : list storage_policy -> list storage_policy) (a b : target) : bool :=
  pipeline_equal (tg_pipeline a) (tg_pipeline b) && sps_equal_with sort (tg_sps a) (tg_sps b).
(** rules/view/rollup.go 77-87 [rollupTargets.Equal] *)
Definition view_targets_equal sort (a b : list target) : bool :=
  if negb (Nat.eqb (length a) (length b)) then false else list_eqb (view_target_equal sort) a b.
(** rules/view/rollup.go 58-69 [RollupRule.Equal] *)
Definition rollup_view_equal (sort : list storage_policy -> list storage_policy) : option (rule_view (list target)) -> option (rule_view (list target)) -> bool :=
  ptr_equal (fun a b =>
    beqb (rv_id a) (rv_id b) && beqb (rv_name a) (rv_name b) && beqb (rv_filter a) (rv_filter b) &&
    view_targets_equal sort (rv_body a) (rv_body b)).

(** rules/view/mapping.go 67 and rules/view/rollup.go 94 [Less]; rules/view/ruleset.go 37-40 [Sort] *)
Definition by_name {P} (a b : rule_view P) : bool := bltb (rv_name a) (rv_name b).
(** rules/view/ruleset.go:37-40 [RuleSet.Sort] *)
Definition sort_view (sort_m : list (rule_view mapping_body) -> list (rule_view mapping_body))
    (sort_r : list (rule_view (list target)) -> list (rule_view (list target))) (v : rule_set_view) : rule_set_view :=
  mk_rsv (rsv_namespace v) (rsv_version v) (rsv_cutover_ms v) (sort_m (rsv_mapping v)) (sort_r (rsv_rollup v)).

(** rules/view/changes/mapping.go 36-53 and rules/view/changes/rollup.go 36-53 [Less] *)
Definition change_less {P} (a b : view_change P) : bool :=
  if bltb (vc_op a) (vc_op b) then true
  else if bltb (vc_op b) (vc_op a) then false
  else match vc_data a, vc_data b with
       | Some x, Some y => bltb (rv_name x) (rv_name y)
       | _, _ => match vc_id a, vc_id b with
                 | Some i, Some j => bltb i j
                 | _, _ => false
                 end
       end.
(** rules/view/changes/ruleset.go 35-38 [Sort] *)
Definition sort_changes (sort_m : list (view_change mapping_body) -> list (view_change mapping_body))
    (sort_r : list (view_change (list target)) -> list (view_change (list target))) (c : set_changes) : set_changes :=
  mk_sc (sc_namespace c) (sort_m (sc_mapping c)) (sort_r (sc_rollup c)).
