(** What the rules validator is documented to accept (rules/validator/validator.go 93-94, 276-284 and the
    comments of rules/validator/options.go), independent of its functions. *)
From Coq Require Import Ascii String NArith ZArith Bool Permutation Sorting.Sorted List.
From Verif.Base Require Import Bytes.
From Verif.Model Require Import AggType Policy Transformation Pipeline Metadata Filter Rules RuleSet Validator.
From Verif.Spec Require Import AggSpec PolicySpec MetadataSpec TextSpec.
Import ListNotations.
Open Scope Z_scope.

(** The settings that apply to a metric type: its own, or the default ones. *)
Definition settings (o : validator_opts) (t : metric_type) (m : validation_metadata) : Prop :=
  (exists a b, vo_by_type o = a ++ (t, m) :: b /\ ~ In t (map fst a)) \/
  (~ In t (map fst (vo_by_type o)) /\ m = vo_default o).

(** Names without forbidden characters. *)
Definition legal (bad : list N) (s : bytes) : Prop := exists cs, shows s cs /\ forall c, In c cs -> ~ In c bad.

(** [m] are the conditions of the filter text [f], and all their patterns are well-formed. *)
Definition filter_conditions (f : bytes) (m : tag_filters) : Prop :=
  parse_tag_filter_value_map f = Some m /\ forall n v, In (n, v) m -> exists g, new_filter_from_value v = Some g.

(** The metric types a rule with the filter text [f] applies to. *)
Definition applies_to (o : validator_opts) (f : bytes) (types : list metric_type) : Prop :=
  exists m, filter_conditions f m /\ (forall n v, In (n, v) m -> legal (vo_tag_chars o) n) /\
    vo_types_fn o m = Some types /\ types <> [].

Definition level_types (first : bool) (m : validation_metadata) : list agg_type :=
  if first then vm_first m else vm_nonfirst m.
Definition type_permitted (o : validator_opts) (first : bool) (types : list metric_type) (a : agg_type) : Prop :=
  forall t, In t types -> exists m, settings o t m /\ In a (level_types first m).

(** An aggregation ID is a word whose bits are its aggregation types; 0 stands for the default types. *)
Definition agg_permitted (o : validator_opts) (first : bool) (types : list metric_type) (id : N) : Prop :=
  id = 0%N \/
  (valid_agg_id id /\
   ((forall j k, N.testbit id j = true -> N.testbit id k = true -> j = k) \/ (forall t, In t types -> In t (vo_multi o))) /\
   forall k, N.testbit id k = true -> type_permitted o first types (Z.of_N k)).

Definition policies_permitted (o : validator_opts) (types : list metric_type) (sps : list storage_policy) : Prop :=
  sps <> [] /\ NoDup sps /\
  forall t p, In t types -> In p sps -> exists m, settings o t m /\ In p (vm_sps m).

(** ** Pipelines *)
Definition is_rollup (x : op) : Prop := op_kind x = RollupOp.
Definition no_rollup (s : list op) : Prop := forall x, In x s -> ~ is_rollup x.
(** How often a derivative is taken; PerSecond is type 2. *)
Definition derivatives (s : list op) : nat :=
  length (List.filter (fun x => (op_kind x =? 2) && (op_tf x =? 2)) s).
Definition rollups (p : list op) : list rollup_op :=
  map op_rollup (List.filter (fun x => op_kind x =? 3) p).

Definition rollup_permitted (o : validator_opts) (first : bool) (types : list metric_type) (r : rollup_op) : Prop :=
  ro_name r <> [] /\ legal (vo_metric_chars o) (ro_name r) /\
  (forall t, In t (ro_tags r) -> legal (vo_tag_chars o) t) /\ NoDup (ro_tags r) /\
  incl (vo_required o) (ro_tags r) /\
  agg_permitted o first types (ro_agg r).

Record pipeline_ok (o : validator_opts) (types : list metric_type) (p : list op) : Prop := {
  (* every operation is an aggregation, and then the first one, or a transformation, or a rollup *)
  po_ops : forall i x, nth_error p i = Some x ->
    (op_kind x = AggregationOp /\ i = 0%nat /\ valid_type (op_agg x) /\ type_permitted o true types (op_agg x)) \/
    (op_kind x = TransformationOp /\ valid_tf (op_tf x)) \/
    (is_rollup x /\ rollup_permitted o (Nat.eqb i 0) types (op_rollup x));
  (* the derivative order between rollups is bounded *)
  po_order : forall a s b, p = a ++ s ++ b -> no_rollup s -> (0 < derivatives s)%nat ->
    Z.of_nat (derivatives s) <= vo_max_order o;
  (* at least one rollup and at most the supported number *)
  po_levels : rollups p <> [] /\ Z.of_nat (length (rollups p)) <= vo_max_levels o;
  (* each rollup keeps only some of the tags of the one before it *)
  po_nested : forall a x s y b, p = a ++ x :: s ++ y :: b -> is_rollup x -> no_rollup s -> is_rollup y ->
    incl (ro_tags (op_rollup y)) (ro_tags (op_rollup x)) /\ ~ incl (ro_tags (op_rollup x)) (ro_tags (op_rollup y)) }.

(** ** Rules *)
Definition mapping_ok (o : validator_opts) (r : rule_view mapping_body) : Prop :=
  exists types, applies_to o (rv_filter r) types /\
    ((mb_drop (rv_body r) = 0 /\ agg_permitted o true types (mb_agg (rv_body r)) /\
      policies_permitted o types (mb_sps (rv_body r))) \/
     ((mb_drop (rv_body r) = 1 \/ mb_drop (rv_body r) = 2) /\ mb_agg (rv_body r) = 0%N /\ mb_sps (rv_body r) = [])).

Definition rollup_ok (o : validator_opts) (r : rule_view (list target)) : Prop :=
  exists types, applies_to o (rv_filter r) types /\
    forall t, In t (rv_body r) -> pipeline_ok o types (tg_pipeline t) /\ policies_permitted o types (tg_sps t).

Definition live_views {P} (l : list (rule_view P)) : list (rule_view P) := List.filter (fun r => negb (rv_tomb r)) l.

(** All rollup operations of the rules of [l]. *)
Definition rollups_of (l : list (rule_view (list target))) : list rollup_op :=
  flat_map (fun r => flat_map (fun t => rollups (tg_pipeline t)) (rv_body r)) l.

(** Two rollups that produce the same metric. *)
Definition same_rollup (a b : rollup_op) : Prop := ro_name a = ro_name b /\ Permutation (ro_tags a) (ro_tags b).
Definition distinct_rollups (l : list rollup_op) : Prop :=
  forall i j a b, nth_error l i = Some a -> nth_error l j = Some b -> same_rollup a b -> i = j.

Record snapshot_ok (o : validator_opts) (v : rule_set_view) : Prop := {
  so_namespace : vo_namespace o (rsv_namespace v) = true;
  so_mapping_names : NoDup (map rv_name (live_views (rsv_mapping v)));
  so_mapping : forall r, In r (rsv_mapping v) -> rv_tomb r = false -> mapping_ok o r;
  so_rollup_names : NoDup (map rv_name (live_views (rsv_rollup v)));
  so_rollup : forall r, In r (rsv_rollup v) -> rv_tomb r = false -> rollup_ok o r;
  so_rollups : distinct_rollups (rollups_of (live_views (rsv_rollup v))) }.

(** Aggregation IDs are 64-bit words. *)
Definition snapshot_words (v : rule_set_view) : Prop :=
  (forall r, In r (rsv_mapping v) -> (mb_agg (rv_body r) < 2 ^ 64)%N) /\
  (forall r t x, In r (rsv_rollup v) -> In t (rv_body r) -> In x (tg_pipeline t) -> (ro_agg (op_rollup x) < 2 ^ 64)%N).

(** ** Configuration *)

(** [x] is what the last of the overrides for [t] that sets the field gives it, or else [d]. *)
Definition last_set {A} (field : policies_config -> option A) (t : metric_type)
    (ovs : list (metric_type * policies_config)) (d x : A) : Prop :=
  (exists a pc b, ovs = a ++ (t, pc) :: b /\ field pc = Some x /\ forall pc', In (t, pc') b -> field pc' = None) \/
  ((forall pc, In (t, pc) ovs -> field pc = None) /\ x = d).

(** Names of metric types in filters. *)
Definition type_name (t : metric_type) : bytes :=
  match t with
  | CounterMetric => B "counter" | TimerMetric => B "timer" | GaugeMetric => B "gauge" | UnknownMetric => B "unknown"
  end.

(** ** Rule sets *)

(** Aggregation IDs of the whole history are 64-bit words. *)
Definition rule_set_words (rs : rule_set) : Prop :=
  (forall r s, In r (rs_mapping rs) -> In s (ru_snapshots r) -> (mb_agg (sn_body s) < 2 ^ 64)%N) /\
  (forall r s t x, In r (rs_rollup rs) -> In s (ru_snapshots r) -> In t (sn_body s) -> In x (tg_pipeline t) ->
    (ro_agg (op_rollup x) < 2 ^ 64)%N).

(** Operations carry only the payload of their kind. *)
Definition rule_set_canonical (rs : rule_set) : Prop :=
  forall r s tg, In r (rs_rollup rs) -> In s (ru_snapshots r) -> In tg (sn_body s) -> Forall op_canonical (tg_pipeline tg).

(** The storage policies that the options allow have precisions that can be stored. *)
Definition allows_storable_policies (o : validator_opts) : Prop :=
  forall t m p, settings o t m -> In p (vm_sps m) -> sp_ok p.

(** Editing one rule at a time, each result passing [accepts]. *)
Inductive edited_under (accepts : rule_set -> Prop) : rule_set -> rule_set -> Prop :=
| eu_start rs : edited_under accepts rs rs
| eu_edit rs rs1 rs2 e m : edited_under accepts rs rs1 -> run_edit rs1 e m = (rs2, true) -> accepts rs2 -> edited_under accepts rs rs2.
