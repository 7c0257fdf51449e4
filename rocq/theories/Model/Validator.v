(** Model of rules/validator: rules/validator/validator.go, rules/validator/options.go, rules/validator/config.go and the namespace validators.
    Errors are not distinguished from each other.  Definitions only. *)
From Coq Require Import Ascii String NArith ZArith Bool List.
From Verif.Base Require Import Bytes Utf8.
From Verif.Model Require Import AggType Policy Transformation Pipeline Metadata Filter Rules RuleSet.
Import ListNotations.
Open Scope Z_scope.

Definition metric_type_eqb (a b : metric_type) : bool :=
  match a, b with
  | UnknownMetric, UnknownMetric | CounterMetric, CounterMetric | TimerMetric, TimerMetric | GaugeMetric, GaugeMetric => true
  | _, _ => false
  end.
(** metric/types.go 48-59 [String] *)
Definition metric_type_string (t : metric_type) : bytes :=
  match t with
  | CounterMetric => B "counter" | TimerMetric => B "timer" | GaugeMetric => B "gauge" | UnknownMetric => B "unknown"
  end.

(** filters/tags_filter.go:57 [TagFilterValueMap] *)
Notation tag_filters := (list (bytes * filter_value)).

(** rules/validator/options.go 137-141 [validationMetadata]; sets are lists *)
Record validation_metadata := mk_vm {
  vm_sps : list storage_policy; vm_first : list agg_type; vm_nonfirst : list agg_type }.

(** rules/validator/options.go 143-156 [options]; the invalid characters are code points. *)
Record validator_opts := mk_vo {
  vo_namespace : bytes -> bool; (* the namespace validator *)
  vo_default : validation_metadata;
  vo_types_fn : tag_filters -> option (list metric_type);
  vo_multi : list metric_type;
  vo_required : list bytes;
  vo_max_order : Z;
  vo_max_levels : Z;
  vo_metric_chars : list N;
  vo_tag_chars : list N;
  vo_by_type : list (metric_type * validation_metadata) }.

(** Looking up and assigning in the map by metric type  (rules/validator/options.go:284-321) *)
Definition vm_lookup (m : list (metric_type * validation_metadata)) (t : metric_type) : option validation_metadata :=
  option_map snd (List.find (fun e => metric_type_eqb (fst e) t) m).
(** Assigning in the map by metric type (rules/validator/options.go:284-321). *)
Definition vm_assign (m : list (metric_type * validation_metadata)) (t : metric_type) (v : validation_metadata) :=
  (t, v) :: List.filter (fun e => negb (metric_type_eqb (fst e) t)) m.

(** rules/validator/options.go 283-290 [IsAllowedStoragePolicyFor] *)
Definition allowed_sp (o : validator_opts) (t : metric_type) (p : storage_policy) : bool :=
  match vm_lookup (vo_by_type o) t with
  | Some m => existsb (sp_eqb p) (vm_sps m)
  | None => existsb (sp_eqb p) (vm_sps (vo_default o))
  end.
(** rules/validator/options.go 292-295 [IsMultiAggregationTypesEnabledFor] *)
Definition multi_enabled (o : validator_opts) (t : metric_type) : bool := existsb (metric_type_eqb t) (vo_multi o).
(** rules/validator/options.go 297-304 [IsAllowedFirstLevelAggregationTypeFor] *)
Definition allowed_first (o : validator_opts) (t : metric_type) (a : agg_type) : bool :=
  match vm_lookup (vo_by_type o) t with
  | Some m => existsb (Z.eqb a) (vm_first m)
  | None => existsb (Z.eqb a) (vm_first (vo_default o))
  end.
(** rules/validator/options.go 306-313 [IsAllowedNonFirstLevelAggregationTypeFor] *)
Definition allowed_nonfirst (o : validator_opts) (t : metric_type) (a : agg_type) : bool :=
  match vm_lookup (vo_by_type o) t with
  | Some m => existsb (Z.eqb a) (vm_nonfirst m)
  | None => existsb (Z.eqb a) (vm_nonfirst (vo_default o))
  end.
(** rules/validator/options.go 350-362 [validateChars] *)
Definition validate_chars (s : bytes) (bad : list N) : bool :=
  match bad with [] => true | _ => forallb (fun c => negb (existsb (N.eqb c) bad)) (runes s) end.

(** rules/validator/validator.go 199-211 [validateFilter] *)
Definition validate_filter (o : validator_opts) (f : bytes) : option tag_filters :=
  match validate_tags_filter f with
  | None => None
  | Some m => if forallb (fun e => validate_chars (fst e) (vo_tag_chars o)) m then Some m else None
  end.

(** rules/validator/validator.go 213-245 [validateAggregationID]; [first] selects the first-level types *)
Definition validate_aggregation_id (o : validator_opts) (id : agg_id) (first : bool) (types : list metric_type) : bool :=
  if id_is_default id then true
  else
    let '(ts, err) := decompress id in
    if err then false
    else if Nat.ltb 1 (length ts) && negb (forallb (multi_enabled o) types) then false
    else forallb (fun t => forallb (fun a => (if first then allowed_first o else allowed_nonfirst o) t a) ts) types.

(** rules/validator/validator.go 256-263: no policy twice *)
Fixpoint no_duplicate {A} (eqb : A -> A -> bool) (seen : list A) (l : list A) : bool :=
  match l with
  | [] => true
  | x :: l => if existsb (eqb x) seen then false else no_duplicate eqb (x :: seen) l
  end.

(** rules/validator/validator.go 247-274 [validateStoragePolicies] *)
Definition validate_storage_policies (o : validator_opts) (sps : list storage_policy) (types : list metric_type) : bool :=
  match sps with
  | [] => false
  | _ => no_duplicate sp_eqb [] sps && forallb (fun t => forallb (allowed_sp o t) sps) types
  end.

(** rules/validator/validator.go 347-356 [validateAggregationOp] *)
Definition validate_aggregation_op (o : validator_opts) (t : agg_type) (types : list metric_type) : bool :=
  let '(id, err) := compress_types [t] in
  if err then false else validate_aggregation_id o id true types.

(** rules/validator/validator.go 393-401 [validateRollupMetricName] *)
Definition validate_rollup_name (o : validator_opts) (n : bytes) : bool :=
  match n with [] => false | _ => validate_chars n (vo_metric_chars o) end.

(** rules/validator/validator.go 333-336: the keys of the map of the previous tags; no key twice *)
Fixpoint tag_set (tags : list bytes) : list bytes :=
  match tags with
  | [] => []
  | t :: l => if existsb (beqb t) l then tag_set l else t :: tag_set l
  end.

(** rules/validator/validator.go 403-452 [validateRollupTags]; [prev] is [None] for the first rollup *)
Definition validate_rollup_tags (o : validator_opts) (tags : list bytes) (prev : option (list bytes)) : bool :=
  forallb (fun t => validate_chars t (vo_tag_chars o)) tags &&
  no_duplicate beqb [] tags &&
  (match prev with
   | None => true
   | Some p => forallb (fun t => existsb (beqb t) p) tags && negb (Nat.eqb (length tags) (length p))
   end) &&
  forallb (fun r => existsb (beqb r) tags) (vo_required o).

(** rules/validator/validator.go 365-391 [validateRollupOp] *)
Definition validate_rollup_op (o : validator_opts) (r : rollup_op) (idx : nat) (types : list metric_type)
    (prev : option (list bytes)) : bool :=
  validate_rollup_name o (ro_name r) &&
  validate_rollup_tags o (ro_tags r) prev &&
  validate_aggregation_id o (ro_agg r) (negb (Nat.ltb 0 idx)) types.

(** rules/validator/validator.go 296-344: the loop of [validatePipeline] *)
Fixpoint pipeline_loop (o : validator_opts) (types : list metric_type) (i : nat) (aggs order rollups : Z)
    (prev : option (list bytes)) (p : list op) : bool :=
  match p with
  | [] => negb (rollups =? 0)
  | x :: p =>
      if op_kind x =? AggregationOp then
        if 1 <? aggs + 1 then false
        else if negb (Nat.eqb i 0) then false
        else if negb (validate_aggregation_op o (op_agg x) types) then false
        else pipeline_loop o types (S i) (aggs + 1) order rollups prev p
      else if op_kind x =? TransformationOp then
        let order' := if tf_is_binary (op_tf x) then order + 1 else order in
        if tf_is_binary (op_tf x) && (vo_max_order o <? order') then false
        else if negb (tf_is_valid (op_tf x)) then false
        else pipeline_loop o types (S i) aggs order' rollups prev p
      else if op_kind x =? RollupOp then
        if vo_max_levels o <? rollups + 1 then false
        else if negb (validate_rollup_op o (op_rollup x) i types prev) then false
        else pipeline_loop o types (S i) aggs 0 (rollups + 1) (Some (tag_set (ro_tags (op_rollup x)))) p
      else false
  end.

(** rules/validator/validator.go 285-345 [validatePipeline] *)
Definition validate_pipeline (o : validator_opts) (p : list op) (types : list metric_type) : bool :=
  match p with [] => false | _ => pipeline_loop o types 0 0 0 0 None p end.

(** rules/validator/validator.go 95-150 [validateMappingRules] *)
Definition validate_mapping_rule (o : validator_opts) (r : rule_view mapping_body) : bool :=
  match validate_filter o (rv_filter r) with
  | None => false
  | Some m =>
      match vo_types_fn o m with
      | None | Some [] => false
      | Some types =>
          let b := rv_body r in
          if negb (validate_aggregation_id o (mb_agg b) true types) then false
          else if negb (drop_is_valid (mb_drop b)) then false
          else if drop_is_default (mb_drop b) then validate_storage_policies o (mb_sps b) types
          else id_is_default (mb_agg b) && (match mb_sps b with [] => true | _ => false end)
      end
  end.
(** rules/validator/validator.go:95-150 [validateMappingRules]: the loop over the rules. *)
Fixpoint validate_mapping_rules (o : validator_opts) (seen : list bytes) (l : list (rule_view mapping_body)) : bool :=
  match l with
  | [] => true
  | r :: l =>
      if rv_tomb r then validate_mapping_rules o seen l
      else if existsb (beqb (rv_name r)) seen then false
      else if negb (validate_mapping_rule o r) then false
      else validate_mapping_rules o (rv_name r :: seen) l
  end.

(** rules/validator/validator.go 454-473 [validateNoDuplicateRollupIDIn] *)
Fixpoint no_duplicate_rollup (seen : list rollup_op) (ops : list op) : bool :=
  match ops with
  | [] => true
  | x :: ops =>
      if negb (op_kind x =? RollupOp) then no_duplicate_rollup seen ops
      else if existsb (same_transform (op_rollup x)) seen then false
      else no_duplicate_rollup (seen ++ [op_rollup x]) ops
  end.
(** rules/validator/validator.go:454-473 [validateNoDuplicateRollupIDIn] *)
Definition validate_no_duplicate_rollup_id (pipelines : list (list op)) : bool :=
  no_duplicate_rollup [] (concat pipelines).

(** rules/validator/validator.go 152-197 [validateRollupRules] *)
Definition validate_target (o : validator_opts) (types : list metric_type) (t : target) : bool :=
  validate_pipeline o (tg_pipeline t) types && validate_storage_policies o (tg_sps t) types.
(** rules/validator/validator.go:152-197 [validateRollupRules]: one rule. *)
Definition validate_rollup_rule (o : validator_opts) (r : rule_view (list target)) : bool :=
  match validate_filter o (rv_filter r) with
  | None => false
  | Some m =>
      match vo_types_fn o m with
      | None | Some [] => false
      | Some types => forallb (validate_target o types) (rv_body r)
      end
  end.
(** rules/validator/validator.go:152-197 [validator.validateRollupRules] *)
Fixpoint validate_rollup_rules (o : validator_opts) (seen : list bytes) (pipelines : list (list op))
    (l : list (rule_view (list target))) : bool :=
  match l with
  | [] => validate_no_duplicate_rollup_id pipelines
  | r :: l =>
      if rv_tomb r then validate_rollup_rules o seen pipelines l
      else if existsb (beqb (rv_name r)) seen then false
      else if negb (validate_rollup_rule o r) then false
      else validate_rollup_rules o (rv_name r :: seen) (pipelines ++ map tg_pipeline (rv_body r)) l
  end.

(** rules/validator/validator.go 80-93 [validateSnapshot], [ValidateSnapshot] *)
Definition validate_snapshot (o : validator_opts) (v : rule_set_view) : bool :=
  vo_namespace o (rsv_namespace v) &&
  validate_mapping_rules o [] (rsv_mapping v) &&
  validate_rollup_rules o [] [] (rsv_rollup v).

(** rules/validator/validator.go 60-68 [Validate] *)
Definition validate (o : validator_opts) (rs : rule_set) : bool := validate_snapshot o (latest rs).

(** ** Configuration *)

(** rules/validator/config.go 177-182 [policiesConfiguration]: pointers are options *)
Record policies_config := mk_pcfg {
  pc_sps : option (list storage_policy); pc_first : option (list agg_type); pc_nonfirst : option (list agg_type) }.
(** rules/validator/config.go 42-52, 127-175; the namespace validator is given as a function *)
Record validator_config := mk_vcfg {
  vc_namespace : bytes -> bool;
  vc_required : list bytes;
  vc_max_order : option Z;
  vc_max_levels : option Z;
  vc_type_tag : bytes;
  vc_allowed_types : list metric_type;
  vc_multi : option (list metric_type);
  vc_default : policies_config;
  vc_overrides : list (metric_type * policies_config);
  vc_tag_chars : bytes;
  vc_metric_chars : bytes }.

(** Looking up in the map of filters  (rules/validator/validator.go) *)
Definition filters_lookup (m : tag_filters) (k : bytes) : option filter_value :=
  option_map snd (List.find (fun e => beqb (fst e) k) m).

(** rules/validator/config.go 140-160 [NewMetricTypesFn] *)
Definition config_types_fn (tag : bytes) (allowed : list metric_type) (m : tag_filters) : option (list metric_type) :=
  match filters_lookup m tag with
  | None => Some allowed
  | Some v =>
      match new_filter_from_value v with
      | None => None
      | Some f => Some (List.filter (fun t => matches f (metric_type_string t)) allowed)
      end
  end.

(** rules/validator/options.go 159-167 [NewOptions] and the setters used in rules/validator/config.go 66-105 *)
Definition empty_vm : validation_metadata := mk_vm [] [] [].

(** rules/validator/options.go 315-324 [findOrCreateMetadata] *)
Definition find_or_create (m : list (metric_type * validation_metadata)) (default : validation_metadata) (t : metric_type)
  : validation_metadata :=
  match vm_lookup m t with Some v => v | None => default end.

(** rules/validator/config.go 87-97 and rules/validator/options.go 193-212: one override *)
Definition apply_override (default : validation_metadata) (m : list (metric_type * validation_metadata))
    (ov : metric_type * policies_config) : list (metric_type * validation_metadata) :=
  let '(t, pc) := ov in
  let m1 := match pc_sps pc with
            | None => m
            | Some l => let v := find_or_create m default t in vm_assign m t (mk_vm l (vm_first v) (vm_nonfirst v))
            end in
  let m2 := match pc_first pc with
            | None => m1
            | Some l => let v := find_or_create m1 default t in vm_assign m1 t (mk_vm (vm_sps v) l (vm_nonfirst v))
            end in
  match pc_nonfirst pc with
  | None => m2
  | Some l => let v := find_or_create m2 default t in vm_assign m2 t (mk_vm (vm_sps v) (vm_first v) l)
  end.

(** [if x != nil] in rules/validator/config.go:43-85. *)
Definition or_default {A} (x : option A) (d : A) : A := match x with Some y => y | None => d end.

(** rules/validator/config.go 66-105 [newValidatorOptions]; 184-190 [toRunes] *)
Definition new_validator_options (c : validator_config) : validator_opts :=
  let default := mk_vm (or_default (pc_sps (vc_default c)) []) (or_default (pc_first (vc_default c)) [])
                   (or_default (pc_nonfirst (vc_default c)) []) in
  mk_vo (vc_namespace c) default (config_types_fn (vc_type_tag c) (vc_allowed_types c))
    (or_default (vc_multi c) [TimerMetric]) (vc_required c) (or_default (vc_max_order c) 1) (or_default (vc_max_levels c) 1)
    (runes (vc_metric_chars c)) (runes (vc_tag_chars c)) (fold_left (apply_override default) (vc_overrides c) []).

(** rules/validator/namespace/static/validator.go 73-80 [Validate]: [true] for the result "valid" *)
Definition static_namespace (valid : bool) (ns : bytes) : bool := valid.
(** rules/validator/namespace/kv/validator.go 72-83 [Validate] *)
Definition kv_namespace (closed : bool) (valid : list bytes) (ns : bytes) : bool :=
  if closed then false else existsb (beqb ns) valid.
