(** Model of the conversion of rule sets to and from protobuf: package [rules], files rules/mapping.go,
    rules/rollup.go, rules/rollup_target.go, rules/convert.go, rules/ruleset.go.  Definitions only. *)
From Coq Require Import Ascii String NArith ZArith Bool List.
From Verif.Base Require Import Bytes.
From Verif.Model Require Import AggType Policy Transformation Pipeline Metadata Filter MetricID Rules.
Import ListNotations.
Open Scope Z_scope.

(** generated/proto/rulepb/rule.proto [MappingRuleSnapshot]; repeated message fields are slices of
    pointers, hence lists of options. *)
Record mapping_snapshot_pb := mk_msp {
  msp_name : bytes; msp_tomb : bool; msp_cutover : Z; msp_filter : bytes;
  msp_policies : list (option policy_pb); msp_at : Z; msp_by : bytes;
  msp_types : list Z; msp_sps : list (option sp_pb); msp_drop : Z }.
(** [RollupTarget] (version 1) and [RollupTargetV2]
    generated/proto/rulepb/rule.pb.go:154-158 [RollupTarget] *)
Record target_v1_pb := mk_t1p { t1p_name : bytes; t1p_tags : list bytes; t1p_policies : list (option policy_pb) }.
(** generated/proto/rulepb/rule.pb.go:187-190 [RollupTargetV2] *)
Record target_v2_pb := mk_t2p { t2p_pipeline : option (list op_pb); t2p_sps : list (option sp_pb) }.
(** [RollupRuleSnapshot]  generated/proto/rulepb/rule.pb.go:211-222 *)
Record rollup_snapshot_pb := mk_rsp {
  rsp_name : bytes; rsp_tomb : bool; rsp_cutover : Z; rsp_filter : bytes;
  rsp_targets : list (option target_v1_pb); rsp_at : Z; rsp_by : bytes;
  rsp_targets_v2 : list (option target_v2_pb) }.
(** [MappingRule] and [RollupRule]  generated/proto/rulepb/rule.pb.go:129-132, 285-288 *)
Record rule_pb (S : Type) := mk_rp { rp_uuid : bytes; rp_snapshots : list (option S) }.
Arguments mk_rp {S} _ _.
Arguments rp_uuid {S} _.
Arguments rp_snapshots {S} _.
(** [RuleSet]  generated/proto/rulepb/rule.pb.go:309-319 *)
Record rule_set_pb := mk_rsetp {
  rsetp_uuid : bytes; rsetp_namespace : bytes; rsetp_created : Z; rsetp_updated : Z; rsetp_tomb : bool;
  rsetp_cutover : Z; rsetp_mapping : list (option (rule_pb mapping_snapshot_pb));
  rsetp_rollup : list (option (rule_pb rollup_snapshot_pb)); rsetp_by : bytes }.

(** Go [==] on [StoragePolicy] as a map key, rules/convert.go:47. *)
Definition sp_eq_dec (a b : storage_policy) : {a = b} + {a <> b}.
Proof. repeat decide equality. Defined.

(** rules/convert.go 41-76: the loop of [toAggregationIDAndStoragePolicies]; [agg] is the aggregation ID
    found so far, [None] the first time.  The map of storage policies is the list of what was put in it. *)
Fixpoint legacy_loop (ps : list (option policy_pb)) (agg : option agg_id) (sps : list storage_policy)
  : option (option agg_id * list storage_policy) :=
  match ps with
  | [] => Some (agg, sps)
  | None :: _ => None
  | Some p :: ps' =>
      match new_sp_from_proto (pp_storage p) with
      | None => None
      | Some sp =>
          let '(id, err) := id_from_proto_types (pp_types p) in
          if err then None
          else match agg with
               | None => legacy_loop ps' (Some id) (sps ++ [sp])
               | Some a => if N.eqb a id then legacy_loop ps' agg (sps ++ [sp]) else None
               end
      end
  end.

(** rules/convert.go 41-76 [toAggregationIDAndStoragePolicies] *)
Definition to_aggregation_id_and_storage_policies (ps : list (option policy_pb))
  : option (agg_id * list storage_policy) :=
  match legacy_loop ps None [] with
  | None => None
  | Some (agg, sps) =>
      Some (match agg with None => default_id | Some a => a end, sp_sort (nodup sp_eq_dec sps))
  end.

(** Conversion int32 to uint, Go: policy.DropPolicy(r.DropPolicy)  (rules/mapping.go:99,130) *)
Definition drop_of_code (z : Z) : drop_policy := z mod 2 ^ 64.

(** The end of both snapshot readers (rules/mapping.go 111-118, rules/rollup.go 88-95): parse and compile the filter *)
Definition compile_filter (opts : tags_filter_options) (raw : bytes) : option tags_filter :=
  match parse_tag_filter_value_map raw with
  | None => None
  | Some m => new_tags_filter m Conjunction opts
  end.

(** rules/mapping.go 82-100 *)
Definition mapping_policies_from_proto (r : mapping_snapshot_pb) : option (agg_id * list storage_policy) :=
  match msp_policies r with
  | _ :: _ => to_aggregation_id_and_storage_policies (msp_policies r)
  | [] =>
      match msp_sps r with
      | [] => Some (default_id, [])
      | _ :: _ =>
          let '(id, err) := id_from_proto_types (msp_types r) in
          if err then None
          else match new_sps_from_proto (msp_sps r) with
               | None => None
               | Some sps => Some (id, sps)
               end
      end
  end.

(** [len(x) == 0], as at rules/mapping.go:82-100. *)
Definition is_nil {A} (l : list A) : bool := match l with [] => true | _ => false end.

(** rules/mapping.go 67-134 [newMappingRuleSnapshotFromProto] *)
Definition mapping_snapshot_from_proto (opts : tags_filter_options) (r : option mapping_snapshot_pb)
  : option (snapshot mapping_body) :=
  match r with
  | None => None
  | Some r =>
      match mapping_policies_from_proto r with
      | None => None
      | Some (agg, sps) =>
          let drop := if msp_drop r =? 0 then DropNone else drop_of_code (msp_drop r) in
          if negb (msp_drop r =? 0) && negb (drop_is_valid drop) then None
          else if negb (msp_tomb r) && is_nil sps && (drop =? DropNone) then None
          else if negb (is_nil sps) && negb (drop =? DropNone) then None
          else match compile_filter opts (msp_filter r) with
               | None => None
               | Some f =>
                   Some (mk_snap (msp_name r) (msp_tomb r) (msp_cutover r) (Some f) (msp_filter r)
                           (mk_mb agg sps (drop_of_code (msp_drop r))) (msp_at r) (msp_by r))
               end
      end
  end.

(** rules/mapping.go 212-238 [proto] *)
Definition mapping_snapshot_proto (s : snapshot mapping_body) : option mapping_snapshot_pb :=
  let '(ts, err) := decompress (mb_agg (sn_body s)) in
  if err then None
  else match types_proto ts, sps_proto (mb_sps (sn_body s)) with
       | Some zs, Some sps =>
           Some (mk_msp (sn_name s) (sn_tomb s) (sn_cutover s) (sn_raw s) [] (sn_at s) (sn_by s) zs
                   (map Some sps) (to_int32 (mb_drop (sn_body s))))
       | _, _ => None
       end.

(** rules/rollup_target.go 51-75 [newRollupTargetFromV1Proto] *)
Definition target_from_v1 (t : option target_v1_pb) : option target :=
  match t with
  | None => None
  | Some t =>
      match to_aggregation_id_and_storage_policies (t1p_policies t) with
      | None => None
      | Some (agg, sps) =>
          Some (mk_target
                  [{| op_kind := RollupOp; op_agg := UnknownType; op_tf := TfUnknown;
                      op_rollup := {| ro_name := t1p_name t; ro_tags := sort_strings (t1p_tags t); ro_agg := agg |} |}]
                  sps)
      end
  end.

(** rules/rollup_target.go 78-94 [newRollupTargetFromV2Proto] *)
Definition target_from_v2 (t : option target_v2_pb) : option target :=
  match t with
  | None => None
  | Some t =>
      match new_pipeline_from_proto (t2p_pipeline t) with
      | None => None
      | Some p =>
          match new_sps_from_proto (t2p_sps t) with
          | None => None
          | Some sps => Some (mk_target p sps)
          end
      end
  end.

(** rules/rollup_target.go 119-132 [proto] *)
Definition target_proto (t : target) : option target_v2_pb :=
  match pipeline_proto (tg_pipeline t), sps_proto (tg_sps t) with
  | Some p, Some sps => Some (mk_t2p (Some p) (map Some sps))
  | _, _ => None
  end.

(** rules/rollup.go 62-86 *)
Definition targets_from_proto (r : rollup_snapshot_pb) : option (list target) :=
  match rsp_targets r with
  | _ :: _ => map_opt target_from_v1 (rsp_targets r)
  | [] =>
      match rsp_targets_v2 r with
      | _ :: _ => map_opt target_from_v2 (rsp_targets_v2 r)
      | [] => if negb (rsp_tomb r) then None else Some []
      end
  end.

(** rules/rollup.go 55-106 [newRollupRuleSnapshotFromProto] *)
Definition rollup_snapshot_from_proto (opts : tags_filter_options) (r : option rollup_snapshot_pb)
  : option (snapshot (list target)) :=
  match r with
  | None => None
  | Some r =>
      match targets_from_proto r with
      | None => None
      | Some ts =>
          match compile_filter opts (rsp_filter r) with
          | None => None
          | Some f =>
              Some (mk_snap (rsp_name r) (rsp_tomb r) (rsp_cutover r) (Some f) (rsp_filter r) ts (rsp_at r) (rsp_by r))
          end
      end
  end.

(** rules/rollup.go 178-199 [proto] *)
Definition rollup_snapshot_proto (s : snapshot (list target)) : option rollup_snapshot_pb :=
  match map_opt target_proto (sn_body s) with
  | None => None
  | Some ts =>
      Some (mk_rsp (sn_name s) (sn_tomb s) (sn_cutover s) (sn_raw s) [] (sn_at s) (sn_by s) (map Some ts))
  end.

(** rules/mapping.go 249-268 [newMappingRuleFromProto], rules/rollup.go 211-230 [newRollupRuleFromProto] *)
Definition rule_from_proto {S P} (read : option S -> option (snapshot P)) (r : option (rule_pb S)) : option (rule P) :=
  match r with
  | None => None
  | Some r => option_map (mk_rule (rp_uuid r)) (map_opt read (rp_snapshots r))
  end.
(** rules/mapping.go 283-298 and rules/rollup.go 245-260 [proto] *)
Definition rule_proto {S P} (write : snapshot P -> option S) (r : rule P) : option (rule_pb S) :=
  option_map (fun l => mk_rp (ru_uuid r) (map Some l)) (map_opt write (ru_snapshots r)).

(** rules/options.go: the three options of a rule set. *)
Record rule_opts := mk_ro {
  ropt_tags : tags_filter_options; ropt_new_id : bytes -> list (bytes * bytes) -> bytes;
  ropt_is_rollup : bytes -> bytes -> bool }.

(** rules/ruleset.go 151-187 [NewRuleSetFromProto] *)
Definition rule_set_from_proto (version : Z) (rs : option rule_set_pb) (o : rule_opts) : option rule_set :=
  match rs with
  | None => None
  | Some rs =>
      match map_opt (rule_from_proto (mapping_snapshot_from_proto (ropt_tags o))) (rsetp_mapping rs) with
      | None => None
      | Some ms =>
          match map_opt (rule_from_proto (rollup_snapshot_from_proto (ropt_tags o))) (rsetp_rollup rs) with
          | None => None
          | Some rr =>
              Some (mk_rs (rsetp_uuid rs) version (rsetp_namespace rs) (rsetp_created rs) (rsetp_updated rs)
                      (rsetp_by rs) (rsetp_tomb rs) (rsetp_cutover rs) ms rr (ropt_tags o) (ropt_new_id o)
                      (ropt_is_rollup o))
          end
      end
  end.

(** rules/ruleset.go 233-265 [Proto] *)
Definition rule_set_proto (rs : rule_set) : option rule_set_pb :=
  match map_opt (rule_proto mapping_snapshot_proto) (rs_mapping rs) with
  | None => None
  | Some ms =>
      match map_opt (rule_proto rollup_snapshot_proto) (rs_rollup rs) with
      | None => None
      | Some rr =>
          Some (mk_rsetp (rs_uuid rs) (rs_namespace rs) (rs_created_at rs) (rs_updated_at rs) (rs_tomb rs)
                  (rs_cutover rs) (map Some ms) (map Some rr) (rs_updated_by rs))
      end
  end.
