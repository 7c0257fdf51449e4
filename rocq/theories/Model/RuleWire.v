(** Model of the bytes that rule sets and namespaces are stored as: the generated code of
    generated/proto/rulepb/rule.pb.go and generated/proto/rulepb/namespace.pb.go, with policypb.Policy (generated/proto/policypb/policy.pb.go) and
    pipelinepb.Pipeline (generated/proto/pipelinepb/pipeline.pb.go), on top of the field patterns of [ProtoWire].  The line
    numbers without a file are those of generated/proto/rulepb/rule.pb.go.  Strings are bytes: Go does not check UTF-8.
    Definitions only. *)
From Coq Require Import Ascii String NArith ZArith Bool List.
From Verif.Base Require Import Bytes.
From Verif.Model Require Import AggType Policy Transformation Pipeline Metadata Rules RuleSetProto Namespace ProtoWire
  Messages.
Import ListNotations.
Open Scope Z_scope.

(** * The remaining field patterns *)

(** 464-478, one element of a packed list of enums: the loop compares and shifts a signed int32, so a
    negative number is written as one byte. *)
Fixpoint put_enum (k : nat) (v : Z) : bytes :=
  match k with
  | O => []
  | S k => if v <? 128 then [zb (v mod 256)] else zb (v mod 128 + 128) :: put_enum k (v / 128)
  end.
(** generated/proto/pipelinepb/pipeline.pb.go [RollupOp.MarshalTo]: one element; five
    bytes suffice. *)
Definition enc_enum (v : Z) : bytes := put_enum 5 v.

(** 1296-1314, the loop over a packed list of enums: [n] is [postIndex - iNdEx]. *)
Fixpoint dec_enums (fuel : nat) (n : Z) (d : bytes) (acc : list Z) : res (list Z * bytes) :=
  if n <=? 0 then Ok (acc, d)
  else
    match fuel with
    | O => Panic
    | S fuel =>
        bind (dec_varint d) (fun '(v, rest) =>
        dec_enums fuel (n - (zlen d - zlen rest)) rest (acc ++ [to_int32 v]))
    end.

(** 463-479, 868-874, 1258-1317: a packed list of enums, also accepted unpacked; elements are appended
    to those already there. *)
Definition enums_field {M} (num : Z) (get : M -> list Z) (set : list Z -> M -> M) : field M :=
  mk_field num
    (fun m => match get m with
              | [] => 0
              | vs => let l := fold_right (fun v n => sov (u64 v) + n) 0 vs in 1 + sov l + l
              end)
    (fun m => match get m with
              | [] => []
              | vs => let b := concat (map enc_enum vs) in tag num 2 ++ enc_varint (zlen b) ++ b
              end)
    (fun l wt d m =>
       if wt =? 0 then bind (dec_varint d) (fun '(v, rest) => Ok (set (get m ++ [to_int32 v]) m, rest))
       else if wt =? 2 then
         bind (dec_varint d) (fun '(v, rest) =>
         let len := to_int64 v in
         if len <? 0 then Err
         else
           let post := to_int64 (l - zlen rest + len) in
           if l <? post then Err
           else bind (dec_enums (S (length rest)) (post - (l - zlen rest)) rest (get m))
                  (fun '(vs, rest) => Ok (set vs m, rest)))
       else Err).

(** 557-571, 909-914, 1556-1584: a list of strings *)
Definition strings_field {M} (num : Z) (get : M -> list bytes) (set : list bytes -> M -> M) : field M :=
  mk_field num
    (fun m => fold_right (fun s n => 1 + zlen s + sov (zlen s) + n) 0 (get m))
    (fun m => concat (map (fun s => tag num 2 ++ enc_varint (zlen s) ++ s) (get m)))
    (fun l wt d m =>
       if negb (wt =? 2) then Err
       else bind (dec_bytes l d) (fun '(s, rest) => Ok (set (get m ++ [s]) m, rest))).

(** 440-451, 853-858, 1158-1188: a list of pointers to messages; reading appends a new [zero] message and
    reads into it.  Writing a nil pointer panics, see [marshal_rule_set]. *)
Definition ptrs_field {M S} (num : Z) (fs : list (field S)) (zero : S)
  (get : M -> list (option S)) (set : list (option S) -> M -> M) : field M :=
  mk_field num
    (fun m => fold_right (fun s n => match s with None => 0 | Some s => size_msg fs s end + n) 0 (get m))
    (fun m => concat (map (fun s => match s with None => [] | Some s => enc_msg num fs s end) (get m)))
    (fun l wt d m =>
       bind (dec_msg fs l wt d zero) (fun '(s, rest) => Ok (set (get m ++ [Some s]) m, rest))).

(** * Messages *)

(** generated/proto/policypb/policy.pb.go:274-308, 353-369, 656-800 [Policy] *)
Definition zero_policy_pb : policy_pb := {| pp_storage := None; pp_types := [] |}.
(** generated/proto/policypb/policy.pb.go:274-307, 353-368, 656-800 [Policy.MarshalTo,
    Size, Unmarshal] *)
Definition policy_fields : list (field policy_pb) :=
  [ptr_field 1 sp_fields empty_sp_pb pp_storage (fun v m => {| pp_storage := v; pp_types := pp_types m |});
   enums_field 2 pp_types (fun v m => {| pp_storage := pp_storage m; pp_types := v |})].

(** generated/proto/pipelinepb/pipeline.pb.go:335-346, 624-632, 752-820 [AggregationOp] *)
Definition agg_op_fields : list (field Z) := [varint_field 1 to_int32 (fun v => v) (fun v _ => v)].

(** generated/proto/pipelinepb/pipeline.pb.go:381-425, 642-664, 890-1059 [RollupOp] *)
Definition zero_rollup_op_pb : rollup_op_pb := {| rop_name := []; rop_tags := []; rop_types := [] |}.
(** generated/proto/pipelinepb/pipeline.pb.go:381-425, 642-663, 890-1059
    [RollupOp.MarshalTo, Size, Unmarshal] *)
Definition rollup_op_fields : list (field rollup_op_pb) :=
  [bytes_field 1 rop_name (fun v m => {| rop_name := v; rop_tags := rop_tags m; rop_types := rop_types m |});
   strings_field 2 rop_tags (fun v m => {| rop_name := rop_name m; rop_tags := v; rop_types := rop_types m |});
   enums_field 3 rop_types (fun v m => {| rop_name := rop_name m; rop_tags := rop_tags m; rop_types := v |})].

(** generated/proto/pipelinepb/pipeline.pb.go:437-478, 665-685, 1060-1227 [PipelineOp] *)
Definition zero_op_pb : op_pb := {| opp_type := 0; opp_agg := None; opp_tf := None; opp_rollup := None |}.
(** generated/proto/pipelinepb/pipeline.pb.go:437-478, 665-684, 1060-1227
    [PipelineOp.MarshalTo, Size, Unmarshal] *)
Definition op_fields : list (field op_pb) :=
  [varint_field 1 to_int32 opp_type
     (fun v m => {| opp_type := v; opp_agg := opp_agg m; opp_tf := opp_tf m; opp_rollup := opp_rollup m |});
   ptr_field 2 agg_op_fields 0 opp_agg
     (fun v m => {| opp_type := opp_type m; opp_agg := v; opp_tf := opp_tf m; opp_rollup := opp_rollup m |});
   ptr_field 3 tf_fields 0 opp_tf
     (fun v m => {| opp_type := opp_type m; opp_agg := opp_agg m; opp_tf := v; opp_rollup := opp_rollup m |});
   ptr_field 4 rollup_op_fields zero_rollup_op_pb opp_rollup
     (fun v m => {| opp_type := opp_type m; opp_agg := opp_agg m; opp_tf := opp_tf m; opp_rollup := v |})].

(** generated/proto/pipelinepb/pipeline.pb.go:490-508, 686-697, 1228-1308 [Pipeline] *)
Definition pipeline_fields : list (field (list op_pb)) :=
  [msgs_field 1 op_fields zero_op_pb (fun v => v) (fun v _ => v)].

(** 408-498, 837-885, 1050-1387 [MappingRuleSnapshot] *)
Definition zero_mapping_snapshot_pb : mapping_snapshot_pb := mk_msp [] false 0 [] [] 0 [] [] [] 0.
(** generated/proto/rulepb/rule.pb.go:408-498, 837-884, 1050-1387
    [MappingRuleSnapshot.MarshalTo, Size, Unmarshal] *)
Definition mapping_snapshot_fields : list (field mapping_snapshot_pb) :=
  [bytes_field 1 msp_name (fun v m => mk_msp v (msp_tomb m) (msp_cutover m) (msp_filter m) (msp_policies m) (msp_at m)
     (msp_by m) (msp_types m) (msp_sps m) (msp_drop m));
   varint_field 2 conv_bool (fun m => b2z (msp_tomb m)) (fun v m => mk_msp (msp_name m) (z2b v) (msp_cutover m)
     (msp_filter m) (msp_policies m) (msp_at m) (msp_by m) (msp_types m) (msp_sps m) (msp_drop m));
   varint_field 3 to_int64 msp_cutover (fun v m => mk_msp (msp_name m) (msp_tomb m) v (msp_filter m) (msp_policies m)
     (msp_at m) (msp_by m) (msp_types m) (msp_sps m) (msp_drop m));
   bytes_field 4 msp_filter (fun v m => mk_msp (msp_name m) (msp_tomb m) (msp_cutover m) v (msp_policies m) (msp_at m)
     (msp_by m) (msp_types m) (msp_sps m) (msp_drop m));
   ptrs_field 5 policy_fields zero_policy_pb msp_policies (fun v m => mk_msp (msp_name m) (msp_tomb m) (msp_cutover m)
     (msp_filter m) v (msp_at m) (msp_by m) (msp_types m) (msp_sps m) (msp_drop m));
   varint_field 6 to_int64 msp_at (fun v m => mk_msp (msp_name m) (msp_tomb m) (msp_cutover m) (msp_filter m)
     (msp_policies m) v (msp_by m) (msp_types m) (msp_sps m) (msp_drop m));
   bytes_field 7 msp_by (fun v m => mk_msp (msp_name m) (msp_tomb m) (msp_cutover m) (msp_filter m) (msp_policies m)
     (msp_at m) v (msp_types m) (msp_sps m) (msp_drop m));
   enums_field 8 msp_types (fun v m => mk_msp (msp_name m) (msp_tomb m) (msp_cutover m) (msp_filter m) (msp_policies m)
     (msp_at m) (msp_by m) v (msp_sps m) (msp_drop m));
   ptrs_field 9 sp_fields empty_sp_pb msp_sps (fun v m => mk_msp (msp_name m) (msp_tomb m) (msp_cutover m) (msp_filter m)
     (msp_policies m) (msp_at m) (msp_by m) (msp_types m) v (msp_drop m));
   varint_field 10 to_int32 msp_drop (fun v m => mk_msp (msp_name m) (msp_tomb m) (msp_cutover m) (msp_filter m)
     (msp_policies m) (msp_at m) (msp_by m) (msp_types m) (msp_sps m) v)].

(** 510-534, 886-901, 1388-1497 [MappingRule]; 717-741, 979-994, 2008-2117 [RollupRule] *)
Definition zero_rule_pb {S} : rule_pb S := mk_rp [] [].
(** generated/proto/rulepb/rule.pb.go:510-534, 886-900, 1388-1497
    [MappingRule.MarshalTo, Size, Unmarshal];
    generated/proto/rulepb/rule.pb.go:717-741, 979-993, 2008-2117
    [RollupRule.MarshalTo, Size, Unmarshal] *)
Definition rule_fields {S} (fs : list (field S)) (zero : S) : list (field (rule_pb S)) :=
  [bytes_field 1 (@rp_uuid S) (fun v m => mk_rp v (rp_snapshots m));
   ptrs_field 2 fs zero (@rp_snapshots S) (fun v m => mk_rp (rp_uuid m) v)].

(** 546-585, 902-923, 1498-1636 [RollupTarget] *)
Definition zero_target_v1_pb : target_v1_pb := mk_t1p [] [] [].
(** generated/proto/rulepb/rule.pb.go:546-585, 902-922, 1498-1636
    [RollupTarget.MarshalTo, Size, Unmarshal] *)
Definition target_v1_fields : list (field target_v1_pb) :=
  [bytes_field 1 t1p_name (fun v m => mk_t1p v (t1p_tags m) (t1p_policies m));
   strings_field 2 t1p_tags (fun v m => mk_t1p (t1p_name m) v (t1p_policies m));
   ptrs_field 3 policy_fields zero_policy_pb t1p_policies (fun v m => mk_t1p (t1p_name m) (t1p_tags m) v)].

(** 597-625, 924-939, 1637-1750 [RollupTargetV2] *)
Definition zero_target_v2_pb : target_v2_pb := mk_t2p None [].
(** generated/proto/rulepb/rule.pb.go:597-625, 924-938, 1637-1750
    [RollupTargetV2.MarshalTo, Size, Unmarshal] *)
Definition target_v2_fields : list (field target_v2_pb) :=
  [ptr_field 1 pipeline_fields [] t2p_pipeline (fun v m => mk_t2p v (t2p_sps m));
   ptrs_field 2 sp_fields empty_sp_pb t2p_sps (fun v m => mk_t2p (t2p_pipeline m) v)].

(** 637-705, 940-978, 1751-2007 [RollupRuleSnapshot] *)
Definition zero_rollup_snapshot_pb : rollup_snapshot_pb := mk_rsp [] false 0 [] [] 0 [] [].
(** generated/proto/rulepb/rule.pb.go:637-705, 940-977, 1751-2007
    [RollupRuleSnapshot.MarshalTo, Size, Unmarshal] *)
Definition rollup_snapshot_fields : list (field rollup_snapshot_pb) :=
  [bytes_field 1 rsp_name (fun v m => mk_rsp v (rsp_tomb m) (rsp_cutover m) (rsp_filter m) (rsp_targets m) (rsp_at m)
     (rsp_by m) (rsp_targets_v2 m));
   varint_field 2 conv_bool (fun m => b2z (rsp_tomb m)) (fun v m => mk_rsp (rsp_name m) (z2b v) (rsp_cutover m)
     (rsp_filter m) (rsp_targets m) (rsp_at m) (rsp_by m) (rsp_targets_v2 m));
   varint_field 3 to_int64 rsp_cutover (fun v m => mk_rsp (rsp_name m) (rsp_tomb m) v (rsp_filter m) (rsp_targets m)
     (rsp_at m) (rsp_by m) (rsp_targets_v2 m));
   bytes_field 4 rsp_filter (fun v m => mk_rsp (rsp_name m) (rsp_tomb m) (rsp_cutover m) v (rsp_targets m) (rsp_at m)
     (rsp_by m) (rsp_targets_v2 m));
   ptrs_field 5 target_v1_fields zero_target_v1_pb rsp_targets (fun v m => mk_rsp (rsp_name m) (rsp_tomb m)
     (rsp_cutover m) (rsp_filter m) v (rsp_at m) (rsp_by m) (rsp_targets_v2 m));
   varint_field 6 to_int64 rsp_at (fun v m => mk_rsp (rsp_name m) (rsp_tomb m) (rsp_cutover m) (rsp_filter m)
     (rsp_targets m) v (rsp_by m) (rsp_targets_v2 m));
   bytes_field 7 rsp_by (fun v m => mk_rsp (rsp_name m) (rsp_tomb m) (rsp_cutover m) (rsp_filter m) (rsp_targets m)
     (rsp_at m) v (rsp_targets_v2 m));
   ptrs_field 8 target_v2_fields zero_target_v2_pb rsp_targets_v2 (fun v m => mk_rsp (rsp_name m) (rsp_tomb m)
     (rsp_cutover m) (rsp_filter m) (rsp_targets m) (rsp_at m) (rsp_by m) v)].

(** 753-827, 995-1036, 2118-2393 [RuleSet] *)
Definition zero_rule_set_pb : rule_set_pb := mk_rsetp [] [] 0 0 false 0 [] [] [].
(** generated/proto/rulepb/rule.pb.go:753-826, 995-1035, 2118-2393 [RuleSet.MarshalTo,
    Size, Unmarshal] *)
Definition rule_set_fields : list (field rule_set_pb) :=
  [bytes_field 1 rsetp_uuid (fun v m => mk_rsetp v (rsetp_namespace m) (rsetp_created m) (rsetp_updated m) (rsetp_tomb m)
     (rsetp_cutover m) (rsetp_mapping m) (rsetp_rollup m) (rsetp_by m));
   bytes_field 2 rsetp_namespace (fun v m => mk_rsetp (rsetp_uuid m) v (rsetp_created m) (rsetp_updated m) (rsetp_tomb m)
     (rsetp_cutover m) (rsetp_mapping m) (rsetp_rollup m) (rsetp_by m));
   varint_field 3 to_int64 rsetp_created (fun v m => mk_rsetp (rsetp_uuid m) (rsetp_namespace m) v (rsetp_updated m)
     (rsetp_tomb m) (rsetp_cutover m) (rsetp_mapping m) (rsetp_rollup m) (rsetp_by m));
   varint_field 4 to_int64 rsetp_updated (fun v m => mk_rsetp (rsetp_uuid m) (rsetp_namespace m) (rsetp_created m) v
     (rsetp_tomb m) (rsetp_cutover m) (rsetp_mapping m) (rsetp_rollup m) (rsetp_by m));
   varint_field 5 conv_bool (fun m => b2z (rsetp_tomb m)) (fun v m => mk_rsetp (rsetp_uuid m) (rsetp_namespace m)
     (rsetp_created m) (rsetp_updated m) (z2b v) (rsetp_cutover m) (rsetp_mapping m) (rsetp_rollup m) (rsetp_by m));
   varint_field 6 to_int64 rsetp_cutover (fun v m => mk_rsetp (rsetp_uuid m) (rsetp_namespace m) (rsetp_created m)
     (rsetp_updated m) (rsetp_tomb m) v (rsetp_mapping m) (rsetp_rollup m) (rsetp_by m));
   ptrs_field 7 (rule_fields mapping_snapshot_fields zero_mapping_snapshot_pb) zero_rule_pb rsetp_mapping
     (fun v m => mk_rsetp (rsetp_uuid m) (rsetp_namespace m) (rsetp_created m) (rsetp_updated m) (rsetp_tomb m)
     (rsetp_cutover m) v (rsetp_rollup m) (rsetp_by m));
   ptrs_field 8 (rule_fields rollup_snapshot_fields zero_rollup_snapshot_pb) zero_rule_pb rsetp_rollup
     (fun v m => mk_rsetp (rsetp_uuid m) (rsetp_namespace m) (rsetp_created m) (rsetp_updated m) (rsetp_tomb m)
     (rsetp_cutover m) (rsetp_mapping m) v (rsetp_by m));
   bytes_field 9 rsetp_by (fun v m => mk_rsetp (rsetp_uuid m) (rsetp_namespace m) (rsetp_created m) (rsetp_updated m)
     (rsetp_tomb m) (rsetp_cutover m) (rsetp_mapping m) (rsetp_rollup m) v)].

(** generated/proto/rulepb/namespace.pb.go:157-189, 266-284, 326-462 [NamespaceSnapshot]; 201-225, 285-300, 463-572 [Namespace];
    237-256, 301-312, 573-653 [Namespaces] *)
Definition zero_ns_snapshot_pb : ns_snapshot_pb := mk_nssp 0 false 0 [].
(** generated/proto/rulepb/namespace.pb.go:157-189, 266-283, 326-462
    [NamespaceSnapshot.MarshalTo, Size, Unmarshal] *)
Definition ns_snapshot_fields : list (field ns_snapshot_pb) :=
  [varint_field 1 to_int32 nssp_version (fun v m => mk_nssp v (nssp_tomb m) (nssp_at m) (nssp_by m));
   varint_field 2 conv_bool (fun m => b2z (nssp_tomb m))
     (fun v m => mk_nssp (nssp_version m) (z2b v) (nssp_at m) (nssp_by m));
   varint_field 3 to_int64 nssp_at (fun v m => mk_nssp (nssp_version m) (nssp_tomb m) v (nssp_by m));
   bytes_field 4 nssp_by (fun v m => mk_nssp (nssp_version m) (nssp_tomb m) (nssp_at m) v)].
(** The zero value of generated/proto/rulepb/namespace.pb.go:102-105 [Namespace] *)
Definition zero_namespace_pb : namespace_pb := mk_nsp [] [].
(** generated/proto/rulepb/namespace.pb.go:201-225, 285-299, 463-572
    [Namespace.MarshalTo, Size, Unmarshal] *)
Definition namespace_fields : list (field namespace_pb) :=
  [bytes_field 1 nsp_name (fun v m => mk_nsp v (nsp_snapshots m));
   ptrs_field 2 ns_snapshot_fields zero_ns_snapshot_pb nsp_snapshots (fun v m => mk_nsp (nsp_name m) v)].
(** generated/proto/rulepb/namespace.pb.go:237-255, 301-311, 573-653
    [Namespaces.MarshalTo, Size, Unmarshal] *)
Definition namespaces_fields : list (field namespaces_pb) :=
  [ptrs_field 1 namespace_fields zero_namespace_pb (fun v => v) (fun v _ => v)].

(** * Reading and writing whole values *)

(** A nil pointer in a list makes [Size], which [Marshal] calls first, dereference it.
    (generated/proto/rulepb/rule.pb.go, every [Size]) *)
Definition no_nil {A} (deep : A -> bool) (l : list (option A)) : bool :=
  forallb (fun x => match x with None => false | Some x => deep x end) l.
(** A message without pointers inside lists (generated/proto/policypb/policy.pb.go
    [Policy.Size]). *)
Definition leaf {A} (x : A) : bool := true.
(** generated/proto/rulepb/rule.pb.go:837-884 [MappingRuleSnapshot.Size]: the pointers
    it follows. *)
Definition mapping_snapshot_no_nil (m : mapping_snapshot_pb) : bool :=
  no_nil leaf (msp_policies m) && no_nil leaf (msp_sps m).
(** generated/proto/rulepb/rule.pb.go:940-977 [RollupRuleSnapshot.Size]: the pointers
    it follows. *)
Definition rollup_snapshot_no_nil (m : rollup_snapshot_pb) : bool :=
  no_nil (fun t => no_nil leaf (t1p_policies t)) (rsp_targets m) && no_nil (fun t => no_nil leaf (t2p_sps t)) (rsp_targets_v2 m).
(** generated/proto/rulepb/rule.pb.go:886-900 [MappingRule.Size] and
    generated/proto/rulepb/rule.pb.go:979-993 [RollupRule.Size]: the pointers they
    follow. *)
Definition rule_no_nil {S} (deep : S -> bool) (r : rule_pb S) : bool := no_nil deep (rp_snapshots r).
(** generated/proto/rulepb/rule.pb.go:995-1035 [RuleSet.Size]: the pointers it follows. *)
Definition rule_set_no_nil (m : rule_set_pb) : bool :=
  no_nil (rule_no_nil mapping_snapshot_no_nil) (rsetp_mapping m) && no_nil (rule_no_nil rollup_snapshot_no_nil) (rsetp_rollup m).
(** generated/proto/rulepb/namespace.pb.go:301-311 [Namespaces.Size]: the pointers it
    follows. *)
Definition namespaces_no_nil (m : namespaces_pb) : bool := no_nil (fun n => no_nil leaf (nsp_snapshots n)) m.

(** 742-751 [RuleSet.Marshal], generated/proto/rulepb/namespace.pb.go:226-235 [Namespaces.Marshal]: the array has [Size] bytes; writing
    beyond its end panics. *)
Definition marshal_checked {M} (fs : list (field M)) (no_nil : M -> bool) (m : M) : res bytes :=
  if negb (no_nil m) then Panic
  else if size fs m <? zlen (marshal fs m) then Panic
  else Ok (marshal fs m).
(** generated/proto/rulepb/rule.pb.go:743-751 [RuleSet.Marshal] *)
Definition marshal_rule_set : rule_set_pb -> res bytes := marshal_checked rule_set_fields rule_set_no_nil.
(** generated/proto/rulepb/namespace.pb.go:227-235 [Namespaces.Marshal] *)
Definition marshal_namespaces : namespaces_pb -> res bytes := marshal_checked namespaces_fields namespaces_no_nil.

(** proto.Unmarshal (gogo, external) resets the message and calls [Unmarshal].
    Called at rules/store/kv/store.go:67-85; generated/proto/rulepb/rule.pb.go:2118-2393 [RuleSet.Unmarshal]. *)
Definition unmarshal_rule_set (d : bytes) : res rule_set_pb := unmarshal rule_set_fields d zero_rule_set_pb.
(** Called at rules/store/kv/store.go:48-65;
    generated/proto/rulepb/namespace.pb.go:573-653 [Namespaces.Unmarshal]. *)
Definition unmarshal_namespaces (d : bytes) : res namespaces_pb := unmarshal namespaces_fields d [].
