(** What the bytes of a protobuf message mean, in the words of the protobuf encoding guide and independent of the
    generated code: a message is a sequence of fields, a field is a tag and a value; fields of numbers the .proto file does
    not have are passed over; of a field that is not repeated the last value counts, several pieces of an embedded message
    are read as one message, and the values of a repeated field are all those there are, in order, packed or not. *)
From Coq Require Import Ascii String NArith ZArith Bool List.
From Verif.Base Require Import Bytes.
From Verif.Model Require Import Policy Transformation Pipeline Metadata Rules RuleSetProto Namespace Messages.
From Verif.Spec Require Import WireSpec.
Import ListNotations.
Open Scope Z_scope.

(** * Numbers *)

(** [v] cut to [bits] bits and read as two's complement *)
Definition signed (bits : Z) (v : Z) : Z :=
  let u := v mod 2 ^ bits in if u <? 2 ^ (bits - 1) then u else u - 2 ^ bits.
Definition little_endian (d : bytes) : Z := fold_right (fun b v => byte_value b + 256 * v) 0 d.

(** A tag: a varint whose lowest three bits are the wire type; the rest, an int32, is the number of the field. *)
Definition tag_of (t : bytes) (n wt : Z) : Prop :=
  exists v, varint t v /\ wt = v mod 8 /\ n = signed 32 (v mod 2 ^ 64 / 8).

(** The bytes [p] announce a length. *)
Definition announces (p : bytes) (n : Z) : Prop := exists v, varint p v /\ n = v mod 2 ^ 64 /\ n < 2 ^ 63.

(** * Fields *)

(** What the .proto file says of a field. *)
Inductive shape := AnInt | ADouble | ABlock | SomeDoubles | SomeEnums.
Notation table := (list (Z * shape)) (only parsing).

Inductive item := Number (v : Z) | Eight (v : Z) | Block (b : bytes) | Several (vs : list Z).

Definition a_double (v : Z) (d : bytes) : Prop := length d = 8%nat /\ v = little_endian d.
Definition an_enum (v : Z) (d : bytes) : Prop := exists x, varint d x /\ v = signed 32 x.

(** A packed list that is announced to be [n] bytes long: elements until [n] bytes are used up.  (A list whose announced
    end is inside an element goes on to the end of that element.) *)
Definition packed (element : Z -> bytes -> Prop) (n : Z) (vs : list Z) (d : bytes) : Prop :=
  exists ds, d = concat ds /\ Forall2 element vs ds /\ n <= Z.of_nat (length d) /\
    forall before last, ds = before ++ [last] -> Z.of_nat (length (concat before)) < n.

(** A value of wire type [wt] for a field of this shape. *)
Inductive holds : shape -> Z -> bytes -> item -> Prop :=
| holds_int d v : varint d v -> holds AnInt 0 d (Number v)
| holds_double d v : a_double v d -> holds ADouble 1 d (Eight v)
| holds_block p b : announces p (Z.of_nat (length b)) -> holds ABlock 2 (p ++ b) (Block b)
| holds_one_double d v : a_double v d -> holds SomeDoubles 1 d (Several [v])
| holds_doubles p n d vs : announces p n -> packed a_double n vs d -> holds SomeDoubles 2 (p ++ d) (Several vs)
| holds_one_enum d v : an_enum v d -> holds SomeEnums 0 d (Several [v])
| holds_enums p n d vs : announces p n -> packed an_enum n vs d -> holds SomeEnums 2 (p ++ d) (Several vs).

(** A value of wire type [wt] of a field that is not known.  Groups (wire type 3) go on until a tag of wire type 4; the
    numbers of the fields in them do not matter. *)
Inductive passed : Z -> bytes -> Prop :=
| passed_varint d v : varint d v -> passed 0 d
| passed_eight d : length d = 8%nat -> passed 1 d
| passed_block p b : announces p (Z.of_nat (length b)) -> passed 2 (p ++ b)
| passed_group l e v : passed_all l -> varint e v -> v mod 8 = 4 -> passed 3 (l ++ e)
| passed_four d : length d = 4%nat -> passed 5 d
with passed_all : bytes -> Prop :=
| passed_none : passed_all []
| passed_more t x v l : varint t x -> x mod 8 <> 4 -> passed (x mod 8) v -> passed_all l -> passed_all (t ++ v ++ l).

Definition shape_of (s : table) (n : Z) : option shape :=
  match find (fun x => fst x =? n) s with Some (_, k) => Some k | None => None end.

(** The bytes are a message with these fields, of those that are known. *)
Inductive parsed (s : table) : bytes -> list (Z * item) -> Prop :=
| parsed_end : parsed s [] []
| parsed_known t n wt k v it d l : tag_of t n wt -> 0 < n -> shape_of s n = Some k -> holds k wt v it ->
    parsed s d l -> parsed s (t ++ v ++ d) ((n, it) :: l)
| parsed_unknown t n wt v d l : tag_of t n wt -> 0 < n -> shape_of s n = None -> passed wt v ->
    parsed s d l -> parsed s (t ++ v ++ d) l.

(** * Values *)

Notation fields := (list (Z * item)) (only parsing).
Definition occurrences (n : Z) (l : fields) : list item :=
  map snd (filter (fun x => fst x =? n) l).
Definition numbers (n : Z) (l : fields) : list Z :=
  flat_map (fun it => match it with Number v => [v] | _ => [] end) (occurrences n l).
Definition eights (n : Z) (l : fields) : list Z :=
  flat_map (fun it => match it with Eight v => [v] | _ => [] end) (occurrences n l).
Definition blocks (n : Z) (l : fields) : list bytes :=
  flat_map (fun it => match it with Block b => [b] | _ => [] end) (occurrences n l).

(** The value of a field that is not repeated: that of its last occurrence, zero if there is none. *)
Definition int64_at (n : Z) (l : fields) : Z := last (map (signed 64) (numbers n l)) 0.
Definition int32_at (n : Z) (l : fields) : Z := last (map (signed 32) (numbers n l)) 0.
Definition uint64_at (n : Z) (l : fields) : Z := last (map (fun v => v mod 2 ^ 64) (numbers n l)) 0.
Definition uint32_at (n : Z) (l : fields) : Z := last (map (fun v => v mod 2 ^ 32) (numbers n l)) 0.
Definition bool_at (n : Z) (l : fields) : bool := last (map (fun v => negb (v mod 2 ^ 64 =? 0)) (numbers n l)) false.
Definition double_at (n : Z) (l : fields) : Z := last (eights n l) 0.
Definition bytes_at (n : Z) (l : fields) : bytes := last (blocks n l) [].

(** Those of a repeated field. *)
Definition strings_at (n : Z) (l : fields) : list bytes := blocks n l.
Definition list_at (n : Z) (l : fields) : list Z :=
  flat_map (fun it => match it with Several vs => vs | _ => [] end) (occurrences n l).

(** A kind of message: its fields and what they mean. *)
Record message (M : Type) := mk_message { m_table : list (Z * shape); m_means : list (Z * item) -> M -> Prop }.
Arguments mk_message {M} _ _.
Arguments m_table {M} _.
Arguments m_means {M} _ _ _.

Definition reads {M} (k : message M) (d : bytes) (m : M) : Prop := exists l, parsed (m_table k) d l /\ m_means k l m.

(** Repeated messages; an embedded message, present or absent, whose pieces are read as one. *)
Definition messages_at {M} (k : message M) (n : Z) (l : fields) (ms : list M) : Prop :=
  Forall2 (reads k) (blocks n l) ms.
Definition pointers_at {M} (k : message M) (n : Z) (l : fields) (ms : list (option M)) : Prop :=
  exists ms', ms = map Some ms' /\ messages_at k n l ms'.
Definition message_at {M} (k : message M) (n : Z) (l : fields) (m : M) : Prop :=
  exists ls, Forall2 (parsed (m_table k)) (blocks n l) ls /\ m_means k (concat ls) m.
Definition pointer_at {M} (k : message M) (n : Z) (l : fields) (o : option M) : Prop :=
  match o with
  | None => blocks n l = []
  | Some m => blocks n l <> [] /\ message_at k n l m
  end.

(** * The .proto files *)

(** generated/proto/aggregationpb/aggregation.proto, policypb/policy.proto *)
Definition AggregationID : message N := mk_message [(1, AnInt)] (fun l m => m = Z.to_N (uint64_at 1 l)).
Definition Resolution : message resolution_pb := mk_message [(1, AnInt); (2, AnInt)] (fun l m =>
  rp_window m = int64_at 1 l /\ rp_precision m = int64_at 2 l).
Definition Retention : message Z := mk_message [(1, AnInt)] (fun l m => m = int64_at 1 l).
Definition StoragePolicy : message sp_pb := mk_message [(1, ABlock); (2, ABlock)] (fun l m =>
  pointer_at Resolution 1 l (spp_resolution m) /\ pointer_at Retention 2 l (spp_retention m)).
Definition Policy_ : message policy_pb := mk_message [(1, ABlock); (2, SomeEnums)] (fun l m =>
  pointer_at StoragePolicy 1 l (pp_storage m) /\ pp_types m = list_at 2 l).

(** pipelinepb/pipeline.proto *)
Definition AggregationOp : message Z := mk_message [(1, AnInt)] (fun l m => m = int32_at 1 l).
Definition TransformationOp : message Z := mk_message [(1, AnInt)] (fun l m => m = int32_at 1 l).
Definition RollupOp : message rollup_op_pb := mk_message [(1, ABlock); (2, ABlock); (3, SomeEnums)] (fun l m =>
  rop_name m = bytes_at 1 l /\ rop_tags m = strings_at 2 l /\ rop_types m = list_at 3 l).
Definition PipelineOp : message op_pb := mk_message [(1, AnInt); (2, ABlock); (3, ABlock); (4, ABlock)] (fun l m =>
  opp_type m = int32_at 1 l /\ pointer_at AggregationOp 2 l (opp_agg m) /\
  pointer_at TransformationOp 3 l (opp_tf m) /\ pointer_at RollupOp 4 l (opp_rollup m)).
Definition Pipeline_ : message (list op_pb) := mk_message [(1, ABlock)] (fun l m => messages_at PipelineOp 1 l m).
Definition AppliedRollupOp : message (bytes * N) := mk_message [(1, ABlock); (2, ABlock)] (fun l m =>
  fst m = bytes_at 1 l /\ message_at AggregationID 2 l (snd m)).
Definition AppliedPipelineOp : message applied_op_pb := mk_message [(1, AnInt); (2, ABlock); (3, ABlock)] (fun l m =>
  aop_type m = int32_at 1 l /\ pointer_at TransformationOp 2 l (aop_tf m) /\
  pointer_at AppliedRollupOp 3 l (aop_rollup m)).
Definition AppliedPipeline : message (list applied_op_pb) := mk_message [(1, ABlock)] (fun l m =>
  messages_at AppliedPipelineOp 1 l m).

(** rulepb/rule.proto *)
Definition MappingRuleSnapshot : message mapping_snapshot_pb := mk_message
  [(1, ABlock); (2, AnInt); (3, AnInt); (4, ABlock); (5, ABlock); (6, AnInt); (7, ABlock); (8, SomeEnums); (9, ABlock);
   (10, AnInt)] (fun l m =>
  msp_name m = bytes_at 1 l /\ msp_tomb m = bool_at 2 l /\ msp_cutover m = int64_at 3 l /\
  msp_filter m = bytes_at 4 l /\ pointers_at Policy_ 5 l (msp_policies m) /\ msp_at m = int64_at 6 l /\
  msp_by m = bytes_at 7 l /\ msp_types m = list_at 8 l /\ pointers_at StoragePolicy 9 l (msp_sps m) /\
  msp_drop m = int32_at 10 l).
Definition Rule {S} (snapshot : message S) : message (rule_pb S) := mk_message [(1, ABlock); (2, ABlock)] (fun l m =>
  rp_uuid m = bytes_at 1 l /\ pointers_at snapshot 2 l (rp_snapshots m)).
Definition RollupTarget : message target_v1_pb := mk_message [(1, ABlock); (2, ABlock); (3, ABlock)] (fun l m =>
  t1p_name m = bytes_at 1 l /\ t1p_tags m = strings_at 2 l /\ pointers_at Policy_ 3 l (t1p_policies m)).
Definition RollupTargetV2 : message target_v2_pb := mk_message [(1, ABlock); (2, ABlock)] (fun l m =>
  pointer_at Pipeline_ 1 l (t2p_pipeline m) /\ pointers_at StoragePolicy 2 l (t2p_sps m)).
Definition RollupRuleSnapshot : message rollup_snapshot_pb := mk_message
  [(1, ABlock); (2, AnInt); (3, AnInt); (4, ABlock); (5, ABlock); (6, AnInt); (7, ABlock); (8, ABlock)] (fun l m =>
  rsp_name m = bytes_at 1 l /\ rsp_tomb m = bool_at 2 l /\ rsp_cutover m = int64_at 3 l /\
  rsp_filter m = bytes_at 4 l /\ pointers_at RollupTarget 5 l (rsp_targets m) /\ rsp_at m = int64_at 6 l /\
  rsp_by m = bytes_at 7 l /\ pointers_at RollupTargetV2 8 l (rsp_targets_v2 m)).
Definition RuleSet_ : message rule_set_pb := mk_message
  [(1, ABlock); (2, ABlock); (3, AnInt); (4, AnInt); (5, AnInt); (6, AnInt); (7, ABlock); (8, ABlock); (9, ABlock)] (fun l m =>
  rsetp_uuid m = bytes_at 1 l /\ rsetp_namespace m = bytes_at 2 l /\ rsetp_created m = int64_at 3 l /\
  rsetp_updated m = int64_at 4 l /\ rsetp_tomb m = bool_at 5 l /\ rsetp_cutover m = int64_at 6 l /\
  pointers_at (Rule MappingRuleSnapshot) 7 l (rsetp_mapping m) /\
  pointers_at (Rule RollupRuleSnapshot) 8 l (rsetp_rollup m) /\ rsetp_by m = bytes_at 9 l).

(** rulepb/namespace.proto *)
Definition NamespaceSnapshot_ : message ns_snapshot_pb := mk_message [(1, AnInt); (2, AnInt); (3, AnInt); (4, ABlock)]
  (fun l m => nssp_version m = int32_at 1 l /\ nssp_tomb m = bool_at 2 l /\ nssp_at m = int64_at 3 l /\
    nssp_by m = bytes_at 4 l).
Definition Namespace_ : message namespace_pb := mk_message [(1, ABlock); (2, ABlock)] (fun l m =>
  nsp_name m = bytes_at 1 l /\ pointers_at NamespaceSnapshot_ 2 l (nsp_snapshots m)).
Definition Namespaces_ : message namespaces_pb := mk_message [(1, ABlock)] (fun l m => pointers_at Namespace_ 1 l m).

(** metricpb/metric.proto *)
Definition Counter_ : message counter_pb := mk_message [(1, ABlock); (2, AnInt)] (fun l m =>
  cp_id m = bytes_at 1 l /\ cp_value m = int64_at 2 l).
Definition BatchTimer_ : message timer_pb := mk_message [(1, ABlock); (2, SomeDoubles)] (fun l m =>
  tip_id m = bytes_at 1 l /\ tip_values m = list_at 2 l).
Definition Gauge_ : message gauge_pb := mk_message [(1, ABlock); (2, ADouble)] (fun l m =>
  gp_id m = bytes_at 1 l /\ gp_value m = double_at 2 l).
Definition TimedMetric_ : message timed_pb := mk_message [(1, AnInt); (2, ABlock); (3, AnInt); (4, ADouble)] (fun l m =>
  tdp_type m = int32_at 1 l /\ tdp_id m = bytes_at 2 l /\ tdp_time m = int64_at 3 l /\ tdp_value m = double_at 4 l).
Definition ForwardedMetric_ : message forwarded_pb := mk_message [(1, AnInt); (2, ABlock); (3, AnInt); (4, SomeDoubles)]
  (fun l m => fwp_type m = int32_at 1 l /\ fwp_id m = bytes_at 2 l /\ fwp_time m = int64_at 3 l /\
    fwp_values m = list_at 4 l).

(** metricpb/metadata.proto *)
Definition PipelineMetadata_ : message (pm_pb_of list) := mk_message [(1, ABlock); (2, ABlock); (3, ABlock); (4, AnInt)]
  (fun l m => message_at AggregationID 1 l (pmp_agg m) /\ messages_at StoragePolicy 2 l (pmp_sps m) /\
    message_at AppliedPipeline 3 l (pmp_pipeline m) /\ pmp_drop m = int32_at 4 l).
Definition Metadata_ : message (list (pm_pb_of list)) := mk_message [(1, ABlock)] (fun l m =>
  messages_at PipelineMetadata_ 1 l m).
Definition StagedMetadata_ : message (sm_pb_of list) := mk_message [(1, AnInt); (2, AnInt); (3, ABlock)] (fun l m =>
  smp_cutover m = int64_at 1 l /\ smp_tombstoned m = bool_at 2 l /\ message_at Metadata_ 3 l (smp_pipelines m)).
Definition StagedMetadatas_ : message (list (sm_pb_of list)) := mk_message [(1, ABlock)] (fun l m =>
  messages_at StagedMetadata_ 1 l m).
Definition ForwardMetadata_ : message (fm_pb_of list) := mk_message
  [(1, ABlock); (2, ABlock); (3, ABlock); (4, AnInt); (5, AnInt)] (fun l m =>
  message_at AggregationID 1 l (fmp_agg m) /\ message_at StoragePolicy 2 l (fmp_sp m) /\
  message_at AppliedPipeline 3 l (fmp_pipeline m) /\ fmp_source m = uint32_at 4 l /\ fmp_times m = int32_at 5 l).
Definition TimedMetadata_ : message tm_pb := mk_message [(1, ABlock); (2, ABlock)] (fun l m =>
  message_at AggregationID 1 l (tmp_agg m) /\ message_at StoragePolicy 2 l (tmp_sp m)).

(** metricpb/composite.proto *)
Definition CounterWithMetadatas_ : message (cm_pb_of list) := mk_message [(1, ABlock); (2, ABlock)] (fun l m =>
  message_at Counter_ 1 l (cmp_counter m) /\ message_at StagedMetadatas_ 2 l (cmp_metas m)).
Definition BatchTimerWithMetadatas_ : message (bm_pb_of list) := mk_message [(1, ABlock); (2, ABlock)] (fun l m =>
  message_at BatchTimer_ 1 l (bmp_timer m) /\ message_at StagedMetadatas_ 2 l (bmp_metas m)).
Definition GaugeWithMetadatas_ : message (gm_pb_of list) := mk_message [(1, ABlock); (2, ABlock)] (fun l m =>
  message_at Gauge_ 1 l (gmp_gauge m) /\ message_at StagedMetadatas_ 2 l (gmp_metas m)).
Definition ForwardedMetricWithMetadata_ : message (fwm_pb_of list) := mk_message [(1, ABlock); (2, ABlock)] (fun l m =>
  message_at ForwardedMetric_ 1 l (fwmp_metric m) /\ message_at ForwardMetadata_ 2 l (fwmp_meta m)).
Definition TimedMetricWithMetadata_ : message tdm_pb := mk_message [(1, ABlock); (2, ABlock)] (fun l m =>
  message_at TimedMetric_ 1 l (tdmp_metric m) /\ message_at TimedMetadata_ 2 l (tdmp_meta m)).
Definition MetricWithMetadatas_ : message mm_pb := mk_message
  [(1, AnInt); (2, ABlock); (3, ABlock); (4, ABlock); (5, ABlock); (6, ABlock)] (fun l m =>
  mm_type m = int32_at 1 l /\ pointer_at CounterWithMetadatas_ 2 l (mm_counter m) /\
  pointer_at BatchTimerWithMetadatas_ 3 l (mm_timer m) /\ pointer_at GaugeWithMetadatas_ 4 l (mm_gauge m) /\
  pointer_at ForwardedMetricWithMetadata_ 5 l (mm_forwarded m) /\ pointer_at TimedMetricWithMetadata_ 6 l (mm_timed m)).

(** * A message that is used again *)

(** A member that is not in the bytes is absent if it was before, and empty otherwise. *)
Definition or_reset {S} (zero : S) (old o : option S) : option S :=
  match o with Some _ => o | None => match old with Some _ => Some zero | None => None end end.
