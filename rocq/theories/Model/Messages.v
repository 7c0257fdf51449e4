(** Model of the metric messages: packages metric/unaggregated and metric/aggregated (the parts
    that go over the wire), [encoding.UnaggregatedMessageUnion], the generated metricpb messages
    with their wire formats, and encoding/protobuf/reset.go.  A float64 is its 64 bits.  Byte slices
    are values: that a decoded ID shares memory with the decoder is not modelled. *)
From Coq Require Import Ascii String NArith ZArith Bool List.
From Verif.Base Require Import Bytes Slice.
From Verif.Model Require Import AggType Policy Transformation Pipeline Metadata ProtoWire.
Import ListNotations.
Open Scope Z_scope.

(** metric/unaggregated/types.go:42-45 [Counter]; 69-72 [BatchTimer]; 96-99 [Gauge] *)
Record counter := mk_counter { c_id : bytes; c_value : Z }.
(** metric/unaggregated/types.go:69-72 [BatchTimer] *)
Record batch_timer := mk_timer { t_id : bytes; t_values : list Z }.
(** metric/unaggregated/types.go:96-99 [Gauge] *)
Record gauge := mk_gauge { g_id : bytes; g_value : Z }.

(** metric/aggregated/types.go:41-46 [Metric]; 133-138 [ForwardedMetric] *)
Record timed := mk_timed { td_type : Z; td_id : bytes; td_time : Z; td_value : Z }.
(** metric/aggregated/types.go:133-138 [ForwardedMetric] *)
Record forwarded := mk_forwarded { fw_type : Z; fw_id : bytes; fw_time : Z; fw_values : list Z }.

(** encoding/types.go:31-38 [UnaggregatedMessageType]; 47-54 [UnaggregatedMessageUnion]: all five
    members are there, the type says which one counts.  [F] is [list] for content and [slice] for
    the reused union of a decoder. *)
Record union_of (F : Type -> Type) := mk_union {
  u_type : Z;
  u_counter : counter; u_counter_metas : F (sm_of F);
  u_timer : batch_timer; u_timer_metas : F (sm_of F);
  u_gauge : gauge; u_gauge_metas : F (sm_of F);
  u_forwarded : forwarded; u_forward_meta : fm_of F;
  u_timed : timed; u_timed_meta : timed_metadata }.
Arguments mk_union {F}.
Arguments u_type {F} _.
Arguments u_counter {F} _.
Arguments u_counter_metas {F} _.
Arguments u_timer {F} _.
Arguments u_timer_metas {F} _.
Arguments u_gauge {F} _.
Arguments u_gauge_metas {F} _.
Arguments u_forwarded {F} _.
Arguments u_forward_meta {F} _.
Arguments u_timed {F} _.
Arguments u_timed_meta {F} _.

(** * Generated messages (generated/proto/metricpb)  *)

(** generated/proto/metricpb/metric.pb.go:66-69, 90-93, 114-117, 138-143, 178-183 *)
Record counter_pb := mk_counter_pb { cp_id : bytes; cp_value : Z }.
(** generated/proto/metricpb/metric.pb.go:90-93 [BatchTimer] *)
Record timer_pb := mk_timer_pb { tip_id : bytes; tip_values : list Z }.
(** generated/proto/metricpb/metric.pb.go:114-117 [Gauge] *)
Record gauge_pb := mk_gauge_pb { gp_id : bytes; gp_value : Z }.
(** generated/proto/metricpb/metric.pb.go:138-143 [TimedMetric] *)
Record timed_pb := mk_timed_pb { tdp_type : Z; tdp_id : bytes; tdp_time : Z; tdp_value : Z }.
(** generated/proto/metricpb/metric.pb.go:178-183 [ForwardedMetric] *)
Record forwarded_pb := mk_forwarded_pb { fwp_type : Z; fwp_id : bytes; fwp_time : Z; fwp_values : list Z }.

(** generated/proto/metricpb/composite.pb.go:106-109, 130-133, 154-157, 178-181, 204-207 *)
Record cm_pb_of (F : Type -> Type) := mk_cm_pb { cmp_counter : counter_pb; cmp_metas : F (sm_pb_of F) }.
(** generated/proto/metricpb/composite.pb.go:130-133 [BatchTimerWithMetadatas] *)
Record bm_pb_of (F : Type -> Type) := mk_bm_pb { bmp_timer : timer_pb; bmp_metas : F (sm_pb_of F) }.
(** generated/proto/metricpb/composite.pb.go:154-157 [GaugeWithMetadatas] *)
Record gm_pb_of (F : Type -> Type) := mk_gm_pb { gmp_gauge : gauge_pb; gmp_metas : F (sm_pb_of F) }.
(** generated/proto/metricpb/composite.pb.go:178-181 [ForwardedMetricWithMetadata] *)
Record fwm_pb_of (F : Type -> Type) := mk_fwm_pb { fwmp_metric : forwarded_pb; fwmp_meta : fm_pb_of F }.
(** generated/proto/metricpb/composite.pb.go:204-207 [TimedMetricWithMetadata] *)
Record tdm_pb := mk_tdm_pb { tdmp_metric : timed_pb; tdmp_meta : tm_pb }.
Arguments mk_cm_pb {F} _ _.
Arguments cmp_counter {F} _.
Arguments cmp_metas {F} _.
Arguments mk_bm_pb {F} _ _.
Arguments bmp_timer {F} _.
Arguments bmp_metas {F} _.
Arguments mk_gm_pb {F} _ _.
Arguments gmp_gauge {F} _.
Arguments gmp_metas {F} _.
Arguments mk_fwm_pb {F} _ _.
Arguments fwmp_metric {F} _.
Arguments fwmp_meta {F} _.

(** What a reader sees of a reused message:
    generated/proto/metricpb/composite.pb.go:106-109 [CounterWithMetadatas] *)
Definition cm_pb_content (m : cm_pb_of slice) : cm_pb_of list :=
  mk_cm_pb (cmp_counter m) (map sm_pb_content (s_elems (cmp_metas m))).
(** What a reader sees of a reused message:
    generated/proto/metricpb/composite.pb.go:130-133 [BatchTimerWithMetadatas] *)
Definition bm_pb_content (m : bm_pb_of slice) : bm_pb_of list :=
  mk_bm_pb (bmp_timer m) (map sm_pb_content (s_elems (bmp_metas m))).
(** What a reader sees of a reused message:
    generated/proto/metricpb/composite.pb.go:154-157 [GaugeWithMetadatas] *)
Definition gm_pb_content (m : gm_pb_of slice) : gm_pb_of list :=
  mk_gm_pb (gmp_gauge m) (map sm_pb_content (s_elems (gmp_metas m))).
(** What a reader sees of a reused message:
    generated/proto/metricpb/composite.pb.go:178-181 [ForwardedMetricWithMetadata] *)
Definition fwm_pb_content (m : fwm_pb_of slice) : fwm_pb_of list :=
  mk_fwm_pb (fwmp_metric m) (fm_pb_content (fwmp_meta m)).

(** generated/proto/metricpb/composite.pb.go:234-241 [MetricWithMetadatas] (71-80 for the type codes); only content matters, what
    lies behind the length of a slice is overwritten before it is seen because elements are appended
    as zero values. *)
Record mm_pb := mk_mm {
  mm_type : Z;
  mm_counter : option (cm_pb_of list);
  mm_timer : option (bm_pb_of list);
  mm_gauge : option (gm_pb_of list);
  mm_forwarded : option (fwm_pb_of list);
  mm_timed : option tdm_pb }.

(** Zero values.
    The zero value of generated/proto/metricpb/metadata.pb.go:145-151 [ForwardMetadata] *)
Definition zero_fm_pb : fm_pb_of list := mk_fm_pb 0%N empty_sp_pb [] 0 0.
(** The zero value of generated/proto/metricpb/metadata.pb.go:193-196 [TimedMetadata] *)
Definition zero_tm_pb : tm_pb := {| tmp_agg := 0%N; tmp_sp := empty_sp_pb |}.
(** The zero value of generated/proto/metricpb/metadata.pb.go:41-46 [PipelineMetadata] *)
Definition zero_pm_pb_l : pm_pb_of list := mk_pm_pb 0%N [] [] 0.
(** The zero value of generated/proto/metricpb/metadata.pb.go:97-101 [StagedMetadata] *)
Definition zero_sm_pb_l : sm_pb_of list := mk_sm_pb 0 false [].
(** The zero value of generated/proto/metricpb/metric.pb.go:66-69 [Counter] *)
Definition zero_counter_pb := mk_counter_pb [] 0.
(** The zero value of generated/proto/metricpb/metric.pb.go:90-93 [BatchTimer] *)
Definition zero_timer_pb := mk_timer_pb [] [].
(** The zero value of generated/proto/metricpb/metric.pb.go:114-117 [Gauge] *)
Definition zero_gauge_pb := mk_gauge_pb [] 0.
(** The zero value of generated/proto/metricpb/metric.pb.go:138-143 [TimedMetric] *)
Definition zero_timed_pb := mk_timed_pb 0 [] 0 0.
(** The zero value of generated/proto/metricpb/metric.pb.go:178-183 [ForwardedMetric] *)
Definition zero_forwarded_pb := mk_forwarded_pb 0 [] 0 [].
(** The zero value of generated/proto/metricpb/composite.pb.go:106-109
    [CounterWithMetadatas] *)
Definition zero_cm_pb : cm_pb_of list := mk_cm_pb zero_counter_pb [].
(** The zero value of generated/proto/metricpb/composite.pb.go:130-133
    [BatchTimerWithMetadatas] *)
Definition zero_bm_pb : bm_pb_of list := mk_bm_pb zero_timer_pb [].
(** The zero value of generated/proto/metricpb/composite.pb.go:154-157
    [GaugeWithMetadatas] *)
Definition zero_gm_pb : gm_pb_of list := mk_gm_pb zero_gauge_pb [].
(** The zero value of generated/proto/metricpb/composite.pb.go:178-181
    [ForwardedMetricWithMetadata] *)
Definition zero_fwm_pb : fwm_pb_of list := mk_fwm_pb zero_forwarded_pb zero_fm_pb.
(** The zero value of generated/proto/metricpb/composite.pb.go:204-207
    [TimedMetricWithMetadata] *)
Definition zero_tdm_pb : tdm_pb := mk_tdm_pb zero_timed_pb zero_tm_pb.
(** The zero value of generated/proto/metricpb/composite.pb.go:234-241
    [MetricWithMetadatas] *)
Definition zero_mm : mm_pb := mk_mm 0 None None None None None.

(** ** Wire formats *)

(** Field types: int64, int32 and enums, uint64, uint32, bool.
    (as written by generated/proto/metricpb/metadata.pb.go for [Tombstoned]) *)
Definition b2z (b : bool) : Z := if b then 1 else 0.
(** A varint read into a bool field: [bool(v != 0)] in
    generated/proto/metricpb/metadata.pb.go [StagedMetadata.Unmarshal]. *)
Definition conv_bool (v : Z) : Z := if to_int64 v =? 0 then 0 else 1.
(** The same as a Coq bool ([StagedMetadata.Unmarshal],
    generated/proto/metricpb/metadata.pb.go). *)
Definition z2b (z : Z) : bool := negb (z =? 0).

(** generated/proto/aggregationpb/aggregation.pb.go:168-280 [AggregationID] *)
Definition agg_fields : list (field N) :=
  [varint_field 1 u64 Z.of_N (fun v _ => Z.to_N v)].

(** generated/proto/policypb/policy.pb.go:185-212, 318-329, 383-470 [Resolution]; 213-235, 330-338,
    471-539 [Retention]; 236-273, 339-352, 540-655 [StoragePolicy] *)
Definition resolution_fields : list (field resolution_pb) :=
  [varint_field 1 to_int64 rp_window (fun v m => {| rp_window := v; rp_precision := rp_precision m |});
   varint_field 2 to_int64 rp_precision (fun v m => {| rp_window := rp_window m; rp_precision := v |})].
(** generated/proto/policypb/policy.pb.go:213-224, 330-337, 471-539
    [Retention.MarshalTo, Size, Unmarshal] *)
Definition retention_fields : list (field Z) :=
  [varint_field 1 to_int64 (fun v => v) (fun v _ => v)].
(** generated/proto/policypb/policy.pb.go:236-262, 339-351, 540-655
    [StoragePolicy.MarshalTo, Size, Unmarshal] *)
Definition sp_fields : list (field sp_pb) :=
  [ptr_field 1 resolution_fields {| rp_window := 0; rp_precision := 0 |} spp_resolution
     (fun v m => {| spp_resolution := v; spp_retention := spp_retention m |});
   ptr_field 2 retention_fields 0 spp_retention
     (fun v m => {| spp_resolution := spp_resolution m; spp_retention := v |})].

(** generated/proto/pipelinepb/pipeline.pb.go:358-380, 633-641, 821-889 [TransformationOp]; 520-551, 698-709,
    1309-1419 [AppliedRollupOp]; 552-594, 710-726, 1420-1554 [AppliedPipelineOp]; 595-614, 727-738,
    1555-1635 [AppliedPipeline] *)
Definition tf_fields : list (field Z) :=
  [varint_field 1 to_int32 (fun v => v) (fun v _ => v)].
(** generated/proto/pipelinepb/pipeline.pb.go:520-540, 698-708, 1309-1419
    [AppliedRollupOp.MarshalTo, Size, Unmarshal] *)
Definition applied_rollup_fields : list (field (bytes * N)) :=
  [bytes_field 1 fst (fun v m => (v, snd m));
   msg_field 2 agg_fields snd (fun v m => (fst m, v))].
(** generated/proto/pipelinepb/pipeline.pb.go:552-583, 710-725, 1420-1554
    [AppliedPipelineOp.MarshalTo, Size, Unmarshal] *)
Definition applied_op_fields : list (field applied_op_pb) :=
  [varint_field 1 to_int32 aop_type
     (fun v m => {| aop_type := v; aop_tf := aop_tf m; aop_rollup := aop_rollup m |});
   ptr_field 2 tf_fields 0 aop_tf
     (fun v m => {| aop_type := aop_type m; aop_tf := v; aop_rollup := aop_rollup m |});
   ptr_field 3 applied_rollup_fields ([], 0%N) aop_rollup
     (fun v m => {| aop_type := aop_type m; aop_tf := aop_tf m; aop_rollup := v |})].
(** generated/proto/pipelinepb/pipeline.pb.go:595-613, 727-737, 1555-1635
    [AppliedPipeline.MarshalTo, Size, Unmarshal] *)
Definition applied_fields : list (field (list applied_op_pb)) :=
  [msgs_field 1 applied_op_fields empty_applied_op_pb (fun v => v) (fun v _ => v)].

(** generated/proto/metricpb/metadata.pb.go:235-285, 472-490, 570-729 [PipelineMetadata]; 286-315, 491-502, 730-810 [Metadata];
    316-356, 503-516, 811-929 [StagedMetadata]; 357-386, 517-528, 930-1010 [StagedMetadatas];
    387-438, 529-546, 1011-1188 [ForwardMetadata]; 439-462, 547-556, 1189-1298 [TimedMetadata] *)
Definition pm_fields : list (field (pm_pb_of list)) :=
  [msg_field 1 agg_fields pmp_agg (fun v m => mk_pm_pb v (pmp_sps m) (pmp_pipeline m) (pmp_drop m));
   msgs_field 2 sp_fields empty_sp_pb (@pmp_sps list)
     (fun v m => mk_pm_pb (pmp_agg m) v (pmp_pipeline m) (pmp_drop m));
   msg_field 3 applied_fields (@pmp_pipeline list)
     (fun v m => mk_pm_pb (pmp_agg m) (pmp_sps m) v (pmp_drop m));
   varint_field 4 to_int32 pmp_drop (fun v m => mk_pm_pb (pmp_agg m) (pmp_sps m) (pmp_pipeline m) v)].
(** generated/proto/metricpb/metadata.pb.go:286-304, 491-501, 730-810
    [Metadata.MarshalTo, Size, Unmarshal] *)
Definition md_fields : list (field (list (pm_pb_of list))) :=
  [msgs_field 1 pm_fields zero_pm_pb_l (fun v => v) (fun v _ => v)].
(** generated/proto/metricpb/metadata.pb.go:316-345, 503-515, 811-929
    [StagedMetadata.MarshalTo, Size, Unmarshal] *)
Definition sm_fields : list (field (sm_pb_of list)) :=
  [varint_field 1 to_int64 smp_cutover (fun v m => mk_sm_pb v (smp_tombstoned m) (smp_pipelines m));
   varint_field 2 conv_bool (fun m => b2z (smp_tombstoned m))
     (fun v m => mk_sm_pb (smp_cutover m) (z2b v) (smp_pipelines m));
   msg_field 3 md_fields (@smp_pipelines list) (fun v m => mk_sm_pb (smp_cutover m) (smp_tombstoned m) v)].
(** generated/proto/metricpb/metadata.pb.go:357-375, 517-527, 930-1010
    [StagedMetadatas.MarshalTo, Size, Unmarshal] *)
Definition sms_fields : list (field (list (sm_pb_of list))) :=
  [msgs_field 1 sm_fields zero_sm_pb_l (fun v => v) (fun v _ => v)].
(** generated/proto/metricpb/metadata.pb.go:387-427, 529-545, 1011-1188
    [ForwardMetadata.MarshalTo, Size, Unmarshal] *)
Definition fm_fields : list (field (fm_pb_of list)) :=
  [msg_field 1 agg_fields fmp_agg
     (fun v m => mk_fm_pb v (fmp_sp m) (fmp_pipeline m) (fmp_source m) (fmp_times m));
   msg_field 2 sp_fields fmp_sp
     (fun v m => mk_fm_pb (fmp_agg m) v (fmp_pipeline m) (fmp_source m) (fmp_times m));
   msg_field 3 applied_fields (@fmp_pipeline list)
     (fun v m => mk_fm_pb (fmp_agg m) (fmp_sp m) v (fmp_source m) (fmp_times m));
   varint_field 4 u32 fmp_source
     (fun v m => mk_fm_pb (fmp_agg m) (fmp_sp m) (fmp_pipeline m) v (fmp_times m));
   varint_field 5 to_int32 fmp_times
     (fun v m => mk_fm_pb (fmp_agg m) (fmp_sp m) (fmp_pipeline m) (fmp_source m) v)].
(** generated/proto/metricpb/metadata.pb.go:439-461, 547-555, 1189-1298
    [TimedMetadata.MarshalTo, Size, Unmarshal] *)
Definition tm_fields : list (field tm_pb) :=
  [msg_field 1 agg_fields tmp_agg (fun v m => {| tmp_agg := v; tmp_sp := tmp_sp m |});
   msg_field 2 sp_fields tmp_sp (fun v m => {| tmp_agg := tmp_agg m; tmp_sp := v |})].

(** generated/proto/metricpb/metric.pb.go:236-254, 412-424, 502-601 [Counter]; 265-288, 425-437, 602-728 [BatchTimer]; 299-318, 438-450,
    729-820 [Gauge]; 329-358, 451-469, 821-950 [TimedMetric]; 369-402, 470-488, 951-1115 [ForwardedMetric] *)
Definition counter_fields : list (field counter_pb) :=
  [bytes_field 1 cp_id (fun v m => mk_counter_pb v (cp_value m));
   varint_field 2 to_int64 cp_value (fun v m => mk_counter_pb (cp_id m) v)].
(** generated/proto/metricpb/metric.pb.go:265-287, 425-436, 602-728
    [BatchTimer.MarshalTo, Size, Unmarshal] *)
Definition timer_fields : list (field timer_pb) :=
  [bytes_field 1 tip_id (fun v m => mk_timer_pb v (tip_values m));
   doubles_field 2 tip_values (fun v m => mk_timer_pb (tip_id m) v)].
(** generated/proto/metricpb/metric.pb.go:299-317, 438-449, 729-820 [Gauge.MarshalTo,
    Size, Unmarshal] *)
Definition gauge_fields : list (field gauge_pb) :=
  [bytes_field 1 gp_id (fun v m => mk_gauge_pb v (gp_value m));
   double_field 2 gp_value (fun v m => mk_gauge_pb (gp_id m) v)].
(** generated/proto/metricpb/metric.pb.go:329-357, 451-468, 821-950
    [TimedMetric.MarshalTo, Size, Unmarshal] *)
Definition timed_fields : list (field timed_pb) :=
  [varint_field 1 to_int32 tdp_type (fun v m => mk_timed_pb v (tdp_id m) (tdp_time m) (tdp_value m));
   bytes_field 2 tdp_id (fun v m => mk_timed_pb (tdp_type m) v (tdp_time m) (tdp_value m));
   varint_field 3 to_int64 tdp_time (fun v m => mk_timed_pb (tdp_type m) (tdp_id m) v (tdp_value m));
   double_field 4 tdp_value (fun v m => mk_timed_pb (tdp_type m) (tdp_id m) (tdp_time m) v)].
(** generated/proto/metricpb/metric.pb.go:369-401, 470-487, 951-1115
    [ForwardedMetric.MarshalTo, Size, Unmarshal] *)
Definition forwarded_fields : list (field forwarded_pb) :=
  [varint_field 1 to_int32 fwp_type (fun v m => mk_forwarded_pb v (fwp_id m) (fwp_time m) (fwp_values m));
   bytes_field 2 fwp_id (fun v m => mk_forwarded_pb (fwp_type m) v (fwp_time m) (fwp_values m));
   varint_field 3 to_int64 fwp_time (fun v m => mk_forwarded_pb (fwp_type m) (fwp_id m) v (fwp_values m));
   doubles_field 4 fwp_values (fun v m => mk_forwarded_pb (fwp_type m) (fwp_id m) (fwp_time m) v)].

(** generated/proto/metricpb/composite.pb.go:309-332, 551-560, 643-752 [CounterWithMetadatas]; 343-366, 561-570, 753-862
    [BatchTimerWithMetadatas]; 377-400, 571-580, 863-972 [GaugeWithMetadatas]; 411-434, 581-590, 973-1082
    [ForwardedMetricWithMetadata]; 445-468, 591-600, 1083-1192 [TimedMetricWithMetadata]; 479-541, 601-629,
    1193-1426 [MetricWithMetadatas] *)
Definition cm_fields : list (field (cm_pb_of list)) :=
  [msg_field 1 counter_fields cmp_counter (fun v m => mk_cm_pb v (cmp_metas m));
   msg_field 2 sms_fields (@cmp_metas list) (fun v m => mk_cm_pb (cmp_counter m) v)].
(** generated/proto/metricpb/composite.pb.go:343-365, 561-569, 753-862
    [BatchTimerWithMetadatas.MarshalTo, Size, Unmarshal] *)
Definition bm_fields : list (field (bm_pb_of list)) :=
  [msg_field 1 timer_fields bmp_timer (fun v m => mk_bm_pb v (bmp_metas m));
   msg_field 2 sms_fields (@bmp_metas list) (fun v m => mk_bm_pb (bmp_timer m) v)].
(** generated/proto/metricpb/composite.pb.go:377-399, 571-579, 863-972
    [GaugeWithMetadatas.MarshalTo, Size, Unmarshal] *)
Definition gm_fields : list (field (gm_pb_of list)) :=
  [msg_field 1 gauge_fields gmp_gauge (fun v m => mk_gm_pb v (gmp_metas m));
   msg_field 2 sms_fields (@gmp_metas list) (fun v m => mk_gm_pb (gmp_gauge m) v)].
(** generated/proto/metricpb/composite.pb.go:411-433, 581-589, 973-1082
    [ForwardedMetricWithMetadata.MarshalTo, Size, Unmarshal] *)
Definition fwm_fields : list (field (fwm_pb_of list)) :=
  [msg_field 1 forwarded_fields fwmp_metric (fun v m => mk_fwm_pb v (fwmp_meta m));
   msg_field 2 fm_fields fwmp_meta (fun v m => mk_fwm_pb (fwmp_metric m) v)].
(** generated/proto/metricpb/composite.pb.go:445-467, 591-599, 1083-1192
    [TimedMetricWithMetadata.MarshalTo, Size, Unmarshal] *)
Definition tdm_fields : list (field tdm_pb) :=
  [msg_field 1 timed_fields tdmp_metric (fun v m => mk_tdm_pb v (tdmp_meta m));
   msg_field 2 tm_fields tdmp_meta (fun v m => mk_tdm_pb (tdmp_metric m) v)].
(** generated/proto/metricpb/composite.pb.go:479-540, 601-628, 1193-1426
    [MetricWithMetadatas.MarshalTo, Size, Unmarshal] *)
Definition mm_fields : list (field mm_pb) :=
  [varint_field 1 to_int32 mm_type
     (fun v m => mk_mm v (mm_counter m) (mm_timer m) (mm_gauge m) (mm_forwarded m) (mm_timed m));
   ptr_field 2 cm_fields zero_cm_pb mm_counter
     (fun v m => mk_mm (mm_type m) v (mm_timer m) (mm_gauge m) (mm_forwarded m) (mm_timed m));
   ptr_field 3 bm_fields zero_bm_pb mm_timer
     (fun v m => mk_mm (mm_type m) (mm_counter m) v (mm_gauge m) (mm_forwarded m) (mm_timed m));
   ptr_field 4 gm_fields zero_gm_pb mm_gauge
     (fun v m => mk_mm (mm_type m) (mm_counter m) (mm_timer m) v (mm_forwarded m) (mm_timed m));
   ptr_field 5 fwm_fields zero_fwm_pb mm_forwarded
     (fun v m => mk_mm (mm_type m) (mm_counter m) (mm_timer m) (mm_gauge m) v (mm_timed m));
   ptr_field 6 tdm_fields zero_tdm_pb mm_timed
     (fun v m => mk_mm (mm_type m) (mm_counter m) (mm_timer m) (mm_gauge m) (mm_forwarded m) v)].

(** ** encoding/protobuf/reset.go *)

(** 83-89, 91-97, 99-105, 107-115, 117-125 *)
Definition reset_counter (m : counter_pb) : counter_pb := mk_counter_pb [] 0.
(** encoding/protobuf/reset.go:91-97 [resetBatchTimer] *)
Definition reset_timer (m : timer_pb) : timer_pb := mk_timer_pb [] [].
(** encoding/protobuf/reset.go:99-105 [resetGauge] *)
Definition reset_gauge (m : gauge_pb) : gauge_pb := mk_gauge_pb [] 0.
(** encoding/protobuf/reset.go:107-115 [resetForwardedMetric] *)
Definition reset_forwarded (m : forwarded_pb) : forwarded_pb := mk_forwarded_pb 0 [] 0 [].
(** encoding/protobuf/reset.go:117-125 [resetTimedMetric] *)
Definition reset_timed (m : timed_pb) : timed_pb := mk_timed_pb 0 [] 0 0.

(** 127-132, 134-143, 145-151 *)
Definition reset_metadatas (m : list (sm_pb_of list)) : list (sm_pb_of list) := [].
(** encoding/protobuf/reset.go:134-143 [resetForwardMetadata] *)
Definition reset_forward_metadata (m : fm_pb_of list) : fm_pb_of list := mk_fm_pb 0%N empty_sp_pb [] 0 0.
(** encoding/protobuf/reset.go:145-151 [resetTimedMetadata] *)
Definition reset_timed_metadata (m : tm_pb) : tm_pb := {| tmp_agg := 0%N; tmp_sp := empty_sp_pb |}.

(** 31-81 [resetMetricWithMetadatasProto]: members that exist keep existing. *)
Definition reset_mm (m : mm_pb) : mm_pb :=
  mk_mm 0
    (option_map (fun c => mk_cm_pb (reset_counter (cmp_counter c)) (reset_metadatas (cmp_metas c))) (mm_counter m))
    (option_map (fun c => mk_bm_pb (reset_timer (bmp_timer c)) (reset_metadatas (bmp_metas c))) (mm_timer m))
    (option_map (fun c => mk_gm_pb (reset_gauge (gmp_gauge c)) (reset_metadatas (gmp_metas c))) (mm_gauge m))
    (option_map (fun c => mk_fwm_pb (reset_forwarded (fwmp_metric c)) (reset_forward_metadata (fwmp_meta c)))
       (mm_forwarded m))
    (option_map (fun c => mk_tdm_pb (reset_timed (tdmp_metric c)) (reset_timed_metadata (tdmp_meta c))) (mm_timed m)).

(** * Conversions *)

(** metric/unaggregated/types.go:57-66, 84-93, 111-120 *)
Definition counter_to_proto (c : counter) : counter_pb := mk_counter_pb (c_id c) (c_value c).
(** metric/unaggregated/types.go:63-66 [Counter.FromProto] *)
Definition counter_from_proto (m : counter_pb) : counter := mk_counter (cp_id m) (cp_value m).
(** metric/unaggregated/types.go:84-87 [BatchTimer.ToProto] *)
Definition timer_to_proto (t : batch_timer) : timer_pb := mk_timer_pb (t_id t) (t_values t).
(** metric/unaggregated/types.go:90-93 [BatchTimer.FromProto] *)
Definition timer_from_proto (m : timer_pb) : batch_timer := mk_timer (tip_id m) (tip_values m).
(** metric/unaggregated/types.go:111-114 [Gauge.ToProto] *)
Definition gauge_to_proto (g : gauge) : gauge_pb := mk_gauge_pb (g_id g) (g_value g).
(** metric/unaggregated/types.go:117-120 [Gauge.FromProto] *)
Definition gauge_from_proto (m : gauge_pb) : gauge := mk_gauge (gp_id m) (gp_value m).

(** metric/aggregated/types.go:49-69, 141-161.  [None] is an error. *)
Definition timed_to_proto (t : timed) : option timed_pb :=
  option_map (fun ty => mk_timed_pb ty (td_id t) (td_time t) (td_value t)) (mt_to_proto (td_type t)).
(** metric/aggregated/types.go:60-68 [Metric.FromProto] *)
Definition timed_from_proto (m : timed_pb) : option timed :=
  option_map (fun ty => mk_timed ty (tdp_id m) (tdp_time m) (tdp_value m)) (mt_from_proto (tdp_type m)).
(** metric/aggregated/types.go:141-149 [ForwardedMetric.ToProto] *)
Definition forwarded_to_proto (f : forwarded) : option forwarded_pb :=
  option_map (fun ty => mk_forwarded_pb ty (fw_id f) (fw_time f) (fw_values f)) (mt_to_proto (fw_type f)).
(** metric/aggregated/types.go:152-160 [ForwardedMetric.FromProto] *)
Definition forwarded_from_proto (m : forwarded_pb) : option forwarded :=
  option_map (fun ty => mk_forwarded ty (fwp_id m) (fwp_time m) (fwp_values m)) (mt_from_proto (fwp_type m)).

(** metric/unaggregated/types.go:147-153, 174-180, 201-207; metric/aggregated/types.go:179-184, 204-209: into a
    reused message.  On error the message is left half written; it is never sent. *)
Definition cm_to_proto (c : counter) (ms : staged_metadatas) (old : cm_pb_of slice) : option (cm_pb_of slice) :=
  option_map (fun s => mk_cm_pb (counter_to_proto c) s) (sms_to_proto ms (cmp_metas old)).
(** metric/unaggregated/types.go:174-180 [BatchTimerWithMetadatas.ToProto] *)
Definition bm_to_proto (t : batch_timer) (ms : staged_metadatas) (old : bm_pb_of slice)
  : option (bm_pb_of slice) :=
  option_map (fun s => mk_bm_pb (timer_to_proto t) s) (sms_to_proto ms (bmp_metas old)).
(** metric/unaggregated/types.go:201-207 [GaugeWithMetadatas.ToProto] *)
Definition gm_to_proto (g : gauge) (ms : staged_metadatas) (old : gm_pb_of slice) : option (gm_pb_of slice) :=
  option_map (fun s => mk_gm_pb (gauge_to_proto g) s) (sms_to_proto ms (gmp_metas old)).
(** metric/aggregated/types.go:179-184 [ForwardedMetricWithMetadata.ToProto] *)
Definition fwm_to_proto (f : forwarded) (m : forward_metadata) (old : fwm_pb_of slice)
  : option (fwm_pb_of slice) :=
  match forwarded_to_proto f with
  | None => None
  | Some x => option_map (mk_fwm_pb x) (fm_to_proto m (fwmp_meta old))
  end.
(** metric/aggregated/types.go:204-209 [TimedMetricWithMetadata.ToProto] *)
Definition tdm_to_proto (t : timed) (m : timed_metadata) (old : tdm_pb) : option tdm_pb :=
  match timed_to_proto t with
  | None => None
  | Some x => option_map (mk_tdm_pb x) (tm_to_proto m (tdmp_meta old))
  end.

(** The reading direction, into the reused union of the decoder: metric/unaggregated/types.go:156-165, 183-192,
    210-219; metric/aggregated/types.go:187-195, 212-220. A nil message is an error. *)
Definition cm_from_proto (pb : option (cm_pb_of list)) (u : union_of slice) : option (union_of slice) :=
  match pb with
  | None => None
  | Some pb =>
      option_map
        (fun s => mk_union 1 (counter_from_proto (cmp_counter pb)) s (u_timer u) (u_timer_metas u) (u_gauge u)
                    (u_gauge_metas u) (u_forwarded u) (u_forward_meta u) (u_timed u) (u_timed_meta u))
        (sms_from_proto (cmp_metas pb) (u_counter_metas u))
  end.
(** metric/unaggregated/types.go:183-192 [BatchTimerWithMetadatas.FromProto] *)
Definition bm_from_proto (pb : option (bm_pb_of list)) (u : union_of slice) : option (union_of slice) :=
  match pb with
  | None => None
  | Some pb =>
      option_map
        (fun s => mk_union 2 (u_counter u) (u_counter_metas u) (timer_from_proto (bmp_timer pb)) s (u_gauge u)
                    (u_gauge_metas u) (u_forwarded u) (u_forward_meta u) (u_timed u) (u_timed_meta u))
        (sms_from_proto (bmp_metas pb) (u_timer_metas u))
  end.
(** metric/unaggregated/types.go:210-219 [GaugeWithMetadatas.FromProto] *)
Definition gm_from_proto (pb : option (gm_pb_of list)) (u : union_of slice) : option (union_of slice) :=
  match pb with
  | None => None
  | Some pb =>
      option_map
        (fun s => mk_union 3 (u_counter u) (u_counter_metas u) (u_timer u) (u_timer_metas u)
                    (gauge_from_proto (gmp_gauge pb)) s (u_forwarded u) (u_forward_meta u) (u_timed u)
                    (u_timed_meta u))
        (sms_from_proto (gmp_metas pb) (u_gauge_metas u))
  end.
(** metric/aggregated/types.go:187-195 [ForwardedMetricWithMetadata.FromProto] *)
Definition fwm_from_proto (pb : option (fwm_pb_of list)) (u : union_of slice) : option (union_of slice) :=
  match pb with
  | None => None
  | Some pb =>
      match forwarded_from_proto (fwmp_metric pb) with
      | None => None
      | Some f =>
          option_map
            (fun m => mk_union 4 (u_counter u) (u_counter_metas u) (u_timer u) (u_timer_metas u) (u_gauge u)
                        (u_gauge_metas u) f m (u_timed u) (u_timed_meta u))
            (fm_from_proto (fwmp_meta pb) (u_forward_meta u))
      end
  end.
(** metric/aggregated/types.go:212-220 [TimedMetricWithMetadata.FromProto] *)
Definition tdm_from_proto (pb : option tdm_pb) (u : union_of slice) : option (union_of slice) :=
  match pb with
  | None => None
  | Some pb =>
      match timed_from_proto (tdmp_metric pb) with
      | None => None
      | Some t =>
          option_map
            (fun m => mk_union 5 (u_counter u) (u_counter_metas u) (u_timer u) (u_timer_metas u) (u_gauge u)
                        (u_gauge_metas u) (u_forwarded u) (u_forward_meta u) t m)
            (tm_from_proto (tdmp_meta pb) (u_timed_meta u))
      end
  end.
