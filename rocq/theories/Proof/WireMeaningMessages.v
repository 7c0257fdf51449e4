(** The parts of every message of the .proto files. *)
From Coq Require Import Ascii String NArith ZArith Bool Arith Lia List.
From Verif.Base Require Import Bytes BytesFacts.
From Verif.Proof Require Import ProtoWireProof MessagesProof ProtoSafeProof WireProof WireMeaning WireMeaningFields
  WireMeaningParts.
From Verif.Model Require Import Policy Transformation Pipeline Metadata Rules RuleSetProto Namespace ProtoWire Messages
  RuleWire.
From Verif.Spec Require Import WireSpec WireMeaningSpec.
Import ListNotations.
Local Open Scope Z_scope.

Ltac nodup_nums := cbn [nums p_num int_part double_part bytes_part strings_part list_part value_part ptr_part msgs_part ptrs_part msg_part];
  repeat (constructor; [cbn [In]; intuition discriminate|]); constructor.
Ltac one_field := first
  [ apply field_int; intros; reflexivity | apply field_bytes | apply field_double | apply field_doubles | apply field_enums
  | apply field_strings | apply field_msg; auto with wire | apply field_ptr; auto with wire | apply field_msgs; auto with wire
  | apply field_ptrs; auto with wire ].
Ltac good := split; [repeat (constructor; [one_field|]); constructor|nodup_nums].

Ltac in_cases := repeat match goal with
  | H : part_in _ (pcons _ _) |- _ => destruct H as [H|H]; [subst|]
  | H : part_in _ pnil |- _ => destruct H
  end.
Ltac law := constructor;
  [ intros pA IpA xA mA; in_cases; reflexivity
  | intros pA qA IpA IqA NA xA mA; in_cases; first [reflexivity | exfalso; apply NA; reflexivity]
  | intros mA mB HA; rewrite <- all_parts_forall in HA;
    repeat match goal with H : all_parts _ (pcons _ _) |- _ => let E := fresh "E" in destruct H as [E H] end;
    cbn [p_get p_val int_part double_part bytes_part strings_part list_part value_part ptr_part msgs_part ptrs_part msg_part] in *;
    try assumption;
    destruct mA, mB; cbn in *; congruence
  | nodup_nums ].

Lemma and_iff (A A' B B' : Prop) : (A <-> A') -> (B <-> B') -> (A /\ B <-> A' /\ B').
Proof. tauto. Qed.
Lemma forall_last {M} (P : part M -> Prop) (A A' : Prop) : (A <-> A') -> (A /\ all_parts P pnil <-> A').
Proof. intros H. split; [intros [K _]; apply H, K|intros K; split; [apply H, K|exact I]]. Qed.
Lemma forall_cons {M} (P : part M -> Prop) a l (A : Prop) : (P a /\ all_parts P l <-> A) -> (all_parts P (pcons a l) <-> A).
Proof. auto. Qed.

Ltac conv := intros; first [symmetry; apply signed64 | symmetry; apply signed32 | symmetry; apply bool64 | reflexivity].
Ltac one_part Ty :=
  cbn [p_num p_get p_val int_part double_part bytes_part strings_part list_part value_part ptr_part msgs_part ptrs_part msg_part];
  first
  [ eapply iter_int; [conv|exact Ty|reflexivity]
  | eapply iter_double; [exact Ty|reflexivity]
  | eapply iter_bytes; [exact Ty|reflexivity]
  | eapply iter_strings; [exact Ty|reflexivity]
  | eapply iter_list; [exact Ty|reflexivity|solve [auto]]
  | eapply iter_value; [solve [auto with wire]|exact Ty|reflexivity]
  | eapply iter_ptr; [solve [auto with wire]|exact Ty|reflexivity]
  | eapply iter_msgs; [solve [auto with wire]|exact Ty|reflexivity]
  | eapply iter_ptrs; [solve [auto with wire]|exact Ty|reflexivity] ].
Ltac meant_ := split; [reflexivity|]; let Ty := fresh "Ty" in intros l m Ty;
  (etransitivity; [apply runs_iter; [law|exact (typed_in _ _ Ty)]|]);
  cbn [m_means];
  unfold int64_at, int32_at, uint64_at, uint32_at, bool_at, double_at, bytes_at, strings_at;
  repeat (apply forall_cons; first [apply forall_last; one_part Ty | apply and_iff; [one_part Ty|]]).

Definition agg_parts : parts (N) :=
  [int_part 1 (fun v => Z.to_N (u64 v)) (fun v => v) (fun v _ => v)].
Lemma good_agg : good agg_fields agg_parts.
Proof. unfold agg_fields, agg_parts. good. Qed.
Lemma last_map {A B} (f : A -> B) l d : f (last l d) = last (map f l) (f d).
Proof. induction l as [|a l IH]; [reflexivity|]. cbn [map]. rewrite !last_cons. clear IH. revert a. induction l as [|b l IH]; intros a; [reflexivity|].
  cbn [map]. rewrite !last_cons. apply IH. Qed.
Lemma meant_agg : meant AggregationID agg_parts 0%N.
Proof.
  split; [reflexivity|]. intros l m Ty. etransitivity; [apply runs_iter; [unfold agg_parts; law|exact (typed_in _ _ Ty)]|].
  cbn [m_means AggregationID]. unfold uint64_at. rewrite (last_map Z.to_N), map_map. unfold agg_parts. apply forall_cons. apply forall_last. cbn [p_num p_get p_val int_part].
  eapply iter_int; [reflexivity|exact Ty|reflexivity].
Qed.
#[local] Hint Resolve good_agg meant_agg : wire.

Definition resolution_parts : parts (resolution_pb) :=
  [int_part 1 to_int64 rp_window (fun v m => {| rp_window := v; rp_precision := rp_precision m |});
   int_part 2 to_int64 rp_precision (fun v m => {| rp_window := rp_window m; rp_precision := v |})].
Lemma good_resolution : good resolution_fields resolution_parts.
Proof. unfold resolution_fields, resolution_parts. good. Qed.
Lemma meant_resolution : meant Resolution resolution_parts {| rp_window := 0; rp_precision := 0 |}.
Proof. unfold resolution_parts. meant_. Qed.
#[local] Hint Resolve good_resolution meant_resolution : wire.

Definition retention_parts : parts (Z) :=
  [int_part 1 to_int64 (fun v => v) (fun v _ => v)].
Lemma good_retention : good retention_fields retention_parts.
Proof. unfold retention_fields, retention_parts. good. Qed.
Lemma meant_retention : meant Retention retention_parts 0.
Proof. unfold retention_parts. meant_. Qed.
#[local] Hint Resolve good_retention meant_retention : wire.

Definition sp_parts : parts (sp_pb) :=
  [ptr_part 1 resolution_parts {| rp_window := 0; rp_precision := 0 |} spp_resolution
     (fun v m => {| spp_resolution := v; spp_retention := spp_retention m |});
   ptr_part 2 retention_parts 0 spp_retention
     (fun v m => {| spp_resolution := spp_resolution m; spp_retention := v |})].
Lemma good_sp : good sp_fields sp_parts.
Proof. unfold sp_fields, sp_parts. good. Qed.
Lemma meant_sp : meant StoragePolicy sp_parts empty_sp_pb.
Proof. unfold sp_parts. meant_. Qed.
#[local] Hint Resolve good_sp meant_sp : wire.

Definition tf_parts : parts (Z) :=
  [int_part 1 to_int32 (fun v => v) (fun v _ => v)].
Lemma good_tf : good tf_fields tf_parts.
Proof. unfold tf_fields, tf_parts. good. Qed.
Lemma meant_tf : meant TransformationOp tf_parts 0.
Proof. unfold tf_parts. meant_. Qed.
#[local] Hint Resolve good_tf meant_tf : wire.

Definition applied_rollup_parts : parts ((bytes * N)) :=
  [bytes_part 1 fst (fun v m => (v, snd m));
   value_part 2 agg_parts snd (fun v m => (fst m, v))].
Lemma good_applied_rollup : good applied_rollup_fields applied_rollup_parts.
Proof. unfold applied_rollup_fields, applied_rollup_parts. good. Qed.
Lemma meant_applied_rollup : meant AppliedRollupOp applied_rollup_parts ([], 0%N).
Proof. unfold applied_rollup_parts. meant_. Qed.
#[local] Hint Resolve good_applied_rollup meant_applied_rollup : wire.

Definition applied_op_parts : parts (applied_op_pb) :=
  [int_part 1 to_int32 aop_type
     (fun v m => {| aop_type := v; aop_tf := aop_tf m; aop_rollup := aop_rollup m |});
   ptr_part 2 tf_parts 0 aop_tf
     (fun v m => {| aop_type := aop_type m; aop_tf := v; aop_rollup := aop_rollup m |});
   ptr_part 3 applied_rollup_parts ([], 0%N) aop_rollup
     (fun v m => {| aop_type := aop_type m; aop_tf := aop_tf m; aop_rollup := v |})].
Lemma good_applied_op : good applied_op_fields applied_op_parts.
Proof. unfold applied_op_fields, applied_op_parts. good. Qed.
Lemma meant_applied_op : meant AppliedPipelineOp applied_op_parts empty_applied_op_pb.
Proof. unfold applied_op_parts. meant_. Qed.
#[local] Hint Resolve good_applied_op meant_applied_op : wire.

Definition applied_parts : parts ((list applied_op_pb)) :=
  [msgs_part 1 applied_op_parts empty_applied_op_pb (fun v => v) (fun v _ => v)].
Lemma good_applied : good applied_fields applied_parts.
Proof. unfold applied_fields, applied_parts. good. Qed.
Lemma meant_applied : meant AppliedPipeline applied_parts [].
Proof. unfold applied_parts. meant_. Qed.
#[local] Hint Resolve good_applied meant_applied : wire.

Definition pm_parts : parts ((pm_pb_of list)) :=
  [value_part 1 agg_parts pmp_agg (fun v m => mk_pm_pb v (pmp_sps m) (pmp_pipeline m) (pmp_drop m));
   msgs_part 2 sp_parts empty_sp_pb (@pmp_sps list)
     (fun v m => mk_pm_pb (pmp_agg m) v (pmp_pipeline m) (pmp_drop m));
   value_part 3 applied_parts (@pmp_pipeline list)
     (fun v m => mk_pm_pb (pmp_agg m) (pmp_sps m) v (pmp_drop m));
   int_part 4 to_int32 pmp_drop (fun v m => mk_pm_pb (pmp_agg m) (pmp_sps m) (pmp_pipeline m) v)].
Lemma good_pm : good pm_fields pm_parts.
Proof. unfold pm_fields, pm_parts. good. Qed.
Lemma meant_pm : meant PipelineMetadata_ pm_parts zero_pm_pb_l.
Proof. unfold pm_parts. meant_. Qed.
#[local] Hint Resolve good_pm meant_pm : wire.

Definition md_parts : parts ((list (pm_pb_of list))) :=
  [msgs_part 1 pm_parts zero_pm_pb_l (fun v => v) (fun v _ => v)].
Lemma good_md : good md_fields md_parts.
Proof. unfold md_fields, md_parts. good. Qed.
Lemma meant_md : meant Metadata_ md_parts [].
Proof. unfold md_parts. meant_. Qed.
#[local] Hint Resolve good_md meant_md : wire.

Definition sm_parts : parts ((sm_pb_of list)) :=
  [int_part 1 to_int64 (@smp_cutover list) (fun v m => mk_sm_pb v (smp_tombstoned m) (smp_pipelines m));
   int_part 2 (fun v => z2b (conv_bool v)) smp_tombstoned
     (fun v m => mk_sm_pb (smp_cutover m) v (smp_pipelines m));
   value_part 3 md_parts (@smp_pipelines list) (fun v m => mk_sm_pb (smp_cutover m) (smp_tombstoned m) v)].
Lemma good_sm : good sm_fields sm_parts.
Proof. unfold sm_fields, sm_parts. good. Qed.
Lemma meant_sm : meant StagedMetadata_ sm_parts zero_sm_pb_l.
Proof. unfold sm_parts. meant_. Qed.
#[local] Hint Resolve good_sm meant_sm : wire.

Definition sms_parts : parts ((list (sm_pb_of list))) :=
  [msgs_part 1 sm_parts zero_sm_pb_l (fun v => v) (fun v _ => v)].
Lemma good_sms : good sms_fields sms_parts.
Proof. unfold sms_fields, sms_parts. good. Qed.
Lemma meant_sms : meant StagedMetadatas_ sms_parts [].
Proof. unfold sms_parts. meant_. Qed.
#[local] Hint Resolve good_sms meant_sms : wire.

Definition fm_parts : parts ((fm_pb_of list)) :=
  [value_part 1 agg_parts fmp_agg
     (fun v m => mk_fm_pb v (fmp_sp m) (fmp_pipeline m) (fmp_source m) (fmp_times m));
   value_part 2 sp_parts fmp_sp
     (fun v m => mk_fm_pb (fmp_agg m) v (fmp_pipeline m) (fmp_source m) (fmp_times m));
   value_part 3 applied_parts (@fmp_pipeline list)
     (fun v m => mk_fm_pb (fmp_agg m) (fmp_sp m) v (fmp_source m) (fmp_times m));
   int_part 4 u32 fmp_source
     (fun v m => mk_fm_pb (fmp_agg m) (fmp_sp m) (fmp_pipeline m) v (fmp_times m));
   int_part 5 to_int32 fmp_times
     (fun v m => mk_fm_pb (fmp_agg m) (fmp_sp m) (fmp_pipeline m) (fmp_source m) v)].
Lemma good_fm : good fm_fields fm_parts.
Proof. unfold fm_fields, fm_parts. good. Qed.
Lemma meant_fm : meant ForwardMetadata_ fm_parts (mk_fm_pb 0%N empty_sp_pb [] 0 0).
Proof. unfold fm_parts. meant_. Qed.
#[local] Hint Resolve good_fm meant_fm : wire.

Definition tm_parts : parts (tm_pb) :=
  [value_part 1 agg_parts tmp_agg (fun v m => {| tmp_agg := v; tmp_sp := tmp_sp m |});
   value_part 2 sp_parts tmp_sp (fun v m => {| tmp_agg := tmp_agg m; tmp_sp := v |})].
Lemma good_tm : good tm_fields tm_parts.
Proof. unfold tm_fields, tm_parts. good. Qed.
Lemma meant_tm : meant TimedMetadata_ tm_parts {| tmp_agg := 0%N; tmp_sp := empty_sp_pb |}.
Proof. unfold tm_parts. meant_. Qed.
#[local] Hint Resolve good_tm meant_tm : wire.

Definition counter_parts : parts (counter_pb) :=
  [bytes_part 1 cp_id (fun v m => mk_counter_pb v (cp_value m));
   int_part 2 to_int64 cp_value (fun v m => mk_counter_pb (cp_id m) v)].
Lemma good_counter : good counter_fields counter_parts.
Proof. unfold counter_fields, counter_parts. good. Qed.
Lemma meant_counter : meant Counter_ counter_parts zero_counter_pb.
Proof. unfold counter_parts. meant_. Qed.
#[local] Hint Resolve good_counter meant_counter : wire.

Definition timer_parts : parts (timer_pb) :=
  [bytes_part 1 tip_id (fun v m => mk_timer_pb v (tip_values m));
   list_part 2 SomeDoubles tip_values (fun v m => mk_timer_pb (tip_id m) v)].
Lemma good_timer : good timer_fields timer_parts.
Proof. unfold timer_fields, timer_parts. good. Qed.
Lemma meant_timer : meant BatchTimer_ timer_parts zero_timer_pb.
Proof. unfold timer_parts. meant_. Qed.
#[local] Hint Resolve good_timer meant_timer : wire.

Definition gauge_parts : parts (gauge_pb) :=
  [bytes_part 1 gp_id (fun v m => mk_gauge_pb v (gp_value m));
   double_part 2 gp_value (fun v m => mk_gauge_pb (gp_id m) v)].
Lemma good_gauge : good gauge_fields gauge_parts.
Proof. unfold gauge_fields, gauge_parts. good. Qed.
Lemma meant_gauge : meant Gauge_ gauge_parts zero_gauge_pb.
Proof. unfold gauge_parts. meant_. Qed.
#[local] Hint Resolve good_gauge meant_gauge : wire.

Definition timed_parts : parts (timed_pb) :=
  [int_part 1 to_int32 tdp_type (fun v m => mk_timed_pb v (tdp_id m) (tdp_time m) (tdp_value m));
   bytes_part 2 tdp_id (fun v m => mk_timed_pb (tdp_type m) v (tdp_time m) (tdp_value m));
   int_part 3 to_int64 tdp_time (fun v m => mk_timed_pb (tdp_type m) (tdp_id m) v (tdp_value m));
   double_part 4 tdp_value (fun v m => mk_timed_pb (tdp_type m) (tdp_id m) (tdp_time m) v)].
Lemma good_timed : good timed_fields timed_parts.
Proof. unfold timed_fields, timed_parts. good. Qed.
Lemma meant_timed : meant TimedMetric_ timed_parts zero_timed_pb.
Proof. unfold timed_parts. meant_. Qed.
#[local] Hint Resolve good_timed meant_timed : wire.

Definition forwarded_parts : parts (forwarded_pb) :=
  [int_part 1 to_int32 fwp_type (fun v m => mk_forwarded_pb v (fwp_id m) (fwp_time m) (fwp_values m));
   bytes_part 2 fwp_id (fun v m => mk_forwarded_pb (fwp_type m) v (fwp_time m) (fwp_values m));
   int_part 3 to_int64 fwp_time (fun v m => mk_forwarded_pb (fwp_type m) (fwp_id m) v (fwp_values m));
   list_part 4 SomeDoubles fwp_values (fun v m => mk_forwarded_pb (fwp_type m) (fwp_id m) (fwp_time m) v)].
Lemma good_forwarded : good forwarded_fields forwarded_parts.
Proof. unfold forwarded_fields, forwarded_parts. good. Qed.
Lemma meant_forwarded : meant ForwardedMetric_ forwarded_parts zero_forwarded_pb.
Proof. unfold forwarded_parts. meant_. Qed.
#[local] Hint Resolve good_forwarded meant_forwarded : wire.

Definition cm_parts : parts ((cm_pb_of list)) :=
  [value_part 1 counter_parts cmp_counter (fun v m => mk_cm_pb v (cmp_metas m));
   value_part 2 sms_parts (@cmp_metas list) (fun v m => mk_cm_pb (cmp_counter m) v)].
Lemma good_cm : good cm_fields cm_parts.
Proof. unfold cm_fields, cm_parts. good. Qed.
Lemma meant_cm : meant CounterWithMetadatas_ cm_parts zero_cm_pb.
Proof. unfold cm_parts. meant_. Qed.
#[local] Hint Resolve good_cm meant_cm : wire.

Definition bm_parts : parts ((bm_pb_of list)) :=
  [value_part 1 timer_parts bmp_timer (fun v m => mk_bm_pb v (bmp_metas m));
   value_part 2 sms_parts (@bmp_metas list) (fun v m => mk_bm_pb (bmp_timer m) v)].
Lemma good_bm : good bm_fields bm_parts.
Proof. unfold bm_fields, bm_parts. good. Qed.
Lemma meant_bm : meant BatchTimerWithMetadatas_ bm_parts zero_bm_pb.
Proof. unfold bm_parts. meant_. Qed.
#[local] Hint Resolve good_bm meant_bm : wire.

Definition gm_parts : parts ((gm_pb_of list)) :=
  [value_part 1 gauge_parts gmp_gauge (fun v m => mk_gm_pb v (gmp_metas m));
   value_part 2 sms_parts (@gmp_metas list) (fun v m => mk_gm_pb (gmp_gauge m) v)].
Lemma good_gm : good gm_fields gm_parts.
Proof. unfold gm_fields, gm_parts. good. Qed.
Lemma meant_gm : meant GaugeWithMetadatas_ gm_parts zero_gm_pb.
Proof. unfold gm_parts. meant_. Qed.
#[local] Hint Resolve good_gm meant_gm : wire.

Definition fwm_parts : parts ((fwm_pb_of list)) :=
  [value_part 1 forwarded_parts fwmp_metric (fun v m => mk_fwm_pb v (fwmp_meta m));
   value_part 2 fm_parts fwmp_meta (fun v m => mk_fwm_pb (fwmp_metric m) v)].
Lemma good_fwm : good fwm_fields fwm_parts.
Proof. unfold fwm_fields, fwm_parts. good. Qed.
Lemma meant_fwm : meant ForwardedMetricWithMetadata_ fwm_parts zero_fwm_pb.
Proof. unfold fwm_parts. meant_. Qed.
#[local] Hint Resolve good_fwm meant_fwm : wire.

Definition tdm_parts : parts (tdm_pb) :=
  [value_part 1 timed_parts tdmp_metric (fun v m => mk_tdm_pb v (tdmp_meta m));
   value_part 2 tm_parts tdmp_meta (fun v m => mk_tdm_pb (tdmp_metric m) v)].
Lemma good_tdm : good tdm_fields tdm_parts.
Proof. unfold tdm_fields, tdm_parts. good. Qed.
Lemma meant_tdm : meant TimedMetricWithMetadata_ tdm_parts zero_tdm_pb.
Proof. unfold tdm_parts. meant_. Qed.
#[local] Hint Resolve good_tdm meant_tdm : wire.

Definition mm_parts : parts (mm_pb) :=
  [int_part 1 to_int32 mm_type
     (fun v m => mk_mm v (mm_counter m) (mm_timer m) (mm_gauge m) (mm_forwarded m) (mm_timed m));
   ptr_part 2 cm_parts zero_cm_pb mm_counter
     (fun v m => mk_mm (mm_type m) v (mm_timer m) (mm_gauge m) (mm_forwarded m) (mm_timed m));
   ptr_part 3 bm_parts zero_bm_pb mm_timer
     (fun v m => mk_mm (mm_type m) (mm_counter m) v (mm_gauge m) (mm_forwarded m) (mm_timed m));
   ptr_part 4 gm_parts zero_gm_pb mm_gauge
     (fun v m => mk_mm (mm_type m) (mm_counter m) (mm_timer m) v (mm_forwarded m) (mm_timed m));
   ptr_part 5 fwm_parts zero_fwm_pb mm_forwarded
     (fun v m => mk_mm (mm_type m) (mm_counter m) (mm_timer m) (mm_gauge m) v (mm_timed m));
   ptr_part 6 tdm_parts zero_tdm_pb mm_timed
     (fun v m => mk_mm (mm_type m) (mm_counter m) (mm_timer m) (mm_gauge m) (mm_forwarded m) v)].
Lemma good_mm : good mm_fields mm_parts.
Proof. unfold mm_fields, mm_parts. good. Qed.
Lemma meant_mm : meant MetricWithMetadatas_ mm_parts zero_mm.
Proof. unfold mm_parts. meant_. Qed.
#[local] Hint Resolve good_mm meant_mm : wire.

Definition policy_parts : parts (policy_pb) :=
  [ptr_part 1 sp_parts empty_sp_pb pp_storage (fun v m => {| pp_storage := v; pp_types := pp_types m |});
   list_part 2 SomeEnums pp_types (fun v m => {| pp_storage := pp_storage m; pp_types := v |})].
Lemma good_policy : good policy_fields policy_parts.
Proof. unfold policy_fields, policy_parts. good. Qed.
Lemma meant_policy : meant Policy_ policy_parts zero_policy_pb.
Proof. unfold policy_parts. meant_. Qed.
#[local] Hint Resolve good_policy meant_policy : wire.

Definition agg_op_parts : parts (Z) :=
  [int_part 1 to_int32 (fun v => v) (fun v _ => v)].
Lemma good_agg_op : good agg_op_fields agg_op_parts.
Proof. unfold agg_op_fields, agg_op_parts. good. Qed.
Lemma meant_agg_op : meant AggregationOp agg_op_parts 0.
Proof. unfold agg_op_parts. meant_. Qed.
#[local] Hint Resolve good_agg_op meant_agg_op : wire.

Definition rollup_op_parts : parts (rollup_op_pb) :=
  [bytes_part 1 rop_name (fun v m => {| rop_name := v; rop_tags := rop_tags m; rop_types := rop_types m |});
   strings_part 2 rop_tags (fun v m => {| rop_name := rop_name m; rop_tags := v; rop_types := rop_types m |});
   list_part 3 SomeEnums rop_types (fun v m => {| rop_name := rop_name m; rop_tags := rop_tags m; rop_types := v |})].
Lemma good_rollup_op : good rollup_op_fields rollup_op_parts.
Proof. unfold rollup_op_fields, rollup_op_parts. good. Qed.
Lemma meant_rollup_op : meant RollupOp rollup_op_parts zero_rollup_op_pb.
Proof. unfold rollup_op_parts. meant_. Qed.
#[local] Hint Resolve good_rollup_op meant_rollup_op : wire.

Definition op_parts : parts (op_pb) :=
  [int_part 1 to_int32 opp_type
     (fun v m => {| opp_type := v; opp_agg := opp_agg m; opp_tf := opp_tf m; opp_rollup := opp_rollup m |});
   ptr_part 2 agg_op_parts 0 opp_agg
     (fun v m => {| opp_type := opp_type m; opp_agg := v; opp_tf := opp_tf m; opp_rollup := opp_rollup m |});
   ptr_part 3 tf_parts 0 opp_tf
     (fun v m => {| opp_type := opp_type m; opp_agg := opp_agg m; opp_tf := v; opp_rollup := opp_rollup m |});
   ptr_part 4 rollup_op_parts zero_rollup_op_pb opp_rollup
     (fun v m => {| opp_type := opp_type m; opp_agg := opp_agg m; opp_tf := opp_tf m; opp_rollup := v |})].
Lemma good_op : good op_fields op_parts.
Proof. unfold op_fields, op_parts. good. Qed.
Lemma meant_op : meant PipelineOp op_parts zero_op_pb.
Proof. unfold op_parts. meant_. Qed.
#[local] Hint Resolve good_op meant_op : wire.

Definition pipeline_parts : parts ((list op_pb)) :=
  [msgs_part 1 op_parts zero_op_pb (fun v => v) (fun v _ => v)].
Lemma good_pipeline : good pipeline_fields pipeline_parts.
Proof. unfold pipeline_fields, pipeline_parts. good. Qed.
Lemma meant_pipeline : meant Pipeline_ pipeline_parts [].
Proof. unfold pipeline_parts. meant_. Qed.
#[local] Hint Resolve good_pipeline meant_pipeline : wire.

Definition mapping_snapshot_parts : parts (mapping_snapshot_pb) :=
  [bytes_part 1 msp_name (fun v m => mk_msp v (msp_tomb m) (msp_cutover m) (msp_filter m) (msp_policies m) (msp_at m)
     (msp_by m) (msp_types m) (msp_sps m) (msp_drop m));
   int_part 2 (fun v => z2b (conv_bool v)) msp_tomb (fun v m => mk_msp (msp_name m) v (msp_cutover m)
     (msp_filter m) (msp_policies m) (msp_at m) (msp_by m) (msp_types m) (msp_sps m) (msp_drop m));
   int_part 3 to_int64 msp_cutover (fun v m => mk_msp (msp_name m) (msp_tomb m) v (msp_filter m) (msp_policies m)
     (msp_at m) (msp_by m) (msp_types m) (msp_sps m) (msp_drop m));
   bytes_part 4 msp_filter (fun v m => mk_msp (msp_name m) (msp_tomb m) (msp_cutover m) v (msp_policies m) (msp_at m)
     (msp_by m) (msp_types m) (msp_sps m) (msp_drop m));
   ptrs_part 5 policy_parts zero_policy_pb msp_policies (fun v m => mk_msp (msp_name m) (msp_tomb m) (msp_cutover m)
     (msp_filter m) v (msp_at m) (msp_by m) (msp_types m) (msp_sps m) (msp_drop m));
   int_part 6 to_int64 msp_at (fun v m => mk_msp (msp_name m) (msp_tomb m) (msp_cutover m) (msp_filter m)
     (msp_policies m) v (msp_by m) (msp_types m) (msp_sps m) (msp_drop m));
   bytes_part 7 msp_by (fun v m => mk_msp (msp_name m) (msp_tomb m) (msp_cutover m) (msp_filter m) (msp_policies m)
     (msp_at m) v (msp_types m) (msp_sps m) (msp_drop m));
   list_part 8 SomeEnums msp_types (fun v m => mk_msp (msp_name m) (msp_tomb m) (msp_cutover m) (msp_filter m) (msp_policies m)
     (msp_at m) (msp_by m) v (msp_sps m) (msp_drop m));
   ptrs_part 9 sp_parts empty_sp_pb msp_sps (fun v m => mk_msp (msp_name m) (msp_tomb m) (msp_cutover m) (msp_filter m)
     (msp_policies m) (msp_at m) (msp_by m) (msp_types m) v (msp_drop m));
   int_part 10 to_int32 msp_drop (fun v m => mk_msp (msp_name m) (msp_tomb m) (msp_cutover m) (msp_filter m)
     (msp_policies m) (msp_at m) (msp_by m) (msp_types m) (msp_sps m) v)].
Lemma good_mapping_snapshot : good mapping_snapshot_fields mapping_snapshot_parts.
Proof. unfold mapping_snapshot_fields, mapping_snapshot_parts. good. Qed.
Lemma meant_mapping_snapshot : meant MappingRuleSnapshot mapping_snapshot_parts zero_mapping_snapshot_pb.
Proof. unfold mapping_snapshot_parts. meant_. Qed.
#[local] Hint Resolve good_mapping_snapshot meant_mapping_snapshot : wire.

Definition rule_parts {S} (fs : parts S) (zero : S) : parts ((rule_pb S)) :=
  [bytes_part 1 (@rp_uuid S) (fun v m => mk_rp v (rp_snapshots m));
   ptrs_part 2 fs zero (@rp_snapshots S) (fun v m => mk_rp (rp_uuid m) v)].
Lemma good_rule {S} (fs : list (field S)) (ps : parts S) (zero : S) : good fs ps -> good (rule_fields fs zero) (rule_parts ps zero).
Proof. intros G. unfold rule_fields, rule_parts. good. Qed.
Lemma meant_rule {S} (k : message S) ps (zero : S) : meant k ps zero -> meant (Rule k) (rule_parts ps zero) zero_rule_pb.
Proof. intros Me. unfold rule_parts. meant_. Qed.
#[local] Hint Resolve good_rule meant_rule : wire.

Definition target_v1_parts : parts (target_v1_pb) :=
  [bytes_part 1 t1p_name (fun v m => mk_t1p v (t1p_tags m) (t1p_policies m));
   strings_part 2 t1p_tags (fun v m => mk_t1p (t1p_name m) v (t1p_policies m));
   ptrs_part 3 policy_parts zero_policy_pb t1p_policies (fun v m => mk_t1p (t1p_name m) (t1p_tags m) v)].
Lemma good_target_v1 : good target_v1_fields target_v1_parts.
Proof. unfold target_v1_fields, target_v1_parts. good. Qed.
Lemma meant_target_v1 : meant RollupTarget target_v1_parts zero_target_v1_pb.
Proof. unfold target_v1_parts. meant_. Qed.
#[local] Hint Resolve good_target_v1 meant_target_v1 : wire.

Definition target_v2_parts : parts (target_v2_pb) :=
  [ptr_part 1 pipeline_parts [] t2p_pipeline (fun v m => mk_t2p v (t2p_sps m));
   ptrs_part 2 sp_parts empty_sp_pb t2p_sps (fun v m => mk_t2p (t2p_pipeline m) v)].
Lemma good_target_v2 : good target_v2_fields target_v2_parts.
Proof. unfold target_v2_fields, target_v2_parts. good. Qed.
Lemma meant_target_v2 : meant RollupTargetV2 target_v2_parts zero_target_v2_pb.
Proof. unfold target_v2_parts. meant_. Qed.
#[local] Hint Resolve good_target_v2 meant_target_v2 : wire.

Definition rollup_snapshot_parts : parts (rollup_snapshot_pb) :=
  [bytes_part 1 rsp_name (fun v m => mk_rsp v (rsp_tomb m) (rsp_cutover m) (rsp_filter m) (rsp_targets m) (rsp_at m)
     (rsp_by m) (rsp_targets_v2 m));
   int_part 2 (fun v => z2b (conv_bool v)) rsp_tomb (fun v m => mk_rsp (rsp_name m) v (rsp_cutover m)
     (rsp_filter m) (rsp_targets m) (rsp_at m) (rsp_by m) (rsp_targets_v2 m));
   int_part 3 to_int64 rsp_cutover (fun v m => mk_rsp (rsp_name m) (rsp_tomb m) v (rsp_filter m) (rsp_targets m)
     (rsp_at m) (rsp_by m) (rsp_targets_v2 m));
   bytes_part 4 rsp_filter (fun v m => mk_rsp (rsp_name m) (rsp_tomb m) (rsp_cutover m) v (rsp_targets m) (rsp_at m)
     (rsp_by m) (rsp_targets_v2 m));
   ptrs_part 5 target_v1_parts zero_target_v1_pb rsp_targets (fun v m => mk_rsp (rsp_name m) (rsp_tomb m)
     (rsp_cutover m) (rsp_filter m) v (rsp_at m) (rsp_by m) (rsp_targets_v2 m));
   int_part 6 to_int64 rsp_at (fun v m => mk_rsp (rsp_name m) (rsp_tomb m) (rsp_cutover m) (rsp_filter m)
     (rsp_targets m) v (rsp_by m) (rsp_targets_v2 m));
   bytes_part 7 rsp_by (fun v m => mk_rsp (rsp_name m) (rsp_tomb m) (rsp_cutover m) (rsp_filter m) (rsp_targets m)
     (rsp_at m) v (rsp_targets_v2 m));
   ptrs_part 8 target_v2_parts zero_target_v2_pb rsp_targets_v2 (fun v m => mk_rsp (rsp_name m) (rsp_tomb m)
     (rsp_cutover m) (rsp_filter m) (rsp_targets m) (rsp_at m) (rsp_by m) v)].
Lemma good_rollup_snapshot : good rollup_snapshot_fields rollup_snapshot_parts.
Proof. unfold rollup_snapshot_fields, rollup_snapshot_parts. good. Qed.
Lemma meant_rollup_snapshot : meant RollupRuleSnapshot rollup_snapshot_parts zero_rollup_snapshot_pb.
Proof. unfold rollup_snapshot_parts. meant_. Qed.
#[local] Hint Resolve good_rollup_snapshot meant_rollup_snapshot : wire.

Definition rule_set_parts : parts (rule_set_pb) :=
  [bytes_part 1 rsetp_uuid (fun v m => mk_rsetp v (rsetp_namespace m) (rsetp_created m) (rsetp_updated m) (rsetp_tomb m)
     (rsetp_cutover m) (rsetp_mapping m) (rsetp_rollup m) (rsetp_by m));
   bytes_part 2 rsetp_namespace (fun v m => mk_rsetp (rsetp_uuid m) v (rsetp_created m) (rsetp_updated m) (rsetp_tomb m)
     (rsetp_cutover m) (rsetp_mapping m) (rsetp_rollup m) (rsetp_by m));
   int_part 3 to_int64 rsetp_created (fun v m => mk_rsetp (rsetp_uuid m) (rsetp_namespace m) v (rsetp_updated m)
     (rsetp_tomb m) (rsetp_cutover m) (rsetp_mapping m) (rsetp_rollup m) (rsetp_by m));
   int_part 4 to_int64 rsetp_updated (fun v m => mk_rsetp (rsetp_uuid m) (rsetp_namespace m) (rsetp_created m) v
     (rsetp_tomb m) (rsetp_cutover m) (rsetp_mapping m) (rsetp_rollup m) (rsetp_by m));
   int_part 5 (fun v => z2b (conv_bool v)) rsetp_tomb (fun v m => mk_rsetp (rsetp_uuid m) (rsetp_namespace m)
     (rsetp_created m) (rsetp_updated m) v (rsetp_cutover m) (rsetp_mapping m) (rsetp_rollup m) (rsetp_by m));
   int_part 6 to_int64 rsetp_cutover (fun v m => mk_rsetp (rsetp_uuid m) (rsetp_namespace m) (rsetp_created m)
     (rsetp_updated m) (rsetp_tomb m) v (rsetp_mapping m) (rsetp_rollup m) (rsetp_by m));
   ptrs_part 7 (rule_parts mapping_snapshot_parts zero_mapping_snapshot_pb) zero_rule_pb rsetp_mapping
     (fun v m => mk_rsetp (rsetp_uuid m) (rsetp_namespace m) (rsetp_created m) (rsetp_updated m) (rsetp_tomb m)
     (rsetp_cutover m) v (rsetp_rollup m) (rsetp_by m));
   ptrs_part 8 (rule_parts rollup_snapshot_parts zero_rollup_snapshot_pb) zero_rule_pb rsetp_rollup
     (fun v m => mk_rsetp (rsetp_uuid m) (rsetp_namespace m) (rsetp_created m) (rsetp_updated m) (rsetp_tomb m)
     (rsetp_cutover m) (rsetp_mapping m) v (rsetp_by m));
   bytes_part 9 rsetp_by (fun v m => mk_rsetp (rsetp_uuid m) (rsetp_namespace m) (rsetp_created m) (rsetp_updated m)
     (rsetp_tomb m) (rsetp_cutover m) (rsetp_mapping m) (rsetp_rollup m) v)].
Lemma good_rule_set : good rule_set_fields rule_set_parts.
Proof. unfold rule_set_fields, rule_set_parts. good. Qed.
Lemma meant_rule_set : meant RuleSet_ rule_set_parts zero_rule_set_pb.
Proof. unfold rule_set_parts. meant_. Qed.
#[local] Hint Resolve good_rule_set meant_rule_set : wire.

Definition ns_snapshot_parts : parts (ns_snapshot_pb) :=
  [int_part 1 to_int32 nssp_version (fun v m => mk_nssp v (nssp_tomb m) (nssp_at m) (nssp_by m));
   int_part 2 (fun v => z2b (conv_bool v)) nssp_tomb
     (fun v m => mk_nssp (nssp_version m) v (nssp_at m) (nssp_by m));
   int_part 3 to_int64 nssp_at (fun v m => mk_nssp (nssp_version m) (nssp_tomb m) v (nssp_by m));
   bytes_part 4 nssp_by (fun v m => mk_nssp (nssp_version m) (nssp_tomb m) (nssp_at m) v)].
Lemma good_ns_snapshot : good ns_snapshot_fields ns_snapshot_parts.
Proof. unfold ns_snapshot_fields, ns_snapshot_parts. good. Qed.
Lemma meant_ns_snapshot : meant NamespaceSnapshot_ ns_snapshot_parts zero_ns_snapshot_pb.
Proof. unfold ns_snapshot_parts. meant_. Qed.
#[local] Hint Resolve good_ns_snapshot meant_ns_snapshot : wire.

Definition namespace_parts : parts (namespace_pb) :=
  [bytes_part 1 nsp_name (fun v m => mk_nsp v (nsp_snapshots m));
   ptrs_part 2 ns_snapshot_parts zero_ns_snapshot_pb nsp_snapshots (fun v m => mk_nsp (nsp_name m) v)].
Lemma good_namespace : good namespace_fields namespace_parts.
Proof. unfold namespace_fields, namespace_parts. good. Qed.
Lemma meant_namespace : meant Namespace_ namespace_parts zero_namespace_pb.
Proof. unfold namespace_parts. meant_. Qed.
#[local] Hint Resolve good_namespace meant_namespace : wire.

Definition namespaces_parts : parts (namespaces_pb) :=
  [ptrs_part 1 namespace_parts zero_namespace_pb (fun v => v) (fun v _ => v)].
Lemma good_namespaces : good namespaces_fields namespaces_parts.
Proof. unfold namespaces_fields, namespaces_parts. good. Qed.
Lemma meant_namespaces : meant Namespaces_ namespaces_parts [].
Proof. unfold namespaces_parts. meant_. Qed.
#[local] Hint Resolve good_namespaces meant_namespaces : wire.


(** A decoder that is reused starts from a message that was reset. *)

Lemma runs_mm_reset l old m' : typed (table_of mm_parts) l ->
  (runs mm_parts l (reset_mm old) m' <-> exists m, m_means MetricWithMetadatas_ l m /\
    m' = mk_mm (mm_type m) (or_reset zero_cm_pb (mm_counter old) (mm_counter m)) (or_reset zero_bm_pb (mm_timer old) (mm_timer m))
           (or_reset zero_gm_pb (mm_gauge old) (mm_gauge m)) (or_reset zero_fwm_pb (mm_forwarded old) (mm_forwarded m))
           (or_reset zero_tdm_pb (mm_timed old) (mm_timed m))).
Proof.
  intros Ty.
  assert (forall {S} (zero : S) old (f : S -> S), (forall s, f s = zero) -> option_map f old = None \/ option_map f old = Some zero) as Z0.
  { intros S zero [s|] f F; [right; cbn; rewrite F; reflexivity|left; reflexivity]. }
  assert (forall {S} (zero : S) old (f : S -> S) o, (forall s, f s = zero) ->
    match o with None => option_map f old | Some _ => o end = or_reset zero old o) as Z1.
  { intros S zero [s|] f [x|] F; cbn; rewrite ?F; reflexivity. }
  transitivity (all_parts (fun p => iter (p_step p) (occurrences (p_num p) l) (p_get p (reset_mm old)) (p_get p m')) mm_parts).
  { apply runs_iter; [unfold mm_parts; law|exact (typed_in _ _ Ty)]. }
  unfold mm_parts. cbn [all_parts p_num p_get p_val int_part ptr_part msg_part reset_mm mm_type mm_counter mm_timer mm_gauge mm_forwarded mm_timed].
  split.
  - intros (I1 & I2 & I3 & I4 & I5 & I6 & _).
    eapply iter_int in I1; [|intros; symmetry; apply signed32|exact Ty|reflexivity].
    eapply iter_ptr_reset in I2 as (o2 & P2 & E2); [|exact meant_cm|exact Ty|reflexivity|apply Z0; reflexivity].
    eapply iter_ptr_reset in I3 as (o3 & P3 & E3); [|exact meant_bm|exact Ty|reflexivity|apply Z0; reflexivity].
    eapply iter_ptr_reset in I4 as (o4 & P4 & E4); [|exact meant_gm|exact Ty|reflexivity|apply Z0; reflexivity].
    eapply iter_ptr_reset in I5 as (o5 & P5 & E5); [|exact meant_fwm|exact Ty|reflexivity|apply Z0; reflexivity].
    eapply iter_ptr_reset in I6 as (o6 & P6 & E6); [|exact meant_tdm|exact Ty|reflexivity|apply Z0; reflexivity].
    exists (mk_mm (mm_type m') o2 o3 o4 o5 o6). split; [split; [exact I1|]; repeat (split; [assumption|]); assumption|].
    cbn [mm_type mm_counter mm_timer mm_gauge mm_forwarded mm_timed].
    rewrite (Z1 _ zero_cm_pb) in E2 by reflexivity. rewrite (Z1 _ zero_bm_pb) in E3 by reflexivity.
    rewrite (Z1 _ zero_gm_pb) in E4 by reflexivity. rewrite (Z1 _ zero_fwm_pb) in E5 by reflexivity.
    rewrite (Z1 _ zero_tdm_pb) in E6 by reflexivity. destruct m' as [a b c d e f]. cbn in *. congruence.
  - intros (m & (P1 & P2 & P3 & P4 & P5 & P6) & ->). cbn [mm_type mm_counter mm_timer mm_gauge mm_forwarded mm_timed].
    repeat split.
    + eapply iter_int; [intros; symmetry; apply signed32|exact Ty|reflexivity|exact P1].
    + eapply iter_ptr_reset; [exact meant_cm|exact Ty|reflexivity|apply Z0; reflexivity|]. exists (mm_counter m). split; [exact P2|symmetry; apply Z1; reflexivity].
    + eapply iter_ptr_reset; [exact meant_bm|exact Ty|reflexivity|apply Z0; reflexivity|]. exists (mm_timer m). split; [exact P3|symmetry; apply Z1; reflexivity].
    + eapply iter_ptr_reset; [exact meant_gm|exact Ty|reflexivity|apply Z0; reflexivity|]. exists (mm_gauge m). split; [exact P4|symmetry; apply Z1; reflexivity].
    + eapply iter_ptr_reset; [exact meant_fwm|exact Ty|reflexivity|apply Z0; reflexivity|]. exists (mm_forwarded m). split; [exact P5|symmetry; apply Z1; reflexivity].
    + eapply iter_ptr_reset; [exact meant_tdm|exact Ty|reflexivity|apply Z0; reflexivity|]. exists (mm_timed m). split; [exact P6|symmetry; apply Z1; reflexivity].
Qed.

Lemma no_overflow_check d : (zlen d + 9 <? 2 ^ 63) && small_at (2 ^ 63 - 1 - zlen d) d = true -> ProtoStreamSpec.no_overflow d.
Proof.
  intros H. apply andb_true_iff in H as [H1 H2]. apply Z.ltb_lt in H1. split; [exact H1|]. intros p s v r E D.
  pose proof (small_at_ok _ d H2 p s v r E D). lia.
Qed.
