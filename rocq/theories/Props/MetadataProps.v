(** C09, C10, C18-C22, C56, C57: transformations, pipelines and metadata. *)
From Coq Require Import Ascii String NArith ZArith Bool Lia SpecFloat Sorting Permutation List.
From Verif.Base Require Import Bytes BytesFacts Slice.
From Verif.Model Require Import AggType Policy Transformation Pipeline Metadata LegacyConvert.
From Verif.Spec Require Import AggSpec PolicySpec MetadataSpec.
From Verif.Proof Require Import AggProof PolicyProof MetadataProof.
Import ListNotations.
Open Scope Z_scope.

(** C09 *)
Theorem C09_drop_priority : forall ms : list pipeline_metadata,
  valid_drops ms ->
  resolved ms (fst (pms_apply_drop ms)) /\
  (snd (pms_apply_drop ms) = AppliedEffectiveDropPolicy <-> drop_effective ms).
Proof. exact pms_apply_drop_resolved. Qed.
Print Assumptions C09_drop_priority.

Theorem C09_idempotent : forall ms : list pipeline_metadata,
  valid_drops ms ->
  fst (pms_apply_drop (fst (pms_apply_drop ms))) = fst (pms_apply_drop ms).
Proof.
  exact (fun ms H =>
    let R := proj1 (pms_apply_drop_resolved ms H) in
    let I := resolved_idem ms _ H R in
    resolved_unique _ _ _ (proj1 (pms_apply_drop_resolved _ (proj1 I))) (proj2 I)).
Qed.
Print Assumptions C09_idempotent.

Theorem C09_never_empty : forall ms : list pipeline_metadata,
  valid_drops ms -> (fst (pms_apply_drop ms) = [] <-> ms = []).
Proof. exact (fun ms H => resolved_nonempty ms _ H (proj1 (pms_apply_drop_resolved ms H))). Qed.
Print Assumptions C09_never_empty.

Example C09_nonvacuous :
  let p a d : pipeline_metadata := mk_pm a [] [] d in
  valid_drops [p 1%N 0; p 2%N 2; p 3%N 0; p 4%N 2] /\
  pms_apply_drop [p 1%N 0; p 2%N 2; p 3%N 0; p 4%N 2] = ([p 1%N 0; p 3%N 0], RemovedIneffectiveDropPolicies) /\
  pms_apply_drop [p 1%N 2; p 2%N 2] = ([p 0%N 1], AppliedEffectiveDropPolicy) /\
  pms_apply_drop [p 1%N 0; p 2%N 1] = ([p 0%N 1], AppliedEffectiveDropPolicy).
Proof.
  split; [|vm_compute; auto]. intros m Hm; simpl in Hm; intuition (subst; simpl; lia).
Qed.

(** Outside the three known drop policies the last sentence of C09 fails: a list can become empty. *)
Example C09_invalid_policy_empties :
  pms_apply_drop [mk_pm 1%N [] [] 2; mk_pm 2%N [] [] 3] = ([], RemovedIneffectiveDropPolicies).
Proof. vm_compute; reflexivity. Qed.

(** C10 *)
Theorem C10_all_stages_drop : forall sms : staged_metadatas,
  sms <> [] -> Forall (fun s => valid_drops (sm_pipelines s)) sms ->
  (forall s, In s sms -> drop_effective (sm_pipelines s)) ->
  exists s, In s sms /\ (forall s', In s' sms -> sm_cutover s <= sm_cutover s') /\
    sms_apply_drop sms =
      ([mk_sm [mk_pm 0%N [] [] 1] (sm_cutover s) (sm_tombstoned s)], AppliedEffectiveDropPolicy).
Proof. exact sms_apply_drop_all. Qed.
Print Assumptions C10_all_stages_drop.

Theorem C10_some_stage_survives : forall sms : staged_metadatas,
  Forall (fun s => valid_drops (sm_pipelines s)) sms ->
  ~ (sms <> [] /\ forall s, In s sms -> drop_effective (sm_pipelines s)) ->
  exists r, sms_apply_drop sms = (r, RemovedIneffectiveDropPolicies) /\ survivors sms r.
Proof.
  exact (fun sms H N => ex_intro _ _ (conj (sms_apply_drop_some sms H N) (sms_apply_drop_survivors sms H))).
Qed.
Print Assumptions C10_some_stage_survives.

Example C10_nonvacuous :
  let p a d : pipeline_metadata := mk_pm a [] [] d in
  sms_apply_drop [mk_sm [p 1%N 1] 10 false; mk_sm [p 2%N 0; p 3%N 2] 20 true; mk_sm [p 4%N 2] 5 false]
    = ([mk_sm [p 2%N 0] 20 true], RemovedIneffectiveDropPolicies) /\
  sms_apply_drop [mk_sm [p 1%N 1] 10 false; mk_sm [p 4%N 2] 5 true; mk_sm [p 4%N 2] 7 true]
    = ([mk_sm [p 0%N 1] 5 true], AppliedEffectiveDropPolicy).
Proof. vm_compute; auto. Qed.

(** C18 *)
Theorem C18_pipeline_equality : forall p q : pipeline,
  pipeline_equal p q = true <-> Forall2 op_same p q.
Proof. exact pipeline_equal_spec. Qed.
Print Assumptions C18_pipeline_equality.

Theorem C18_pipeline_equivalence :
  (forall p, pipeline_equal p p = true) /\
  (forall p q, pipeline_equal p q = true -> pipeline_equal q p = true) /\
  (forall p q r, pipeline_equal p q = true -> pipeline_equal q r = true -> pipeline_equal p r = true) /\
  (forall p, pipeline_equal (pipeline_clone p) p = true).
Proof.
  split; [|split; [|split]].
  - intros p; apply pipeline_equal_spec, Forall2_same, op_same_refl.
  - intros p q; rewrite !pipeline_equal_spec; apply Forall2_flip_sym, op_same_sym.
  - intros p q r; rewrite !pipeline_equal_spec; intros H; revert r; apply Forall2_trans_; [exact op_same_trans|exact H].
  - exact pipeline_clone_equal.
Qed.
Print Assumptions C18_pipeline_equivalence.

Theorem C18_applied_equality : forall p q : applied_pipeline,
  applied_equal p q = true <-> Forall2 applied_op_same p q.
Proof. exact applied_equal_spec. Qed.
Print Assumptions C18_applied_equality.

Theorem C18_applied_equivalence :
  (forall p, applied_equal p p = true) /\
  (forall p q, applied_equal p q = true -> applied_equal q p = true) /\
  (forall p q r, applied_equal p q = true -> applied_equal q r = true -> applied_equal p r = true) /\
  (forall p, applied_equal (applied_clone p) p = true).
Proof.
  split; [|split; [|split]].
  - intros p; apply applied_equal_spec, Forall2_same, applied_op_same_refl.
  - intros p q; rewrite !applied_equal_spec; apply Forall2_flip_sym, applied_op_same_sym.
  - intros p q r; rewrite !applied_equal_spec; intros H; revert r; apply Forall2_trans_; [exact applied_op_same_trans|exact H].
  - exact applied_clone_equal.
Qed.
Print Assumptions C18_applied_equivalence.

Theorem C18_sub_pipeline : forall (p q r : pipeline),
  sub_pipeline (p ++ q ++ r) (length p) (length p + length q) = q.
Proof. exact sub_pipeline_app. Qed.
Print Assumptions C18_sub_pipeline.

Example C18_nonvacuous :
  let ro tags := {| op_kind := 3; op_agg := 0; op_tf := 0;
                    op_rollup := {| ro_name := B "name"; ro_tags := tags; ro_agg := 4%N |} |} in
  pipeline_equal [ro [B "b"; B "a"; B "a"]] [ro [B "a"; B "b"; B "a"]] = true /\
  pipeline_equal [ro [B "b"; B "a"; B "a"]] [ro [B "b"; B "b"; B "a"]] = false.
Proof. vm_compute; auto. Qed.

(** C19 *)
Theorem C19_pipeline_proto : forall p : pipeline,
  Forall op_valid p ->
  exists pb q, pipeline_proto p = Some pb /\ new_pipeline_from_proto (Some pb) = Some q /\
    Forall2 op_same q p /\
    Forall (fun b => op_canonical b /\ StronglySorted (fun x y => bleb x y = true) (ro_tags (op_rollup b))) q.
Proof. exact pipeline_proto_roundtrip. Qed.
Print Assumptions C19_pipeline_proto.

Theorem C19_unknown_codes : forall ops : list op_pb,
  (exists p, new_pipeline_from_proto (Some ops) = Some p) <-> Forall op_pb_ok ops.
Proof. exact new_pipeline_from_proto_ok. Qed.
Print Assumptions C19_unknown_codes.

(** Writing: an operation is refused exactly when it is not valid; an aggregation operation with the
    unknown type 0 is written, and refused when read. *)
Theorem C19_invalid_operations : forall a : op,
  (forall t, op_agg a = t -> - 2 ^ 31 <= t < 2 ^ 31) -> (ro_agg (op_rollup a) < 2 ^ 64)%N ->
  (op_proto a = None <-> ~ (op_valid a \/ (op_kind a = AggregationOp /\ op_agg a = 0))).
Proof. exact op_proto_err. Qed.
Print Assumptions C19_invalid_operations.

Theorem C19_marshaler : forall a : op,
  (op_kind a = 1 \/ op_kind a = 2 \/ op_kind a = 3 ->
   exists m, new_union_marshaler a = Some m /\ union_marshaler_op m = Some (op_clone a)) /\
  (new_union_marshaler a = None <-> ~ (op_kind a = 1 \/ op_kind a = 2 \/ op_kind a = 3)).
Proof. exact (fun a => conj (union_marshaler_roundtrip a) (union_marshaler_err a)). Qed.
Print Assumptions C19_marshaler.

Example C19_nonvacuous :
  let p := [ {| op_kind := 1; op_agg := 7; op_tf := 0; op_rollup := empty_rollup_op |};
             {| op_kind := 2; op_agg := 0; op_tf := 2; op_rollup := empty_rollup_op |};
             {| op_kind := 3; op_agg := 0; op_tf := 0;
                op_rollup := {| ro_name := B "n"; ro_tags := [B "b"; B "a"]; ro_agg := 130%N |} |} ] in
  Forall op_valid p /\
  option_map (map (fun a => ro_tags (op_rollup a)))
    (match pipeline_proto p with Some pb => new_pipeline_from_proto (Some pb) | None => None end)
  = Some [[]; []; [B "a"; B "b"]].
Proof.
  split; [|vm_compute; reflexivity].
  constructor; [left; split; [reflexivity|vm_compute; split; discriminate]|].
  constructor; [right; left; split; [reflexivity|right; reflexivity]|].
  constructor; [right; right; split; [reflexivity|]|constructor].
  cbn [op_rollup ro_agg]; split; [reflexivity|]. apply decompress_ok_iff; [reflexivity|].
  eexists; vm_compute; reflexivity.
Qed.

(** C20 *)
Theorem C20_staged_metadatas_proto : forall l : staged_metadatas, Forall sm_ok l ->
  forall old_pb, exists pb, sms_to_proto l old_pb = Some pb /\
  forall old, exists v, sms_from_proto (map sm_pb_content (s_elems pb)) old = Some v /\
    map sm_content (s_elems v) = l.
Proof. exact sms_roundtrip. Qed.
Print Assumptions C20_staged_metadatas_proto.

Theorem C20_forward_metadata_proto : forall m : forward_metadata,
  sp_ok (fm_sp m) -> Forall applied_op_valid (fm_pipeline m) -> - 2 ^ 31 <= fm_times m < 2 ^ 31 ->
  forall old_pb, exists pb, fm_to_proto m old_pb = Some pb /\
  forall old, exists v, fm_from_proto (fm_pb_content pb) old = Some v /\ fm_content v = m.
Proof. exact fm_roundtrip. Qed.
Print Assumptions C20_forward_metadata_proto.

Theorem C20_timed_metadata_proto : forall m : timed_metadata,
  sp_ok (tm_sp m) ->
  forall old_pb, exists pb, tm_to_proto m old_pb = Some pb /\ forall old, tm_from_proto pb old = Some m.
Proof. exact tm_roundtrip. Qed.
Print Assumptions C20_timed_metadata_proto.

Example C20_forward_count_truncated :
  let m : forward_metadata :=
    mk_fm 0%N {| sp_resolution := {| r_window := 1; r_precision := 1 |}; sp_retention := 1 |} [] 7 (2 ^ 31) in
  match fm_to_proto m (mk_fm_pb 0%N empty_sp_pb nil_slice 0 0) with
  | Some pb => option_map (fun v => fm_times (fm_content v))
                 (fm_from_proto (fm_pb_content pb) (mk_fm 0%N empty_storage_policy nil_slice 0 0))
  | None => None
  end = Some (- 2 ^ 31).
Proof. vm_compute; reflexivity. Qed.

Example C20_nonvacuous :
  let sp := {| sp_resolution := {| r_window := 10; r_precision := 1 |}; sp_retention := 60 |} in
  let m : pipeline_metadata :=
    mk_pm 2%N [sp; sp] [{| ao_kind := 2; ao_tf := 2; ao_rollup := empty_applied_rollup |};
                  {| ao_kind := 3; ao_tf := 0; ao_rollup := {| ar_id := B "id"; ar_agg := 4%N |} |}] 2 in
  Forall sm_ok [mk_sm [m; m] 17 true; mk_sm [] 18 false].
Proof.
  assert (H : forall sp, r_precision (sp_resolution sp) = 1 -> sp_ok sp)
    by (intros sp E; unfold sp_ok, valid_precision; rewrite E; lia).
  intros sp m.
  assert (Hm : pm_ok m).
  { split; [repeat constructor; apply H; reflexivity|]. split; [|simpl; lia].
    constructor; [left; repeat split; right; reflexivity|].
    constructor; [right; repeat split|constructor]. }
  constructor; [|constructor; [constructor|constructor]]. constructor; [exact Hm|]. constructor; [exact Hm|constructor].
Qed.

(** C21: refuted; the exact condition. *)
Theorem C21_clone_equal_refuted : exists m : pipeline_metadata,
  0 <= pm_drop m <= 2 /\ pm_equal (pm_clone m) m = false /\ pm_is_drop_applied m = true /\
  pm_is_default (pm_clone m) = true.
Proof. exists (mk_pm 0%N [] [] 1). vm_compute; repeat split; discriminate. Qed.
Print Assumptions C21_clone_equal_refuted.

Theorem C21_clone_equal_partial : forall m : pipeline_metadata,
  pm_equal (pm_clone m) m = true <-> pm_drop m = 0.
Proof. exact pm_clone_equal_iff. Qed.
Print Assumptions C21_clone_equal_partial.

Theorem C21_clone_list_partial : forall l : list pipeline_metadata,
  pms_equal (pms_clone l) l = true <-> Forall (fun m => pm_drop m = 0) l.
Proof. exact pms_clone_equal_iff. Qed.
Print Assumptions C21_clone_list_partial.

Theorem C21_metadata_equality : forall a b : pipeline_metadata,
  pm_equal a b = true <->
  pm_agg a = pm_agg b /\ Permutation (pm_sps a) (pm_sps b) /\
  Forall2 applied_op_same (pm_pipeline a) (pm_pipeline b) /\ pm_drop a = pm_drop b.
Proof. exact pm_equal_spec. Qed.
Print Assumptions C21_metadata_equality.

Example C21_nonvacuous :
  let m : pipeline_metadata := mk_pm 6%N [] [{| ao_kind := 3; ao_tf := 0; ao_rollup := {| ar_id := B "x"; ar_agg := 1%N |} |}] 0 in
  pm_equal (pm_clone m) m = true.
Proof. vm_compute; reflexivity. Qed.

(** C22 *)
Theorem C22_stages : forall l : list staged_policies,
  Forall2 (fun p m => sm_cutover m = stp_cutover p /\ sm_tombstoned m = stp_tombstoned p /\
    (stp_policies p = [] -> sm_pipelines m = [mk_pm 0%N [] [] 0]) /\
    (stp_policies p <> [] ->
       sm_pipelines m = map (pipeline_for (stp_policies p)) (firsts N.eqb (map p_agg (stp_policies p)))))
  l (to_staged_metadatas l).
Proof.
  induction l as [|p l IH]; constructor; auto. unfold to_staged_metadata; cbn [sm_cutover sm_tombstoned sm_pipelines].
  split; [auto|split; [auto|]]. destruct (stp_policies p) eqn:E; split; try congruence; intros _; [reflexivity|].
  apply to_metadata_spec.
Qed.
Print Assumptions C22_stages.

Theorem C22_pairs_preserved : forall (ps : list policy) (id : N) (sp : storage_policy),
  (exists m, In m (to_metadata ps) /\ pm_agg m = id /\ In sp (pm_sps m)) <->
  In {| p_storage := sp; p_agg := id |} ps.
Proof. exact to_metadata_pairs. Qed.
Print Assumptions C22_pairs_preserved.

Theorem C22_no_repetition : forall ps : list policy,
  NoDup (map pm_agg (to_metadata ps)) /\
  forall m, In m (to_metadata ps) -> NoDup (pm_sps m) /\ pm_sps m <> [] /\ pm_pipeline m = [] /\ pm_drop m = 0.
Proof. exact to_metadata_nodup. Qed.
Print Assumptions C22_no_repetition.

Theorem C22_default :
  to_staged_metadatas default_policies_list = default_staged_metadatas /\
  sms_is_default (to_staged_metadatas default_policies_list) = true.
Proof. exact (conj eq_refl eq_refl). Qed.
Print Assumptions C22_default.

Example C22_nonvacuous :
  let sp t := {| sp_resolution := {| r_window := 10; r_precision := 1 |}; sp_retention := t |} in
  let p t a := {| p_storage := sp t; p_agg := a |} in
  to_metadata [p 1 4%N; p 2 6%N; p 3 4%N; p 1 4%N; p 1 6%N]
  = [mk_pm 4%N [sp 1; sp 3] [] 0; mk_pm 6%N [sp 2; sp 1] [] 0].
Proof. vm_compute; reflexivity. Qed.

(** C56 *)
Theorem C56_rate_empty : forall prev curr : datapoint,
  (dp_time curr <= dp_time prev \/ dp_value prev = S754_nan \/ dp_value curr = S754_nan \/
   negative (SFsub 53 1024 (dp_value curr) (dp_value prev))) ->
  per_second prev curr = {| dp_time := 0; dp_value := S754_nan |}.
Proof. exact per_second_empty. Qed.
Print Assumptions C56_rate_empty.

Theorem C56_rate : forall prev curr : datapoint,
  dp_time prev < dp_time curr -> dp_time curr - dp_time prev < 2 ^ 63 ->
  dp_value prev <> S754_nan -> dp_value curr <> S754_nan ->
  ~ negative (SFsub 53 1024 (dp_value curr) (dp_value prev)) ->
  per_second prev curr =
    {| dp_time := dp_time curr;
       dp_value := SFdiv 53 1024
                     (SFmul 53 1024 (SFsub 53 1024 (dp_value curr) (dp_value prev))
                        (binary_normalize 53 1024 1000000000 0 false))
                     (binary_normalize 53 1024 (dp_time curr - dp_time prev) 0 false) |} /\
  ~ negative (dp_value (per_second prev curr)).
Proof. exact per_second_rate. Qed.
Print Assumptions C56_rate.

Theorem C56_rate_never_negative : forall prev curr : datapoint,
  dp_time curr - dp_time prev < 2 ^ 63 -> ~ negative (dp_value (per_second prev curr)).
Proof. exact per_second_rate_iff. Qed.
Print Assumptions C56_rate_never_negative.

Theorem C56_absolute : forall d : datapoint,
  dp_time (absolute d) = dp_time d /\ ~ negative (dp_value (absolute d)) /\
  (dp_value (absolute d) = dp_value d \/ dp_value (absolute d) = SFopp (dp_value d)).
Proof. exact absolute_spec. Qed.
Print Assumptions C56_absolute.

Theorem C56_type_codes : forall t : Z,
  (valid_tf t -> exists z, tf_to_proto t = Some z /\ tf_from_proto z = Some t) /\
  (tf_to_proto t = None <-> ~ valid_tf t) /\ (tf_from_proto t = None <-> ~ valid_tf t) /\
  (tf_is_valid t = true <-> exists s, tf_string t = Some s /\ tf_parse s = Some t).
Proof. exact (fun t => conj (tf_roundtrip t) (conj (tf_to_proto_none t) (conj (tf_from_proto_none t) (tf_text t)))). Qed.
Print Assumptions C56_type_codes.

Example C56_nonvacuous :
  let v z := binary_normalize 53 1024 z 0 false in
  per_second {| dp_time := 1000000000; dp_value := v 10 |} {| dp_time := 6000000000; dp_value := v 25 |}
  = {| dp_time := 6000000000; dp_value := v 3 |}.
Proof. vm_compute; reflexivity. Qed.

(** Beyond 2^63 nanoseconds between the two datapoints (one before 1970 and far away) the elapsed time
    wraps around and the rate is negative. *)
Example C56_overflow :
  let v z := binary_normalize 53 1024 z 0 false in
  negative (dp_value (per_second {| dp_time := - 2 ^ 63; dp_value := v 0 |}
                                 {| dp_time := 2 ^ 63 - 1; dp_value := v 1 |})).
Proof. vm_compute; reflexivity. Qed.

(** C57 *)
Theorem C57_metric_types : forall t : Z,
  (t = 1 \/ t = 2 \/ t = 3 ->
   exists z, mt_to_proto t = Some z /\ mt_from_proto z = Some t /\ mt_parse (mt_string t) = Some t) /\
  (mt_to_proto t = None <-> ~ (t = 1 \/ t = 2 \/ t = 3)) /\
  (mt_from_proto t = None <-> ~ (t = 1 \/ t = 2 \/ t = 3)).
Proof. exact (fun t => conj (mt_roundtrip t) (conj (mt_to_proto_none t) (mt_from_proto_none t))). Qed.
Print Assumptions C57_metric_types.

Theorem C57_metric_type_names : forall (s : bytes) (t : Z),
  mt_parse s = Some t <->
  (s = B "counter" /\ t = 1) \/ (s = B "timer" /\ t = 2) \/ (s = B "gauge" /\ t = 3).
Proof.
  intros s t. split.
  - intros H. destruct (mt_parse_some s t H) as [[-> | [-> | ->]] ->]; auto.
  - intros [[-> ->]|[[-> ->]|[-> ->]]]; vm_compute; reflexivity.
Qed.
Print Assumptions C57_metric_type_names.

(** The names that are printed. *)
Theorem C57_metric_type_strings : forall t : Z,
  mt_string t = B "counter" /\ t = 1 \/ mt_string t = B "timer" /\ t = 2 \/ mt_string t = B "gauge" /\ t = 3 \/
  mt_string t = B "unknown" /\ t <> 1 /\ t <> 2 /\ t <> 3.
Proof.
  intros t. unfold mt_string, mt_counter, mt_timer, mt_gauge.
  destruct (Z.eqb_spec t 1); [auto|]. destruct (Z.eqb_spec t 2); [auto|]. destruct (Z.eqb_spec t 3); auto 8.
Qed.
Print Assumptions C57_metric_type_strings.

(** Drop policies are cast, not checked: codes below 2^31 survive. *)
Theorem C57_drop_policies : forall d : drop_policy, 0 <= d < 2 ^ 31 -> to_uint64 (to_int32 d) = d.
Proof. exact (fun d H => eq_trans (f_equal to_uint64 (to_int32_id d ltac:(lia))) (Z.mod_small d (2 ^ 64) ltac:(lia))). Qed.
Print Assumptions C57_drop_policies.

Theorem C57_aggregation_types : forall ts zs : list Z,
  Forall valid_type ts -> types_proto ts = Some zs -> types_from_proto zs = Some ts.
Proof. exact types_proto_roundtrip. Qed.
Print Assumptions C57_aggregation_types.

Theorem C57_unknown_aggregation_codes : forall zs ts : list Z,
  types_from_proto zs = Some ts <-> Forall valid_type zs /\ ts = zs.
Proof. exact types_from_proto_some. Qed.
Print Assumptions C57_unknown_aggregation_codes.

Example C57_nonvacuous :
  mt_to_proto 2 = Some 2 /\ mt_parse (B "timer") = Some 2 /\ mt_parse (B "Timer") = None /\
  types_from_proto [1; 0] = None.
Proof. vm_compute; auto. Qed.
