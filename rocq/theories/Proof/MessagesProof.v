(** The generated messages survive the wire. *)
From Coq Require Import Ascii String NArith ZArith Bool Lia List.
From Verif.Base Require Import Bytes BytesFacts Slice.
From Verif.Model Require Import AggType Policy Transformation Pipeline Metadata ProtoWire Messages.
From Verif.Proof Require Import ProtoWireProof.
Import ListNotations.
Local Open Scope Z_scope.

Lemma reads_intro {M} (fs : list (field M)) z m m' :
  Forall sized fs ->
  (forall l, l < 2 ^ 63 -> zlen (marshal fs m) <= l -> steps fs l (marshal fs m) z [] m') ->
  reads fs z m m'.
Proof.
  intros F H. split; [apply size_marshal, F|]. intros L. apply steps_unmarshal. apply H; lia.
Qed.

Lemma steps_marshal_cons {M} (fs : list (field M)) l (f : field M) (gs : list (field M)) (m m0 m1 m2 : M) :
  zlen (marshal (f :: gs) m) <= l ->
  (forall r, zlen (f_enc f m ++ r) <= l -> steps fs l (f_enc f m ++ r) m0 r m1) ->
  (zlen (marshal gs m) <= l -> steps fs l (marshal gs m) m1 [] m2) ->
  steps fs l (marshal (f :: gs) m) m0 [] m2.
Proof.
  intros Z H1 H2. unfold marshal in Z |- *. cbn [map concat] in Z |- *.
  refine (steps_trans _ _ _ _ _ _ _ _ (H1 _ Z) _). apply H2. unfold marshal. rewrite zlen_app in Z.
  pose proof (zlen_nonneg (f_enc f m)). lia.
Qed.

Ltac kn := split; [cbn; lia|reflexivity].
Ltac step L := eapply steps_marshal_cons; [eassumption|intros ? ?; eapply L; try assumption; try kn|intros ?].
Lemma steps_fin {M} (fs : list (field M)) l (m m0 m1 : M) : m1 = m0 -> steps fs l (marshal [] m) m0 [] m1.
Proof. intros ->. apply steps_refl. Qed.
Ltac fin := apply steps_fin.
Ltac zcase := match goal with |- context [if ?x =? 0 then _ else _] => 
  let E := fresh "E" in destruct (x =? 0) eqn:E; [apply Z.eqb_eq in E|apply Z.eqb_neq in E] end.

(** ** Small messages *)

Lemma sized_agg : Forall sized agg_fields.
Proof. repeat constructor; apply sized_varint. Qed.
Lemma reads_agg n : (n < 2 ^ 64)%N -> reads agg_fields 0%N n n.
Proof.
  intros H. apply reads_intro; [exact sized_agg|]. intros l Hl Z. unfold agg_fields at 2.
  step @steps_varint; [intros _; unfold u64; rewrite Z.mod_mod by lia; apply u64_id; lia|].
  fin. zcase; lia.
Qed.

Definition i64 (z : Z) : Prop := - 2 ^ 63 <= z < 2 ^ 63.
Definition i32 (z : Z) : Prop := - 2 ^ 31 <= z < 2 ^ 31.

Lemma sized_resolution : Forall sized resolution_fields.
Proof. repeat constructor; apply sized_varint. Qed.
Lemma reads_resolution r :
  i64 (rp_window r) -> i64 (rp_precision r) ->
  reads resolution_fields {| rp_window := 0; rp_precision := 0 |} r r.
Proof.
  intros H1 H2. apply reads_intro; [exact sized_resolution|]. intros l Hl Z. unfold resolution_fields at 2.
  step @steps_varint; [intros _; apply to_int64_u64, H1|].
  step @steps_varint; [intros _; apply to_int64_u64, H2|].
  fin. destruct r as [w p]; cbn [rp_window rp_precision] in *. repeat zcase; subst; reflexivity.
Qed.

Lemma sized_retention : Forall sized retention_fields.
Proof. repeat constructor; apply sized_varint. Qed.
Lemma reads_retention t : i64 t -> reads retention_fields 0 t t.
Proof.
  intros H. apply reads_intro; [exact sized_retention|]. intros l Hl Z. unfold retention_fields at 2.
  step @steps_varint; [intros _; apply to_int64_u64, H|].
  fin. zcase; lia.
Qed.

(** A storage policy message whose numbers are 64 bit integers. *)
Definition sp_pb_ok (m : sp_pb) : Prop :=
  match spp_resolution m with None => True | Some r => i64 (rp_window r) /\ i64 (rp_precision r) end /\
  match spp_retention m with None => True | Some t => i64 t end.

Lemma sized_sp : Forall sized sp_fields.
Proof. repeat constructor; apply sized_ptr; [apply sized_resolution|apply sized_retention]. Qed.
Lemma reads_sp m : sp_pb_ok m -> reads sp_fields empty_sp_pb m m.
Proof.
  intros [H1 H2]. apply reads_intro; [exact sized_sp|]. intros l Hl Z. unfold sp_fields at 2.
  destruct m as [[r|] [t|]]; cbn [spp_resolution spp_retention] in *.
  - step @steps_ptr; [reflexivity|apply (reads_resolution r); apply H1|].
    step @steps_ptr; [reflexivity|apply (reads_retention t H2)|]. fin. reflexivity.
  - step @steps_ptr; [reflexivity|apply (reads_resolution r); apply H1|].
    step @steps_ptr_none; [reflexivity|]. fin. reflexivity.
  - step @steps_ptr_none; [reflexivity|].
    step @steps_ptr; [reflexivity|apply (reads_retention t H2)|]. fin. reflexivity.
  - step @steps_ptr_none; [reflexivity|].
    step @steps_ptr_none; [reflexivity|]. fin. reflexivity.
Qed.

(** ** Pipelines *)

Lemma sized_tf : Forall sized tf_fields.
Proof. repeat constructor; apply sized_varint. Qed.
Lemma reads_tf t : i32 t -> reads tf_fields 0 t t.
Proof.
  intros H. apply reads_intro; [exact sized_tf|]. intros l Hl Z. unfold tf_fields at 2.
  step @steps_varint; [intros _; apply to_int32_u64, H|].
  fin. zcase; lia.
Qed.

Lemma sized_applied_rollup : Forall sized applied_rollup_fields.
Proof. repeat constructor; [apply sized_bytes|apply sized_msg, sized_agg]. Qed.
Lemma reads_applied_rollup (m : bytes * N) :
  (snd m < 2 ^ 64)%N -> reads applied_rollup_fields ([], 0%N) m m.
Proof.
  intros H. apply reads_intro; [exact sized_applied_rollup|]. intros l Hl Z. unfold applied_rollup_fields at 2.
  destruct m as [b n]. cbn [fst snd] in *.
  step @steps_bytes. cbn [fst snd].
  step @steps_msg; [destruct b; cbn [snd]; apply (reads_agg n H)|].
  fin. destruct b; reflexivity.
Qed.

Definition applied_op_pb_ok (m : applied_op_pb) : Prop :=
  i32 (aop_type m) /\
  match aop_tf m with None => True | Some t => i32 t end /\
  match aop_rollup m with None => True | Some r => (snd r < 2 ^ 64)%N end.

Lemma sized_applied_op : Forall sized applied_op_fields.
Proof.
  repeat constructor; [apply sized_varint|apply sized_ptr, sized_tf|apply sized_ptr, sized_applied_rollup].
Qed.
Lemma reads_applied_op m : applied_op_pb_ok m -> reads applied_op_fields empty_applied_op_pb m m.
Proof.
  intros (H1 & H2 & H3). apply reads_intro; [exact sized_applied_op|]. intros l Hl Z.
  unfold applied_op_fields at 2.
  destruct m as [k t r]; cbn [aop_type aop_tf aop_rollup] in *.
  step @steps_varint; [intros _; apply to_int32_u64, H1|]. cbn [aop_type aop_tf aop_rollup].
  destruct t as [t|], r as [r|].
  - step @steps_ptr; [reflexivity|destruct (k =? 0); apply (reads_tf t H2)|].
    step @steps_ptr; [reflexivity|destruct (k =? 0); apply (reads_applied_rollup r H3)|].
    fin. zcase; subst; reflexivity.
  - step @steps_ptr; [reflexivity|destruct (k =? 0); apply (reads_tf t H2)|].
    step @steps_ptr_none; [reflexivity|]. fin. zcase; subst; reflexivity.
  - step @steps_ptr_none; [reflexivity|].
    step @steps_ptr; [reflexivity|destruct (k =? 0); apply (reads_applied_rollup r H3)|].
    fin. zcase; subst; reflexivity.
  - step @steps_ptr_none; [reflexivity|].
    step @steps_ptr_none; [reflexivity|]. fin. zcase; subst; reflexivity.
Qed.

Lemma Forall2_diag {A} (P : A -> A -> Prop) l : Forall (fun a => P a a) l -> Forall2 P l l.
Proof. induction 1; constructor; auto. Qed.

Lemma sized_applied : Forall sized applied_fields.
Proof. repeat constructor; apply sized_msgs, sized_applied_op. Qed.
Lemma reads_applied m : Forall applied_op_pb_ok m -> reads applied_fields [] m m.
Proof.
  intros H. apply reads_intro; [exact sized_applied|]. intros l Hl Z. unfold applied_fields at 2.
  step @steps_msgs; [auto|auto|auto| |].
  - apply Forall2_diag. eapply Forall_impl; [|exact H]. intros a Ha. apply reads_applied_op, Ha.
  - fin. reflexivity.
Qed.

(** ** Metadata *)

Definition pm_pb_ok (m : pm_pb_of list) : Prop :=
  (pmp_agg m < 2 ^ 64)%N /\ Forall sp_pb_ok (pmp_sps m) /\ Forall applied_op_pb_ok (pmp_pipeline m) /\
  i32 (pmp_drop m).

Lemma sized_pm : Forall sized pm_fields.
Proof.
  repeat constructor; [apply sized_msg, sized_agg|apply sized_msgs, sized_sp|apply sized_msg, sized_applied
    |apply sized_varint].
Qed.
Lemma reads_pm m : pm_pb_ok m -> reads pm_fields zero_pm_pb_l m m.
Proof.
  intros (H1 & H2 & H3 & H4). apply reads_intro; [exact sized_pm|]. intros l Hl Z. unfold pm_fields at 2.
  destruct m as [g sps pipe d]; cbn [pmp_agg pmp_sps pmp_pipeline pmp_drop] in *.
  step @steps_msg; [apply (reads_agg g H1)|].
  step @steps_msgs; [reflexivity|reflexivity|destruct m; reflexivity| |].
  { apply Forall2_diag. eapply Forall_impl; [|exact H2]. intros a Ha. apply reads_sp, Ha. }
  step @steps_msg; [apply (reads_applied pipe H3)|].
  step @steps_varint; [intros _; apply to_int32_u64, H4|].
  fin. cbn [pmp_agg pmp_sps pmp_pipeline pmp_drop zero_pm_pb_l app]. zcase; subst; reflexivity.
Qed.

Lemma sized_md : Forall sized md_fields.
Proof. repeat constructor; apply sized_msgs, sized_pm. Qed.
Lemma reads_md m : Forall pm_pb_ok m -> reads md_fields [] m m.
Proof.
  intros H. apply reads_intro; [exact sized_md|]. intros l Hl Z. unfold md_fields at 2.
  step @steps_msgs; [auto|auto|auto| |].
  - apply Forall2_diag. eapply Forall_impl; [|exact H]. intros a Ha. apply reads_pm, Ha.
  - fin. reflexivity.
Qed.

Definition sm_pb_ok (m : sm_pb_of list) : Prop := i64 (smp_cutover m) /\ Forall pm_pb_ok (smp_pipelines m).

Lemma sized_sm : Forall sized sm_fields.
Proof. repeat constructor; [apply sized_varint|apply sized_varint|apply sized_msg, sized_md]. Qed.
Lemma reads_sm m : sm_pb_ok m -> reads sm_fields zero_sm_pb_l m m.
Proof.
  intros (H1 & H2). apply reads_intro; [exact sized_sm|]. intros l Hl Z. unfold sm_fields at 2.
  destruct m as [c t ps]; cbn [smp_cutover smp_tombstoned smp_pipelines] in *.
  step @steps_varint; [intros _; apply to_int64_u64, H1|].
  step @steps_varint; [intros _; destruct t; reflexivity|].
  step @steps_msg; [cbn [smp_cutover smp_tombstoned smp_pipelines]|].
  { match goal with |- reads _ ?a _ _ => replace a with (@nil (pm_pb_of list)) end; [apply (reads_md ps H2)|].
    destruct (c =? 0), t; reflexivity. }
  fin. cbn [smp_cutover smp_tombstoned smp_pipelines].
  destruct (c =? 0) eqn:E; [apply Z.eqb_eq in E; subst|]; destruct t; reflexivity.
Qed.

Lemma sized_sms : Forall sized sms_fields.
Proof. repeat constructor; apply sized_msgs, sized_sm. Qed.
Lemma reads_sms m : Forall sm_pb_ok m -> reads sms_fields [] m m.
Proof.
  intros H. apply reads_intro; [exact sized_sms|]. intros l Hl Z. unfold sms_fields at 2.
  step @steps_msgs; [auto|auto|auto| |].
  - apply Forall2_diag. eapply Forall_impl; [|exact H]. intros a Ha. apply reads_sm, Ha.
  - fin. reflexivity.
Qed.

Definition fm_pb_ok (m : fm_pb_of list) : Prop :=
  (fmp_agg m < 2 ^ 64)%N /\ sp_pb_ok (fmp_sp m) /\ Forall applied_op_pb_ok (fmp_pipeline m) /\
  0 <= fmp_source m < 2 ^ 32 /\ i32 (fmp_times m).

Lemma u32_u64 z : 0 <= z < 2 ^ 32 -> u32 (u64 z) = z.
Proof. intros H. rewrite u64_id by lia. apply u32_id, H. Qed.

Lemma sized_fm : Forall sized fm_fields.
Proof.
  repeat constructor; [apply sized_msg, sized_agg|apply sized_msg, sized_sp|apply sized_msg, sized_applied
    |apply sized_varint|apply sized_varint].
Qed.
Lemma reads_fm m : fm_pb_ok m -> reads fm_fields zero_fm_pb m m.
Proof.
  intros (H1 & H2 & H3 & H4 & H5). apply reads_intro; [exact sized_fm|]. intros l Hl Z. unfold fm_fields at 2.
  destruct m as [g sp pipe src n]; cbn [fmp_agg fmp_sp fmp_pipeline fmp_source fmp_times] in *.
  step @steps_msg; [apply (reads_agg g H1)|].
  step @steps_msg; [apply (reads_sp sp H2)|].
  step @steps_msg; [apply (reads_applied pipe H3)|].
  step @steps_varint; [intros _; apply u32_u64, H4|].
  step @steps_varint; [intros _; apply to_int32_u64, H5|].
  fin. cbn [fmp_agg fmp_sp fmp_pipeline fmp_source fmp_times zero_fm_pb].
  repeat zcase; subst; reflexivity.
Qed.

Definition tm_pb_ok (m : tm_pb) : Prop := (tmp_agg m < 2 ^ 64)%N /\ sp_pb_ok (tmp_sp m).

Lemma sized_tm : Forall sized tm_fields.
Proof. repeat constructor; [apply sized_msg, sized_agg|apply sized_msg, sized_sp]. Qed.
Lemma reads_tm m : tm_pb_ok m -> reads tm_fields zero_tm_pb m m.
Proof.
  intros (H1 & H2). apply reads_intro; [exact sized_tm|]. intros l Hl Z. unfold tm_fields at 2.
  destruct m as [g sp]; cbn [tmp_agg tmp_sp] in *.
  step @steps_msg; [apply (reads_agg g H1)|].
  step @steps_msg; [apply (reads_sp sp H2)|].
  fin. reflexivity.
Qed.

(** ** Metrics *)

Definition bits64 (v : Z) : Prop := 0 <= v < 2 ^ 64.

Lemma sized_counter : Forall sized counter_fields.
Proof. repeat constructor; [apply sized_bytes|apply sized_varint]. Qed.
Lemma reads_counter m : i64 (cp_value m) -> reads counter_fields zero_counter_pb m m.
Proof.
  intros H. apply reads_intro; [exact sized_counter|]. intros l Hl Z. unfold counter_fields at 2.
  destruct m as [b v]; cbn [cp_id cp_value] in *.
  step @steps_bytes.
  step @steps_varint; [intros _; apply to_int64_u64, H|].
  fin. cbn [cp_id cp_value]. destruct b; zcase; subst; reflexivity.
Qed.

Lemma sized_timer : Forall sized timer_fields.
Proof. repeat constructor; [apply sized_bytes|apply sized_doubles]. Qed.
Lemma reads_timer m : Forall bits64 (tip_values m) -> reads timer_fields zero_timer_pb m m.
Proof.
  intros H. apply reads_intro; [exact sized_timer|]. intros l Hl Z. unfold timer_fields at 2.
  destruct m as [b v]; cbn [tip_id tip_values] in *.
  step @steps_bytes.
  step @steps_doubles.
  fin. cbn [tip_id tip_values]. destruct b, v; reflexivity.
Qed.

Lemma nz_zero v : double_is_zero v = true -> nz v = 0.
Proof.
  unfold double_is_zero, nz. intros H. apply orb_true_iff in H as [H|H]; [apply Z.eqb_eq in H; subst; reflexivity|].
  rewrite H. reflexivity.
Qed.

Lemma sized_gauge : Forall sized gauge_fields.
Proof. repeat constructor; [apply sized_bytes|apply sized_double]. Qed.
Lemma reads_gauge m :
  bits64 (gp_value m) -> reads gauge_fields zero_gauge_pb m (mk_gauge_pb (gp_id m) (nz (gp_value m))).
Proof.
  intros H. apply reads_intro; [exact sized_gauge|]. intros l Hl Z. unfold gauge_fields at 2.
  destruct m as [b v]; cbn [gp_id gp_value] in *.
  step @steps_bytes.
  step @steps_double.
  fin. cbn [gp_id gp_value]. destruct (double_is_zero v) eqn:E; [rewrite (nz_zero v E)|]; destruct b; reflexivity.
Qed.

Lemma sized_timed : Forall sized timed_fields.
Proof. repeat constructor; [apply sized_varint|apply sized_bytes|apply sized_varint|apply sized_double]. Qed.
Lemma reads_timed m :
  i32 (tdp_type m) -> i64 (tdp_time m) -> bits64 (tdp_value m) ->
  reads timed_fields zero_timed_pb m (mk_timed_pb (tdp_type m) (tdp_id m) (tdp_time m) (nz (tdp_value m))).
Proof.
  intros H1 H2 H3. apply reads_intro; [exact sized_timed|]. intros l Hl Z. unfold timed_fields at 2.
  destruct m as [k b t v]; cbn [tdp_type tdp_id tdp_time tdp_value] in *.
  step @steps_varint; [intros _; apply to_int32_u64, H1|].
  step @steps_bytes.
  step @steps_varint; [intros _; apply to_int64_u64, H2|].
  step @steps_double.
  fin. cbn [tdp_type tdp_id tdp_time tdp_value].
  destruct (double_is_zero v) eqn:E; [rewrite (nz_zero v E)|]; destruct b; repeat zcase; subst; reflexivity.
Qed.

Lemma sized_forwarded : Forall sized forwarded_fields.
Proof. repeat constructor; [apply sized_varint|apply sized_bytes|apply sized_varint|apply sized_doubles]. Qed.
Lemma reads_forwarded m :
  i32 (fwp_type m) -> i64 (fwp_time m) -> Forall bits64 (fwp_values m) ->
  reads forwarded_fields zero_forwarded_pb m m.
Proof.
  intros H1 H2 H3. apply reads_intro; [exact sized_forwarded|]. intros l Hl Z. unfold forwarded_fields at 2.
  destruct m as [k b t v]; cbn [fwp_type fwp_id fwp_time fwp_values] in *.
  step @steps_varint; [intros _; apply to_int32_u64, H1|].
  step @steps_bytes.
  step @steps_varint; [intros _; apply to_int64_u64, H2|].
  step @steps_doubles.
  fin. cbn [fwp_type fwp_id fwp_time fwp_values].
  destruct b, v; repeat zcase; subst; reflexivity.
Qed.

(** ** Composites *)

Lemma sized_cm : Forall sized cm_fields.
Proof. repeat constructor; [apply sized_msg, sized_counter|apply sized_msg, sized_sms]. Qed.
Lemma reads_cm m :
  i64 (cp_value (cmp_counter m)) -> Forall sm_pb_ok (cmp_metas m) -> reads cm_fields zero_cm_pb m m.
Proof.
  intros H1 H2. apply reads_intro; [exact sized_cm|]. intros l Hl Z. unfold cm_fields at 2.
  step @steps_msg; [apply (reads_counter _ H1)|].
  step @steps_msg; [apply (reads_sms _ H2)|].
  fin. destruct m; reflexivity.
Qed.

Lemma sized_bm : Forall sized bm_fields.
Proof. repeat constructor; [apply sized_msg, sized_timer|apply sized_msg, sized_sms]. Qed.
Lemma reads_bm m :
  Forall bits64 (tip_values (bmp_timer m)) -> Forall sm_pb_ok (bmp_metas m) -> reads bm_fields zero_bm_pb m m.
Proof.
  intros H1 H2. apply reads_intro; [exact sized_bm|]. intros l Hl Z. unfold bm_fields at 2.
  step @steps_msg; [apply (reads_timer _ H1)|].
  step @steps_msg; [apply (reads_sms _ H2)|].
  fin. destruct m; reflexivity.
Qed.

Lemma sized_gm : Forall sized gm_fields.
Proof. repeat constructor; [apply sized_msg, sized_gauge|apply sized_msg, sized_sms]. Qed.
Definition nz_gm (m : gm_pb_of list) : gm_pb_of list :=
  mk_gm_pb (mk_gauge_pb (gp_id (gmp_gauge m)) (nz (gp_value (gmp_gauge m)))) (gmp_metas m).
Lemma reads_gm m :
  bits64 (gp_value (gmp_gauge m)) -> Forall sm_pb_ok (gmp_metas m) -> reads gm_fields zero_gm_pb m (nz_gm m).
Proof.
  intros H1 H2. apply reads_intro; [exact sized_gm|]. intros l Hl Z. unfold gm_fields at 2.
  step @steps_msg; [apply (reads_gauge _ H1)|].
  step @steps_msg; [apply (reads_sms _ H2)|].
  fin. reflexivity.
Qed.

Lemma sized_fwm : Forall sized fwm_fields.
Proof. repeat constructor; [apply sized_msg, sized_forwarded|apply sized_msg, sized_fm]. Qed.
Lemma reads_fwm m :
  i32 (fwp_type (fwmp_metric m)) -> i64 (fwp_time (fwmp_metric m)) -> Forall bits64 (fwp_values (fwmp_metric m)) ->
  fm_pb_ok (fwmp_meta m) -> reads fwm_fields zero_fwm_pb m m.
Proof.
  intros H1 H2 H3 H4. apply reads_intro; [exact sized_fwm|]. intros l Hl Z. unfold fwm_fields at 2.
  step @steps_msg; [apply (reads_forwarded _ H1 H2 H3)|].
  step @steps_msg; [apply (reads_fm _ H4)|].
  fin. destruct m; reflexivity.
Qed.

Lemma sized_tdm : Forall sized tdm_fields.
Proof. repeat constructor; [apply sized_msg, sized_timed|apply sized_msg, sized_tm]. Qed.
Definition nz_tdm (m : tdm_pb) : tdm_pb :=
  let t := tdmp_metric m in
  mk_tdm_pb (mk_timed_pb (tdp_type t) (tdp_id t) (tdp_time t) (nz (tdp_value t))) (tdmp_meta m).
Lemma reads_tdm m :
  i32 (tdp_type (tdmp_metric m)) -> i64 (tdp_time (tdmp_metric m)) -> bits64 (tdp_value (tdmp_metric m)) ->
  tm_pb_ok (tdmp_meta m) -> reads tdm_fields zero_tdm_pb m (nz_tdm m).
Proof.
  intros H1 H2 H3 H4. apply reads_intro; [exact sized_tdm|]. intros l Hl Z. unfold tdm_fields at 2.
  step @steps_msg; [apply (reads_timed _ H1 H2 H3)|].
  step @steps_msg; [apply (reads_tm _ H4)|].
  fin. reflexivity.
Qed.

Lemma sized_mm : Forall sized mm_fields.
Proof.
  repeat constructor; [apply sized_varint|apply sized_ptr, sized_cm|apply sized_ptr, sized_bm
    |apply sized_ptr, sized_gm|apply sized_ptr, sized_fwm|apply sized_ptr, sized_tdm].
Qed.

(** What [reset_mm] leaves: no members, or zero ones. *)
Definition clean {A} (zero : A) (o : option A) : Prop := o = None \/ o = Some zero.
Lemma clean_zero {A} (zero : A) o : clean zero o -> match o with None => zero | Some x => x end = zero.
Proof. intros [-> | ->]; reflexivity. Qed.

Lemma reset_clean m :
  mm_type (reset_mm m) = 0 /\ clean zero_cm_pb (mm_counter (reset_mm m)) /\
  clean zero_bm_pb (mm_timer (reset_mm m)) /\ clean zero_gm_pb (mm_gauge (reset_mm m)) /\
  clean zero_fwm_pb (mm_forwarded (reset_mm m)) /\ clean zero_tdm_pb (mm_timed (reset_mm m)).
Proof.
  destruct m as [k c t g f d]. unfold reset_mm, clean.
  cbn [mm_type mm_counter mm_timer mm_gauge mm_forwarded mm_timed].
  repeat split; [destruct c|destruct t|destruct g|destruct f|destruct d]; cbn [option_map]; auto.
Qed.

(** The fields of a [MetricWithMetadatas] with one member. *)
Section Mm.
  Variable old : mm_pb.
  Let z := reset_mm old.

  Ltac ty := step @steps_varint; [intros _; apply to_int32_u64; cbn [mm_type]; unfold i32; lia|];
    cbn [mm_type]; match goal with |- context [?a =? 0] => change (a =? 0) with false end; cbv iota.
  Ltac none := step @steps_ptr_none; [reflexivity|].
  Ltac the R := step @steps_ptr; [reflexivity|exact R|].

  Lemma reads_mm_counter c c' : reads cm_fields zero_cm_pb c c' ->
    reads mm_fields z (mk_mm 1 (Some c) None None None None)
      (mk_mm 1 (Some c') (mm_timer z) (mm_gauge z) (mm_forwarded z) (mm_timed z)).
  Proof.
    intros R. apply reads_intro; [exact sized_mm|]. intros l Hl Z. unfold mm_fields at 2.
    pose proof (reset_clean old) as (_ & C & _). fold z in C. rewrite <- (clean_zero _ _ C) in R.
    ty. the R. none. none. none. none. fin. reflexivity.
  Qed.
  Lemma reads_mm_timer c c' : reads bm_fields zero_bm_pb c c' ->
    reads mm_fields z (mk_mm 2 None (Some c) None None None)
      (mk_mm 2 (mm_counter z) (Some c') (mm_gauge z) (mm_forwarded z) (mm_timed z)).
  Proof.
    intros R. apply reads_intro; [exact sized_mm|]. intros l Hl Z. unfold mm_fields at 2.
    pose proof (reset_clean old) as (_ & _ & C & _). fold z in C. rewrite <- (clean_zero _ _ C) in R.
    ty. none. the R. none. none. none. fin. reflexivity.
  Qed.
  Lemma reads_mm_gauge c c' : reads gm_fields zero_gm_pb c c' ->
    reads mm_fields z (mk_mm 3 None None (Some c) None None)
      (mk_mm 3 (mm_counter z) (mm_timer z) (Some c') (mm_forwarded z) (mm_timed z)).
  Proof.
    intros R. apply reads_intro; [exact sized_mm|]. intros l Hl Z. unfold mm_fields at 2.
    pose proof (reset_clean old) as (_ & _ & _ & C & _). fold z in C. rewrite <- (clean_zero _ _ C) in R.
    ty. none. none. the R. none. none. fin. reflexivity.
  Qed.
  Lemma reads_mm_forwarded c c' : reads fwm_fields zero_fwm_pb c c' ->
    reads mm_fields z (mk_mm 4 None None None (Some c) None)
      (mk_mm 4 (mm_counter z) (mm_timer z) (mm_gauge z) (Some c') (mm_timed z)).
  Proof.
    intros R. apply reads_intro; [exact sized_mm|]. intros l Hl Z. unfold mm_fields at 2.
    pose proof (reset_clean old) as (_ & _ & _ & _ & C & _). fold z in C. rewrite <- (clean_zero _ _ C) in R.
    ty. none. none. none. the R. none. fin. reflexivity.
  Qed.
  Lemma reads_mm_timed c c' : reads tdm_fields zero_tdm_pb c c' ->
    reads mm_fields z (mk_mm 5 None None None None (Some c))
      (mk_mm 5 (mm_counter z) (mm_timer z) (mm_gauge z) (mm_forwarded z) (Some c')).
  Proof.
    intros R. apply reads_intro; [exact sized_mm|]. intros l Hl Z. unfold mm_fields at 2.
    pose proof (reset_clean old) as (_ & _ & _ & _ & _ & C). fold z in C. rewrite <- (clean_zero _ _ C) in R.
    ty. none. none. none. none. the R. fin. reflexivity.
  Qed.
End Mm.
