(** The protobuf iterator yields what [StreamMeaningSpec] says of the bytes. *)
From Coq Require Import Ascii String NArith ZArith Bool Arith Lia List.
From Verif.Base Require Import Bytes BytesFacts Slice SliceFacts.
From Verif.Spec Require Import WireSpec WireMeaningSpec.
From Verif.Model Require Import ProtoStream.
From Verif.Model Require Import Policy Transformation Pipeline Metadata ProtoWire Messages.
From Verif.Spec Require Import ProtoStreamSpec StreamMeaningSpec.
Import ListNotations.
Local Open Scope Z_scope.

(** * Conversions *)

(** [f], converting into a value that is used again, yields (seen through [cont]) exactly what [R] says. *)
Definition computes {A C P} (f : A -> C -> option C) (cont : C -> P) (R : A -> P -> Prop) : Prop :=
  forall a c p, (exists c', f a c = Some c' /\ cont c' = p) <-> R a p.

Lemma computes_fill {A C P} (f : A -> C -> option C) (cont : C -> P) R : computes f cont R ->
  forall src dst l, length dst = length src -> ((exists l', fill f src dst = Some l' /\ map cont l' = l) <-> Forall2 R src l).
Proof.
  intros H. induction src as [|a src IH]; intros [|c dst] l L; try discriminate.
  - cbn [fill]. split; [intros (l' & E & <-); injection E as <-; constructor|intros F; inversion F; exists []; auto].
  - cbn [fill]. split.
    + intros (l' & E & <-). destruct (f a c) as [c'|] eqn:Ea; [|discriminate]. destruct (fill f src dst) as [r|] eqn:Er; [|discriminate].
      injection E as <-. cbn [map]. constructor; [apply (H a c); eauto|]. apply (IH dst (map cont r)); [injection L; auto|]. eauto.
    + intros F. inversion F as [|a' p src' l1 Ra F' E1 E2]; subst. apply (H a c) in Ra as (c' & -> & <-).
      apply (IH dst l1) in F' as (r & -> & <-); [|injection L; auto]. exists (c' :: r). auto.
Qed.
Lemma computes_slice {A C P} z (f : A -> C -> option C) (cont : C -> P) R : computes f cont R ->
  computes (into_slice z f) (fun s => map cont (s_elems s)) (Forall2 R).
Proof.
  intros H src s l. unfold into_slice. pose proof (computes_fill f cont R H src (s_elems (resize z s (length src))) l (resize_length z s (length src))) as F.
  rewrite <- F. destruct (fill f src _) as [r|]; split; intros (x & E & <-); try discriminate; injection E as <-; eexists; split; reflexivity.
Qed.
Lemma computes_self {A C} z (f : A -> C -> option C) R : computes f (fun c => c) R ->
  computes (into_slice z f) (@s_elems C) (Forall2 R).
Proof.
  intros H src s l. pose proof (computes_slice z f (fun c => c) R H src s l) as F. rewrite <- F.
  split; intros (x & E & <-); exists x; rewrite map_id in *; auto.
Qed.

Lemma unit_says p u : unit_from_duration p = Some u <-> In (u, p) precisions.
Proof.
  unfold unit_from_duration, unit_table, precisions. cbn [find fst snd]. 
  repeat (match goal with |- context [if ?a =? p then _ else _] => destruct (Z.eqb_spec a p) as [<-|] end;
    [split; [intros E; injection E as <-; cbn; tauto|cbn; intros H; repeat (destruct H as [H|H]; [injection H; intros; subst; try lia; try reflexivity|]); contradiction]|]).
  split; [discriminate|]. cbn. intros H. repeat (destruct H as [H|H]; [injection H; intros; subst; lia|]); contradiction.
Qed.

Lemma sp_computes : computes (fun pb o => ok_of (sp_from_proto o pb)) (fun p => p) sp_says.
Proof.
  intros pb o p. unfold ok_of, sp_from_proto, sp_says, resolution_from_proto. split.
  - intros (c & E & ->). destruct (spp_resolution pb) as [r|]; [|discriminate].
    destruct (unit_from_duration (rp_precision r)) as [u|] eqn:U; [|discriminate]. destruct (spp_retention pb) as [t|]; [|discriminate].
    injection E as <-. exists r, t. apply unit_says in U. auto.
  - intros (r & t & -> & -> & I & W & T). apply unit_says in I. rewrite I. eexists. split; [reflexivity|]. cbn [fst].
    destruct p as [[w q] t']. cbn in *. congruence.
Qed.
Lemma tf_says z t : tf_from_proto z = Some t <-> z = t /\ (t = 1 \/ t = 2).
Proof.
  unfold tf_from_proto. destruct (Z.eqb_spec z 1) as [->|]; [split; [intros E; injection E as <-; auto|intros [<- _]; reflexivity]|].
  destruct (Z.eqb_spec z 2) as [->|]; [split; [intros E; injection E as <-; auto|intros [<- _]; reflexivity]|].
  split; [discriminate|intros [-> [?|?]]; contradiction].
Qed.
Lemma applied_computes : computes applied_op_from_proto (fun a => a) applied_says.
Proof.
  intros pb o a. unfold applied_op_from_proto, applied_says. split.
  - intros (c & E & ->). destruct (Z.eqb_spec (aop_type pb) 1) as [->|N1].
    + left. split; [reflexivity|]. destruct (aop_tf pb) as [z|]; [|discriminate]. destruct (tf_from_proto z) as [t|] eqn:T; [|discriminate].
      injection E as <-. apply tf_says in T as [-> T]. exists t. auto.
    + destruct (Z.eqb_spec (aop_type pb) 2) as [->|N2]; [|discriminate]. right. split; [reflexivity|].
      destruct (aop_rollup pb) as [[i g]|]; [|discriminate]. injection E as <-. exists i, g. auto.
  - intros [(-> & t & -> & T & ->)|(-> & i & g & -> & ->)].
    + cbn [Z.eqb]. rewrite (proj2 (tf_says t t) (conj eq_refl T)). eexists. split; reflexivity.
    + eexists. split; reflexivity.
Qed.
Lemma pm_computes : computes pm_from_proto pm_content pm_says.
Proof.
  intros pb o m. pose proof (computes_self empty_applied_op _ _ applied_computes (pmp_pipeline pb) (pm_pipeline o)) as Ap.
  pose proof (computes_self empty_storage_policy _ _ sp_computes (pmp_sps pb) (pm_sps o)) as Sp.
  unfold pm_from_proto, pm_says, applied_from_proto. split.
  - intros (c & E & <-). destruct (into_slice empty_applied_op _ _ _) as [pipe|] eqn:Ea; [|discriminate].
    destruct (into_slice empty_storage_policy _ _ _) as [sps|] eqn:Es; [|discriminate]. injection E as <-.
    cbn [pm_content pm_agg pm_sps pm_pipeline pm_drop]. split; [reflexivity|]. split; [apply Sp; eauto|]. split; [apply Ap; eauto|reflexivity].
  - intros (A & S & P & D). apply Sp in S as (sps & -> & S). apply Ap in P as (pipe & -> & P). eexists. split; [reflexivity|].
    destruct m as [a b c d]. cbn [pm_content pm_agg pm_sps pm_pipeline pm_drop] in *. subst. reflexivity.
Qed.
Lemma sm_computes : computes sm_from_proto sm_content sm_says.
Proof.
  intros pb o m. pose proof (computes_slice zero_pm _ _ _ pm_computes (smp_pipelines pb) (sm_pipelines o)) as Pm.
  unfold sm_from_proto, sm_says, md_from_proto. split.
  - intros (c & E & <-). destruct (into_slice _ _ _ _) as [md|] eqn:Em; [|discriminate]. injection E as <-.
    cbn [sm_content sm_cutover sm_tombstoned sm_pipelines]. split; [reflexivity|]. split; [reflexivity|]. apply Pm; eauto.
  - intros (C & T & P). apply Pm in P as (md & -> & P). eexists. split; [reflexivity|].
    destruct m as [a b c]. cbn [sm_content sm_cutover sm_tombstoned sm_pipelines] in *. subst. reflexivity.
Qed.
Lemma sms_computes : computes sms_from_proto (fun s => map sm_content (s_elems s)) (Forall2 sm_says).
Proof. exact (computes_slice zero_sm _ _ _ sm_computes). Qed.
Lemma fm_computes : computes fm_from_proto fm_content fm_says.
Proof.
  intros pb o m. pose proof (computes_self empty_applied_op _ _ applied_computes (fmp_pipeline pb) (fm_pipeline o)) as Ap.
  pose proof (sp_computes (fmp_sp pb) (fm_sp o)) as Sp. unfold fm_from_proto, fm_says, applied_from_proto. split.
  - intros (c & E & <-). destruct (ok_of _) as [sp|] eqn:Es; [|discriminate]. destruct (into_slice _ _ _ _) as [pipe|] eqn:Ea; [|discriminate].
    injection E as <-. cbn [fm_content fm_agg fm_sp fm_pipeline fm_source fm_times].
    split; [reflexivity|]. split; [apply Sp; eauto|]. split; [apply Ap; eauto|]. split; reflexivity.
  - intros (A & S & P & So & T). apply Sp in S as (sp & -> & S). apply Ap in P as (pipe & -> & P). eexists. split; [reflexivity|].
    destruct m as [a b c d e]. cbn [fm_content fm_agg fm_sp fm_pipeline fm_source fm_times] in *. subst. reflexivity.
Qed.
Lemma tm_computes : computes tm_from_proto (fun m => m) tm_says.
Proof.
  intros pb o m. pose proof (sp_computes (tmp_sp pb) (tm_sp o)) as Sp. unfold tm_from_proto, tm_says. split.
  - intros (c & E & <-). destruct (ok_of _) as [sp|] eqn:Es; [|discriminate]. injection E as <-. cbn [tm_agg tm_sp].
    split; [reflexivity|]. apply Sp; eauto.
  - intros (A & S). apply Sp in S as (sp & -> & S). eexists. split; [reflexivity|]. destruct m as [a b]. cbn [tm_agg tm_sp] in *. subst. reflexivity.
Qed.
Lemma mt_says z t : mt_from_proto z = Some t <-> t = z /\ 1 <= z <= 3.
Proof.
  unfold mt_from_proto. destruct (Z.eqb_spec z 1) as [->|]; [split; [intros E; injection E as <-; split; [reflexivity|lia]|intros [-> _]; reflexivity]|].
  destruct (Z.eqb_spec z 2) as [->|]; [split; [intros E; injection E as <-; split; [reflexivity|lia]|intros [-> _]; reflexivity]|].
  destruct (Z.eqb_spec z 3) as [->|]; [split; [intros E; injection E as <-; split; [reflexivity|lia]|intros [-> _]; reflexivity]|].
  split; [discriminate|lia].
Qed.

Lemma mm_computes pb u x :
  (exists u', from_mm pb u = inl u' /\ selected (union_content u') = Some x) <-> says pb x.
Proof.
  unfold from_mm. split.
  - intros (u' & E & S).
    destruct (Z.eqb_spec (mm_type pb) 1) as [T|N1].
    { unfold cm_from_proto in E. destruct (mm_counter pb) as [c|] eqn:C; [|discriminate].
      destruct (sms_from_proto (cmp_metas c) (u_counter_metas u)) as [s|] eqn:Es; [|discriminate]. injection E as <-. injection S as <-.
      apply (says_counter pb c _ T C). apply (sms_computes (cmp_metas c) (u_counter_metas u)). eauto. }
    destruct (Z.eqb_spec (mm_type pb) 2) as [T|N2].
    { unfold bm_from_proto in E. destruct (mm_timer pb) as [c|] eqn:C; [|discriminate].
      destruct (sms_from_proto (bmp_metas c) (u_timer_metas u)) as [s|] eqn:Es; [|discriminate]. injection E as <-. injection S as <-.
      apply (says_timer pb c _ T C). apply (sms_computes (bmp_metas c) (u_timer_metas u)). eauto. }
    destruct (Z.eqb_spec (mm_type pb) 3) as [T|N3].
    { unfold gm_from_proto in E. destruct (mm_gauge pb) as [c|] eqn:C; [|discriminate].
      destruct (sms_from_proto (gmp_metas c) (u_gauge_metas u)) as [s|] eqn:Es; [|discriminate]. injection E as <-. injection S as <-.
      apply (says_gauge pb c _ T C). apply (sms_computes (gmp_metas c) (u_gauge_metas u)). eauto. }
    destruct (Z.eqb_spec (mm_type pb) 4) as [T|N4].
    { unfold fwm_from_proto, forwarded_from_proto in E. destruct (mm_forwarded pb) as [c|] eqn:C; [|discriminate].
      destruct (mt_from_proto (fwp_type (fwmp_metric c))) as [t|] eqn:Et; [|discriminate]. cbn [option_map] in E.
      destruct (fm_from_proto (fwmp_meta c) (u_forward_meta u)) as [s|] eqn:Es; [|discriminate]. injection E as <-. injection S as <-.
      apply mt_says in Et as [-> Et]. apply (says_forwarded pb c _ T C Et). apply (fm_computes (fwmp_meta c) (u_forward_meta u)). eauto. }
    destruct (Z.eqb_spec (mm_type pb) 5) as [T|N5]; [|discriminate].
    unfold tdm_from_proto, timed_from_proto in E. destruct (mm_timed pb) as [c|] eqn:C; [|discriminate].
    destruct (mt_from_proto (tdp_type (tdmp_metric c))) as [t|] eqn:Et; [|discriminate]. cbn [option_map] in E.
    destruct (tm_from_proto (tdmp_meta c) (u_timed_meta u)) as [s|] eqn:Es; [|discriminate]. injection E as <-. injection S as <-.
    apply mt_says in Et as [-> Et]. apply (says_timed pb c _ T C Et). apply (tm_computes (tdmp_meta c) (u_timed_meta u)). eauto.
  - intros S. destruct S as [c ms T C S|c ms T C S|c ms T C S|c m T C R S|c m T C R S]; rewrite T; cbn [Z.eqb Pos.eqb].
    + unfold cm_from_proto. rewrite C. apply (sms_computes (cmp_metas c) (u_counter_metas u)) in S as (s & -> & <-). eexists. split; reflexivity.
    + unfold bm_from_proto. rewrite C. apply (sms_computes (bmp_metas c) (u_timer_metas u)) in S as (s & -> & <-). eexists. split; reflexivity.
    + unfold gm_from_proto. rewrite C. apply (sms_computes (gmp_metas c) (u_gauge_metas u)) in S as (s & -> & <-). eexists. split; reflexivity.
    + unfold fwm_from_proto, forwarded_from_proto. rewrite C, (proj2 (mt_says _ _) (conj eq_refl R)). cbn [option_map].
      apply (fm_computes (fwmp_meta c) (u_forward_meta u)) in S as (s & -> & <-). eexists. split; reflexivity.
    + unfold tdm_from_proto, timed_from_proto. rewrite C, (proj2 (mt_says _ _) (conj eq_refl R)). cbn [option_map].
      apply (tm_computes (tdmp_meta c) (u_timed_meta u)) in S as (s & -> & <-). eexists. split; reflexivity.
Qed.
(** What becomes of a message that cannot be converted. *)
Lemma mm_error pb u e : from_mm pb u = inr e -> 
  (forall x, ~ says pb x) /\ ((e = BadType /\ ~ 1 <= mm_type pb <= 5) \/ (e = BadMessage /\ 1 <= mm_type pb <= 5)).
Proof.
  intros E. split.
  - intros x S. apply (mm_computes pb u) in S as (u' & E' & _). congruence.
  - unfold from_mm in E.
    destruct (Z.eqb_spec (mm_type pb) 1) as [T|N1]; [right; split; [destruct (cm_from_proto _ _); congruence|lia]|].
    destruct (Z.eqb_spec (mm_type pb) 2) as [T|N2]; [right; split; [destruct (bm_from_proto _ _); congruence|lia]|].
    destruct (Z.eqb_spec (mm_type pb) 3) as [T|N3]; [right; split; [destruct (gm_from_proto _ _); congruence|lia]|].
    destruct (Z.eqb_spec (mm_type pb) 4) as [T|N4]; [right; split; [destruct (fwm_from_proto _ _); congruence|lia]|].
    destruct (Z.eqb_spec (mm_type pb) 5) as [T|N5]; [right; split; [destruct (tdm_from_proto _ _); congruence|lia]|].
    left. split; [congruence|lia].
Qed.
Lemma mm_selected pb u u' : from_mm pb u = inl u' -> exists x, says pb x /\ selected (union_content u') = Some x.
Proof.
  intros E. assert (exists x, selected (union_content u') = Some x) as (x & S).
  { unfold from_mm in E.
    destruct (Z.eqb_spec (mm_type pb) 1) as [T|N1].
    { unfold cm_from_proto in E. destruct (mm_counter pb) as [c|]; [|discriminate]. destruct (sms_from_proto _ _); [|discriminate]. injection E as <-. eexists. reflexivity. }
    destruct (Z.eqb_spec (mm_type pb) 2) as [T|N2].
    { unfold bm_from_proto in E. destruct (mm_timer pb) as [c|]; [|discriminate]. destruct (sms_from_proto _ _); [|discriminate]. injection E as <-. eexists. reflexivity. }
    destruct (Z.eqb_spec (mm_type pb) 3) as [T|N3].
    { unfold gm_from_proto in E. destruct (mm_gauge pb) as [c|]; [|discriminate]. destruct (sms_from_proto _ _); [|discriminate]. injection E as <-. eexists. reflexivity. }
    destruct (Z.eqb_spec (mm_type pb) 4) as [T|N4].
    { unfold fwm_from_proto in E. destruct (mm_forwarded pb) as [c|]; [|discriminate]. destruct (forwarded_from_proto _); [|discriminate].
      destruct (fm_from_proto _ _); [|discriminate]. injection E as <-. eexists. reflexivity. }
    destruct (Z.eqb_spec (mm_type pb) 5) as [T|N5]; [|discriminate].
    unfold tdm_from_proto in E. destruct (mm_timed pb) as [c|]; [|discriminate]. destruct (timed_from_proto _); [|discriminate].
    destruct (tm_from_proto _ _); [|discriminate]. injection E as <-. eexists. reflexivity. }
  exists x. split; [|exact S]. apply (mm_computes pb u). eauto.
Qed.
