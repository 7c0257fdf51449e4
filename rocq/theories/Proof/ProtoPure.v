(** The content of a converted message does not depend on the message converted into. *)
From Coq Require Import Ascii String NArith ZArith Bool Arith Lia List.
From Verif.Base Require Import Bytes BytesFacts Slice SliceFacts.
From Verif.Model Require Import AggType Policy Transformation Pipeline Metadata ProtoWire Messages ProtoStream.
From Verif.Spec Require Import PolicySpec MetadataSpec ProtoStreamSpec.
From Verif.Proof Require Import PolicyProof MetadataProof ProtoWireProof MessagesProof.
Import ListNotations.
Local Open Scope Z_scope.

Lemma fill_pure {A C P} (f : A -> C -> option C) (cont : C -> P) (g : A -> option P) :
  (forall a c, option_map cont (f a c) = g a) ->
  forall src dst, length dst = length src -> option_map (map cont) (fill f src dst) = map_opt g src.
Proof.
  intros H. induction src as [|a src IH]; intros [|c dst] L; try discriminate; [reflexivity|].
  cbn [fill map_opt]. rewrite <- (H a c). destruct (f a c) as [c'|]; cbn [option_map]; [|reflexivity].
  rewrite <- (IH dst) by (injection L; auto). destruct (fill f src dst); reflexivity.
Qed.

Lemma into_slice_pure {A C P} (z : C) (f : A -> C -> option C) (cont : C -> P) (g : A -> option P) :
  (forall a c, option_map cont (f a c) = g a) ->
  forall l s, option_map (fun s => map cont (s_elems s)) (into_slice z f l s) = map_opt g l.
Proof.
  intros H l s. unfold into_slice. rewrite <- (fill_pure f cont g H l _ (resize_length z s (length l))).
  destruct (fill f l _); reflexivity.
Qed.

Definition sp_pure (p : storage_policy) : option sp_pb := ok_of (sp_to_proto p empty_sp_pb).
Lemma sp_pure_ok p old : ok_of (sp_to_proto p old) = sp_pure p.
Proof. unfold sp_pure, sp_to_proto. destruct (resolution_to_proto (sp_resolution p)); reflexivity. Qed.

Definition applied_op_pure (a : applied_op) : option applied_op_pb := applied_op_to_proto a empty_applied_op_pb.
Definition applied_pure (p : applied_pipeline) : option (list applied_op_pb) := map_opt applied_op_pure p.
Lemma applied_pure_ok p old : option_map s_elems (applied_to_proto p old) = applied_pure p.
Proof.
  unfold applied_to_proto, applied_pure.
  rewrite <- (into_slice_pure empty_applied_op_pb applied_op_to_proto (fun x => x) applied_op_pure) with (s := old).
  - destruct (into_slice _ _ _ _); cbn [option_map]; [rewrite map_id|]; reflexivity.
  - intros a c. unfold applied_op_pure. change (applied_op_to_proto a empty_applied_op_pb) with (applied_op_to_proto a c).
    destruct (applied_op_to_proto a c); reflexivity.
Qed.

Definition sps_pure (l : list storage_policy) : option (list sp_pb) := map_opt sp_pure l.
Lemma sps_pure_ok l old :
  option_map s_elems (into_slice empty_sp_pb (fun sp o => ok_of (sp_to_proto sp o)) l old) = sps_pure l.
Proof.
  unfold sps_pure.
  rewrite <- (into_slice_pure empty_sp_pb (fun sp o => ok_of (sp_to_proto sp o)) (fun x => x) sp_pure) with (s := old).
  - destruct (into_slice _ _ _ _); cbn [option_map]; [rewrite map_id|]; reflexivity.
  - intros a c. rewrite <- (sp_pure_ok a c). destruct (ok_of _); reflexivity.
Qed.

Definition pm_pure (m : pipeline_metadata) : option (pm_pb_of list) :=
  match applied_pure (pm_pipeline m) with
  | None => None
  | Some pipe => option_map (fun sps => mk_pm_pb (pm_agg m) sps pipe (to_int32 (pm_drop m))) (sps_pure (pm_sps m))
  end.
Lemma pm_pure_ok m old : option_map pm_pb_content (pm_to_proto m old) = pm_pure m.
Proof.
  unfold pm_to_proto, pm_pure. rewrite <- (applied_pure_ok _ (pmp_pipeline old)), <- (sps_pure_ok _ (pmp_sps old)).
  destruct (applied_to_proto _ _); cbn [option_map]; [|reflexivity]. destruct (into_slice _ _ _ _); reflexivity.
Qed.

Definition sm_pure (s : staged_metadata) : option (sm_pb_of list) :=
  option_map (fun md => mk_sm_pb (sm_cutover s) (sm_tombstoned s) md) (map_opt pm_pure (sm_pipelines s)).
Lemma sm_pure_ok s old : option_map sm_pb_content (sm_to_proto s old) = sm_pure s.
Proof.
  unfold sm_to_proto, sm_pure, md_to_proto.
  rewrite <- (into_slice_pure zero_pm_pb pm_to_proto pm_pb_content pm_pure pm_pure_ok) with (s := smp_pipelines old).
  destruct (into_slice _ _ _ _); reflexivity.
Qed.

Definition sms_pure (l : staged_metadatas) : option (list (sm_pb_of list)) := map_opt sm_pure l.
Lemma sms_pure_ok l old : option_map (fun s => map sm_pb_content (s_elems s)) (sms_to_proto l old) = sms_pure l.
Proof. exact (into_slice_pure zero_sm_pb sm_to_proto sm_pb_content sm_pure sm_pure_ok l old). Qed.

Definition fm_pure (m : forward_metadata) : option (fm_pb_of list) :=
  match sp_pure (fm_sp m) with
  | None => None
  | Some sp =>
      option_map (fun pipe => mk_fm_pb (fm_agg m) sp pipe (fm_source m) (to_int32 (fm_times m)))
        (applied_pure (fm_pipeline m))
  end.
Lemma fm_pure_ok m old : option_map fm_pb_content (fm_to_proto m old) = fm_pure m.
Proof.
  unfold fm_to_proto, fm_pure. rewrite sp_pure_ok, <- (applied_pure_ok _ (fmp_pipeline old)).
  destruct (sp_pure _); [|reflexivity]. destruct (applied_to_proto _ _); reflexivity.
Qed.

Definition tm_pure (m : timed_metadata) : option tm_pb :=
  option_map (fun sp => {| tmp_agg := tm_agg m; tmp_sp := sp |}) (sp_pure (tm_sp m)).
Lemma tm_pure_ok m old : tm_to_proto m old = tm_pure m.
Proof. unfold tm_to_proto, tm_pure. now rewrite sp_pure_ok. Qed.

(** The protobuf message of a message. *)
Definition mm_of (m : message) : option mm_pb :=
  match m with
  | MCounter c ms =>
      option_map (fun s => mk_mm 1 (Some (mk_cm_pb (counter_to_proto c) s)) None None None None) (sms_pure ms)
  | MTimer t ms =>
      option_map (fun s => mk_mm 2 None (Some (mk_bm_pb (timer_to_proto t) s)) None None None) (sms_pure ms)
  | MGauge g ms =>
      option_map (fun s => mk_mm 3 None None (Some (mk_gm_pb (gauge_to_proto g) s)) None None) (sms_pure ms)
  | MForwarded f m =>
      match forwarded_to_proto f with
      | None => None
      | Some x => option_map (fun s => mk_mm 4 None None None (Some (mk_fwm_pb x s)) None) (fm_pure m)
      end
  | MTimed t m =>
      match timed_to_proto t with
      | None => None
      | Some x => option_map (fun s => mk_mm 5 None None None None (Some (mk_tdm_pb x s))) (tm_pure m)
      end
  end.

(** Encoding a union, in terms of the message alone: an error that leaves the encoder's content alone, or
    [enc_mm] on an encoder that differs in its reused messages only. *)
Definition same_but_reused (e e' : encoder) : Prop :=
  e_pool e' = e_pool e /\ e_init e' = e_init e /\ e_max e' = e_max e /\ e_buf e' = e_buf e /\ e_used e' = e_used e.

Lemma enc_message_pure u c e h :
  match match selected u with None => None | Some m => mm_of m end with
  | None => enc_message u c e h = EncErr e h
  | Some pb => exists e', same_but_reused e e' /\ enc_message u c e h = enc_mm pb c e' h
  end.
Proof.
  unfold enc_message, selected.
  destruct (Z.eqb_spec (u_type u) 1) as [->|N1].
  { unfold mm_of, enc_counter, cm_to_proto. rewrite <- (sms_pure_ok _ (cmp_metas (e_cm e))).
    destruct (sms_to_proto _ _) as [s|]; cbn [option_map]; [|reflexivity].
    eexists. split; [|reflexivity]. repeat split. }
  destruct (Z.eqb_spec (u_type u) 2) as [->|N2].
  { unfold mm_of, enc_timer, bm_to_proto. rewrite <- (sms_pure_ok _ (bmp_metas (e_bm e))).
    destruct (sms_to_proto _ _) as [s|]; cbn [option_map]; [|reflexivity].
    eexists. split; [|reflexivity]. repeat split. }
  destruct (Z.eqb_spec (u_type u) 3) as [->|N3].
  { unfold mm_of, enc_gauge, gm_to_proto. rewrite <- (sms_pure_ok _ (gmp_metas (e_gm e))).
    destruct (sms_to_proto _ _) as [s|]; cbn [option_map]; [|reflexivity].
    eexists. split; [|reflexivity]. repeat split. }
  destruct (Z.eqb_spec (u_type u) 4) as [->|N4].
  { unfold mm_of, enc_forwarded, fwm_to_proto. destruct (forwarded_to_proto _) as [x|]; [|reflexivity].
    rewrite <- (fm_pure_ok _ (fwmp_meta (e_fm e))).
    destruct (fm_to_proto _ _) as [s|]; cbn [option_map]; [|reflexivity].
    eexists. split; [|reflexivity]. repeat split. }
  destruct (Z.eqb_spec (u_type u) 5) as [->|N5].
  { unfold mm_of, enc_timed, tdm_to_proto. destruct (timed_to_proto _) as [x|]; [|reflexivity].
    rewrite tm_pure_ok. destruct (tm_pure _) as [s|]; cbn [option_map]; [|reflexivity].
    eexists. split; [|reflexivity]. repeat split. }
  destruct (u_type u) as [|p|p]; try reflexivity.
  repeat (destruct p as [p|p|]; try reflexivity; try congruence).
Qed.

(** ** Ranges *)

Lemma map_opt_Forall {A C} (f : A -> option C) (P : A -> Prop) (Q : C -> Prop) l : forall l',
  (forall a c, P a -> f a = Some c -> Q c) -> Forall P l -> map_opt f l = Some l' -> Forall Q l'.
Proof.
  induction l as [|a l IH]; cbn [map_opt]; intros l' H F E; [injection E as <-; constructor|].
  inversion F; subst. destruct (f a) eqn:Ea; [|discriminate]. destruct (map_opt f l) eqn:El; [|discriminate].
  injection E as <-. constructor; eauto.
Qed.

Lemma unit_value_range u v : unit_value u = Some v -> 0 < v < 2 ^ 62.
Proof.
  unfold unit_value. destruct (find _ unit_table) as [x|] eqn:E; [|discriminate]. intros [= <-].
  apply find_some in E as [E _]. unfold unit_table in E. cbn [In] in E.
  repeat destruct E as [<-|E]; cbn [snd]; try lia.
Qed.

Lemma sp_pure_range p pb : sp_sendable p -> sp_pure p = Some pb -> sp_pb_ok pb.
Proof.
  intros (_ & H1 & H2). unfold sp_pure, sp_to_proto, resolution_to_proto.
  destruct (unit_value _) as [v|] eqn:E; cbn; [|discriminate]. intros [= <-].
  apply unit_value_range in E. unfold sp_pb_ok, i64, is_int64 in *. cbn. repeat split; lia.
Qed.

Lemma tf_range t z : tf_to_proto t = Some z -> i32 z.
Proof.
  unfold tf_to_proto, i32. destruct (t =? TfAbsolute); [intros [= <-]; lia|].
  destruct (t =? TfPerSecond); [intros [= <-]; lia|discriminate].
Qed.

Lemma applied_range a pb : applied_sendable a -> applied_op_pure a = Some pb -> applied_op_pb_ok pb.
Proof.
  intros (V & H). unfold applied_op_pure, applied_op_to_proto, applied_op_pb_ok.
  destruct (ao_kind a =? TransformationOp).
  - destruct (tf_to_proto (ao_tf a)) as [z|] eqn:E; [|discriminate]. intros [= <-].
    cbn [aop_type aop_tf aop_rollup]. apply tf_range in E. split; [unfold i32; lia|auto].
  - destruct (ao_kind a =? RollupOp); [|discriminate]. intros [= <-]. cbn [aop_type aop_tf aop_rollup snd].
    split; [unfold i32; lia|auto].
Qed.

Lemma to_int32_range z : i32 (to_int32 z).
Proof.
  unfold i32, to_int32. cbv zeta. pose proof (Z.mod_pos_bound z (2 ^ 32) ltac:(lia)).
  destruct (2 ^ 31 <=? z mod 2 ^ 32) eqn:E; [apply Z.leb_le in E|apply Z.leb_gt in E]; lia.
Qed.

Lemma pm_range m pb : pm_sendable m -> pm_pure m = Some pb -> pm_pb_ok pb.
Proof.
  intros (H1 & H2 & H3 & H4). unfold pm_pure.
  destruct (applied_pure (pm_pipeline m)) as [pipe|] eqn:E1; [|discriminate].
  destruct (sps_pure (pm_sps m)) as [sps|] eqn:E2; [|discriminate]. intros [= <-].
  repeat split; cbn [pmp_agg pmp_sps pmp_pipeline pmp_drop]; try apply to_int32_range; auto.
  - exact (map_opt_Forall _ _ _ _ _ sp_pure_range H2 E2).
  - exact (map_opt_Forall _ _ _ _ _ applied_range H3 E1).
Qed.

Lemma sm_range s pb : sm_sendable s -> sm_pure s = Some pb -> sm_pb_ok pb.
Proof.
  intros (H1 & H2). unfold sm_pure. destruct (map_opt pm_pure _) as [md|] eqn:E; [|discriminate]. intros [= <-].
  split; [exact H1|exact (map_opt_Forall _ _ _ _ _ pm_range H2 E)].
Qed.

Lemma sms_range l pb : Forall sm_sendable l -> sms_pure l = Some pb -> Forall sm_pb_ok pb.
Proof. intros H E. exact (map_opt_Forall _ _ _ _ _ sm_range H E). Qed.

Lemma fm_range m pb : fm_sendable m -> fm_pure m = Some pb -> fm_pb_ok pb.
Proof.
  intros (H1 & H2 & H3 & H4 & H5). unfold fm_pure. destruct (sp_pure _) as [sp|] eqn:E1; [|discriminate].
  destruct (applied_pure _) as [pipe|] eqn:E2; [|discriminate]. intros [= <-].
  split; [exact H1|]. split; [exact (sp_pure_range _ _ H2 E1)|].
  split; [exact (map_opt_Forall _ _ _ _ _ applied_range H3 E2)|].
  split; [exact H4|apply to_int32_range].
Qed.

Lemma tm_range m pb : tm_sendable m -> tm_pure m = Some pb -> tm_pb_ok pb.
Proof.
  intros (H1 & H2). unfold tm_pure. destruct (sp_pure _) as [sp|] eqn:E1; [|discriminate]. intros [= <-].
  split; [exact H1|exact (sp_pure_range _ _ H2 E1)].
Qed.

(** ** Round trips of the content *)

Lemma sm_sendable_ok s : sm_sendable s -> sm_ok s.
Proof.
  intros (_ & H). unfold sm_ok. eapply Forall_impl; [|exact H]. intros m (_ & H1 & H2 & H3).
  repeat split; try lia; [eapply Forall_impl; [|exact H1]|eapply Forall_impl; [|exact H2]]; intros a Ha; apply Ha.
Qed.

Lemma sms_back l : Forall sm_sendable l -> exists p, sms_pure l = Some p /\
  forall old, exists v, sms_from_proto p old = Some v /\ map sm_content (s_elems v) = l.
Proof.
  intros H. destruct (sms_roundtrip l) with (old_pb := @nil_slice (sm_pb_of slice)) as (pb & E & R).
  { eapply Forall_impl; [|exact H]. intros; now apply sm_sendable_ok. }
  exists (map sm_pb_content (s_elems pb)). split; [|exact R].
  rewrite <- (sms_pure_ok l nil_slice), E. reflexivity.
Qed.

Lemma fm_back m : fm_sendable m -> exists p, fm_pure m = Some p /\
  forall old, exists v, fm_from_proto p old = Some v /\ fm_content v = m.
Proof.
  intros (_ & H2 & H3 & _ & H5).
  destruct (fm_roundtrip m) with (old_pb := zero_fm_pb_s) as (pb & E & R).
  - apply H2.
  - eapply Forall_impl; [|exact H3]. intros a Ha; apply Ha.
  - exact H5.
  - exists (fm_pb_content pb). split; [|exact R]. rewrite <- (fm_pure_ok m zero_fm_pb_s), E. reflexivity.
Qed.

Lemma tm_back m : tm_sendable m -> exists p, tm_pure m = Some p /\ forall old, tm_from_proto p old = Some m.
Proof.
  intros (_ & H2). destruct (tm_roundtrip m (proj1 H2) zero_tm_pb) as (pb & E & R).
  exists pb. split; [|exact R]. now rewrite <- (tm_pure_ok m zero_tm_pb).
Qed.
