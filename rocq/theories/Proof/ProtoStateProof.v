(** What a used iterator reads, compared with a new one. *)
From Coq Require Import Ascii String NArith ZArith Bool Arith Lia List.
From Verif.Base Require Import Bytes BytesFacts Slice SliceFacts.
From Verif.Model Require Import AggType Policy Transformation Pipeline Metadata ProtoWire Messages ProtoStream.
From Verif.Spec Require Import ProtoStreamSpec.
From Verif.Proof Require Import ProtoWireProof MessagesProof ProtoPure ProtoFrameProof ProtoSafeProof.
Import ListNotations.
Local Open Scope Z_scope.

(** ** Conversions do not depend on what was in the reused value *)

Lemma sp_read_ok pb old : ok_of (sp_from_proto old pb) = ok_of (sp_from_proto empty_storage_policy pb).
Proof.
  unfold sp_from_proto. destruct (resolution_from_proto _); [|reflexivity]. destruct (spp_retention pb); reflexivity.
Qed.
Definition applied_read (pb : list applied_op_pb) := map_opt (fun p => applied_op_from_proto p empty_applied_op) pb.
Lemma applied_read_ok pb old : option_map s_elems (applied_from_proto pb old) = applied_read pb.
Proof.
  unfold applied_from_proto, applied_read.
  rewrite <- (into_slice_pure empty_applied_op applied_op_from_proto (fun x => x)
    (fun p => applied_op_from_proto p empty_applied_op)) with (s := old).
  - destruct (into_slice _ _ _ _); cbn [option_map]; [|reflexivity]. now rewrite map_id.
  - intros a c. unfold applied_op_from_proto. destruct (aop_type a =? 1).
    + destruct (aop_tf a); [|reflexivity]. destruct (tf_from_proto _); reflexivity.
    + destruct (aop_type a =? 2); [|reflexivity]. destruct (aop_rollup a) as [[]|]; reflexivity.
Qed.
Definition sps_read (l : list sp_pb) := map_opt (fun p => ok_of (sp_from_proto empty_storage_policy p)) l.
Lemma sps_read_ok l old :
  option_map s_elems (into_slice empty_storage_policy (fun pb o => ok_of (sp_from_proto o pb)) l old) = sps_read l.
Proof.
  unfold sps_read.
  rewrite <- (into_slice_pure empty_storage_policy (fun pb o => ok_of (sp_from_proto o pb)) (fun x => x)
    (fun p => ok_of (sp_from_proto empty_storage_policy p))) with (s := old).
  - destruct (into_slice _ _ _ _); cbn [option_map]; [|reflexivity]. now rewrite map_id.
  - intros a c. rewrite sp_read_ok. destruct (ok_of _); reflexivity.
Qed.
Definition pm_read (pb : pm_pb_of list) : option pipeline_metadata :=
  match applied_read (pmp_pipeline pb) with
  | None => None
  | Some pipe => option_map (fun sps => mk_pm (pmp_agg pb) sps pipe (to_uint64 (pmp_drop pb))) (sps_read (pmp_sps pb))
  end.
Lemma pm_read_ok pb old : option_map pm_content (pm_from_proto pb old) = pm_read pb.
Proof.
  unfold pm_from_proto, pm_read. rewrite <- (applied_read_ok _ (pm_pipeline old)), <- (sps_read_ok _ (pm_sps old)).
  destruct (applied_from_proto _ _); cbn [option_map]; [|reflexivity]. destruct (into_slice _ _ _ _); reflexivity.
Qed.
Definition sm_read (pb : sm_pb_of list) : option staged_metadata :=
  option_map (fun md => mk_sm md (smp_cutover pb) (smp_tombstoned pb)) (map_opt pm_read (smp_pipelines pb)).
Lemma sm_read_ok pb old : option_map sm_content (sm_from_proto pb old) = sm_read pb.
Proof.
  unfold sm_from_proto, sm_read, md_from_proto.
  rewrite <- (into_slice_pure zero_pm pm_from_proto pm_content pm_read pm_read_ok) with (s := sm_pipelines old).
  destruct (into_slice _ _ _ _); reflexivity.
Qed.
Definition sms_read (l : list (sm_pb_of list)) : option staged_metadatas := map_opt sm_read l.
Lemma sms_read_ok l old : option_map (fun s => map sm_content (s_elems s)) (sms_from_proto l old) = sms_read l.
Proof. exact (into_slice_pure zero_sm sm_from_proto sm_content sm_read sm_read_ok l old). Qed.
Definition fm_read (pb : fm_pb_of list) : option forward_metadata :=
  match ok_of (sp_from_proto empty_storage_policy (fmp_sp pb)) with
  | None => None
  | Some sp => option_map (fun pipe => mk_fm (fmp_agg pb) sp pipe (fmp_source pb) (fmp_times pb))
                 (applied_read (fmp_pipeline pb))
  end.
Lemma fm_read_ok pb old : option_map fm_content (fm_from_proto pb old) = fm_read pb.
Proof.
  unfold fm_from_proto, fm_read. rewrite sp_read_ok, <- (applied_read_ok _ (fm_pipeline old)).
  destruct (ok_of _); [|reflexivity]. destruct (applied_from_proto _ _); reflexivity.
Qed.
Definition tm_read (pb : tm_pb) : option timed_metadata :=
  option_map (fun sp => {| tm_agg := tmp_agg pb; tm_sp := sp |}) (ok_of (sp_from_proto empty_storage_policy (tmp_sp pb))).
Lemma tm_read_ok pb old : tm_from_proto pb old = tm_read pb.
Proof. unfold tm_from_proto, tm_read. now rewrite sp_read_ok. Qed.

(** The message a protobuf message stands for, or why it stands for none. *)
Definition read_mm (pb : mm_pb) : message + decode_error :=
  let ok o := match o with Some m => inl m | None => inr BadMessage end in
  if mm_type pb =? 1 then
    ok (match mm_counter pb with
        | None => None
        | Some p => option_map (MCounter (counter_from_proto (cmp_counter p))) (sms_read (cmp_metas p))
        end)
  else if mm_type pb =? 2 then
    ok (match mm_timer pb with
        | None => None
        | Some p => option_map (MTimer (timer_from_proto (bmp_timer p))) (sms_read (bmp_metas p))
        end)
  else if mm_type pb =? 3 then
    ok (match mm_gauge pb with
        | None => None
        | Some p => option_map (MGauge (gauge_from_proto (gmp_gauge p))) (sms_read (gmp_metas p))
        end)
  else if mm_type pb =? 4 then
    ok (match mm_forwarded pb with
        | None => None
        | Some p => match forwarded_from_proto (fwmp_metric p) with
                    | None => None
                    | Some f => option_map (MForwarded f) (fm_read (fwmp_meta p))
                    end
        end)
  else if mm_type pb =? 5 then
    ok (match mm_timed pb with
        | None => None
        | Some p => match timed_from_proto (tdmp_metric p) with
                    | None => None
                    | Some f => option_map (MTimed f) (tm_read (tdmp_meta p))
                    end
        end)
  else inr BadType.

Lemma read_mm_ok pb u :
  match from_mm pb u with
  | inl u' => exists m, read_mm pb = inl m /\ selected (union_content u') = Some m
  | inr e => read_mm pb = inr e
  end.
Proof.
  unfold from_mm, read_mm. destruct (mm_type pb =? 1).
  { unfold cm_from_proto. destruct (mm_counter pb) as [p|]; [|reflexivity].
    rewrite <- (sms_read_ok _ (u_counter_metas u)). destruct (sms_from_proto _ _); cbn [option_map]; eauto. }
  destruct (mm_type pb =? 2).
  { unfold bm_from_proto. destruct (mm_timer pb) as [p|]; [|reflexivity].
    rewrite <- (sms_read_ok _ (u_timer_metas u)). destruct (sms_from_proto _ _); cbn [option_map]; eauto. }
  destruct (mm_type pb =? 3).
  { unfold gm_from_proto. destruct (mm_gauge pb) as [p|]; [|reflexivity].
    rewrite <- (sms_read_ok _ (u_gauge_metas u)). destruct (sms_from_proto _ _); cbn [option_map]; eauto. }
  destruct (mm_type pb =? 4).
  { unfold fwm_from_proto. destruct (mm_forwarded pb) as [p|]; [|reflexivity].
    destruct (forwarded_from_proto _); [|reflexivity].
    rewrite <- (fm_read_ok _ (u_forward_meta u)). destruct (fm_from_proto _ _); cbn [option_map]; eauto. }
  destruct (mm_type pb =? 5); [|reflexivity].
  unfold tdm_from_proto. destruct (mm_timed pb) as [p|]; [|reflexivity].
  destruct (timed_from_proto _); [|reflexivity].
  rewrite (tm_read_ok _ (u_timed_meta u)). destruct (tm_read _); cbn [option_map]; eauto.
Qed.

(** ** Messages equal up to members that are absent in one and empty in the other *)

Definition osim {S} (z : S) (a b : option S) : Prop := a = b \/ (a = None /\ b = Some z).
Definition mm_sim (a b : mm_pb) : Prop :=
  mm_type a = mm_type b /\ osim zero_cm_pb (mm_counter a) (mm_counter b) /\ osim zero_bm_pb (mm_timer a) (mm_timer b) /\
  osim zero_gm_pb (mm_gauge a) (mm_gauge b) /\ osim zero_fwm_pb (mm_forwarded a) (mm_forwarded b) /\
  osim zero_tdm_pb (mm_timed a) (mm_timed b).

Definition rsim {A} (R : A -> A -> Prop) (a b : res A) : Prop :=
  match a, b with Ok x, Ok y => R x y | Err, Err => True | Panic, Panic => True | _, _ => False end.
Definition psim (a b : mm_pb * bytes) : Prop := mm_sim (fst a) (fst b) /\ snd a = snd b.

Lemma osim_value {S} (z : S) a b : osim z a b ->
  (match a with None => z | Some s => s end) = (match b with None => z | Some s => s end).
Proof. intros [->|[-> ->]]; reflexivity. Qed.

Definition keeps_sim (f : field mm_pb) : Prop :=
  forall l wt d a b, mm_sim a b -> rsim psim (f_dec f l wt d a) (f_dec f l wt d b).

Lemma sim_ptr {S} num (gs : list (field S)) z get set :
  (forall a b, mm_sim a b -> osim z (get a) (get b)) ->
  (forall s a b, mm_sim a b -> mm_sim (set (Some s) a) (set (Some s) b)) -> keeps_sim (ptr_field num gs z get set).
Proof.
  intros G St l wt d a b H. cbn [ptr_field f_dec]. rewrite (osim_value z _ _ (G a b H)).
  destruct (dec_msg gs l wt d _) as [[s r]| |]; cbn [bind rsim]; auto. split; cbn [fst snd]; auto.
Qed.

Lemma sim_fields : Forall keeps_sim mm_fields.
Proof.
  unfold mm_fields. repeat constructor.
  - intros l wt d a b H. cbn [varint_field f_dec]. destruct (negb _); [exact I|].
    destruct (dec_varint d) as [[v r]| |]; cbn [bind rsim]; auto. split; [|reflexivity]. cbn [fst].
    destruct H as (_ & H). split; [reflexivity|exact H].
  - apply sim_ptr; [intros a b H; apply H|]. intros s a b (T & H1 & H2 & H3 & H4 & H5).
    repeat split; cbn; auto. left; reflexivity.
  - apply sim_ptr; [intros a b H; apply H|]. intros s a b (T & H1 & H2 & H3 & H4 & H5).
    repeat split; cbn; auto. left; reflexivity.
  - apply sim_ptr; [intros a b H; apply H|]. intros s a b (T & H1 & H2 & H3 & H4 & H5).
    repeat split; cbn; auto. left; reflexivity.
  - apply sim_ptr; [intros a b H; apply H|]. intros s a b (T & H1 & H2 & H3 & H4 & H5).
    repeat split; cbn; auto. left; reflexivity.
  - apply sim_ptr; [intros a b H; apply H|]. intros s a b (T & H1 & H2 & H3 & H4 & H5).
    repeat split; cbn; auto. left; reflexivity.
Qed.

Lemma sim_loop l : forall fuel d a b, mm_sim a b ->
  rsim mm_sim (unmarshal_loop mm_fields l fuel d a) (unmarshal_loop mm_fields l fuel d b).
Proof.
  induction fuel as [|fuel IH]; intros d a b H; [destruct d; [exact H|exact I]|].
  cbn [unmarshal_loop]. destruct d as [|c0 d0]; [exact H|]. generalize (c0 :: d0) as d. clear c0 d0. intros d.
  destruct (dec_varint d) as [[wire rest]| |]; cbn [bind rsim]; auto.
  destruct (wire mod 8 =? 4); [exact I|]. destruct (_ <=? 0); [exact I|].
  destruct (find_field mm_fields _) as [f|] eqn:Ff.
  - apply find_some in Ff as [If _]. pose proof sim_fields as Fs. rewrite Forall_forall in Fs.
    pose proof (Fs f If l (wire mod 8) rest a b H) as K. unfold psim in K.
    destruct (f_dec f l (wire mod 8) rest a) as [[a' ra]| |], (f_dec f l (wire mod 8) rest b) as [[b' rb]| |];
      cbn [rsim bind fst snd] in *; try contradiction; auto.
    destruct K as [K ->]. apply IH, K.
  - destruct (skip_field _ d) as [n| |]; cbn [bind rsim]; auto.
    destruct (n <? 0); [exact I|]. destruct (l <? _); [exact I|]. destruct (_ <? 0); [exact I|]. apply IH, H.
Qed.

Lemma reset_sim m : mm_sim zero_mm (reset_mm m).
Proof.
  unfold mm_sim, reset_mm, zero_mm. cbn.
  split; [reflexivity|]. repeat split.
  - destruct (mm_counter m); [right|left]; auto.
  - destruct (mm_timer m); [right|left]; auto.
  - destruct (mm_gauge m); [right|left]; auto.
  - destruct (mm_forwarded m); [right|left]; auto.
  - destruct (mm_timed m); [right|left]; auto.
Qed.

(** The empty messages. *)
Lemma sim_read a b : mm_sim a b ->
  read_mm b = read_mm a \/
  (read_mm a = inr BadMessage /\ exists m, read_mm b = inl m /\ empty_message m).
Proof.
  intros (T & H1 & H2 & H3 & H4 & H5). unfold read_mm. rewrite <- T.
  destruct (mm_type a =? 1).
  { destruct H1 as [->|[-> ->]]; [auto|]. right. split; [reflexivity|]. eexists. split; [reflexivity|]. unfold empty_message. cbn. auto. }
  destruct (mm_type a =? 2).
  { destruct H2 as [->|[-> ->]]; [auto|]. right. split; [reflexivity|]. eexists. split; [reflexivity|]. unfold empty_message. cbn. auto. }
  destruct (mm_type a =? 3).
  { destruct H3 as [->|[-> ->]]; [auto|]. right. split; [reflexivity|]. eexists. split; [reflexivity|]. unfold empty_message. cbn. auto. }
  destruct (mm_type a =? 4).
  { destruct H4 as [->|[-> ->]]; left; reflexivity. }
  destruct (mm_type a =? 5); [|auto].
  destruct H5 as [->|[-> ->]]; left; reflexivity.
Qed.

Lemma next_used it : i_err it = None -> i_closed it = false ->
  match next (new_iter (i_in it) (i_max it)) with
  | More it1 => exists it2, next it = More it2 /\ current it2 = current it1 /\ i_in it2 = i_in it1
  | Crash => next it = Crash
  | Stop it1 =>
      (exists it2, next it = Stop it2 /\ i_err it2 = i_err it1) \/
      (i_err it1 = Some BadMessage /\ exists it2 m, next it = More it2 /\ current it2 = Some m /\ empty_message m)
  end.
Proof.
  intros E C. unfold next. rewrite E, C. cbn [new_iter i_err i_closed i_in i_max].
  destruct (read_varint (i_in it)) as [[n rest]|e]; [|left; eexists; split; reflexivity].
  cbn [i_max i_in i_pb i_msg i_closed i_err].
  destruct (i_max it <? n); [left; eexists; split; reflexivity|].
  unfold decode_message. cbn [i_max i_in i_pb i_msg i_closed i_err]. destruct (n <? 0); [reflexivity|].
  destruct (read_full n rest) as [[d x]|e]; [|left; eexists; split; reflexivity].
  cbn [i_max i_in i_pb i_msg i_closed i_err]. 
  change (reset_mm (i_pb (new_iter (i_in it) (i_max it)))) with zero_mm.
  change (i_msg (new_iter (i_in it) (i_max it))) with zero_union.
  pose proof (sim_loop (zlen d) (length d) d _ _ (reset_sim (i_pb it))) as K. unfold unmarshal.
  destruct (unmarshal_loop mm_fields (zlen d) (length d) d zero_mm) as [a| |] eqn:Ea;
    destruct (unmarshal_loop mm_fields (zlen d) (length d) d (reset_mm (i_pb it))) as [b| |] eqn:Eb;
    cbn [rsim] in K; try contradiction; [|left; eexists; split; reflexivity|reflexivity].
  pose proof (sim_read a b K) as Rd. pose proof (read_mm_ok a zero_union) as Ra. pose proof (read_mm_ok b (i_msg it)) as Rb.
  destruct (from_mm a zero_union) as [ua|ea].
  - destruct Ra as (m & Ra & Sa). destruct Rd as [Rd|[Rd _]]; [|congruence].
    destruct (from_mm b (i_msg it)) as [ub|eb]; [|congruence]. destruct Rb as (m' & Rb & Sb).
    eexists. split; [reflexivity|]. split; [|reflexivity]. unfold current. cbn [i_msg]. congruence.
  - destruct Rd as [Rd|[Rd (m & Rm & Em)]].
    + left. destruct (from_mm b (i_msg it)) as [ub|eb]; [destruct Rb as (m' & Rb & _); congruence|].
      eexists. split; [reflexivity|]. cbn. congruence.
    + right. destruct (from_mm b (i_msg it)) as [ub|eb]; [|congruence]. destruct Rb as (m' & Rb & Sb).
      split; [cbn; congruence|]. eexists _, m. split; [reflexivity|]. split; [|exact Em].
      unfold current. cbn [i_msg]. congruence.
Qed.
