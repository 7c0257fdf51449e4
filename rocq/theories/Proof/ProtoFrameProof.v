(** Reading back a stream of frames, whole or cut. *)
From Coq Require Import Ascii String NArith ZArith Bool Arith Lia List.
From Verif.Base Require Import Bytes BytesFacts Slice SliceFacts.
From Verif.Model Require Import AggType Policy Transformation Pipeline Metadata ProtoWire Messages ProtoStream.
From Verif.Spec Require Import PolicySpec MetadataSpec ProtoStreamSpec.
From Verif.Proof Require Import MetadataProof ProtoWireProof MessagesProof ProtoPure.
Import ListNotations.
Local Open Scope Z_scope.

(** ** The size prefix *)

Lemma read_put_uvarint k : forall v w acc r i,
  0 <= v < 2 * 128 ^ (Z.of_nat k - 1) -> (0 < k)%nat -> i = 10 - Z.of_nat k ->
  read_uvarint i w acc (put_varint k v ++ r) = inl (acc + v * w, r).
Proof.
  induction k as [|k IH]; intros v w acc r i Hv Hk Hi; [lia|].
  cbn [put_varint]. destruct (v <? 128) eqn:E.
  - apply Z.ltb_lt in E. cbn [app read_uvarint]. rewrite bz_zb by lia.
    rewrite (proj2 (Z.ltb_lt v 128) E). rewrite (proj2 (Z.ltb_ge 9 i)) by lia.
    destruct (i =? 9) eqn:E9; [|reflexivity]. apply Z.eqb_eq in E9.
    assert (k = 0%nat) by lia. subst k. cbn in Hv. rewrite (proj2 (Z.ltb_ge 1 v)) by lia. reflexivity.
  - apply Z.ltb_ge in E. pose proof (Z.mod_pos_bound v 128). cbn [app read_uvarint].
    rewrite bz_zb by lia. rewrite (proj2 (Z.ltb_ge _ 128)) by lia.
    replace ((v mod 128 + 128) mod 128) with (v mod 128)
      by (replace (v mod 128 + 128) with (v mod 128 + 1 * 128) by lia;
          rewrite Z.mod_add, Z.mod_mod by lia; reflexivity).
    destruct k as [|k]; [cbn in Hv; lia|].
    rewrite IH; [| |lia|lia].
    + f_equal. f_equal. pose proof (Z.div_mod v 128). nia.
    + replace (Z.of_nat (S (S k)) - 1) with (Z.succ (Z.of_nat (S k) - 1)) in Hv by lia.
      rewrite Z.pow_succ_r in Hv by lia. set (P := 128 ^ (Z.of_nat (S k) - 1)) in *. clearbody P.
      split; [apply Z.div_pos; lia|]. apply Z.div_lt_upper_bound; lia.
Qed.

Lemma read_enc_varint n r : 0 <= n < 2 ^ 63 -> read_varint (enc_varint (zigzag n) ++ r) = inl (n, r).
Proof.
  intros H. unfold read_varint, enc_varint, zigzag. rewrite (proj2 (Z.ltb_ge n 0)) by lia.
  rewrite read_put_uvarint; [|change (2 * 128 ^ (Z.of_nat 10 - 1)) with (2 ^ 64); lia|lia|reflexivity].
  unfold unzigzag. replace (0 + 2 * n * 1) with (2 * n) by lia. rewrite Z.even_mul. cbn [Z.even orb].
  rewrite Z.mul_comm, Z.div_mul by lia. reflexivity.
Qed.

Lemma read_put_cut k : forall v w acc i j,
  0 <= v -> (j < length (put_varint k v))%nat -> read_uvarint i w acc (firstn j (put_varint k v)) = inr EOF.
Proof.
  induction k as [|k IH]; intros v w acc i j Hv Hj; [cbn in Hj; lia|].
  destruct j as [|j]; [reflexivity|].
  cbn [put_varint] in *. destruct (v <? 128) eqn:E; [cbn in Hj; lia|].
  apply Z.ltb_ge in E. pose proof (Z.mod_pos_bound v 128). cbn [firstn read_uvarint].
  rewrite bz_zb by lia. rewrite (proj2 (Z.ltb_ge _ 128)) by lia.
  apply IH; [apply Z.div_pos; lia|cbn in Hj; lia].
Qed.

Lemma read_varint_cut n j :
  0 <= n -> (j < length (enc_varint (zigzag n)))%nat ->
  read_varint (firstn j (enc_varint (zigzag n))) = inr EOF.
Proof.
  intros H Hj. unfold read_varint, enc_varint in *. rewrite read_put_cut; [reflexivity| |exact Hj].
  unfold zigzag. destruct (n <? 0) eqn:E; [apply Z.ltb_lt in E|]; lia.
Qed.

Lemma enc_varint_nonempty v : 0 <= v -> (0 < length (enc_varint v))%nat.
Proof. intros H. pose proof (enc_varint_length v H). pose proof (sov_pos v). unfold zlen in *. lia. Qed.

(** ** Frames *)

Definition frame (pb : mm_pb) : bytes := enc_varint (zigzag (size mm_fields pb)) ++ marshal mm_fields pb.

Lemma mm_size pb : size mm_fields pb = zlen (marshal mm_fields pb).
Proof. apply size_marshal, sized_mm. Qed.

(** The message of a sendable message is written, read back into whatever was there before, and converted. *)
Lemma message_back m : sendable m -> exists pb, mm_of m = Some pb /\
  forall old u, zlen (marshal mm_fields pb) < 2 ^ 63 -> exists pb' u',
    unmarshal mm_fields (marshal mm_fields pb) (reset_mm old) = Ok pb' /\
    from_mm pb' u = inl u' /\ selected (union_content u') = Some (as_received m).
Proof.
  destruct m as [c ms|t ms|g ms|f md|t md]; cbn [sendable mm_of].
  - intros [Hc Hm]. destruct (sms_back ms Hm) as (s & E & R). rewrite E. eexists; split; [reflexivity|].
    intros old u L. destruct (R (u_counter_metas u)) as (v & Ev & Cv).
    destruct (reads_mm_counter old _ _ (reads_cm (mk_cm_pb (counter_to_proto c) s) Hc (sms_range ms s Hm E)))
      as [_ U].
    eexists. eexists. split; [exact (U L)|]. cbn [from_mm mm_type Z.eqb Pos.eqb mm_counter cm_from_proto cmp_metas].
    unfold from_mm; cbn [mm_type mm_counter Z.eqb Pos.eqb cm_from_proto cmp_metas cmp_counter].
    rewrite Ev. split; [reflexivity|]. cbn. rewrite Cv. destruct c; reflexivity.
  - intros [Hc Hm]. destruct (sms_back ms Hm) as (s & E & R). rewrite E. eexists; split; [reflexivity|].
    intros old u L. destruct (R (u_timer_metas u)) as (v & Ev & Cv).
    destruct (reads_mm_timer old _ _ (reads_bm (mk_bm_pb (timer_to_proto t) s) Hc (sms_range ms s Hm E)))
      as [_ U].
    eexists. eexists. split; [exact (U L)|].
    unfold from_mm; cbn [mm_type mm_timer Z.eqb Pos.eqb bm_from_proto bmp_metas bmp_timer].
    rewrite Ev. split; [reflexivity|]. cbn. rewrite Cv. destruct t; reflexivity.
  - intros [Hc Hm]. destruct (sms_back ms Hm) as (s & E & R). rewrite E. eexists; split; [reflexivity|].
    intros old u L. destruct (R (u_gauge_metas u)) as (v & Ev & Cv).
    destruct (reads_mm_gauge old _ _ (reads_gm (mk_gm_pb (gauge_to_proto g) s) Hc (sms_range ms s Hm E)))
      as [_ U].
    eexists. eexists. split; [exact (U L)|].
    unfold from_mm, nz_gm; cbn [mm_type mm_gauge Z.eqb Pos.eqb gm_from_proto gmp_metas gmp_gauge].
    rewrite Ev. split; [reflexivity|]. cbn -[Z.pow]. rewrite Cv. destruct g; reflexivity.
  - intros (Ht & Hi & Hv & Hm). destruct (fm_back md Hm) as (s & E & R). rewrite E.
    destruct (mt_roundtrip _ Ht) as (z & T1 & T2 & _).
    unfold forwarded_to_proto. rewrite T1. cbn [option_map]. eexists; split; [reflexivity|].
    intros old u L. destruct (R (u_forward_meta u)) as (v & Ev & Cv).
    assert (i32 z) as Hz.
    { clear - T1. unfold mt_to_proto in T1. unfold i32.
      repeat match type of T1 with (if ?b then _ else _) = _ => destruct b end; try discriminate; injection T1 as <-; lia. }
    destruct (reads_mm_forwarded old _ _ (reads_fwm (mk_fwm_pb (mk_forwarded_pb z (fw_id f) (fw_time f) (fw_values f)) s)
      Hz Hi Hv (fm_range md s Hm E))) as [_ U].
    eexists. eexists. split; [exact (U L)|].
    unfold from_mm; cbn [mm_type mm_forwarded Z.eqb Pos.eqb fwm_from_proto fwmp_metric fwmp_meta].
    unfold forwarded_from_proto; cbn [fwp_type fwp_id fwp_time fwp_values]. rewrite T2. cbn [option_map].
    rewrite Ev. split; [reflexivity|]. cbn. rewrite Cv. destruct f; reflexivity.
  - intros (Ht & Hi & Hv & Hm). destruct (tm_back md Hm) as (s & E & R). rewrite E.
    destruct (mt_roundtrip _ Ht) as (z & T1 & T2 & _).
    unfold timed_to_proto. rewrite T1. cbn [option_map]. eexists; split; [reflexivity|].
    intros old u L.
    assert (i32 z) as Hz.
    { clear - T1. unfold mt_to_proto in T1. unfold i32.
      repeat match type of T1 with (if ?b then _ else _) = _ => destruct b end; try discriminate; injection T1 as <-; lia. }
    destruct (reads_mm_timed old _ _ (reads_tdm (mk_tdm_pb (mk_timed_pb z (td_id t) (td_time t) (td_value t)) s)
      Hz Hi Hv (tm_range md s Hm E))) as [_ U].
    eexists. eexists. split; [exact (U L)|].
    unfold from_mm, nz_tdm; cbn [mm_type mm_timed Z.eqb Pos.eqb tdm_from_proto tdmp_metric tdmp_meta].
    unfold timed_from_proto; cbn [tdp_type tdp_id tdp_time tdp_value]. rewrite T2. cbn [option_map].
    rewrite (R (u_timed_meta u)). split; [reflexivity|]. cbn -[Z.pow]. destruct t; reflexivity.
Qed.

Definition fresh_iter (it : iter) : Prop := i_err it = None /\ i_closed it = false.

Lemma next_frame m pb it r :
  sendable m -> mm_of m = Some pb -> fresh_iter it -> i_in it = frame pb ++ r ->
  size mm_fields pb <= i_max it -> size mm_fields pb < 2 ^ 63 ->
  exists it', next it = More it' /\ current it' = Some (as_received m) /\ fresh_iter it' /\
    i_in it' = r /\ i_max it' = i_max it.
Proof.
  intros Sm E [F1 F2] I M B. destruct (message_back m Sm) as (pb0 & E0 & R).
  assert (pb0 = pb) by congruence; subst pb0.
  assert (0 <= size mm_fields pb) as P by (rewrite mm_size; apply zlen_nonneg).
  destruct (R (i_pb it) (i_msg it)) as (pb' & u' & U & Fm & Se); [rewrite <- mm_size; exact B|].
  unfold next. rewrite F1, F2, I. unfold frame. rewrite <- app_assoc, read_enc_varint by lia.
  cbn [i_max]. rewrite (proj2 (Z.ltb_ge (i_max it) _)) by lia.
  unfold decode_message. cbn [i_in i_pb i_msg i_max i_closed i_err]. rewrite (proj2 (Z.ltb_ge _ 0)) by lia.
  unfold read_full. rewrite zlen_app, <- mm_size. pose proof (zlen_nonneg r).
  rewrite (proj2 (Z.leb_le _ _)) by lia.
  rewrite mm_size. unfold zlen at 1 2. rewrite Nat2Z.id.
  rewrite firstn_app, firstn_all, Nat.sub_diag, firstn_O, app_nil_r.
  rewrite skipn_app, skipn_all, Nat.sub_diag. cbn [skipn app]. rewrite U, Fm.
  eexists; split; [reflexivity|]. repeat split; cbn; auto.
Qed.

Lemma next_end it : fresh_iter it -> i_in it = [] -> exists it', next it = Stop it' /\ i_err it' = Some EOF.
Proof.
  intros [F1 F2] I. unfold next. rewrite F1, F2, I. cbn. unfold stop_with. eexists; split; reflexivity.
Qed.

(** A frame cut short ends the iteration. *)
Lemma next_cut pb it n :
  fresh_iter it -> i_in it = firstn n (frame pb) -> (n < length (frame pb))%nat ->
  size mm_fields pb <= i_max it -> size mm_fields pb < 2 ^ 63 ->
  exists it' e, next it = Stop it' /\ i_err it' = Some e /\ (e = EOF \/ e = UnexpectedEOF).
Proof.
  intros [F1 F2] I L M B.
  assert (0 <= size mm_fields pb) as P by (rewrite mm_size; apply zlen_nonneg).
  unfold next. rewrite F1, F2, I. unfold frame in *. rewrite firstn_app.
  set (p := enc_varint (zigzag (size mm_fields pb))) in *.
  destruct (Nat.lt_ge_cases n (length p)) as [H|H].
  - replace (n - length p)%nat with 0%nat by lia. rewrite firstn_O, app_nil_r.
    unfold p. rewrite read_varint_cut; [|exact P|exact H].
    unfold stop_with. eexists _, _. split; [reflexivity|]. cbn. auto.
  - rewrite firstn_all2 by exact H. unfold p at 1. rewrite read_enc_varint by lia.
    cbn [i_max]. rewrite (proj2 (Z.ltb_ge (i_max it) _)) by lia.
    unfold decode_message. cbn [i_in i_pb i_msg i_max i_closed i_err]. rewrite (proj2 (Z.ltb_ge _ 0)) by lia.
    rewrite app_length in L. unfold read_full.
    set (b := firstn (n - length p) (marshal mm_fields pb)).
    assert (length b = (n - length p)%nat) as Lb by (unfold b; rewrite firstn_length; lia).
    rewrite (proj2 (Z.leb_gt _ _)) by (rewrite mm_size; unfold zlen; lia).
    destruct b; unfold stop_with; eexists _, _; (split; [reflexivity|]); cbn; auto.
Qed.

(** ** Streams *)

Definition framed (rmax : Z) (m : message) (f : bytes) : Prop :=
  sendable m /\ exists pb, mm_of m = Some pb /\ f = frame pb /\ size mm_fields pb <= rmax /\
    size mm_fields pb < 2 ^ 63.

Lemma decode_frames rmax ms fs : Forall2 (framed rmax) ms fs -> forall it,
  fresh_iter it -> i_max it = rmax -> i_in it = concat fs -> decoded it (map as_received ms) EOF.
Proof.
  induction 1 as [|m f ms fs (S & pb & E & -> & L1 & L2) _ IH]; intros it F M I; cbn [map concat] in *.
  - destruct (next_end it F I) as (it' & N & Er). exact (decoded_stop _ _ _ N Er).
  - destruct (next_frame m pb it (concat fs) S E F I) as (it' & N & C & F' & I' & M'); [lia|exact L2|].
    refine (decoded_more _ _ _ _ _ N C _). apply IH; [exact F'|lia|exact I'].
Qed.

Lemma decode_cut rmax ms fs : Forall2 (framed rmax) ms fs -> forall it n,
  fresh_iter it -> i_max it = rmax -> i_in it = firstn n (concat fs) ->
  exists k e, decoded it (firstn k (map as_received ms)) e /\ (e = EOF \/ e = UnexpectedEOF) /\
    (k <= length fs)%nat /\
    ((n <= length (concat fs))%nat -> (length (concat (firstn k fs)) <= n)%nat) /\
    ((k < length fs)%nat -> (n < length (concat (firstn (S k) fs)))%nat) /\
    ((length (concat fs) <= n)%nat -> k = length fs).
Proof.
  induction 1 as [|m f ms fs (Sm & pb & E & -> & L1 & L2) H2 IH]; intros it n F M I; cbn [map concat] in *.
  - rewrite firstn_nil in I. destruct (next_end it F I) as (it' & N & Er). exists 0%nat, EOF. cbn [firstn length].
    split; [exact (decoded_stop _ _ _ N Er)|]. cbn. repeat split; auto; lia.
  - destruct (Nat.lt_ge_cases n (length (frame pb))) as [H|H].
    + rewrite firstn_app in I. replace (n - length (frame pb))%nat with 0%nat in I by lia.
      rewrite firstn_O, app_nil_r in I.
      destruct (next_cut pb it n F I H) as (it' & e & N & Er & He); [lia|exact L2|].
      exists 0%nat, e. cbn [firstn concat]. rewrite app_nil_r, app_length. cbn [length].
      split; [exact (decoded_stop _ _ _ N Er)|]. repeat split; auto; lia.
    + rewrite firstn_app, firstn_all2 in I by exact H.
      destruct (next_frame m pb it _ Sm E F I) as (it' & N & C & F' & I' & M'); [lia|exact L2|].
      destruct (IH it' (n - length (frame pb))%nat F' ltac:(lia) I') as (k & e & D & He & K0 & K1 & K2 & K3).
      exists (S k), e. split; [exact (decoded_more _ _ _ _ _ N C D)|]. split; [exact He|].
      cbn [length]. rewrite app_length.
      split; [lia|]. split; [|split].
      * intros Hn. cbn [firstn concat]. rewrite app_length. lia.
      * intros Hk. change (firstn (S (S k)) (frame pb :: fs)) with (frame pb :: firstn (S k) fs).
        cbn [concat]. rewrite app_length. lia.
      * intros Hn. f_equal. apply K3. lia.
Qed.
