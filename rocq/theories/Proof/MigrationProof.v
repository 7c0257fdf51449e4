(** The migration iterator: dispatch on the first byte, over whole streams, cut streams and arbitrary input. *)
From Coq Require Import Ascii String Arith NArith ZArith Bool Lia List.
From Verif.Base Require Import Bytes Slice.
From Verif.Proof Require Import ProtoWireProof ProtoPure ProtoFrameProof ProtoSafeProof ProtoSystemProof MsgpackLibProof MsgpackProof MsgpackLocal MsgpackIterProof.
From Verif.Model Require Import AggType Policy Pipeline Metadata LegacyConvert ProtoWire Messages ProtoStream MsgpackLib Msgpack
  Migration.
From Verif.Spec Require Import MetadataSpec ProtoStreamSpec MsgpackSpec MigrationSpec.
Import ListNotations.
Open Scope Z_scope.

(** An iterator about to read [d]. *)
Definition qready (it : mig) (d : bytes) : Prop :=
  q_in it = d /\ q_closed it = false /\ q_err it = None /\ d_err (x_st (q_mp it)) = None /\ x_closed (q_mp it) = false /\
  i_err (q_pb it) = None /\ i_closed (q_pb it) = false.

Lemma new_ready d g max : qready (new_mig d g max) d.
Proof. repeat split. Qed.

Lemma qready_err it d : qready it d -> mig_err it = None.
Proof. intros (_ & _ & E & F & _ & G & _). unfold mig_err. rewrite E, F, G. reflexivity. Qed.

Lemma mp_at_ready it d : qready it d -> ready (mp_at d (q_mp it)) d.
Proof. intros (_ & _ & _ & F & C & _ & _). split; [cbn [mp_at x_st]; rewrite F; reflexivity|exact C]. Qed.
Lemma pb_at_fresh it d : qready it d -> fresh_iter (pb_at d (q_pb it)).
Proof. intros (_ & _ & _ & _ & _ & E & C). split; [exact E|exact C]. Qed.

Lemma mig_next_ready it c d : qready it (c :: d) -> mig_next it =
  if first_is_odd c then
    let '(ok, mp) := mnext (mp_at (c :: d) (q_mp it)) in
    if ok then
      match to_message_union (x_metric mp) (x_policies mp) with
      | Some u => QMore (mk_mig (d_in (x_st mp)) mp (q_pb it) u false None)
      | None => QStop (mk_mig (d_in (x_st mp)) mp (q_pb it) (q_msg it) false (Some UnknownMetric))
      end
    else QStop (mk_mig (d_in (x_st mp)) mp (q_pb it) (q_msg it) false None)
  else
    match next (pb_at (c :: d) (q_pb it)) with
    | More pb => QMore (mk_mig (i_in pb) (q_mp it) pb (copied (i_msg pb)) false None)
    | Stop pb => QStop (mk_mig (i_in pb) (q_mp it) pb (q_msg it) false None)
    | Crash => QCrash
    end.
Proof.
  intros R. pose proof (qready_err it _ R) as E. destruct R as (I & C & Q & _). unfold mig_next. rewrite C, E, I, Q.
  reflexivity.
Qed.

Lemma mig_end it : qready it [] -> exists it', mig_next it = QStop it' /\ mig_err it' = Some ReaderEnd.
Proof.
  intros R. pose proof (qready_err it _ R) as E. destruct R as (I & C & _). unfold mig_next. rewrite C, E, I.
  eexists. split; reflexivity.
Qed.

Lemma union_shown u l s : shown u = Some s ->
  exists x, to_message_union u l = Some x /\ selected x = Some (with_metadatas s (to_staged_metadatas l)).
Proof.
  unfold shown, to_message_union. intros H.
  destruct (mu_type u =? 1) eqn:E1.
  { apply Z.eqb_eq in E1. rewrite E1 in H. assert (s = SCounter (mu_id u) (mu_counter u)) as -> by congruence.
    eexists; split; reflexivity. }
  destruct (mu_type u =? 2) eqn:E2.
  { apply Z.eqb_eq in E2. rewrite E2 in H. assert (s = STimer (mu_id u) (mu_timer u)) as -> by congruence.
    eexists; split; reflexivity. }
  destruct (mu_type u =? 3) eqn:E3.
  { apply Z.eqb_eq in E3. rewrite E3 in H. assert (s = SGauge (mu_id u) (mu_gauge u)) as -> by congruence.
    eexists; split; reflexivity. }
  exfalso. apply Z.eqb_neq in E1, E2, E3. destruct (mu_type u) as [|p|p]; try discriminate.
  destruct p as [[p|p|]|[p|p|]|]; try discriminate; congruence.
Qed.

(** One message. *)
Lemma mig_old mm c b r it : Z.odd (bz c) = true -> message_as mm (c :: b) -> qready it ((c :: b) ++ r) ->
  exists it' ms, mig_next it = QMore it' /\ qready it' r /\ i_max (q_pb it') = i_max (q_pb it) /\
    x_ignore (q_mp it') = x_ignore (q_mp it) /\
    selected (q_msg it') = Some (with_metadatas (fst mm) ms) /\ (forall l, snd mm = Some l -> ms = to_staged_metadatas l).
Proof.
  intros O M R. destruct (mnext_message mm (c :: b) r _ M (mp_at_ready it _ R)) as (mp & E & [S C] & G & Sh & P).
  cbn [app] in R, E. rewrite (mig_next_ready it c (b ++ r) R). unfold first_is_odd. rewrite O. rewrite E.
  destruct (union_shown _ (x_policies mp) _ Sh) as (u & Tu & Se). rewrite Tu.
  eexists _, _. split; [reflexivity|]. cbn [q_pb q_mp q_msg].
  destruct R as (_ & _ & _ & _ & _ & R1 & R2).
  split; [repeat split; cbn [q_in q_closed q_err q_mp q_pb]; rewrite ?S; auto|].
  split; [reflexivity|]. split; [exact G|]. split; [exact Se|]. intros l L. rewrite P, L. reflexivity.
Qed.

(** Frames start with an even byte. *)
Lemma enc_varint_first v : 0 <= v -> exists c x, enc_varint v = c :: x /\ Z.odd (bz c) = Z.odd v.
Proof.
  intros V. unfold enc_varint. cbn [put_varint]. destruct (v <? 128) eqn:E.
  - apply Z.ltb_lt in E. exists (zb v), []. split; [reflexivity|]. rewrite bz_zb by lia. reflexivity.
  - eexists _, _. split; [reflexivity|]. pose proof (Z.mod_pos_bound v 128 ltac:(lia)) as Bd. rewrite bz_zb by lia.
    rewrite (Z.div_mod v 128) at 2 by lia. rewrite !Z.odd_add, Z.odd_mul. cbn [Z.odd andb].
    destruct (Z.odd (v mod 128)); reflexivity.
Qed.
Lemma frame_first pb : exists c x, frame pb = c :: x /\ Z.odd (bz c) = false.
Proof.
  unfold frame. assert (0 <= size mm_fields pb) as P by (rewrite mm_size; apply zlen_nonneg).
  assert (zigzag (size mm_fields pb) = 2 * size mm_fields pb) as Zz.
  { unfold zigzag. rewrite (proj2 (Z.ltb_ge _ 0)) by lia. reflexivity. }
  destruct (enc_varint_first (zigzag (size mm_fields pb))) as (c & x & E & O); [lia|].
  exists c, (x ++ marshal mm_fields pb). rewrite E. split; [reflexivity|]. rewrite O, Zz, Z.odd_mul. reflexivity.
Qed.

Lemma mig_recent m f r it : framed (i_max (q_pb it)) m f -> qready it (f ++ r) ->
  exists it', mig_next it = QMore it' /\ qready it' r /\ i_max (q_pb it') = i_max (q_pb it) /\
    x_ignore (q_mp it') = x_ignore (q_mp it) /\ selected (q_msg it') = Some (as_received m).
Proof.
  intros (Sm & pb & E & -> & L1 & L2) R. destruct (frame_first pb) as (c & x & Ef & O).
  destruct (next_frame m pb (pb_at (frame pb ++ r) (q_pb it)) r Sm E (pb_at_fresh it _ R) eq_refl L1 L2)
    as (it' & N & Cu & [F1 F2] & I & Mx).
  rewrite Ef in *. cbn [app] in *. rewrite (mig_next_ready it c (x ++ r) R). unfold first_is_odd. rewrite O, N.
  eexists. split; [reflexivity|]. cbn [q_pb q_mp q_msg]. destruct R as (_ & _ & _ & R1 & R2 & _).
  split; [repeat split; assumption|]. split; [exact Mx|]. split; [reflexivity|]. exact Cu.
Qed.

(** Items in the form the proofs use. *)
Definition item_framed (rmax : Z) (i : item) (b : bytes) : Prop :=
  match i with
  | Old mm => exists c x, b = c :: x /\ Z.odd (bz c) = true /\ message_as mm b
  | Recent m => framed rmax m b
  end.
Lemma item_framed_all max rmax items bs : max < 2 ^ 34 -> max <= rmax -> Forall2 (item_as max) items bs ->
  Forall2 (item_framed rmax) items bs.
Proof.
  intros M L. induction 1 as [|i b items bs H _ IH]; constructor; [|exact IH]. destruct H as [mm c b O H|u m b S Sm A].
  - exists c, b. split; [reflexivity|]. split; [exact O|exact H].
  - exact (alone_framed u max rmax b m M L S Sm A).
Qed.

Lemma mig_item i b r it : item_framed (i_max (q_pb it)) i b -> qready it (b ++ r) ->
  exists it' m, mig_next it = QMore it' /\ qready it' r /\ i_max (q_pb it') = i_max (q_pb it) /\
    selected (q_msg it') = Some m /\ received i m.
Proof.
  destruct i as [[s o]|m0]; cbn [item_framed].
  - intros (c & x & -> & O & M) R. destruct (mig_old (s, o) c x r it O M R) as (it' & ms & N & R' & Mx & _ & Se & P).
    exists it', (with_metadatas s ms). repeat (split; [assumption|]). exists ms. split; [reflexivity|exact P].
  - intros F R. destruct (mig_recent m0 b r it F R) as (it' & N & R' & Mx & _ & Se).
    exists it', (as_received m0). repeat (split; [assumption|]). reflexivity.
Qed.

Lemma mig_decode rmax items bs : Forall2 (item_framed rmax) items bs -> forall it,
  i_max (q_pb it) = rmax -> qready it (concat bs) ->
  exists seen, mig_decoded it seen ReaderEnd /\ Forall2 received items seen.
Proof.
  induction 1 as [|i b items bs F _ IH]; intros it M R; cbn [concat] in R.
  - destruct (mig_end it R) as (it' & N & E). exists []. split; [exact (mig_decoded_stop it it' _ N E)|constructor].
  - rewrite <- M in F. destruct (mig_item i b (concat bs) it F R) as (it' & m & N & R' & M' & Se & Rc).
    destruct (IH it') as (seen & D & A); [congruence|exact R'|].
    exists (m :: seen). split; [exact (mig_decoded_more it it' m seen _ N Se D)|constructor; assumption].
Qed.

Lemma mig_decoded_functional it l e : mig_decoded it l e -> forall l' e', mig_decoded it l' e' -> l' = l /\ e' = e.
Proof.
  induction 1 as [it it' e E Ee|it it' m l e E Sh D IH]; intros l' e' D'.
  - destruct D' as [jt jt' f F Ff|jt jt' n l' f F Sf D']; [|congruence].
    assert (it' = jt') as <- by congruence. split; [reflexivity|congruence].
  - destruct D' as [jt jt' f F Ff|jt jt' n l' f F Sf D']; [congruence|].
    assert (it' = jt') as <- by congruence. destruct (IH l' f D') as [-> ->]. split; [|reflexivity]. congruence.
Qed.
Lemma mig_not_both it l e : mig_decoded it l e -> forall l', ~ mig_crashed it l'.
Proof.
  induction 1 as [it it' e E Ee|it it' m l e E Sh D IH]; intros l' C; destruct C as [jt N|jt jt' n l' N Sn C]; try congruence.
  assert (it' = jt') as <- by congruence. exact (IH l' C).
Qed.

(** A message cut short. *)
Lemma mnext_cut mm b p q it : message_as mm b -> b = p ++ q -> q <> [] -> ready it p ->
  exists it' e, mnext it = (false, it') /\ d_err (x_st it') = Some e.
Proof.
  intros M Eb Nq Rd. pose proof (mnext_any _ it (le_n _)) as K. destruct Rd as [Sx Cx]. rewrite Sx in K. specialize (K eq_refl Cx).
  destruct (mnext it) as [[|] it1] eqn:E; [|destruct K as [e He]; exists it1, e; split; [reflexivity|exact He]].
  exfalso. destruct K as (b0 & m0 & E0 & N0 & _ & _ & _ & o & _ & All). cbn [d_in] in E0. subst p.
  set (jt := mk_mit (mk_st (b ++ []) None) (x_ignore it) false (x_metric it) (x_policies it)).
  destruct (mnext_message mm b [] jt M (conj eq_refl eq_refl)) as (j1 & F1 & [S1 _] & _).
  destruct (All jt (d_in (x_st it1) ++ q)) as (j2 & F2 & [S2 _] & _); [reflexivity| |].
  { split; [cbn [jt x_st]; rewrite app_nil_r, Eb, <- app_assoc; reflexivity|reflexivity]. }
  assert (j1 = j2) as -> by congruence. rewrite S1 in S2. assert (d_in (x_st it1) ++ q = []) as Z by congruence.
  apply app_eq_nil in Z as [_ Z]. exact (Nq Z).
Qed.

Lemma mig_item_cut i b p q it : item_framed (i_max (q_pb it)) i b -> b = p ++ q -> q <> [] -> qready it p ->
  exists it' e, mig_next it = QStop it' /\ mig_err it' = Some e.
Proof.
  intros F Eb Nq R. destruct p as [|c p].
  { destruct (mig_end it R) as (it' & N & E). exists it', ReaderEnd. split; assumption. }
  destruct i as [mm|m0]; cbn [item_framed] in F.
  - destruct F as (c0 & x & Ec & O & M). assert (c0 = c) as -> by (cbn [app] in Eb; congruence).
    destruct (mnext_cut mm b (c :: p) q (mp_at (c :: p) (q_mp it)) M Eb Nq (mp_at_ready it _ R)) as (mp & e & N & E).
    rewrite (mig_next_ready it c p R). unfold first_is_odd. rewrite O, N. eexists _, (OfMsgpack e). split; [reflexivity|].
    unfold mig_err. cbn [q_err q_mp]. rewrite E. reflexivity.
  - destruct F as (_ & pb & _ & -> & L1 & L2). destruct (frame_first pb) as (c0 & x & Ef & O).
    assert (c0 = c) as -> by (rewrite Ef in Eb; cbn [app] in Eb; congruence).
    assert (length (frame pb) = length (c :: p) + length q)%nat as Len by (rewrite Eb, app_length; reflexivity).
    destruct (next_cut pb (pb_at (c :: p) (q_pb it)) (length (c :: p)) (pb_at_fresh it _ R)) as (pb' & e & N & E & _).
    + cbn [pb_at i_in]. rewrite Eb, firstn_app, firstn_all, Nat.sub_diag, firstn_O, app_nil_r. reflexivity.
    + destruct q; [congruence|]. cbn [length] in *. lia.
    + exact L1.
    + exact L2.
    + rewrite (mig_next_ready it c p R). unfold first_is_odd. rewrite O, N. eexists _, (OfProtobuf e).
      split; [reflexivity|]. unfold mig_err. cbn [q_err q_mp q_pb]. destruct R as (_ & _ & _ & E1 & _). rewrite E1, E.
      reflexivity.
Qed.

Lemma mig_decode_cut rmax items bs : Forall2 (item_framed rmax) items bs -> forall p q it,
  concat bs = p ++ q -> i_max (q_pb it) = rmax -> qready it p ->
  exists items1 items2 bs1 bs2 rest seen e,
    items = items1 ++ items2 /\ bs = bs1 ++ bs2 /\ length items1 = length bs1 /\ p = concat bs1 ++ rest /\
    (forall b bs', bs2 = b :: bs' -> (length rest < length b)%nat) /\
    mig_decoded it seen e /\ Forall2 received items1 seen.
Proof.
  induction 1 as [|i b items bs F _ IH]; intros p q it Ep M R; cbn [concat] in Ep.
  - symmetry in Ep. apply app_eq_nil in Ep as [-> ->]. destruct (mig_end it R) as (it' & N & E).
    exists [], [], [], [], [], [], ReaderEnd. repeat (split; [reflexivity|]). split; [discriminate|].
    split; [exact (mig_decoded_stop it it' _ N E)|constructor].
  - rewrite <- M in F. destruct (Nat.le_gt_cases (length b) (length p)) as [L|L].
    + assert (exists p', p = b ++ p' /\ concat bs = p' ++ q) as (p' & -> & Ep').
      { exists (skipn (length b) p). assert (firstn (length b) p = b) as Hb.
        { transitivity (firstn (length b) (p ++ q)); [|rewrite <- Ep; rewrite firstn_app, firstn_all, Nat.sub_diag, firstn_O, app_nil_r; reflexivity].
          rewrite firstn_app. replace (length b - length p)%nat with 0%nat by lia. rewrite firstn_O, app_nil_r. reflexivity. }
        split; [rewrite <- Hb at 1; symmetry; apply firstn_skipn|].
        rewrite <- (firstn_skipn (length b) p), Hb, <- app_assoc in Ep. exact (app_inv_head _ _ _ Ep). }
      destruct (mig_item i b p' it F R) as (it' & m & N & R' & M' & Se & Rc).
      destruct (IH p' q it' Ep' (eq_trans M' M) R') as (i1 & i2 & b1 & b2 & rest & seen & e & -> & -> & Ln & -> & Rest & D & A).
      exists (i :: i1), i2, (b :: b1), b2, rest, (m :: seen), e. repeat (split; [reflexivity|]).
      split; [cbn [length]; congruence|]. split; [cbn [concat]; apply app_assoc|]. split; [exact Rest|].
      split; [exact (mig_decoded_more it it' m seen _ N Se D)|constructor; assumption].
    + assert (exists q', b = p ++ q' /\ q' <> []) as (q' & Eb & Nq).
      { exists (skipn (length p) b). assert (firstn (length p) b = p) as Hp.
        { transitivity (firstn (length p) (b ++ concat bs)).
          - rewrite firstn_app. replace (length p - length b)%nat with 0%nat by lia. rewrite firstn_O, app_nil_r. reflexivity.
          - rewrite Ep, firstn_app, firstn_all, Nat.sub_diag, firstn_O, app_nil_r. reflexivity. }
        split; [rewrite <- Hp at 1; symmetry; apply firstn_skipn|]. intros Z. apply (f_equal (@length _)) in Z.
        rewrite skipn_length in Z. cbn [length] in Z. lia. }
      destruct (mig_item_cut i b p q' it F Eb Nq R) as (it' & e & N & E).
      exists [], (i :: items), [], (b :: bs), p, [], e. repeat (split; [reflexivity|]).
      split; [intros b' bs' H; assert (b' = b) as -> by congruence; exact L|].
      split; [exact (mig_decoded_stop it it' _ N E)|constructor].
Qed.

(** Any input: the sizes the protobuf decoder is given are not negative. *)
Lemma read_uvarint_low : forall d i w acc u r, 0 <= acc -> 0 <= w -> read_uvarint i w acc d = inl (u, r) ->
  Z.even w = true -> Z.even u = Z.even acc.
Proof.
  induction d as [|b d IH]; intros i w acc u r A W E Ev; cbn [read_uvarint] in E; [discriminate|].
  destruct (bz b <? 128).
  - destruct (_ || _); [discriminate|]. apply (f_equal (fun x => match x with inl (a, _) => a | inr _ => 0 end)) in E.
    subst u. rewrite Z.even_add, Z.even_mul, Ev, orb_true_r. destruct (Z.even acc); reflexivity.
  - pose proof (Z.mod_pos_bound (bz b) 128 ltac:(lia)) as Bd.
    rewrite (IH (i + 1) (w * 128) (acc + bz b mod 128 * w) u r ltac:(nia) ltac:(lia) E).
    + rewrite Z.even_add, Z.even_mul, Ev, orb_true_r. destruct (Z.even acc); reflexivity.
    + rewrite Z.even_mul, Ev. reflexivity.
Qed.
Lemma read_uvarint_nonneg : forall d i w acc u r, 0 <= acc -> 0 <= w -> read_uvarint i w acc d = inl (u, r) -> 0 <= u.
Proof.
  induction d as [|b d IH]; intros i w acc u r A W E; cbn [read_uvarint] in E; [discriminate|].
  assert (0 <= bz b) as Pb by (unfold bz; lia).
  destruct (bz b <? 128).
  - destruct (_ || _); [discriminate|]. apply (f_equal (fun x => match x with inl (a, _) => a | inr _ => 0 end)) in E.
    subst u. nia.
  - pose proof (Z.mod_pos_bound (bz b) 128 ltac:(lia)) as Bd. exact (IH (i + 1) (w * 128) (acc + bz b mod 128 * w) u r ltac:(nia) ltac:(lia) E).
Qed.
Lemma even_size c d n r : Z.odd (bz c) = false -> read_varint (c :: d) = inl (n, r) -> 0 <= n.
Proof.
  intros O E. unfold read_varint in E. destruct (read_uvarint 0 1 0 (c :: d)) as [[u x]|] eqn:U; [|discriminate].
  assert (0 <= u) as P by exact (read_uvarint_nonneg (c :: d) 0 1 0 u x ltac:(lia) ltac:(lia) U).
  assert (Z.even u = true) as Ev.
  { cbn [read_uvarint] in U. destruct (bz c <? 128) eqn:L.
    - destruct (_ || _); [discriminate|]. apply (f_equal (fun y => match y with inl (a, _) => a | inr _ => 0 end)) in U.
      subst u. rewrite Z.add_0_l, Z.mul_1_r, <- Z.negb_odd, O. reflexivity.
    - pose proof (Z.mod_pos_bound (bz c) 128 ltac:(lia)) as Bd.
      rewrite (read_uvarint_low d (0 + 1) (1 * 128) (0 + bz c mod 128 * 1) u x ltac:(lia) ltac:(lia) U eq_refl).
      rewrite Z.add_0_l, Z.mul_1_r, <- Z.negb_odd. rewrite (Z.div_mod (bz c) 128) in O by lia.
      rewrite Z.odd_add, Z.odd_mul in O. cbn [Z.odd andb xorb] in O.
      destruct (Z.odd (bz c mod 128)); [discriminate O|reflexivity]. }
  unfold unzigzag in E. rewrite Ev in E. assert (n = u / 2) as -> by congruence. apply Z.div_pos; lia.
Qed.

Lemma next_open it it' : next it = More it' -> i_closed it' = false /\ i_err it' = None.
Proof.
  unfold next. destruct (i_err it), (i_closed it) eqn:Cl0; try discriminate.
  destruct (read_varint (i_in it)) as [[k rest]|]; [|discriminate]. cbn [i_max].
  destruct (i_max it <? k); [discriminate|]. unfold decode_message. destruct (k <? 0); [discriminate|]. cbn [i_in].
  destruct (read_full k rest) as [[d x]|]; [|discriminate]. cbn [i_pb i_msg i_max i_closed i_err].
  destruct (unmarshal mm_fields d (reset_mm (i_pb it))) as [pb| |]; try discriminate.
  destruct (from_mm pb (i_msg it)) as [u|]; [|discriminate]. intros H. injection H as <-. split; reflexivity.
Qed.

Lemma mig_any it d : qready it d ->
  match mig_next it with
  | QMore it' => exists p r m, d = p ++ r /\ p <> [] /\ qready it' r /\ selected (q_msg it') = Some m
  | QStop it' => exists e, mig_err it' = Some e
  | QCrash => exists c x, d = c :: x /\ Z.odd (bz c) = false /\ next (pb_at d (q_pb it)) = Crash
  end.
Proof.
  intros R. destruct d as [|c d]; [destruct (mig_end it R) as (it' & -> & E); eauto|].
  rewrite (mig_next_ready it c d R). unfold first_is_odd. destruct (Z.odd (bz c)) eqn:O.
  - pose proof (mp_at_ready it _ R) as [S C]. pose proof (mnext_any _ (mp_at (c :: d) (q_mp it)) (le_n _)) as K.
    rewrite S in K. specialize (K eq_refl C). destruct (mnext (mp_at (c :: d) (q_mp it))) as [[|] mp].
    + destruct K as (b & m & Eb & Nb & [S1 C1] & _ & Sh & _). cbn [d_in] in Eb.
      destruct (union_shown _ (x_policies mp) m Sh) as (u & -> & Se).
      exists b, (d_in (x_st mp)), (with_metadatas m (to_staged_metadatas (x_policies mp))).
      split; [exact Eb|]. split; [exact Nb|]. split; [|exact Se]. destruct R as (_ & _ & _ & _ & _ & R1 & R2).
      repeat split; cbn [q_mp q_pb]; auto. rewrite S1. reflexivity.
    + destruct K as [e He]. exists (OfMsgpack e). unfold mig_err. cbn [q_err q_mp]. rewrite He. reflexivity.
  - destruct (next (pb_at (c :: d) (q_pb it))) as [pb|pb|] eqn:N.
    + destruct (next_more _ _ N) as (p & E & Np & Cu & _). destruct (next_open _ _ N) as [F1 F2]. cbn [pb_at i_in] in E.
      destruct (current pb) as [m|] eqn:Cm; [|congruence].
      exists p, (i_in pb), m. split; [exact E|]. split; [exact Np|]. split; [|exact Cm].
      destruct R as (_ & _ & _ & R1 & R2 & _). repeat split; assumption.
    + destruct (next_stop _ _ N) as [[e E]|[_ E]].
      * exists (OfProtobuf e). unfold mig_err. cbn [q_err q_mp q_pb]. destruct R as (_ & _ & _ & -> & _). rewrite E. reflexivity.
      * exfalso. cbn [pb_at i_closed] in E. destruct R as (_ & _ & _ & _ & _ & _ & R2). congruence.
    + exists c, d. split; [reflexivity|]. split; [exact O|reflexivity].
Qed.

Lemma mig_ends : forall n d it, (length d <= n)%nat -> qready it d ->
  exists seen, (exists e, mig_decoded it seen e) \/ mig_crashed it seen.
Proof.
  induction n as [n IH] using lt_wf_ind. intros d it L R. pose proof (mig_any it d R) as K.
  destruct (mig_next it) as [it'|it'|] eqn:N.
  - destruct K as (p & r & m & -> & Np & R' & Se). rewrite app_length in L.
    assert (length r < n)%nat as Lr by (destruct p; [congruence|cbn [length] in L; lia]).
    destruct (IH (length r) Lr r it' (le_n _) R') as (seen & [(e & D)|C]); exists (m :: seen).
    + left. exists e. exact (mig_decoded_more it it' m seen e N Se D).
    + right. exact (mig_crashed_later it it' m seen N Se C).
  - destruct K as (e & E). exists []. left. exists e. exact (mig_decoded_stop it it' e N E).
  - exists []. right. exact (mig_crashed_now it N).
Qed.

Lemma mig_never_crashes it seen : mig_crashed it seen -> forall d, qready it d -> no_overflow d -> False.
Proof.
  induction 1 as [it N|it it' m l N Se _ IH]; intros d R No; pose proof (mig_any it d R) as K; rewrite N in K.
  - destruct K as (c & x & -> & O & Cr). destruct (next_crash (pb_at (c :: x) (q_pb it)) No Cr) as (n & r & E & L).
    cbn [pb_at i_in] in E. pose proof (even_size c x n r O E). lia.
  - destruct K as (p & r & m' & -> & _ & R' & _). exact (IH r R' (no_overflow_suffix p r No)).
Qed.

(** Once stopped, the iterator stays as it is. *)
Lemma mig_next_stopped it : mig_err it <> None -> mig_next it = QStop it.
Proof. intros E. unfold mig_next. destruct (q_closed it); [reflexivity|]. destruct (mig_err it); [reflexivity|congruence]. Qed.

Lemma encode_input_first i : exists x, encode_input i = zb 1 :: x.
Proof. destruct i as [m [l|]]; unfold encode_input; cbn [fst snd]; destruct m; eexists; reflexivity. Qed.
