(** The generated decoders panic only on lengths that overflow. *)
From Coq Require Import Ascii String NArith ZArith Bool Arith Lia List.
From Verif.Base Require Import Bytes BytesFacts Slice.
From Verif.Model Require Import AggType Policy Transformation Pipeline Metadata ProtoWire Messages ProtoStream.
From Verif.Spec Require Import ProtoStreamSpec.
From Verif.Proof Require Import ProtoWireProof MessagesProof ProtoPure ProtoFrameProof.
Import ListNotations.
Local Open Scope Z_scope.

(** No varint anywhere in [d] is above [V] as an [int64]. *)
Definition small (V : Z) (d : bytes) : Prop :=
  forall p s v r, d = p ++ s -> dec_varint s = Ok (v, r) -> to_int64 v <= V.

Lemma small_suffix V p s : small V (p ++ s) -> small V s.
Proof. intros H p' s' v r E D. apply (H (p ++ p') s' v r); [rewrite E; apply app_assoc|exact D]. Qed.
Lemma small_prefix V p s : small V (p ++ s) -> small V p.
Proof.
  intros H p' s' v r E D. apply (H p' (s' ++ s) v (r ++ s)); [rewrite E; symmetry; apply app_assoc|].
  apply dec_varint_app, D.
Qed.
Lemma small_head V d v r : small V d -> dec_varint d = Ok (v, r) -> to_int64 v <= V.
Proof. intros H D. exact (H [] d v r eq_refl D). Qed.
Lemma small_rest V d v r : small V d -> dec_varint d = Ok (v, r) -> small V r.
Proof. intros H D. apply dec_varint_suffix in D as (p & -> & _). exact (small_suffix V p r H). Qed.
Lemma small_skipn V n d : small V d -> small V (skipn n d).
Proof. intros H. apply (small_suffix V (firstn n d)). now rewrite firstn_skipn. Qed.
Lemma small_firstn V n d : small V d -> small V (firstn n d).
Proof. intros H. apply (small_prefix V _ (skipn n d)). now rewrite firstn_skipn. Qed.

Lemma dec_varint_shorter d v r : dec_varint d = Ok (v, r) -> zlen r < zlen d.
Proof.
  intros D. apply dec_varint_suffix in D as (p & -> & N). rewrite zlen_app. destruct p; [congruence|].
  rewrite zlen_cons. pose proof (zlen_nonneg p). lia.
Qed.
Lemma dec_varint_case d : (exists v r, dec_varint d = Ok (v, r)) \/ dec_varint d = Err.
Proof.
  destruct (dec_varint d) as [[v r]| |] eqn:E; [eauto|auto|]. exfalso. exact (dec_varint_no_panic d E).
Qed.

(** ** Skipping unknown fields *)

Definition skip_ok (V : Z) (d : bytes) (r : res Z) : Prop :=
  match r with Ok n => 1 <= n <= zlen d + V | Err => True | Panic => False end.

Definition skip_group (sk : bytes -> res Z) (d : bytes) : nat -> Z -> res Z :=
  fix group (g : nat) (i : Z) : res Z :=
    match g with
    | O => Panic
    | S g =>
        if zlen d <=? i then Err
        else if i <? 0 then Panic
        else
          let inner := skipn (Z.to_nat i) d in
          bind (dec_varint inner) (fun '(wire, rest) =>
          if wire mod 8 =? 4 then Ok (zlen d - zlen rest)
          else bind (sk inner) (fun n => group g (to_int64 (i + n))))
    end.
Lemma skip_field_eq fuel d : skip_field (S fuel) d =
  if zlen d =? 0 then Panic else
  bind (dec_varint d) (fun '(wire, rest) =>
  let wt := wire mod 8 in
  let idx := zlen d - zlen rest in
  if wt =? 0 then bind (dec_varint rest) (fun '(_, rest) => Ok (zlen d - zlen rest))
  else if wt =? 1 then Ok (idx + 8)
  else if wt =? 2 then
    bind (dec_varint rest) (fun '(v, rest) =>
    let len := to_int64 v in
    if len <? 0 then Err else Ok (to_int64 (zlen d - zlen rest + len)))
  else if wt =? 3 then skip_group (skip_field fuel) d (S (length d)) idx
  else if wt =? 4 then Ok idx
  else if wt =? 5 then Ok (idx + 4)
  else Err).
Proof. reflexivity. Qed.

Lemma skip_field_ok V : 8 <= V -> forall fuel d, small V d -> zlen d + V < 2 ^ 63 -> d <> [] ->
  (length d < fuel)%nat -> skip_ok V d (skip_field fuel d).
Proof.
  intros V8. induction fuel as [|fuel IH]; intros d Sm L N F; [lia|].
  assert (0 < zlen d) as P by (destruct d; [congruence|rewrite zlen_cons; pose proof (zlen_nonneg d); lia]).
  rewrite skip_field_eq. rewrite (proj2 (Z.eqb_neq (zlen d) 0)) by lia.
  destruct (dec_varint_case d) as [(wire & rest & D)|D]; rewrite D; [|exact I]. cbn [bind]. cbv zeta.
  pose proof (dec_varint_shorter _ _ _ D) as Sh. pose proof (small_rest V d _ _ Sm D) as Sr.
  pose proof (zlen_nonneg rest) as Zr.
  destruct (wire mod 8 =? 0).
  { destruct (dec_varint_case rest) as [(v & r2 & D2)|D2]; rewrite D2; [|exact I]. cbn [bind skip_ok].
    pose proof (dec_varint_shorter _ _ _ D2). pose proof (zlen_nonneg r2). lia. }
  destruct (wire mod 8 =? 1); [cbn [skip_ok]; lia|].
  destruct (wire mod 8 =? 2).
  { destruct (dec_varint_case rest) as [(v & r2 & D2)|D2]; rewrite D2; [|exact I]. cbn [bind].
    pose proof (dec_varint_shorter _ _ _ D2). pose proof (zlen_nonneg r2).
    pose proof (small_head V rest _ _ Sr D2) as Hv.
    destruct (to_int64 v <? 0) eqn:Neg; [exact I|]. apply Z.ltb_ge in Neg. cbn [skip_ok].
    rewrite to_int64_id by lia. lia. }
  destruct (wire mod 8 =? 3).
  { set (i0 := zlen d - zlen rest). assert (1 <= i0) as I0 by lia.
    assert (1 <= Z.of_nat (S (length d)) /\ zlen d + 2 <= Z.of_nat (S (length d)) + i0) as [G1 G2]
      by (unfold zlen in *; lia).
    revert G1 G2 I0. generalize i0 as i. generalize (S (length d)) as g. clear i0.
    induction g as [|g IHg]; intros i G1 G2 I0; [lia|].
    cbn [skip_group]. destruct (zlen d <=? i) eqn:Li; [exact I|]. apply Z.leb_gt in Li.
    rewrite (proj2 (Z.ltb_ge i 0)) by lia.
    set (inner := skipn (Z.to_nat i) d).
    assert (zlen inner = zlen d - i) as Zi by (unfold inner, zlen in *; rewrite skipn_length; lia).
    assert (inner <> []) as Ni by (intros E; rewrite E, zlen_nil in Zi; lia).
    destruct (dec_varint_case inner) as [(w2 & r2 & D2)|D2]; rewrite D2; [|exact I]. cbn [bind].
    pose proof (dec_varint_shorter _ _ _ D2). pose proof (zlen_nonneg r2).
    destruct (w2 mod 8 =? 4); [cbn [skip_ok]; lia|].
    assert (length inner < fuel)%nat as Fi by (unfold zlen in *; lia).
    pose proof (IH inner (small_skipn V _ d Sm) ltac:(lia) Ni Fi) as K.
    destruct (skip_field fuel inner) as [n| |]; cbn [bind skip_ok] in *; [|exact I|destruct K].
    rewrite to_int64_id by lia. apply IHg; lia. }
  destruct (wire mod 8 =? 4); [cbn [skip_ok]; lia|].
  destruct (wire mod 8 =? 5); [cbn [skip_ok]; lia|exact I].
Qed.

(** ** Fields and messages *)

Definition dec_ok {A} (d : bytes) (r : res (A * bytes)) : Prop :=
  match r with Ok (_, x) => exists p, d = p ++ x | Err => True | Panic => False end.

(** A field whose decoder does not panic and leaves a suffix of its input. *)
Definition safe {M} (f : field M) : Prop :=
  forall V l wt d m, 8 <= V -> small V d -> zlen d <= l -> l + V < 2 ^ 63 -> dec_ok d (f_dec f l wt d m).

Lemma dec_ok_app {A} p x (r : res (A * bytes)) : dec_ok x r -> dec_ok (p ++ x) r.
Proof.
  unfold dec_ok. destruct r as [[a y]| |]; auto. intros [q ->]. exists (p ++ q). apply app_assoc.
Qed.
Lemma dec_ok_bind {A C} d (r : res (A * bytes)) (g : A * bytes -> res (C * bytes)) :
  dec_ok d r -> (forall a x p, d = p ++ x -> r = Ok (a, x) -> dec_ok x (g (a, x))) -> dec_ok d (bind r g).
Proof.
  intros H G. destruct r as [[a x]| |]; cbn [bind] in *; [|exact I|destruct H].
  destruct H as [p ->]. specialize (G a x p eq_refl eq_refl). exact (dec_ok_app p x _ G).
Qed.

Lemma dec_varint_ok d : dec_ok d (dec_varint d).
Proof.
  destruct (dec_varint_case d) as [(v & r & D)|D]; rewrite D; [|exact I]. cbn.
  apply dec_varint_suffix in D as (p & -> & _). eauto.
Qed.
Lemma dec_ok_self {A} d (a : A) : dec_ok d (Ok (a, d)).
Proof. exists []. reflexivity. Qed.

Lemma dec_bytes_safe V l d : 8 <= V -> small V d -> zlen d <= l -> l + V < 2 ^ 63 -> dec_ok d (dec_bytes l d).
Proof.
  intros V8 Sm Ld L. unfold dec_bytes. apply dec_ok_bind; [apply dec_varint_ok|].
  intros v x p E D. pose proof (small_head V d _ _ Sm D) as Hv. pose proof (dec_varint_shorter _ _ _ D).
  pose proof (zlen_nonneg x).
  destruct (to_int64 v <? 0) eqn:Neg; [exact I|]. apply Z.ltb_ge in Neg.
  rewrite to_int64_id by lia. destruct (l <? _) eqn:C; [exact I|]. apply Z.ltb_ge in C.
  rewrite (proj2 (Z.ltb_ge _ 0)) by lia. eexists. symmetry. apply firstn_skipn.
Qed.

Lemma dec_bytes_part V l d b r : small V d -> dec_bytes l d = Ok (b, r) -> small V b /\ (zlen b <= zlen d).
Proof.
  intros Sm E. unfold dec_bytes in E. destruct (dec_varint d) as [[v x]| |] eqn:D; try discriminate. cbn [bind] in E.
  pose proof (dec_varint_shorter _ _ _ D).
  destruct (to_int64 v <? 0); [discriminate|]. destruct (l <? _); [discriminate|]. destruct (_ <? 0); [discriminate|].
  injection E as <- <-. split.
  - apply small_firstn. exact (small_rest V d _ _ Sm D).
  - unfold zlen in *. rewrite firstn_length. lia.
Qed.

Lemma unmarshal_loop_safe {M} (fs : list (field M)) : Forall safe fs ->
  forall V l, 8 <= V -> l + V < 2 ^ 63 -> forall fuel d m, small V d -> zlen d <= l -> (length d <= fuel)%nat ->
  unmarshal_loop fs l fuel d m <> Panic.
Proof.
  intros Fs V l V8 L. induction fuel as [|fuel IH]; intros d m Sm Ld F.
  { destruct d; [cbn; discriminate|cbn in F; lia]. }
  cbn [unmarshal_loop]. destruct d as [|b d0]; [discriminate|]. remember (b :: d0) as d eqn:Ed.
  assert (d <> []) as N by (subst; discriminate). clear b d0 Ed.
  destruct (dec_varint_case d) as [(wire & rest & D)|D]; rewrite D; [|discriminate]. cbn [bind].
  pose proof (dec_varint_shorter _ _ _ D) as Sh.
  destruct (wire mod 8 =? 4); [discriminate|]. destruct (_ <=? 0); [discriminate|].
  destruct (find_field fs _) as [f|] eqn:Ff.
  - apply find_some in Ff as [If _]. rewrite Forall_forall in Fs.
    pose proof (small_rest V d _ _ Sm D) as Sr.
    pose proof (Fs f If V l (wire mod 8) rest m V8 Sr ltac:(lia) L) as K.
    destruct (f_dec f l (wire mod 8) rest m) as [[m' x]| |]; cbn [bind dec_ok] in *; [|discriminate|destruct K].
    destruct K as [p ->]. rewrite zlen_app in Sh. pose proof (zlen_nonneg p). apply IH.
    + exact (small_suffix V p x Sr).
    + lia.
    + unfold zlen in *. lia.
  - pose proof (skip_field_ok V V8 (S (length d)) d Sm ltac:(lia) N ltac:(lia)) as K.
    destruct (skip_field (S (length d)) d) as [n| |]; cbn [bind skip_ok] in *; [|discriminate|destruct K].
    rewrite (proj2 (Z.ltb_ge n 0)) by lia. pose proof (zlen_nonneg d).
    rewrite to_int64_id by lia. destruct (l <? _) eqn:C; [discriminate|]. apply Z.ltb_ge in C.
    rewrite (proj2 (Z.ltb_ge _ 0)) by lia. apply IH.
    + apply small_skipn, Sm.
    + unfold zlen in *. rewrite skipn_length. lia.
    + unfold zlen in *. rewrite skipn_length. lia.
Qed.

Lemma unmarshal_safe {M} (fs : list (field M)) V d m : Forall safe fs -> 8 <= V -> small V d ->
  zlen d + V < 2 ^ 63 -> unmarshal fs d m <> Panic.
Proof.
  intros Fs V8 Sm L. apply (unmarshal_loop_safe fs Fs V (zlen d)); auto; lia.
Qed.

Lemma dec_msg_safe {S} (fs : list (field S)) V l wt d s : Forall safe fs ->
  8 <= V -> small V d -> zlen d <= l -> l + V < 2 ^ 63 -> dec_ok d (dec_msg fs l wt d s).
Proof.
  intros Fs V8 Sm Ld L. unfold dec_msg. destruct (negb _); [exact I|].
  apply dec_ok_bind; [exact (dec_bytes_safe V l d V8 Sm Ld L)|]. intros b x p E D.
  destruct (dec_bytes_part V l d b x Sm D) as [Sb Zb].
  pose proof (unmarshal_safe fs V b s Fs V8 Sb ltac:(lia)) as U.
  destruct (unmarshal fs b s); cbn [bind]; [apply dec_ok_self|exact I|contradiction].
Qed.

Lemma safe_varint {M} num conv (get : M -> Z) set : safe (varint_field num conv get set).
Proof.
  intros V l wt d m V8 Sm Ld L. cbn [varint_field f_dec]. destruct (negb _); [exact I|].
  apply dec_ok_bind; [apply dec_varint_ok|]. intros. apply dec_ok_self.
Qed.
Lemma safe_bytes {M} num (get : M -> bytes) set : safe (bytes_field num get set).
Proof.
  intros V l wt d m V8 Sm Ld L. cbn [bytes_field f_dec]. destruct (negb _); [exact I|].
  apply dec_ok_bind; [exact (dec_bytes_safe V l d V8 Sm Ld L)|]. intros. apply dec_ok_self.
Qed.
Lemma safe_double {M} num (get : M -> Z) set : safe (double_field num get set).
Proof.
  intros V l wt d m V8 Sm Ld L. cbn [double_field f_dec]. destruct (negb _); [exact I|].
  destruct (get_le 8 d) as [[v r]|] eqn:G; [|exact I]. apply get_le_suffix in G as (p & -> & _). exists p. reflexivity.
Qed.
Lemma dec_packed_ok : forall fuel n d acc, (length d < fuel)%nat -> dec_ok d (dec_packed fuel n d acc).
Proof.
  induction fuel as [|fuel IH]; intros n d acc F; [lia|]. cbn [dec_packed].
  destruct (n <=? 0); [apply dec_ok_self|]. destruct (get_le 8 d) as [[v r]|] eqn:G; [|exact I].
  apply get_le_suffix in G as (p & -> & Lp). rewrite app_length in F.
  pose proof (IH (n - 8) r (acc ++ [v]) ltac:(lia)) as K. unfold dec_ok in *.
  destruct (dec_packed fuel (n - 8) r (acc ++ [v])) as [[a x]| |]; [|exact I|contradiction].
  destruct K as [q ->]. exists (p ++ q). apply app_assoc.
Qed.
Lemma safe_doubles {M} num (get : M -> list Z) set : safe (doubles_field num get set).
Proof.
  intros V l wt d m V8 Sm Ld L. cbn [doubles_field f_dec]. destruct (wt =? 1).
  { destruct (get_le 8 d) as [[v r]|] eqn:G; [|exact I]. apply get_le_suffix in G as (p & -> & _). exists p. reflexivity. }
  destruct (wt =? 2); [|exact I]. apply dec_ok_bind; [apply dec_varint_ok|]. intros v x p E D.
  destruct (_ <? 0); [exact I|]. destruct (l <? _); [exact I|].
  apply dec_ok_bind; [apply dec_packed_ok; lia|]. intros. apply dec_ok_self.
Qed.
Lemma safe_msg {M S} num (fs : list (field S)) (get : M -> S) set : Forall safe fs -> safe (msg_field num fs get set).
Proof.
  intros Fs V l wt d m V8 Sm Ld L. cbn [msg_field f_dec].
  apply dec_ok_bind; [exact (dec_msg_safe fs V l wt d _ Fs V8 Sm Ld L)|]. intros. apply dec_ok_self.
Qed.
Lemma safe_ptr {M S} num (fs : list (field S)) z (get : M -> option S) set :
  Forall safe fs -> safe (ptr_field num fs z get set).
Proof.
  intros Fs V l wt d m V8 Sm Ld L. cbn [ptr_field f_dec].
  apply dec_ok_bind; [exact (dec_msg_safe fs V l wt d _ Fs V8 Sm Ld L)|]. intros. apply dec_ok_self.
Qed.
Lemma safe_msgs {M S} num (fs : list (field S)) z (get : M -> list S) set :
  Forall safe fs -> safe (msgs_field num fs z get set).
Proof.
  intros Fs V l wt d m V8 Sm Ld L. cbn [msgs_field f_dec].
  apply dec_ok_bind; [exact (dec_msg_safe fs V l wt d _ Fs V8 Sm Ld L)|]. intros. apply dec_ok_self.
Qed.

Ltac safe_fields := repeat constructor;
  repeat first [apply safe_varint | apply safe_bytes | apply safe_double | apply safe_doubles
    | apply safe_msg | apply safe_ptr | apply safe_msgs | assumption].

Lemma safe_mm : Forall safe mm_fields.
Proof.
  assert (Forall safe agg_fields) by (unfold agg_fields; safe_fields).
  assert (Forall safe resolution_fields) by (unfold resolution_fields; safe_fields).
  assert (Forall safe retention_fields) by (unfold retention_fields; safe_fields).
  assert (Forall safe sp_fields) by (unfold sp_fields; safe_fields).
  assert (Forall safe tf_fields) by (unfold tf_fields; safe_fields).
  assert (Forall safe applied_rollup_fields) by (unfold applied_rollup_fields; safe_fields).
  assert (Forall safe applied_op_fields) by (unfold applied_op_fields; safe_fields).
  assert (Forall safe applied_fields) by (unfold applied_fields; safe_fields).
  assert (Forall safe pm_fields) by (unfold pm_fields; safe_fields).
  assert (Forall safe md_fields) by (unfold md_fields; safe_fields).
  assert (Forall safe sm_fields) by (unfold sm_fields; safe_fields).
  assert (Forall safe sms_fields) by (unfold sms_fields; safe_fields).
  assert (Forall safe fm_fields) by (unfold fm_fields; safe_fields).
  assert (Forall safe tm_fields) by (unfold tm_fields; safe_fields).
  assert (Forall safe counter_fields) by (unfold counter_fields; safe_fields).
  assert (Forall safe timer_fields) by (unfold timer_fields; safe_fields).
  assert (Forall safe gauge_fields) by (unfold gauge_fields; safe_fields).
  assert (Forall safe timed_fields) by (unfold timed_fields; safe_fields).
  assert (Forall safe forwarded_fields) by (unfold forwarded_fields; safe_fields).
  assert (Forall safe cm_fields) by (unfold cm_fields; safe_fields).
  assert (Forall safe bm_fields) by (unfold bm_fields; safe_fields).
  assert (Forall safe gm_fields) by (unfold gm_fields; safe_fields).
  assert (Forall safe fwm_fields) by (unfold fwm_fields; safe_fields).
  assert (Forall safe tdm_fields) by (unfold tdm_fields; safe_fields).
  unfold mm_fields. safe_fields.
Qed.

(** ** The iterator *)

Lemma read_uvarint_suffix : forall d i w acc u r, read_uvarint i w acc d = inl (u, r) -> exists p, d = p ++ r /\ p <> [].
Proof.
  induction d as [|b d IH]; intros i w acc u r E; [discriminate|]. cbn [read_uvarint] in E.
  destruct (bz b <? 128).
  - destruct ((9 <? i) || _); [discriminate|]. injection E as <- <-. exists [b]. split; [reflexivity|discriminate].
  - apply IH in E as (p & -> & _). exists (b :: p). split; [reflexivity|discriminate].
Qed.
Lemma read_varint_suffix d n r : read_varint d = inl (n, r) -> exists p, d = p ++ r /\ p <> [].
Proof.
  unfold read_varint. destruct (read_uvarint 0 1 0 d) as [[u x]|] eqn:E; [|discriminate]. intros H. injection H as <- <-.
  exact (read_uvarint_suffix _ _ _ _ _ _ E).
Qed.
Lemma read_full_split n d b r : read_full n d = inl (b, r) -> d = b ++ r.
Proof.
  unfold read_full. destruct (n <=? zlen d); [|destruct d; discriminate]. intros H. injection H as <- <-. symmetry.
  apply firstn_skipn.
Qed.

Lemma next_more it it' : next it = More it' ->
  exists p, i_in it = p ++ i_in it' /\ p <> [] /\ current it' <> None /\ i_max it' = i_max it.
Proof.
  unfold next. destruct (i_err it) eqn:Er, (i_closed it) eqn:Cl; try discriminate.
  destruct (read_varint (i_in it)) as [[n rest]|] eqn:Rv; [|discriminate]. cbn [i_max].
  destruct (i_max it <? n); [discriminate|]. unfold decode_message. destruct (n <? 0); [discriminate|]. cbn [i_in].
  destruct (read_full n rest) as [[d x]|] eqn:Rf; [|discriminate]. cbn [i_pb i_msg i_max i_closed i_err].
  destruct (unmarshal mm_fields d (reset_mm (i_pb it))) as [pb| |]; try discriminate.
  destruct (from_mm pb (i_msg it)) as [u|] eqn:Fm; [|discriminate]. intros H. injection H as <-. cbn [i_in i_max].
  apply read_varint_suffix in Rv as (p & -> & Np). apply read_full_split in Rf as ->.
  exists (p ++ d). split; [apply app_assoc|]. split; [destruct p; [congruence|discriminate]|]. split; [|reflexivity].
  unfold current. cbn [i_msg]. unfold from_mm in Fm.
  assert (forall o, match o with Some u0 => inl u0 | None => inr BadMessage end = inl u -> o = Some u) as Inv
    by (intros [o|] H; [injection H as ->; reflexivity|discriminate]).
  destruct (mm_type pb =? 1); [|destruct (mm_type pb =? 2); [|destruct (mm_type pb =? 3); [|destruct (mm_type pb =? 4);
    [|destruct (mm_type pb =? 5); [|discriminate]]]]]; apply Inv in Fm.
  - unfold cm_from_proto in Fm. destruct (mm_counter pb); [|discriminate].
    destruct (sms_from_proto _ _); [|discriminate]. injection Fm as <-. discriminate.
  - unfold bm_from_proto in Fm. destruct (mm_timer pb); [|discriminate].
    destruct (sms_from_proto _ _); [|discriminate]. injection Fm as <-. discriminate.
  - unfold gm_from_proto in Fm. destruct (mm_gauge pb); [|discriminate].
    destruct (sms_from_proto _ _); [|discriminate]. injection Fm as <-. discriminate.
  - unfold fwm_from_proto in Fm. destruct (mm_forwarded pb) as [f|]; [|discriminate].
    destruct (forwarded_from_proto _); [|discriminate].
    destruct (fm_from_proto _ _); [|discriminate]. injection Fm as <-. discriminate.
  - unfold tdm_from_proto in Fm. destruct (mm_timed pb) as [f|]; [|discriminate].
    destruct (timed_from_proto _); [|discriminate].
    destruct (tm_from_proto _ _); [|discriminate]. injection Fm as <-. discriminate.
Qed.

Lemma next_stop it it' : next it = Stop it' -> (exists e, i_err it' = Some e) \/ (i_err it = None /\ i_closed it = true).
Proof.
  unfold next. destruct (i_err it) eqn:Er, (i_closed it) eqn:Cl; intros H; try (injection H as <-; eauto; fail).
  left. destruct (read_varint (i_in it)) as [[n rest]|]; [|injection H as <-; cbn; eauto]. cbn [i_max] in H.
  destruct (i_max it <? n); [injection H as <-; cbn; eauto|]. unfold decode_message in H.
  destruct (n <? 0); [discriminate|]. cbn [i_in] in H.
  destruct (read_full n rest) as [[d x]|]; [|injection H as <-; cbn; eauto]. cbn [i_pb i_msg i_max i_closed i_err] in H.
  destruct (unmarshal mm_fields d (reset_mm (i_pb it))) as [pb| |]; try discriminate.
  - destruct (from_mm pb (i_msg it)) as [u|]; [discriminate|injection H as <-; cbn; eauto].
  - injection H as <-; cbn; eauto.
Qed.

(** Every iteration ends, by an error or a panic. *)
Lemma ends : forall n it, (length (i_in it) < n)%nat -> (i_closed it = true -> i_err it <> None) ->
  (exists ms e, decoded it ms e) \/ panics it.
Proof.
  induction n as [|n IH]; intros it L O; [lia|]. destruct (next it) as [it'|it'|] eqn:N.
  - destruct (next_more it it' N) as (p & E & Np & C & _).
    assert (length (i_in it') < n)%nat as L'.
    { rewrite E, app_length in L. destruct p; [congruence|]. cbn [length] in L. lia. }
    destruct (current it') as [m|] eqn:Cu; [|congruence].
    assert (i_closed it' = true -> i_err it' <> None) as O'.
    { intros Cl. exfalso. revert N. unfold next. destruct (i_err it), (i_closed it) eqn:Cl0; try discriminate.
      destruct (read_varint (i_in it)) as [[k rest]|]; [|discriminate]. cbn [i_max].
      destruct (i_max it <? k); [discriminate|]. unfold decode_message. destruct (k <? 0); [discriminate|]. cbn [i_in].
      destruct (read_full k rest) as [[d x]|]; [|discriminate]. cbn [i_pb i_msg i_max i_closed i_err].
      destruct (unmarshal mm_fields d (reset_mm (i_pb it))) as [pb| |]; try discriminate.
      destruct (from_mm pb (i_msg it)) as [u|]; [|discriminate]. intros H. injection H as <-. cbn in Cl. discriminate. }
    destruct (IH it' L' O') as [(ms & e & D)|P].
    + left. exists (m :: ms), e. exact (decoded_more _ _ _ _ _ N Cu D).
    + right. exact (panics_later _ _ N P).
  - left. destruct (next_stop it it' N) as [[e E]|[E Cl]].
    + exists [], e. exact (decoded_stop _ _ _ N E).
    + exfalso. exact (O Cl E).
  - right. exact (panics_now _ N).
Qed.

(** A panic of [Next] on input without overflowing lengths comes from a negative size. *)
Lemma next_crash it : no_overflow (i_in it) -> next it = Crash ->
  exists n r, read_varint (i_in it) = inl (n, r) /\ n < 0.
Proof.
  intros (Len & No) N. unfold next in N. destruct (i_err it) eqn:Er, (i_closed it) eqn:Cl; try discriminate.
  destruct (read_varint (i_in it)) as [[n rest]|] eqn:Rv; [|discriminate]. exists n, rest. split; [reflexivity|].
  cbn [i_max] in N. destruct (i_max it <? n); [discriminate|]. unfold decode_message in N.
  destruct (n <? 0) eqn:Neg; [apply Z.ltb_lt; exact Neg|]. exfalso. cbn [i_in] in N.
  destruct (read_full n rest) as [[d x]|] eqn:Rf; [|discriminate]. cbn [i_pb i_msg i_max i_closed i_err] in N.
  apply read_varint_suffix in Rv as (p & E & _). apply read_full_split in Rf as ->.
  assert (small (2 ^ 63 - 1 - zlen (i_in it)) (i_in it)) as Sm.
  { intros q s v r Eq D. specialize (No q s v r Eq D). lia. }
  assert (small (2 ^ 63 - 1 - zlen (i_in it)) d) as Sd.
  { rewrite E in Sm at 2. apply small_suffix in Sm. exact (small_prefix _ _ _ Sm). }
  assert (zlen d <= zlen (i_in it)) as Ld.
  { rewrite E, !zlen_app. pose proof (zlen_nonneg p). pose proof (zlen_nonneg x). lia. }
  pose proof (unmarshal_safe mm_fields (2 ^ 63 - 1 - zlen (i_in it)) d (reset_mm (i_pb it)) safe_mm ltac:(lia) Sd ltac:(lia)) as U.
  destruct (unmarshal mm_fields d (reset_mm (i_pb it))) as [pb| |]; try discriminate; [|contradiction].
  destruct (from_mm pb (i_msg it)); discriminate.
Qed.

Lemma no_overflow_suffix p s : no_overflow (p ++ s) -> no_overflow s.
Proof.
  intros (Len & No). pose proof (zlen_nonneg p) as P. rewrite zlen_app in *. split; [lia|].
  intros q x v r E D. specialize (No (p ++ q) x v r). rewrite <- app_assoc, <- E in No.
  specialize (No eq_refl D). lia.
Qed.

Lemma panics_negative it : panics it -> no_overflow (i_in it) ->
  exists p s n r, i_in it = p ++ s /\ read_varint s = inl (n, r) /\ n < 0.
Proof.
  induction 1 as [it N|it it' N _ IH]; intros No.
  - destruct (next_crash it No N) as (n & r & E & L). exists [], (i_in it), n, r. auto.
  - destruct (next_more it it' N) as (p & E & _). rewrite E in No.
    destruct (IH (no_overflow_suffix _ _ No)) as (q & s & n & r & E' & R & L).
    exists (p ++ q), s, n, r. rewrite E, E', app_assoc. auto.
Qed.
