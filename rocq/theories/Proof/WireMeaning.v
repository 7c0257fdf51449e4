(** The generated decoders accept what the protobuf encoding guide calls a message, and nothing else: primitives, skipping
    and the fields of every pattern. *)
From Coq Require Import Ascii String NArith ZArith Bool Arith Lia List.
From Verif.Base Require Import Bytes BytesFacts.
From Verif.Proof Require Import ProtoWireProof MessagesProof ProtoSafeProof WireProof.
From Verif.Model Require Import Policy Transformation Pipeline Metadata Rules RuleSetProto Namespace ProtoWire Messages
  RuleWire.
From Verif.Spec Require Import WireSpec WireMeaningSpec.
Import ListNotations.
Local Open Scope Z_scope.

(** * Numbers *)

Lemma signed64 v : signed 64 v = to_int64 v.
Proof.
  unfold signed, to_int64. change (64 - 1) with 63. pose proof (Z.mod_pos_bound v (2 ^ 64) ltac:(lia)) as B.
  pose proof (Z.div_mod v (2 ^ 64) ltac:(lia)) as E. set (u := v mod 2 ^ 64) in *. set (q := v / 2 ^ 64) in *.
  destruct (Z.ltb_spec u (2 ^ 63)).
  - replace (v + 2 ^ 63) with (u + 2 ^ 63 + q * 2 ^ 64) by lia. rewrite Z.mod_add, Z.mod_small by lia. lia.
  - replace (v + 2 ^ 63) with (u - 2 ^ 63 + (q + 1) * 2 ^ 64) by lia. rewrite Z.mod_add, Z.mod_small by lia. lia.
Qed.
Lemma signed32 v : signed 32 v = to_int32 v.
Proof. unfold signed, to_int32. change (32 - 1) with 31. cbv zeta. rewrite Z.leb_antisym. destruct (_ <? _); reflexivity. Qed.
Lemma mod_int64 v n : n = v mod 2 ^ 64 /\ n < 2 ^ 63 <-> 0 <= n /\ to_int64 v = n.
Proof.
  rewrite <- signed64. unfold signed. change (64 - 1) with 63. pose proof (Z.mod_pos_bound v (2 ^ 64) ltac:(lia)) as B.
  set (u := v mod 2 ^ 64) in *. clearbody u. destruct (Z.ltb_spec u (2 ^ 63)); split; intros [H1 H2]; split; lia.
Qed.
Lemma bool64 v : negb (v mod 2 ^ 64 =? 0) = z2b (conv_bool v).
Proof.
  unfold z2b, conv_bool. rewrite <- signed64. unfold signed. change (64 - 1) with 63.
  pose proof (Z.mod_pos_bound v (2 ^ 64) ltac:(lia)) as B. set (u := v mod 2 ^ 64) in *. clearbody u.
  destruct (Z.ltb_spec u (2 ^ 63)); destruct (Z.eqb_spec u 0); subst; try reflexivity; try lia.
  rewrite (proj2 (Z.eqb_neq (u - 2 ^ 64) 0)) by lia. reflexivity.
Qed.

(** * Varints *)

Lemma get_varint_base k : forall w acc d v r, get_varint k w acc d = Ok (v, r) ->
  exists p x, d = p ++ r /\ base128 p x /\ (length p <= k)%nat /\ v = acc + x * w.
Proof.
  induction k as [|k IH]; intros w acc d v r E; [discriminate|]. cbn [get_varint] in E.
  destruct d as [|b d]; [discriminate|]. pose proof (bz_range b). destruct (bz b <? 128) eqn:C.
  - apply Z.ltb_lt in C. injection E as <- <-. exists [b], (byte_value b). split; [reflexivity|].
    split; [constructor; exact C|]. split; [cbn; lia|]. change (byte_value b) with (bz b). rewrite Z.mod_small; lia.
  - apply Z.ltb_ge in C. apply IH in E as (p & x & -> & B & L & ->).
    exists (b :: p), (byte_value b - 128 + 128 * x). split; [reflexivity|]. split; [constructor; assumption|].
    split; [cbn; lia|]. change (byte_value b) with (bz b).
    replace (bz b) with (bz b - 128 + 1 * 128) at 1 by lia. rewrite Z.mod_add, Z.mod_small by lia. ring.
Qed.
Lemma dec_varint_iff d v r : dec_varint d = Ok (v, r) <-> exists p, d = p ++ r /\ varint p v.
Proof.
  split.
  - intros E. apply get_varint_base in E as (p & x & -> & B & L & ->). exists p. split; [reflexivity|].
    replace (0 + x * 1) with x by lia. split; assumption.
  - intros (p & -> & V). exact (varint_dec p v r V).
Qed.

Lemma get_le_iff k : forall d v r, get_le k d = Some (v, r) <-> exists p, d = p ++ r /\ length p = k /\ v = little_endian p.
Proof.
  induction k as [|k IH]; intros d v r; cbn [get_le].
  - split.
    + intros H. injection H as <- <-. exists []. auto.
    + intros ([|b p] & -> & L & ->); [reflexivity|discriminate].
  - split.
    + destruct d as [|b d]; [discriminate|]. destruct (get_le k d) as [[v' d']|] eqn:E; [|discriminate].
      intros H. injection H as <- <-. apply IH in E as (p & -> & L & ->). exists (b :: p). repeat split. cbn. lia.
    + intros ([|b p] & -> & L & ->); [discriminate|]. cbn [app].
      rewrite (proj2 (IH (p ++ r) (little_endian p) r)); [reflexivity|]. exists p. cbn in L. auto with arith.
Qed.
Lemma a_double_iff d v r : get_le 8 d = Some (v, r) <-> exists p, d = p ++ r /\ a_double v p.
Proof. rewrite get_le_iff. reflexivity. Qed.

(** * Blocks *)

Lemma announces_dec p n : announces p n -> exists v, varint p v /\ to_int64 v = n /\ 0 <= n.
Proof. intros (v & V & E). apply mod_int64 in E as [N E]. eauto. Qed.
Lemma announces_of p v : varint p v -> 0 <= to_int64 v -> announces p (to_int64 v).
Proof. intros V N. exists v. split; [exact V|]. apply mod_int64. auto. Qed.

Lemma block_dec l p b r : announces p (zlen b) -> zlen ((p ++ b) ++ r) <= l < 2 ^ 63 -> dec_bytes l ((p ++ b) ++ r) = Ok (b, r).
Proof.
  intros A [H L]. apply announces_dec in A as (v & V & E & N). rewrite <- app_assoc. unfold dec_bytes. rewrite !zlen_app in H.
  pose proof (zlen_nonneg b). pose proof (zlen_nonneg r). pose proof (zlen_nonneg p).
  rewrite (varint_dec p v _ V). cbn [bind]. cbv zeta. rewrite E. rewrite (proj2 (Z.ltb_ge (zlen b) 0)) by lia.
  rewrite zlen_app. rewrite to_int64_id by lia.
  rewrite (proj2 (Z.ltb_ge l _)) by lia. rewrite (proj2 (Z.ltb_ge _ 0)) by lia.
  assert (Z.to_nat (zlen b) = length b) as -> by (unfold zlen; lia).
  rewrite firstn_app, Nat.sub_diag, firstn_all, skipn_app, Nat.sub_diag, skipn_all. cbn [firstn skipn app].
  rewrite app_nil_r. reflexivity.
Qed.

Lemma block_of V l d b r : 8 <= V -> small V d -> zlen d <= l -> l + V < 2 ^ 63 -> dec_bytes l d = Ok (b, r) ->
  exists p, d = (p ++ b) ++ r /\ announces p (zlen b).
Proof.
  intros V8 Sm Ld L E. unfold dec_bytes in E. destruct (dec_varint d) as [[v x]| |] eqn:D; try discriminate. cbn [bind] in E.
  pose proof (small_head V d _ _ Sm D) as Hv. pose proof (dec_varint_shorter _ _ _ D) as Sh. pose proof (zlen_nonneg x).
  cbv zeta in E. destruct (to_int64 v <? 0) eqn:Neg; [discriminate|]. apply Z.ltb_ge in Neg.
  rewrite to_int64_id in E by lia. destruct (l <? _) eqn:C; [discriminate|]. apply Z.ltb_ge in C.
  destruct (_ <? 0); [discriminate|]. injection E as <- <-.
  apply dec_varint_iff in D as (p & -> & Vp). exists p. split.
  - rewrite <- app_assoc, firstn_skipn. reflexivity.
  - assert (zlen (firstn (Z.to_nat (to_int64 v)) x) = to_int64 v) as ->.
    { unfold zlen in *. rewrite firstn_length_le; lia. }
    apply announces_of; assumption.
Qed.

(** * Packed lists *)

Definition packs (element : Z -> bytes -> Prop) (n : Z) (vs : list Z) (ds : list bytes) : Prop :=
  Forall2 element vs ds /\ n <= zlen (concat ds) /\
  forall before last, ds = before ++ [last] -> zlen (concat before) < n.
Lemma packed_packs element n vs d : packed element n vs d <-> exists ds, d = concat ds /\ packs element n vs ds.
Proof.
  split.
  - intros (ds & -> & F & L & B). exists ds. split; [reflexivity|]. split; [exact F|]. split; [exact L|exact B].
  - intros (ds & -> & F & L & B). exists ds. split; [reflexivity|]. split; [exact F|]. split; [exact L|exact B].
Qed.
Lemma packs_nil element n : n <= 0 -> packs element n [] [].
Proof.
  intros N. split; [constructor|]. split; [exact N|]. intros before last E. destruct before; discriminate.
Qed.
Lemma packs_cons (element : Z -> bytes -> Prop) n v e vs ds : 0 < n -> element v e -> packs element (n - zlen e) vs ds ->
  packs element n (v :: vs) (e :: ds).
Proof.
  intros N E (F & L & B). split; [constructor; assumption|]. cbn [concat]. rewrite zlen_app. split; [lia|].
  intros [|b before] last Q; cbn [app] in Q.
  - exact N.
  - injection Q as <- ->. specialize (B before last eq_refl). cbn [concat]. rewrite zlen_app. lia.
Qed.
Lemma packs_inv (element : Z -> bytes -> Prop) n vs ds : packs element n vs ds ->
  (n <= 0 /\ vs = [] /\ ds = []) \/
  (0 < n /\ exists v e vs' ds', vs = v :: vs' /\ ds = e :: ds' /\ element v e /\ packs element (n - zlen e) vs' ds').
Proof.
  intros (F & L & B). destruct F as [|v e vs ds E F].
  - left. auto.
  - right. split.
    + destruct (exists_last (l := e :: ds)) as (before & last & Q); [discriminate|]. specialize (B before last Q).
      pose proof (zlen_nonneg (concat before)). lia.
    + exists v, e, vs, ds. repeat (split; [reflexivity|]). split; [exact E|]. split; [exact F|].
      cbn [concat] in L. rewrite zlen_app in L. split; [lia|]. intros before last ->.
      specialize (B (e :: before) last eq_refl). cbn [concat] in B. rewrite zlen_app in B. lia.
Qed.

Lemma dec_packed_iff : forall fuel n d acc out r, (length d < fuel)%nat ->
  (dec_packed fuel n d acc = Ok (out, r) <-> exists vs p, out = acc ++ vs /\ d = p ++ r /\ packed a_double n vs p).
Proof.
  induction fuel as [|fuel IH]; intros n d acc out r F; [lia|]. cbn [dec_packed]. destruct (n <=? 0) eqn:N.
  - apply Z.leb_le in N. split.
    + intros E. injection E as <- <-. exists [], []. rewrite app_nil_r. repeat (split; [reflexivity|]).
      apply packed_packs. exists []. split; [reflexivity|exact (packs_nil _ _ N)].
    + intros (vs & p & -> & -> & P). apply packed_packs in P as (ds & -> & P). apply packs_inv in P as [(_ & -> & ->)|(N' & _)]; [|lia].
      rewrite app_nil_r. reflexivity.
  - apply Z.leb_gt in N. split.
    + destruct (get_le 8 d) as [[v x]|] eqn:G; [|discriminate]. intros E.
      apply a_double_iff in G as (e & -> & A). pose proof (proj1 A) as Le. rewrite app_length in F.
      apply IH in E as (vs & p & -> & -> & P); [|lia]. exists (v :: vs), (e ++ p). rewrite <- app_assoc. split; [reflexivity|].
      split; [apply app_assoc|]. apply packed_packs in P as (ds & -> & P). apply packed_packs. exists (e :: ds). split; [reflexivity|].
      apply packs_cons; [exact N|exact A|]. assert (zlen e = 8) as -> by (unfold zlen; lia). exact P.
    + intros (vs & p & -> & -> & P). apply packed_packs in P as (ds & -> & P).
      apply packs_inv in P as [(N' & _)|(_ & v & e & vs' & ds' & -> & -> & A & P)]; [lia|].
      cbn [concat] in *. rewrite <- app_assoc. rewrite (proj2 (a_double_iff _ v (concat ds' ++ r))) by eauto.
      pose proof (proj1 A) as Le. rewrite !app_length in F. apply IH; [rewrite app_length; lia|].
      exists vs', (concat ds'). rewrite <- app_assoc. split; [reflexivity|]. split; [reflexivity|].
      apply packed_packs. exists ds'. split; [reflexivity|]. replace (n - 8) with (n - zlen e) by (unfold zlen; lia). exact P.
Qed.

Lemma an_enum_iff d w r : (exists v, dec_varint d = Ok (v, r) /\ w = to_int32 v) <-> exists p, d = p ++ r /\ an_enum w p.
Proof.
  split.
  - intros (v & D & ->). apply dec_varint_iff in D as (p & -> & V). exists p. split; [reflexivity|]. exists v.
    split; [exact V|]. symmetry. apply signed32.
  - intros (p & -> & v & V & ->). exists v. split; [exact (varint_dec p v r V)|apply signed32].
Qed.

Lemma dec_enums_iff : forall fuel n d acc out r, (length d < fuel)%nat ->
  (dec_enums fuel n d acc = Ok (out, r) <-> exists vs p, out = acc ++ vs /\ d = p ++ r /\ packed an_enum n vs p).
Proof.
  induction fuel as [|fuel IH]; intros n d acc out r F; [lia|]. cbn [dec_enums]. destruct (n <=? 0) eqn:N.
  - apply Z.leb_le in N. split.
    + intros E. injection E as <- <-. exists [], []. rewrite app_nil_r. repeat (split; [reflexivity|]).
      apply packed_packs. exists []. split; [reflexivity|exact (packs_nil _ _ N)].
    + intros (vs & p & -> & -> & P). apply packed_packs in P as (ds & -> & P). apply packs_inv in P as [(_ & -> & ->)|(N' & _)]; [|lia].
      rewrite app_nil_r. reflexivity.
  - apply Z.leb_gt in N. split.
    + destruct (dec_varint d) as [[v x]| |] eqn:D; try discriminate. cbn [bind]. intros E.
      pose proof (dec_varint_shorter _ _ _ D) as Sh.
      assert (exists p, d = p ++ x /\ an_enum (to_int32 v) p) as (e & -> & A) by (apply an_enum_iff; eauto).
      apply IH in E as (vs & p & -> & -> & P); [|unfold zlen in Sh; lia].
      exists (to_int32 v :: vs), (e ++ p). rewrite <- app_assoc. split; [reflexivity|].
      split; [apply app_assoc|]. apply packed_packs in P as (ds & -> & P). apply packed_packs. exists (e :: ds). split; [reflexivity|].
      apply packs_cons; [exact N|exact A|]. rewrite zlen_app in P. replace (n - zlen e) with
        (n - (zlen e + zlen (concat ds ++ r) - zlen (concat ds ++ r))) by lia. exact P.
    + intros (vs & p & -> & -> & P). apply packed_packs in P as (ds & -> & P).
      apply packs_inv in P as [(N' & _)|(_ & w & e & vs' & ds' & -> & -> & A & P)]; [lia|].
      cbn [concat] in *. rewrite <- app_assoc in *.
      destruct (proj2 (an_enum_iff (e ++ concat ds' ++ r) w (concat ds' ++ r))) as (v & D & ->); [eauto|]. rewrite D. cbn [bind].
      pose proof (dec_varint_shorter _ _ _ D) as Sh. apply IH; [unfold zlen in Sh; lia|].
      exists vs', (concat ds'). rewrite <- app_assoc. split; [reflexivity|]. split; [reflexivity|].
      apply packed_packs. exists ds'. split; [reflexivity|]. rewrite zlen_app.
      replace (n - (zlen e + zlen (concat ds' ++ r) - zlen (concat ds' ++ r))) with (n - zlen e) by lia. exact P.
Qed.

(** * Skipping *)

Scheme passed_mind := Minimality for passed Sort Prop with passed_all_mind := Minimality for passed_all Sort Prop.
Combined Scheme passed_both from passed_mind, passed_all_mind.

Lemma varint_pos t x : varint t x -> 1 <= zlen t.
Proof. intros V. apply varint_nonempty in V. unfold zlen. lia. Qed.
Lemma dec_varint_here t x r : varint t x -> dec_varint (t ++ r) = Ok (x, r).
Proof. apply varint_dec. Qed.

Lemma skip_complete :
  (forall wt v, passed wt v -> forall t x r fuel, varint t x -> x mod 8 = wt -> zlen (t ++ v ++ r) < 2 ^ 63 ->
    (length (t ++ v ++ r) < fuel)%nat -> skip_field fuel (t ++ v ++ r) = Ok (zlen t + zlen v)) /\
  (forall l, passed_all l -> forall pre e y r fuel g d, d = pre ++ l ++ e ++ r -> 1 <= zlen pre -> varint e y -> y mod 8 = 4 ->
    zlen d < 2 ^ 63 -> (length d <= fuel)%nat -> (length l < g)%nat ->
    skip_group (skip_field fuel) d g (zlen pre) = Ok (zlen pre + zlen l + zlen e)).
Proof.
  apply passed_both.
  - intros d v V t x r fuel Vt X L F. destruct fuel as [|fuel]; [lia|]. rewrite skip_field_eq.
    pose proof (varint_pos _ _ Vt). rewrite !zlen_app. pose proof (zlen_nonneg d). pose proof (zlen_nonneg r).
    rewrite (proj2 (Z.eqb_neq _ 0)) by lia. rewrite (varint_dec t x _ Vt). cbn [bind]. cbv zeta. rewrite X. cbn [Z.eqb].
    rewrite (varint_dec d v _ V). cbn [bind]. f_equal. lia.
  - intros d E t x r fuel Vt X L F. destruct fuel as [|fuel]; [lia|]. rewrite skip_field_eq.
    pose proof (varint_pos _ _ Vt). rewrite !zlen_app. pose proof (zlen_nonneg d). pose proof (zlen_nonneg r).
    rewrite (proj2 (Z.eqb_neq _ 0)) by lia. rewrite (varint_dec t x _ Vt). cbn [bind]. cbv zeta. rewrite X.
    cbn [Z.eqb Pos.eqb]. f_equal. rewrite zlen_app. unfold zlen in *. lia.
  - intros p b A t x r fuel Vt X L F. destruct fuel as [|fuel]; [lia|]. rewrite skip_field_eq.
    pose proof (varint_pos _ _ Vt). rewrite !zlen_app in *. pose proof (zlen_nonneg p). pose proof (zlen_nonneg b). pose proof (zlen_nonneg r).
    rewrite (proj2 (Z.eqb_neq _ 0)) by lia. rewrite (varint_dec t x _ Vt). cbn [bind]. cbv zeta. rewrite X.
    cbn [Z.eqb Pos.eqb]. apply announces_dec in A as (v & V & E & N). rewrite <- app_assoc, (varint_dec p v _ V). cbn [bind].
    rewrite E. rewrite (proj2 (Z.ltb_ge _ 0)) by lia. rewrite to_int64_id by (rewrite zlen_app; unfold zlen in *; lia).
    f_equal. rewrite zlen_app. unfold zlen in *. lia.
  - intros l e y _ IH Ve Y t x r fuel Vt X L F. destruct fuel as [|fuel]; [lia|]. rewrite skip_field_eq.
    pose proof (varint_pos _ _ Vt). pose proof (varint_pos _ _ Ve). pose proof (zlen_nonneg l). pose proof (zlen_nonneg r).
    assert (zlen (t ++ (l ++ e) ++ r) = zlen t + zlen l + zlen e + zlen r) as Zl by (rewrite !zlen_app; lia).
    rewrite (proj2 (Z.eqb_neq (zlen (t ++ (l ++ e) ++ r)) 0)) by lia. rewrite (varint_dec t x _ Vt). cbn [bind]. cbv zeta. rewrite X. cbn [Z.eqb Pos.eqb].
    replace (zlen (t ++ (l ++ e) ++ r) - zlen ((l ++ e) ++ r)) with (zlen t) by (rewrite !zlen_app; lia).
    rewrite (IH t e y r fuel _ (t ++ (l ++ e) ++ r)).
    + f_equal. rewrite zlen_app. lia.
    + rewrite <- app_assoc. reflexivity.
    + lia.
    + exact Ve.
    + exact Y.
    + exact L.
    + lia.
    + rewrite !app_length. lia.
  - intros d E t x r fuel Vt X L F. destruct fuel as [|fuel]; [lia|]. rewrite skip_field_eq.
    pose proof (varint_pos _ _ Vt). rewrite !zlen_app. pose proof (zlen_nonneg d). pose proof (zlen_nonneg r).
    rewrite (proj2 (Z.eqb_neq _ 0)) by lia. rewrite (varint_dec t x _ Vt). cbn [bind]. cbv zeta. rewrite X.
    cbn [Z.eqb Pos.eqb]. f_equal. rewrite zlen_app. unfold zlen in *. lia.
  - intros pre e y r fuel g d -> P Ve Y L F G. destruct g as [|g]; [lia|]. cbn [skip_group app].
    pose proof (varint_pos _ _ Ve). pose proof (zlen_nonneg r).
    rewrite (proj2 (Z.leb_gt _ _)) by (cbn [app]; rewrite !zlen_app; lia). rewrite (proj2 (Z.ltb_ge _ 0)) by lia.
    assert (skipn (Z.to_nat (zlen pre)) (pre ++ e ++ r) = e ++ r) as ->.
    { unfold zlen. rewrite Nat2Z.id, skipn_app, Nat.sub_diag, skipn_all. reflexivity. }
    rewrite (varint_dec e y r Ve). cbn [bind]. rewrite Y. cbn [Z.eqb Pos.eqb]. f_equal. rewrite !zlen_app, zlen_nil. lia.
  - intros t x v l Vt X _ IHv _ IHl pre e y r fuel g d -> P Ve Y L F G. destruct g as [|g]; [lia|]. cbn [skip_group].
    pose proof (varint_pos _ _ Vt). pose proof (varint_pos _ _ Ve). pose proof (zlen_nonneg r). pose proof (zlen_nonneg v).
    pose proof (zlen_nonneg l).
    assert (zlen (pre ++ (t ++ v ++ l) ++ e ++ r) = zlen pre + zlen t + zlen v + zlen l + zlen e + zlen r) as Zl by (rewrite !zlen_app; lia).
    rewrite (proj2 (Z.leb_gt _ _)) by lia. rewrite (proj2 (Z.ltb_ge _ 0)) by lia.
    assert (skipn (Z.to_nat (zlen pre)) (pre ++ (t ++ v ++ l) ++ e ++ r) = t ++ v ++ (l ++ e ++ r)) as ->.
    { unfold zlen. rewrite Nat2Z.id, skipn_app, Nat.sub_diag, skipn_all. cbn [skipn app]. rewrite <- !app_assoc. reflexivity. }
    rewrite (varint_dec t x _ Vt). cbn [bind]. rewrite (proj2 (Z.eqb_neq _ _) X).
    rewrite (IHv t x (l ++ e ++ r) fuel Vt eq_refl).
    + cbn [bind]. rewrite to_int64_id by lia. replace (zlen pre + (zlen t + zlen v)) with (zlen (pre ++ t ++ v)) by (rewrite !zlen_app; lia).
      rewrite (IHl (pre ++ t ++ v) e y r fuel g _).
      * f_equal. rewrite !zlen_app. lia.
      * rewrite <- !app_assoc. reflexivity.
      * rewrite !zlen_app. lia.
      * exact Ve.
      * exact Y.
      * exact L.
      * exact F.
      * rewrite !app_length in G. unfold zlen in *. lia.
    + rewrite !zlen_app in *. lia.
    + rewrite !app_length in *. unfold zlen in *. lia.
Qed.

Lemma skip_sound V : 8 <= V -> forall fuel d n, small V d -> zlen d + V < 2 ^ 63 -> d <> [] ->
  (length d < fuel)%nat -> skip_field fuel d = Ok n -> n <= zlen d ->
  (exists x r, dec_varint d = Ok (x, r) /\ x mod 8 = 4) \/
  exists t x v r, d = t ++ v ++ r /\ varint t x /\ passed (x mod 8) v /\ n = zlen t + zlen v.
Proof.
  intros V8. induction fuel as [|fuel IH]; intros d n Sm L N F E Le; [lia|].
  assert (0 < zlen d) as P by (destruct d; [congruence|rewrite zlen_cons; pose proof (zlen_nonneg d); lia]).
  rewrite skip_field_eq in E. rewrite (proj2 (Z.eqb_neq (zlen d) 0)) in E by lia.
  destruct (dec_varint d) as [[x rest]| |] eqn:D; try discriminate. cbn [bind] in E. cbv zeta in E.
  pose proof (dec_varint_shorter _ _ _ D) as Sh. pose proof (small_rest V d _ _ Sm D) as Sr. pose proof (zlen_nonneg rest) as Zr.
  pose proof D as D'. apply dec_varint_iff in D' as (t & Ed & Vt).
  assert (forall k, k <= zlen rest -> exists v r, rest = v ++ r /\ zlen v = Z.max 0 k) as Cut.
  { intros k K. exists (firstn (Z.to_nat k) rest), (skipn (Z.to_nat k) rest). split; [symmetry; apply firstn_skipn|].
    unfold zlen in *. rewrite firstn_length_le; lia. }
  assert (zlen d = zlen t + zlen rest) as Zd by (rewrite Ed, zlen_app; reflexivity).
  destruct (x mod 8 =? 0) eqn:W0.
  { apply Z.eqb_eq in W0. destruct (dec_varint rest) as [[v r2]| |] eqn:D2; try discriminate. cbn [bind] in E. injection E as <-.
    apply dec_varint_iff in D2 as (p & -> & Vp). right. exists t, x, p, r2. split; [exact Ed|]. split; [exact Vt|]. rewrite W0.
    split; [exact (passed_varint p v Vp)|]. rewrite zlen_app in Zd. lia. }
  destruct (x mod 8 =? 1) eqn:W1.
  { apply Z.eqb_eq in W1. injection E as <-. destruct (Cut 8) as (v & r & -> & Zv); [lia|]. right. exists t, x, v, r.
    split; [exact Ed|]. split; [exact Vt|]. rewrite W1. split; [|lia]. apply passed_eight. unfold zlen in Zv. lia. }
  destruct (x mod 8 =? 2) eqn:W2.
  { apply Z.eqb_eq in W2. destruct (dec_varint rest) as [[v r2]| |] eqn:D2; try discriminate. cbn [bind] in E.
    pose proof (dec_varint_shorter _ _ _ D2) as Sh2. pose proof (zlen_nonneg r2). pose proof (small_head V rest _ _ Sr D2) as Hv.
    destruct (to_int64 v <? 0) eqn:Neg; [discriminate|]. apply Z.ltb_ge in Neg. rewrite to_int64_id in E by lia. injection E as <-.
    apply dec_varint_iff in D2 as (p & -> & Vp). rewrite zlen_app in *.
    right. exists t, x, (p ++ firstn (Z.to_nat (to_int64 v)) r2), (skipn (Z.to_nat (to_int64 v)) r2).
    assert (zlen (firstn (Z.to_nat (to_int64 v)) r2) = to_int64 v) as Zf by (unfold zlen in *; rewrite firstn_length_le; lia).
    split; [rewrite <- app_assoc, firstn_skipn; exact Ed|]. split; [exact Vt|]. rewrite W2. split.
    - apply passed_block. change (Z.of_nat (length (firstn (Z.to_nat (to_int64 v)) r2))) with (zlen (firstn (Z.to_nat (to_int64 v)) r2)).
      rewrite Zf. apply announces_of; assumption.
    - rewrite zlen_app, Zf. lia. }
  destruct (x mod 8 =? 3) eqn:W3.
  { apply Z.eqb_eq in W3. right.
    assert (forall g pre suf, d = pre ++ suf -> 1 <= zlen pre ->
      skip_group (skip_field fuel) d g (zlen pre) = Ok n ->
      exists l e y r, suf = l ++ e ++ r /\ passed_all l /\ varint e y /\ y mod 8 = 4 /\ n = zlen pre + zlen l + zlen e) as K.
    { induction g as [|g IHg]; intros pre suf Es P1 G; [discriminate|]. cbn [skip_group] in G.
      assert (zlen d = zlen pre + zlen suf) as Zs by (rewrite Es, zlen_app; reflexivity).
      destruct (zlen d <=? zlen pre) eqn:Li; [discriminate|]. apply Z.leb_gt in Li. rewrite (proj2 (Z.ltb_ge _ 0)) in G by lia.
      assert (skipn (Z.to_nat (zlen pre)) d = suf) as Sk.
      { rewrite Es. unfold zlen. rewrite Nat2Z.id, skipn_app, Nat.sub_diag, skipn_all. reflexivity. }
      rewrite Sk in G. assert (suf <> []) as Ns by (intros Q; rewrite Q, zlen_nil in Zs; lia).
      assert (small V suf) as Ss by (rewrite Es in Sm; exact (small_suffix V pre suf Sm)).
      destruct (dec_varint suf) as [[y r2]| |] eqn:D2; try discriminate. cbn [bind] in G.
      destruct (y mod 8 =? 4) eqn:Y.
      - apply Z.eqb_eq in Y. injection G as <-. apply dec_varint_iff in D2 as (e & -> & Ve). exists [], e, y, r2.
        split; [reflexivity|]. split; [constructor|]. split; [exact Ve|]. split; [exact Y|]. rewrite zlen_app in Zs.
        rewrite zlen_nil. lia.
      - apply Z.eqb_neq in Y. destruct (skip_field fuel suf) as [k| |] eqn:Sf; try discriminate. cbn [bind] in G.
        pose proof (skip_field_ok V V8 fuel suf Ss ltac:(lia) Ns ltac:(unfold zlen in *; lia)) as Ok1. rewrite Sf in Ok1.
        cbn [skip_ok] in Ok1. rewrite to_int64_id in G by lia.
        assert (zlen pre + k < zlen d) as Kd.
        { destruct g as [|g]; [discriminate|]. cbn [skip_group] in G. destruct (zlen d <=? zlen pre + k) eqn:Q; [discriminate|].
          apply Z.leb_gt in Q. exact Q. }
        destruct (IH suf k Ss ltac:(lia) Ns ltac:(unfold zlen in *; lia) Sf ltac:(lia)) as [(y' & r' & D3 & Y4)|(t2 & x2 & v2 & r' & -> & Vt2 & Pv & ->)].
        + rewrite D2 in D3. injection D3 as <- <-. contradiction.
        + rewrite (varint_dec t2 x2 _ Vt2) in D2. injection D2 as <- <-.
          replace (zlen pre + (zlen t2 + zlen v2)) with (zlen (pre ++ t2 ++ v2)) in G by (rewrite !zlen_app; lia).
          destruct (IHg (pre ++ t2 ++ v2) r') as (l & e & z & r & -> & Pl & Ve & Z4 & ->).
          * rewrite Es, <- !app_assoc. reflexivity.
          * rewrite !zlen_app. pose proof (zlen_nonneg t2). pose proof (zlen_nonneg v2). lia.
          * exact G.
          * exists (t2 ++ v2 ++ l), e, z, r. split; [rewrite <- !app_assoc; reflexivity|].
            split; [exact (passed_more t2 x2 v2 l Vt2 Y Pv Pl)|]. split; [exact Ve|]. split; [exact Z4|]. rewrite !zlen_app. lia. }
    replace (zlen d - zlen rest) with (zlen t) in E by lia.
    destruct (K _ t rest Ed ltac:(exact (varint_pos _ _ Vt)) E) as (l & e & y & r & -> & Pl & Ve & Y & ->).
    exists t, x, (l ++ e), r. split; [rewrite Ed, <- app_assoc; reflexivity|]. split; [exact Vt|]. rewrite W3.
    split; [exact (passed_group l e y Pl Ve Y)|]. rewrite zlen_app. lia. }
  destruct (x mod 8 =? 4) eqn:W4.
  { apply Z.eqb_eq in W4. left. eauto. }
  destruct (x mod 8 =? 5) eqn:W5; [|discriminate].
  apply Z.eqb_eq in W5. injection E as <-. destruct (Cut 4) as (v & r & -> & Zv); [lia|]. right. exists t, x, v, r.
  split; [exact Ed|]. split; [exact Vt|]. rewrite W5. split; [|lia]. apply passed_four. unfold zlen in Zv. lia.
Qed.
