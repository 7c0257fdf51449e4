(** The protobuf iterator on any bytes. *)
From Coq Require Import Ascii String NArith ZArith Bool Arith Lia List.
From Verif.Base Require Import Bytes BytesFacts.
From Verif.Proof Require Import ProtoWireProof MessagesProof ProtoSafeProof WireProof WireMeaning WireMeaningFields
  WireMeaningParts WireMeaningMessages StreamMeaning.
From Verif.Spec Require Import WireSpec WireMeaningSpec.
From Verif.Model Require Import ProtoStream.
From Verif.Model Require Import Policy Transformation Pipeline Metadata ProtoWire Messages.
From Verif.Spec Require Import ProtoStreamSpec StreamMeaningSpec.
Import ListNotations.
Local Open Scope Z_scope.

(** * Sizes *)

Definition last_byte (p : bytes) : Z := bz (last p (zb 0)).
Lemma base128_top p x : base128 p x ->
  exists lo, x = lo + last_byte p * 128 ^ (Z.of_nat (length p) - 1) /\ 0 <= lo < 128 ^ (Z.of_nat (length p) - 1) /\
    0 <= last_byte p < 128 /\ p <> [].
Proof.
  induction 1 as [b Hb|b p x Hb H (lo & -> & Lo & Hl & Np)]; change (byte_value b) with (bz b) in *.
  - exists 0. unfold last_byte. cbn [last length]. pose proof (bz_range b). change (Z.of_nat 1 - 1) with 0.
    split; [rewrite Z.pow_0_r; lia|]. split; [rewrite Z.pow_0_r; lia|]. split; [lia|discriminate].
  - pose proof (bz_range b). assert (last_byte (b :: p) = last_byte p) as -> by (unfold last_byte; destruct p; [contradiction|reflexivity]).
    assert (0 < Z.of_nat (length p)) as Lp by (destruct p; [contradiction|cbn; lia]).
    assert (128 ^ (Z.of_nat (length (b :: p)) - 1) = 128 * 128 ^ (Z.of_nat (length p) - 1)) as ->.
    { cbn [length]. rewrite Nat2Z.inj_succ. replace (Z.succ (Z.of_nat (length p)) - 1) with (Z.succ (Z.of_nat (length p) - 1)) by lia.
      rewrite Z.pow_succ_r by lia. reflexivity. }
    exists (bz b - 128 + 128 * lo). split; [ring|]. split; [nia|]. split; [exact Hl|discriminate].
Qed.

Lemma uvarint_number p x : base128 p x -> forall i w acc r, read_uvarint i w acc (p ++ r) =
  let j := i + Z.of_nat (length p) - 1 in
  if (9 <? j) || ((j =? 9) && (1 <? last_byte p)) then inr VarintOverflow else inl (acc + x * w, r).
Proof.
  induction 1 as [b Hb|b p x Hb H IH]; intros i w acc r; change (byte_value b) with (bz b) in *; cbn [app read_uvarint].
  - rewrite (proj2 (Z.ltb_lt _ _) Hb). cbn [length]. replace (i + Z.of_nat 1 - 1) with i by lia. reflexivity.
  - rewrite (proj2 (Z.ltb_ge _ _)) by lia. rewrite IH.
    assert (last_byte (b :: p) = last_byte p) as ->.
    { destruct (base128_top p x H) as (_ & _ & _ & _ & Np). unfold last_byte; destruct p; [contradiction|reflexivity]. }
    cbn [length]. rewrite Nat2Z.inj_succ. replace (i + 1 + Z.of_nat (length p) - 1) with (i + Z.succ (Z.of_nat (length p)) - 1) by lia.
    cbv zeta. pose proof (bz_range b). replace (bz b mod 128) with (bz b - 128) by (apply Z.mod_unique with 1; lia).
    replace (acc + (bz b - 128) * w + x * (w * 128)) with (acc + (bz b - 128 + 128 * x) * w) by ring. reflexivity.
Qed.
Lemma uvarint_unfinished d : unfinished d -> forall i w acc, read_uvarint i w acc d = inr EOF.
Proof.
  induction 1 as [|b d Hb _ IH]; intros i w acc; cbn [read_uvarint]; [reflexivity|]. change (byte_value b) with (bz b) in Hb.
  rewrite (proj2 (Z.ltb_ge _ _)) by lia. apply IH.
Qed.
Lemma number_or_not d : unfinished d \/ exists p x r, d = p ++ r /\ base128 p x.
Proof.
  induction d as [|b d [U|(p & x & r & -> & H)]]; [left; constructor| |];
    destruct (Z.lt_ge_cases (byte_value b) 128) as [L|G].
  1,3: right; eexists [b], _, _; split; [reflexivity|constructor; exact L].
  - left. constructor; assumption.
  - right. exists (b :: p), (byte_value b - 128 + 128 * x), r. split; [reflexivity|constructor; assumption].
Qed.

Lemma limits p x : base128 p x ->
  ((9 <? 0 + Z.of_nat (length p) - 1) || ((0 + Z.of_nat (length p) - 1 =? 9) && (1 <? last_byte p)) = true <->
   ((10 < length p)%nat \/ 2 ^ 64 <= x)).
Proof.
  intros H. destruct (base128_top p x H) as (lo & E & Lo & Hl & Np). rewrite orb_true_iff, andb_true_iff, Z.ltb_lt, Z.eqb_eq, Z.ltb_lt.
  assert (0 < Z.of_nat (length p)) as Lp by (destruct p; [contradiction|cbn; lia]).
  destruct (Z.lt_trichotomy (Z.of_nat (length p)) 10) as [L|[L|L]].
  - split; [lia|]. intros [G|G]; [lia|]. exfalso. set (k := Z.of_nat (length p) - 1) in *.
    assert (128 ^ k <= 128 ^ 8) by (apply Z.pow_le_mono_r; lia). assert (128 * 128 ^ 8 = 2 ^ 63) as P by reflexivity.
    assert (x < 128 * 128 ^ k) by nia. assert (2 ^ 63 < 2 ^ 64) by reflexivity. lia.
  - assert (128 ^ (Z.of_nat (length p) - 1) = 2 ^ 63) as P by (rewrite L; reflexivity). rewrite P in *.
    assert (2 ^ 64 = 2 * 2 ^ 63) as -> by reflexivity. set (q := 2 ^ 63) in *. clearbody q. split; [intros [G|[_ G]]; [lia|right; nia]|].
    intros [G|G]; [lia|]. right. split; [lia|]. nia.
  - split; [intros _; left; lia|intros _; left; lia].
Qed.

Lemma read_unfinished d : unfinished d -> read_varint d = inr EOF.
Proof. intros U. unfold read_varint. rewrite (uvarint_unfinished d U). reflexivity. Qed.
Lemma read_oversized p r : oversized p -> read_varint (p ++ r) = inr VarintOverflow.
Proof.
  intros (x & H & O). unfold read_varint. rewrite (uvarint_number p x H). cbv zeta. rewrite (proj2 (limits p x H) O). reflexivity.
Qed.
Lemma read_size p n r : is_size p n -> read_varint (p ++ r) = inl (n, r).
Proof.
  intros (x & [H L] & B & Z). unfold read_varint. rewrite (uvarint_number p x H). cbv zeta.
  destruct (_ || _) eqn:Q.
  - apply (limits p x H) in Q as [Q|Q]; lia.
  - do 2 f_equal. rewrite Z.mul_1_r, Z.add_0_l. unfold unzigzag. destruct Z as [->| ->].
    + rewrite Z.even_mul. cbn [Z.even orb]. rewrite Z.mul_comm, Z.div_mul by lia. reflexivity.
    + replace (-2 * n - 1) with (2 * (- n - 1) + 1) by ring. rewrite Z.even_add, Z.even_mul. cbn [Z.even orb Bool.eqb xorb].
      replace ((2 * (- n - 1) + 1) / 2) with (- n - 1) by (apply Z.div_unique with 1; lia). ring.
Qed.
Lemma size_cases d : unfinished d \/ (exists p r, d = p ++ r /\ oversized p) \/ (exists p n r, d = p ++ r /\ is_size p n).
Proof.
  destruct (number_or_not d) as [U|(p & x & r & -> & H)]; [auto|]. right.
  destruct (le_lt_dec (length p) 10) as [L|L]; [|left; exists p, r; split; [reflexivity|exists x; auto]].
  destruct (Z.lt_ge_cases x (2 ^ 64)) as [B|B]; [|left; exists p, r; split; [reflexivity|exists x; auto]].
  right. exists p, (unzigzag x), r. split; [reflexivity|]. exists x. split; [split; assumption|]. split; [exact B|].
  unfold unzigzag. destruct (Z.even x) eqn:E.
  - left. apply Z.even_spec in E as [k ->]. rewrite (Z.mul_comm 2 k), Z.div_mul by lia. ring.
  - right. assert (Z.odd x = true) as O by (rewrite <- Z.negb_even, E; reflexivity). apply Z.odd_spec in O as [k ->].
    replace ((2 * k + 1) / 2) with k by (apply Z.div_unique with 1; lia). ring.
Qed.

(** * Messages *)

Definition had (m : mm_pb) : members :=
  mk_members (is_there (mm_counter m)) (is_there (mm_timer m)) (is_there (mm_gauge m)) (is_there (mm_forwarded m)) (is_there (mm_timed m)).
Lemma or_empty_reset {A} (zero : A) old o : or_empty zero (is_there old) o = or_reset zero old o.
Proof. destruct o, old; reflexivity. Qed.
Lemma had_completed h m : had (completed h m) = also h m.
Proof.
  assert (forall A (z : A) b o, is_there (or_empty z b o) = b || is_there o) as E by (intros A z [] []; reflexivity).
  unfold had, completed, also. cbn [mm_counter mm_timer mm_gauge mm_forwarded mm_timed]. rewrite !E. reflexivity.
Qed.

Lemma unmarshal_completed d old m' : no_overflow d ->
  (unmarshal mm_fields d (reset_mm old) = Ok m' <-> exists m, reads MetricWithMetadatas_ d m /\ m' = completed (had old) m).
Proof.
  intros (L & N). assert (8 <= 2 ^ 63 - 1 - zlen d /\ small (2 ^ 63 - 1 - zlen d) d) as [V8 Sm].
  { split; [lia|]. intros p s v r E D. specialize (N p s v r E D). lia. }
  destruct good_mm as [F Nd]. pose proof (proj1 meant_mm) as Et.
  assert (forall m, completed (had old) m = mk_mm (mm_type m) (or_reset zero_cm_pb (mm_counter old) (mm_counter m))
    (or_reset zero_bm_pb (mm_timer old) (mm_timer m)) (or_reset zero_gm_pb (mm_gauge old) (mm_gauge m))
    (or_reset zero_fwm_pb (mm_forwarded old) (mm_forwarded m)) (or_reset zero_tdm_pb (mm_timed old) (mm_timed m))) as C.
  { intros m. unfold completed, had. cbn [had_counter had_timer had_gauge had_forwarded had_timed]. rewrite !or_empty_reset. reflexivity. }
  split.
  - intros U. apply (unmarshal_means mm_fields mm_parts (2 ^ 63 - 1 - zlen d) d _ m' F V8 Sm ltac:(lia)) in U as (l & P & R).
    apply (runs_mm_reset l old m' (parsed_typed _ _ _ P)) in R as (m & Me & ->). exists m.
    split; [exists l; split; [rewrite Et; exact P|exact Me]|]. symmetry. apply C.
  - intros (m & (l & P & Me) & ->). rewrite Et in P.
    apply (unmarshal_writes mm_fields mm_parts d l _ _ F Nd P); [|lia]. apply (runs_mm_reset l old _ (parsed_typed _ _ _ P)).
    exists m. split; [exact Me|]. apply C.
Qed.
Lemma unmarshal_no_panic d m : no_overflow d -> unmarshal mm_fields d m <> Panic.
Proof.
  intros (L & N) E. assert (small (2 ^ 63 - 1 - zlen d) d) as Sm by (intros p s v r Eq D; specialize (N p s v r Eq D); lia).
  pose proof (unmarshal_safe mm_fields (2 ^ 63 - 1 - zlen d) d m safe_mm ltac:(lia) Sm ltac:(lia)) as U. rewrite E in U. exact (U eq_refl).
Qed.

Lemma no_overflow_prefix p s : no_overflow (p ++ s) -> no_overflow p.
Proof.
  intros (Len & No). pose proof (zlen_nonneg s). rewrite zlen_app in *. split; [lia|]. intros q x v r E D.
  assert (dec_varint (x ++ s) = Ok (v, r ++ s)) as D'.
  { apply dec_varint_iff in D as (t & -> & V). apply dec_varint_iff. exists t. rewrite <- app_assoc. auto. }
  specialize (No q (x ++ s) v (r ++ s)). subst p. specialize (No (eq_sym (app_assoc q x s)) D'). lia.
Qed.

(** * The iterator *)

Lemma next_size it p n r : i_err it = None -> i_closed it = false -> i_in it = p ++ r -> is_size p n ->
  next it = let it := mk_iter r (i_max it) false (i_pb it) (i_msg it) None in
            if i_max it <? n then stop_with it TooLarge else decode_message n it.
Proof. intros E C I S. unfold next. rewrite E, C, I, (read_size p n r S). reflexivity. Qed.
Lemma next_frame it p b r : i_err it = None -> i_closed it = false -> i_in it = p ++ b ++ r -> is_size p (Z.of_nat (length b)) ->
  Z.of_nat (length b) <= i_max it ->
  next it = match unmarshal mm_fields b (reset_mm (i_pb it)) with
            | Panic => Crash
            | Err => Stop (mk_iter r (i_max it) false (reset_mm (i_pb it)) (i_msg it) (Some BadWire))
            | Ok pb =>
                match from_mm pb (i_msg it) with
                | inr e => Stop (mk_iter r (i_max it) false (reset_mm (i_pb it)) (i_msg it) (Some e))
                | inl u => More (mk_iter r (i_max it) false pb u None)
                end
            end.
Proof.
  intros E C I S L. rewrite (next_size it p _ _ E C I S). cbv zeta. cbn [i_max]. rewrite (proj2 (Z.ltb_ge _ _)) by lia.
  unfold decode_message. cbn [i_in i_pb i_msg i_max i_closed i_err]. rewrite (proj2 (Z.ltb_ge _ 0)) by lia.
  unfold read_full. rewrite zlen_app. pose proof (zlen_nonneg r). change (Z.of_nat (length b)) with (zlen b) in *.
  rewrite (proj2 (Z.leb_le _ _)) by lia. assert (Z.to_nat (zlen b) = length b) as -> by (unfold zlen; apply Nat2Z.id).
  rewrite firstn_app, firstn_all, Nat.sub_diag, firstn_O, app_nil_r.
  rewrite skipn_app, skipn_all, Nat.sub_diag. cbn [skipn app]. reflexivity.
Qed.

Definition ready (h : members) (it : iter) : Prop := i_err it = None /\ i_closed it = false /\ had (i_pb it) = h.

(** One step. *)
Lemma next_says h it : ready h it -> no_overflow (i_in it) ->
  match next it with
  | Crash => stream (i_max it) h (i_in it) [] Panics
  | Stop it' => exists e, i_err it' = Some e /\ stream (i_max it) h (i_in it) [] (Ends e)
  | More it' => exists p b r m x, i_in it = p ++ b ++ r /\ is_size p (Z.of_nat (length b)) /\ Z.of_nat (length b) <= i_max it /\
      reads MetricWithMetadatas_ b m /\ says (completed h m) x /\ current it' = Some x /\ i_in it' = r /\ i_max it' = i_max it /\
      ready (also h m) it'
  end.
Proof.
  intros (E & C & H) No. destruct (size_cases (i_in it)) as [U|[(p & r & I & O)|(p & n & r & I & S)]].
  - unfold next. rewrite E, C, (read_unfinished _ U). eexists. split; [reflexivity|]. apply stream_end, U.
  - unfold next. rewrite E, C, I, (read_oversized p r O). eexists. split; [reflexivity|]. apply stream_oversized, O.
  - destruct (Z.lt_ge_cases (i_max it) n) as [L|L].
    { rewrite (next_size it p n r E C I S). cbv zeta. cbn [i_max]. rewrite (proj2 (Z.ltb_lt _ _) L). eexists. split; [reflexivity|].
      rewrite I. exact (stream_too_large _ h p n r S L). }
    destruct (Z.lt_ge_cases n 0) as [N|N].
    { rewrite (next_size it p n r E C I S). cbv zeta. cbn [i_max]. rewrite (proj2 (Z.ltb_ge _ _)) by lia. unfold decode_message.
      rewrite (proj2 (Z.ltb_lt _ _) N). rewrite I. apply (stream_negative _ h p n r S); lia. }
    destruct (Z.lt_ge_cases (zlen r) n) as [Sh|Sh].
    { rewrite (next_size it p n r E C I S). cbv zeta. cbn [i_max]. rewrite (proj2 (Z.ltb_ge _ _)) by lia. unfold decode_message.
      rewrite (proj2 (Z.ltb_ge _ 0)) by lia. cbn [i_in]. unfold read_full. rewrite (proj2 (Z.leb_gt _ _) Sh).
      rewrite I. pose proof (stream_cut (i_max it) h p n r S L Sh) as St.
      destruct r; eexists; (split; [reflexivity|exact St]). }
    assert (exists b x, r = b ++ x /\ n = Z.of_nat (length b)) as (b & x & -> & ->).
    { exists (firstn (Z.to_nat n) r), (skipn (Z.to_nat n) r). rewrite firstn_skipn. split; [reflexivity|]. unfold zlen in Sh. rewrite firstn_length. lia. }
    rewrite (next_frame it p b x E C I S L). assert (no_overflow b) as Nb.
    { rewrite I in No. apply no_overflow_suffix in No. exact (no_overflow_prefix _ _ No). }
    destruct (unmarshal mm_fields b (reset_mm (i_pb it))) as [pb| |] eqn:U.
    + apply (unmarshal_completed b (i_pb it) pb Nb) in U as (m & R & ->). rewrite H.
      destruct (from_mm (completed h m) (i_msg it)) as [u|e] eqn:Fm.
      * destruct (mm_selected _ _ _ Fm) as (y & Sy & Se). exists p, b, x, m, y. unfold ready. cbn [i_in i_max i_err i_closed i_pb].
        repeat (split; [assumption || reflexivity|]). apply had_completed.
      * eexists. split; [reflexivity|]. destruct (mm_error _ _ _ Fm) as [Ns [[-> T]|[-> T]]]; rewrite I.
        -- exact (stream_unknown _ h p b x m S L R T).
        -- exact (stream_invalid _ h p b x m S L R T Ns).
    + eexists. split; [reflexivity|]. rewrite I. apply (stream_malformed _ h p b x S L). intros m R.
      assert (unmarshal mm_fields b (reset_mm (i_pb it)) = Ok (completed (had (i_pb it)) m)) by (apply unmarshal_completed; eauto). congruence.
    + exfalso. exact (unmarshal_no_panic _ _ Nb U).
Qed.

Lemma decoded_stream it ms e : decoded it ms e -> forall h, ready h it -> no_overflow (i_in it) -> stream (i_max it) h (i_in it) ms (Ends e).
Proof.
  induction 1 as [it it' e N Er|it it' m ms e N C D IH]; intros h R No; pose proof (next_says h it R No) as S; rewrite N in S.
  - destruct S as (e' & E' & S). congruence.
  - destruct S as (p & b & r & pb & x & I & Sz & L & Rd & Sy & C' & I' & M' & R'). rewrite C in C'. injection C' as <-. rewrite I.
    apply (stream_metric _ h p b r pb _ _ _ Sz L Rd Sy). rewrite <- I', <- M'. apply IH; [exact R'|]. rewrite I'. rewrite I in No.
    apply no_overflow_suffix in No. exact (no_overflow_suffix _ _ No).
Qed.
Lemma panics_stream it ms : panics_after it ms -> forall h, ready h it -> no_overflow (i_in it) -> stream (i_max it) h (i_in it) ms Panics.
Proof.
  induction 1 as [it N|it it' m ms N C D IH]; intros h R No; pose proof (next_says h it R No) as S; rewrite N in S.
  - exact S.
  - destruct S as (p & b & r & pb & x & I & Sz & L & Rd & Sy & C' & I' & M' & R'). rewrite C in C'. injection C' as <-. rewrite I.
    apply (stream_metric _ h p b r pb _ _ _ Sz L Rd Sy). rewrite <- I', <- M'. apply IH; [exact R'|]. rewrite I'. rewrite I in No.
    apply no_overflow_suffix in No. exact (no_overflow_suffix _ _ No).
Qed.

Lemma stream_read max h d ms o : stream max h d ms o -> forall it, ready h it -> no_overflow (i_in it) -> i_in it = d -> i_max it = max ->
  match o with Ends e => decoded it ms e | Panics => panics_after it ms end.
Proof.
  induction 1 as [h d U|h p r O|h p n r S L|h p n r S L N|h p n r S L Sh|h p b r S L No|h p b r m S L R T|h p b r m S L R T Ns
    |h p b r m x ms o S L R Sx St IH]; intros it (E & C & H) Nov I M; subst max.
  - eapply decoded_stop; [unfold next; rewrite E, C, I, (read_unfinished _ U); reflexivity|reflexivity].
  - eapply decoded_stop; [unfold next; rewrite E, C, I, (read_oversized p r O); reflexivity|reflexivity].
  - eapply decoded_stop; [rewrite (next_size it p n r E C I S); cbv zeta; cbn [i_max]; rewrite (proj2 (Z.ltb_lt _ _) L); reflexivity|reflexivity].
  - apply panics_at_once. rewrite (next_size it p n r E C I S). cbv zeta. cbn [i_max]. rewrite (proj2 (Z.ltb_ge _ _)) by lia.
    unfold decode_message. rewrite (proj2 (Z.ltb_lt _ _) N). reflexivity.
  - assert (next it = stop_with (mk_iter r (i_max it) false (i_pb it) (i_msg it) None) (match r with [] => EOF | _ => UnexpectedEOF end)) as Ne.
    { rewrite (next_size it p n r E C I S). cbv zeta. cbn [i_max]. rewrite (proj2 (Z.ltb_ge _ _)) by lia. unfold decode_message.
      rewrite (proj2 (Z.ltb_ge _ 0)) by lia. cbn [i_in]. unfold read_full. rewrite (proj2 (Z.leb_gt n (zlen r))) by exact Sh. destruct r; reflexivity. }
    eapply decoded_stop; [exact Ne|reflexivity].
  - pose proof (next_frame it p b r E C I S L) as Ne. assert (no_overflow b) as Nb.
    { rewrite I in Nov. apply no_overflow_suffix in Nov. exact (no_overflow_prefix _ _ Nov). }
    destruct (unmarshal mm_fields b (reset_mm (i_pb it))) as [pb| |] eqn:U.
    + apply (unmarshal_completed b (i_pb it) pb Nb) in U as (m & R & _). destruct (No m R).
    + eapply decoded_stop; [exact Ne|reflexivity].
    + destruct (unmarshal_no_panic _ _ Nb U).
  - pose proof (next_frame it p b r E C I S L) as Ne. assert (no_overflow b) as Nb.
    { rewrite I in Nov. apply no_overflow_suffix in Nov. exact (no_overflow_prefix _ _ Nov). }
    assert (unmarshal mm_fields b (reset_mm (i_pb it)) = Ok (completed h m)) as U by (apply unmarshal_completed; [exact Nb|exists m; rewrite H; auto]).
    rewrite U in Ne. destruct (from_mm (completed h m) (i_msg it)) as [u|e] eqn:Fm.
    + exfalso. destruct (mm_selected _ _ _ Fm) as (y & Sy & _). apply T. change (mm_type m) with (mm_type (completed h m)). destruct Sy; lia.
    + destruct (mm_error _ _ _ Fm) as [_ [[-> _]|[_ T']]]; [|destruct (T T')]. eapply decoded_stop; [exact Ne|reflexivity].
  - pose proof (next_frame it p b r E C I S L) as Ne. assert (no_overflow b) as Nb.
    { rewrite I in Nov. apply no_overflow_suffix in Nov. exact (no_overflow_prefix _ _ Nov). }
    assert (unmarshal mm_fields b (reset_mm (i_pb it)) = Ok (completed h m)) as U by (apply unmarshal_completed; [exact Nb|exists m; rewrite H; auto]).
    rewrite U in Ne. destruct (from_mm (completed h m) (i_msg it)) as [u|e] eqn:Fm.
    + exfalso. destruct (mm_selected _ _ _ Fm) as (y & Sy & _). exact (Ns y Sy).
    + destruct (mm_error _ _ _ Fm) as [_ [[_ T']|[-> _]]]; [destruct (T' T)|]. eapply decoded_stop; [exact Ne|reflexivity].
  - pose proof (next_frame it p b r E C I S L) as Ne. pose proof Nov as Nb. rewrite I in Nb. apply no_overflow_suffix in Nb.
    pose proof (no_overflow_suffix _ _ Nb) as Nr. apply no_overflow_prefix in Nb.
    assert (unmarshal mm_fields b (reset_mm (i_pb it)) = Ok (completed h m)) as U by (apply unmarshal_completed; [exact Nb|exists m; rewrite H; auto]).
    rewrite U in Ne. apply (mm_computes _ (i_msg it)) in Sx as (u & Fm & Se). rewrite Fm in Ne.
    specialize (IH (mk_iter r (i_max it) false (completed h m) u None)). unfold ready in IH. cbn [i_err i_closed i_pb i_in i_max] in IH.
    specialize (IH (conj eq_refl (conj eq_refl (had_completed h m))) Nr eq_refl eq_refl). destruct o as [e|].
    + exact (decoded_more _ _ _ _ _ Ne Se IH).
    + exact (panics_later_on _ _ _ _ Ne Se IH).
Qed.

(** * One outcome *)

Lemma decoded_one it ms e ms' e' : decoded it ms e -> decoded it ms' e' -> ms' = ms /\ e' = e.
Proof.
  intros D. revert ms' e'. induction D as [it it' e N Er|it it' m ms e N C D IH]; intros ms' e' D'; inversion D'; subst; try congruence.
  - split; congruence.
  - assert (it'0 = it') as -> by congruence. assert (m0 = m) as -> by congruence. destruct (IH _ _ H1) as [-> ->]. auto.
Qed.
Lemma panics_one it ms ms' : panics_after it ms -> panics_after it ms' -> ms' = ms.
Proof.
  intros D. revert ms'. induction D as [it N|it it' m ms N C D IH]; intros ms' D'; inversion D'; subst; try congruence.
  assert (it'0 = it') as -> by congruence. assert (m0 = m) as -> by congruence. rewrite (IH _ H1). reflexivity.
Qed.
Lemma decoded_or_panics it ms e ms' : decoded it ms e -> panics_after it ms' -> False.
Proof.
  intros D. revert ms'. induction D as [it it' e N Er|it it' m ms e N C D IH]; intros ms' D'; inversion D'; subst; try congruence.
  assert (it'0 = it') as -> by congruence. exact (IH _ H1).
Qed.
Lemma panics_somewhere it : panics it -> forall h, ready h it -> no_overflow (i_in it) -> exists ms, panics_after it ms.
Proof.
  induction 1 as [it N|it it' N D IH]; intros h R No.
  - exists []. apply panics_at_once, N.
  - pose proof (next_says h it R No) as S. rewrite N in S.
    destruct S as (p & b & r & pb & x & I & Sz & L & Rd & Sy & C' & I' & M' & R').
    destruct (IH (also h pb) R') as (ms & St).
    { rewrite I'. rewrite I in No. apply no_overflow_suffix in No. exact (no_overflow_suffix _ _ No). }
    exists (x :: ms). exact (panics_later_on _ _ _ _ N C' St).
Qed.
