(** Lemmas about aggregation types and IDs. *)
From Coq Require Import Ascii String NArith ZArith Bool Lia Sorting List.
From Verif.Base Require Import Bytes BytesFacts Dec DecFacts.
From Verif.Model Require Import AggType.
From Verif.Spec Require Import AggSpec.
Import ListNotations.
Open Scope Z_scope.

Lemma types_contains_in ts t : types_contains ts t = true <-> In t ts.
Proof.
  induction ts as [|a ts IH]; simpl; [split; [discriminate|tauto]|].
  destruct (Z.eqb_spec a t); [tauto|]. rewrite IH; intuition congruence.
Qed.

Lemma in_valid_types t : In t valid_types <-> valid_type t.
Proof.
  unfold valid_type; split.
  - unfold valid_types; simpl; unfold Last, Min, Max, Mean, Median, Count, Sum, SumSq, Stdev, P10, P20,
      P30, P40, P50, P60, P70, P80, P90, P95, P99, P999, P9999; intuition lia.
  - intros H.
    assert (E : In t (map Z.of_nat (seq 1 22))).
    { apply in_map_iff; exists (Z.to_nat t); split; [lia|]. apply in_seq; lia. }
    exact E.
Qed.

Lemma is_valid_spec t : is_valid t = true <-> valid_type t.
Proof. unfold is_valid; rewrite types_contains_in; apply in_valid_types. Qed.

Lemma is_valid_false t : is_valid t = false <-> ~ valid_type t.
Proof. rewrite <- is_valid_spec, not_true_iff_false; tauto. Qed.

(** * Compression *)
Lemma compress_loop_valid bs ts :
  Forall valid_type ts ->
  exists w, compress_loop bs ts = (w, false) /\
    forall k, N.testbit w k = true <-> (N.testbit bs k = true \/ In (Z.of_N k) ts).
Proof.
  intros H; revert bs; induction H as [|t ts Ht Hts IH]; intros bs; simpl.
  - exists bs; split; auto; intros k; tauto.
  - rewrite (proj2 (is_valid_spec t) Ht); simpl.
    destruct (IH (N.setbit bs (Z.to_N t))) as (w & E & Hw); exists w; split; auto.
    intros k; rewrite Hw, N.setbit_eqb, orb_true_iff, N.eqb_eq.
    unfold valid_type in Ht; split; [intros [[Hk|?]|?]|intros [?|[Hk|?]]]; auto.
    + right; left; lia.
    + left; left; lia.
Qed.

Lemma compress_loop_invalid bs ts : ~ Forall valid_type ts -> snd (compress_loop bs ts) = true.
Proof.
  revert bs; induction ts as [|t ts IH]; intros bs H; simpl; [destruct H; auto|].
  destruct (is_valid t) eqn:E; simpl; auto.
  apply is_valid_spec in E; apply IH; intros H'; apply H; auto.
Qed.

Lemma compressor_valid bs ts :
  Forall valid_type ts ->
  exists w, compressor_compress bs ts = (w, (w, false)) /\
    forall k, N.testbit w k = true <-> In (Z.of_N k) ts.
Proof.
  intros H; destruct (compress_loop_valid 0 ts H) as (w & E & Hw).
  exists w; unfold compressor_compress; rewrite E; split; auto.
  intros k; rewrite Hw, N.bits_0; intuition discriminate.
Qed.

Lemma compressor_invalid bs ts :
  ~ Forall valid_type ts -> snd (compressor_compress bs ts) = (default_id, true).
Proof.
  intros H; apply (compress_loop_invalid 0) in H; unfold compressor_compress.
  destruct (compress_loop 0 ts) as [w e]; simpl in *; now subst.
Qed.

Lemma valid_types_dec ts : Forall valid_type ts \/ ~ Forall valid_type ts.
Proof.
  destruct (forallb is_valid ts) eqn:E; [left|right].
  - rewrite forallb_forall in E; apply Forall_forall; intros; apply is_valid_spec; auto.
  - intros H; assert (forallb is_valid ts = true); [|congruence].
    apply forallb_forall; intros x Hx; apply is_valid_spec; rewrite Forall_forall in H; auto.
Qed.

(** * Decompression *)
Lemma next_set_some n w i k :
  next_set n w i = Some k ->
  (i <= k < i + N.of_nat n)%N /\ N.testbit w k = true /\
  (forall j, (i <= j < k)%N -> N.testbit w j = false).
Proof.
  revert i; induction n as [|n IH]; intros i H; cbn [next_set] in H; [discriminate|].
  destruct (N.testbit w i) eqn:E.
  - injection H as <-; repeat split; auto; lia.
  - destruct (IH _ H) as (H1 & H2 & H3); repeat split; auto; try lia.
    intros j Hj; destruct (N.eq_dec j i) as [->|]; auto; apply H3; lia.
Qed.

Lemma next_set_none n w i :
  next_set n w i = None -> forall j, (i <= j < i + N.of_nat n)%N -> N.testbit w j = false.
Proof.
  revert i; induction n as [|n IH]; intros i H j Hj; cbn [next_set] in H; [lia|].
  destruct (N.testbit w i) eqn:E; [discriminate|].
  destruct (N.eq_dec j i) as [->|]; auto; apply (IH _ H); lia.
Qed.

Lemma decompress_loop_spec f w i res :
  (i <= 64)%N -> (64 < N.of_nat f + i)%N ->
  (exists l, decompress_loop f w i res = (rev res ++ l, false) /\
     ascending l /\ Forall valid_type l /\
     (forall k, (i <= k < 64)%N -> (N.testbit w k = true <-> In (Z.of_N k) l)) /\
     (forall t, In t l -> (Z.of_N i <= t < 64))) \/
  (decompress_loop f w i res = ([], true) /\
     exists k, (i <= k < 64)%N /\ N.testbit w k = true /\ ~ valid_type (Z.of_N k)).
Proof.
  revert i res; induction f as [|f IH]; intros i res Hi Hf; [lia|].
  cbn [decompress_loop].
  destruct (next_set (N.to_nat (64 - i)) w i) as [k|] eqn:E.
  - apply next_set_some in E; destruct E as (Hk & Hb & Hlow).
    destruct (is_valid (Z.of_N k)) eqn:V; cbn [negb].
    + apply is_valid_spec in V.
      destruct (IH (N.succ k) (Z.of_N k :: res)) as [(l & El & Hs & Hv & Hbits & Hr)|(El & j & Hj & Hj2)]; try lia.
      * left; exists (Z.of_N k :: l); repeat split.
        -- rewrite El; simpl; now rewrite <- app_assoc.
        -- constructor; auto; apply Forall_forall; intros t Ht; apply Hr in Ht; lia.
        -- constructor; auto.
        -- intros Hjb; simpl.
           destruct (N.eq_dec k0 k) as [->|]; auto.
           destruct (N.lt_ge_cases k0 k); [rewrite Hlow in Hjb by lia; discriminate|].
           right; apply Hbits; auto; lia.
        -- simpl; intros [Heq|Hin].
           ++ apply N2Z.inj in Heq; subst; auto.
           ++ apply Hbits; auto. apply Hr in Hin; lia.
        -- destruct H as [<-|Ht]; [lia|apply Hr in Ht; lia].
        -- destruct H as [<-|Ht]; [lia|apply Hr in Ht; lia].
      * right; rewrite El; split; auto; exists j; split; [lia|auto].
    + right; split; auto; exists k; apply is_valid_false in V; repeat split; auto; lia.
  - left; exists []; rewrite app_nil_r; repeat split; try constructor.
    + intros Hb. rewrite (next_set_none _ _ _ E) in Hb by lia; discriminate.
    + intros [].
    + destruct H.
    + destruct H.
Qed.

Definition word_bits_valid (w : N) : Prop :=
  forall k, N.testbit w k = true -> valid_type (Z.of_N k).

Lemma word_bits_high w k : is_word w -> (64 <= k)%N -> N.testbit w k = false.
Proof.
  intros Hw Hk; unfold is_word in Hw.
  destruct (N.eq_dec w 0) as [->|Hne]; [apply N.bits_0|].
  apply N.bits_above_log2.
  apply N.log2_lt_pow2 in Hw; lia.
Qed.

Lemma decompress_spec w :
  is_word w ->
  (exists l, decompress w = (l, false) /\ ascending l /\ Forall valid_type l /\
     word_bits_valid w /\ (forall k, N.testbit w k = true <-> In (Z.of_N k) l)) \/
  (decompress w = ([], true) /\ ~ word_bits_valid w).
Proof.
  intros Hw; unfold decompress, id_is_default.
  destruct (N.eqb_spec w default_id) as [->|Hne].
  - left; exists []; repeat split; try constructor.
    + unfold default_id in H; rewrite N.bits_0 in H; discriminate.
    + unfold default_id in H; rewrite N.bits_0 in H; discriminate.
    + unfold default_id; rewrite N.bits_0; discriminate.
    + intros [].
  - destruct (decompress_loop_spec 65 w 0 []) as [(l & El & Hs & Hv & Hb & Hr)|(El & k & Hk & Hb & Hn)]; try lia.
    + left; exists l; rewrite El; simpl.
      assert (Hbits : forall k, N.testbit w k = true <-> In (Z.of_N k) l).
      { intros k; destruct (N.lt_ge_cases k 64); [apply Hb; lia|].
        rewrite word_bits_high by auto; split; [discriminate|].
        intros Hin; apply Hr in Hin; lia. }
      repeat split; auto; try apply Hbits.
      * intros. apply Hbits in H. rewrite Forall_forall in Hv; apply Hv in H; apply H.
      * intros. apply Hbits in H. rewrite Forall_forall in Hv; apply Hv in H; apply H.
    + right; split; auto; intros Hall; apply Hn, Hall, Hb.
Qed.

Lemma ascending_unique l1 l2 :
  ascending l1 -> ascending l2 -> (forall t, In t l1 <-> In t l2) -> l1 = l2.
Proof.
  intros H1; revert l2; induction H1 as [|a l1 Hs IH Ha]; intros l2 H2 Hin.
  - destruct l2 as [|b l2]; auto. destruct (proj2 (Hin b)); simpl; auto.
  - destruct H2 as [|b l2 Hs2 Hb].
    + destruct (proj1 (Hin a)); simpl; auto.
    + rewrite Forall_forall in Ha, Hb.
      assert (a = b) as ->.
      { assert (Ea : In a (b :: l2)) by (apply Hin; now left).
        assert (Eb : In b (a :: l1)) by (apply Hin; now left).
        destruct Ea as [|Ea]; auto; destruct Eb as [|Eb]; auto.
        specialize (Ha _ Eb); specialize (Hb _ Ea); lia. }
      f_equal; apply IH; auto; intros t; split; intros Ht.
      * assert (Et : In t (b :: l2)) by (apply Hin; now right).
        destruct Et as [->|]; auto. specialize (Ha _ Ht); lia.
      * assert (Et : In t (b :: l1)) by (apply Hin; now right).
        destruct Et as [->|]; auto. specialize (Hb _ Ht); lia.
Qed.

Lemma word_bits_valid_word w : word_bits_valid w -> is_word w.
Proof.
  intros H; unfold is_word.
  destruct (N.eq_dec w 0) as [->|Hne]; [reflexivity|].
  apply N.log2_lt_pow2; [lia|].
  specialize (H _ (N.bit_log2 w Hne)); unfold valid_type in H; lia.
Qed.

Lemma compress_word ts w : Forall valid_type ts ->
  (forall k, N.testbit w k = true <-> In (Z.of_N k) ts) -> word_bits_valid w.
Proof.
  intros Hv Hb k Hk; apply Hb in Hk; rewrite Forall_forall in Hv; auto.
Qed.

Lemma id_contains_bit w t : id_contains w t = true <-> valid_type t /\ N.testbit w (Z.to_N t) = true.
Proof.
  unfold id_contains; destruct (is_valid t) eqn:V; cbn [negb].
  - apply is_valid_spec in V; unfold valid_type in V.
    replace (N.land (Z.to_N t) 63) with (Z.to_N t).
    2:{ change 63%N with (N.ones 6); rewrite N.land_ones.
        symmetry; apply N.mod_small; change (2 ^ 6)%N with 64%N; lia. }
    rewrite N.shiftl_1_l, N.ltb_lt.
    split; intros H.
    + split; [exact V|].
      destruct (N.testbit w (Z.to_N t)) eqn:E; auto.
      assert (N.land w (2 ^ Z.to_N t) = 0)%N; [|lia].
      apply N.bits_inj; intros k; rewrite N.land_spec, N.pow2_bits_eqb, N.bits_0.
      destruct (N.eqb_spec (Z.to_N t) k); subst; [now rewrite E|apply andb_false_r].
    + destruct H as [_ H].
      destruct (N.eq_dec (N.land w (2 ^ Z.to_N t)) 0) as [E|]; [|lia].
      apply (f_equal (fun x => N.testbit x (Z.to_N t))) in E.
      rewrite N.land_spec, N.pow2_bits_true, H, N.bits_0 in E; discriminate.
  - apply is_valid_false in V; split; [discriminate|tauto].
Qed.

Lemma compress_decompress bs ts :
  Forall valid_type ts ->
  exists w l, snd (compressor_compress bs ts) = (w, false) /\ decompress w = (l, false) /\
    ascending l /\ (forall t, In t l <-> In t ts) /\
    (forall t, id_contains w t = true <-> In t ts) /\
    (id_is_default w = true <-> ts = []).
Proof.
  intros H; destruct (compressor_valid bs ts H) as (w & E & Hb).
  pose proof (compress_word _ _ H Hb) as Hwv.
  destruct (decompress_spec w) as [(l & El & Hs & Hv & _ & Hbl)|(El & Hn)];
    [now apply word_bits_valid_word| |tauto].
  exists w, l; rewrite E; repeat split; auto.
  - intros Hin; assert (Hvt : valid_type t) by (rewrite Forall_forall in Hv; auto).
    unfold valid_type in Hvt; rewrite <- (Z2N.id t) in Hin |- * by lia.
    apply Hb, Hbl; auto.
  - intros Hin; assert (Hvt : valid_type t) by (rewrite Forall_forall in H; auto).
    unfold valid_type in Hvt; rewrite <- (Z2N.id t) in Hin |- * by lia.
    apply Hbl, Hb; auto.
  - rewrite id_contains_bit, Hb; intros [Hvt Hin]; unfold valid_type in Hvt.
    now rewrite Z2N.id in Hin by lia.
  - intros Hin; rewrite id_contains_bit, Hb.
    assert (Hvt : valid_type t) by (rewrite Forall_forall in H; auto).
    split; auto; unfold valid_type in Hvt; now rewrite Z2N.id by lia.
  - unfold id_is_default; rewrite N.eqb_eq; intros ->.
    destruct ts as [|t ts]; auto. inversion H as [|? ? Ht ?]; subst.
    unfold valid_type in Ht.
    assert (Hz : N.testbit default_id (Z.to_N t) = true); [|unfold default_id in Hz; rewrite N.bits_0 in Hz; discriminate].
    apply Hb; left; lia.
  - intros ->; unfold id_is_default; rewrite N.eqb_eq; apply N.bits_inj; intros k.
    unfold default_id; rewrite N.bits_0. destruct (N.testbit w k) eqn:Ek; auto.
    apply Hb in Ek; destruct Ek.
Qed.

Lemma decompress_ok_iff w :
  is_word w ->
  ((exists l, decompress w = (l, false)) <->
   (forall k, N.testbit w k = true -> (1 <= k <= 22)%N)).
Proof.
  intros Hw; split.
  - intros (l & E) k Hk. destruct (decompress_spec w Hw) as [(? & _ & _ & _ & Hv & _)|(E' & _)]; [|congruence].
    apply Hv in Hk; unfold valid_type in Hk; lia.
  - intros H; destruct (decompress_spec w Hw) as [(l & E & _)|(_ & Hn)]; eauto.
    exfalso; apply Hn; intros k Hk; apply H in Hk; unfold valid_type; lia.
Qed.

Lemma decompress_compress bs w l :
  is_word w -> decompress w = (l, false) ->
  ascending l /\ Forall valid_type l /\ snd (compressor_compress bs l) = (w, false).
Proof.
  intros Hw E; destruct (decompress_spec w Hw) as [(l' & E' & Hs & Hv & _ & Hb)|(E' & _)]; [|congruence].
  assert (l' = l) by congruence; subst l'; repeat split; auto.
  destruct (compressor_valid bs l Hv) as (w' & Ec & Hb').
  rewrite Ec; cbn [snd]; f_equal; apply N.bits_inj; intros k; apply eq_true_iff_eq; rewrite Hb', Hb; tauto.
Qed.

Lemma decompress_inj w1 w2 l :
  is_word w1 -> is_word w2 -> decompress w1 = (l, false) -> decompress w2 = (l, false) -> w1 = w2.
Proof.
  intros H1 H2 E1 E2. apply (decompress_compress 0) in E1; auto. apply (decompress_compress 0) in E2; auto.
  destruct E1 as (_ & _ & E1), E2 as (_ & _ & E2); congruence.
Qed.

(** The compressed list of a decompressed word, used by later files. *)
Lemma compress_types_decompress w l :
  is_word w -> decompress w = (l, false) -> compress_types l = (w, false).
Proof. intros Hw E; now apply (decompress_compress 0) in E. Qed.

(** * Names *)
Lemma valid_type_cases (P : Z -> Prop) :
  (forall t, In t valid_types -> P t) -> forall t, valid_type t -> P t.
Proof. intros H t Ht; apply H, in_valid_types, Ht. Qed.

Lemma type_string_documented t : valid_type t -> In (t, type_string t) documented_names.
Proof.
  revert t; apply valid_type_cases, Forall_forall.
  repeat (constructor; [vm_compute; tauto|]); constructor.
Qed.

Lemma parse_type_string t : valid_type t -> parse_type (type_string t) = Some t.
Proof.
  revert t; apply valid_type_cases, Forall_forall.
  repeat (constructor; [vm_compute; reflexivity|]); constructor.
Qed.

Lemma parse_type_inv s t : parse_type s = Some t -> valid_type t /\ s = type_string t.
Proof.
  unfold parse_type; destruct (find _ _) as [[s' t']|] eqn:E; simpl; [|discriminate].
  intros [= ->]; apply find_some in E; destruct E as [Hin Heq]; simpl in Heq.
  apply beqb_eq in Heq; subst s'. unfold type_string_map in Hin.
  apply in_map_iff in Hin; destruct Hin as (t' & [= <- ->] & Hin).
  split; auto; now apply in_valid_types.
Qed.

Lemma parse_type_documented s t : parse_type s = Some t <-> In (t, s) documented_names.
Proof.
  split.
  - intros H; destruct (parse_type_inv s t H) as [Hv ->]; exact (type_string_documented t Hv).
  - revert s t.
    assert (H : forallb (fun p => match parse_type (snd p) with Some t => t =? fst p | None => false end)
                  documented_names = true) by (vm_compute; reflexivity).
    rewrite forallb_forall in H.
    intros s t Hin; specialize (H _ Hin); cbn [fst snd] in H.
    destruct (parse_type s) as [t'|]; [|discriminate]. apply Z.eqb_eq in H; now subst.
Qed.

Lemma type_string_no_sep t : valid_type t -> ~ In types_separator (type_string t).
Proof.
  revert t; apply valid_type_cases, Forall_forall.
  repeat (constructor; [vm_compute; intuition discriminate|]); constructor.
Qed.

Lemma parse_types_string ts : ts <> [] -> Forall valid_type ts -> parse_types (types_string ts) = Some ts.
Proof.
  intros Hne H; unfold parse_types, types_string; rewrite split_join.
  - rewrite <- (map_id ts) at 2.
    apply map_opt_some; clear Hne; induction H; simpl; constructor; auto.
    now apply parse_type_string.
  - destruct ts; [congruence|discriminate].
  - apply Forall_map; eapply Forall_impl; [|apply H]; intros; now apply type_string_no_sep.
Qed.

Lemma parse_types_inv s ts :
  parse_types s = Some ts -> ts <> [] /\ Forall valid_type ts /\ s = types_string ts.
Proof.
  unfold parse_types; intros H; apply map_opt_some in H.
  assert (Hf : Forall valid_type ts /\ split_on types_separator s = map type_string ts).
  { induction H as [|p t ps ts Hp _ [IH1 IH2]]; simpl; auto.
    apply parse_type_inv in Hp; destruct Hp as [Hv ->]; split; [constructor|f_equal]; auto. }
  destruct Hf as [Hv Hs]; repeat split; auto.
  - intros ->; simpl in Hs; now apply split_on_nonempty in Hs.
  - unfold types_string; now rewrite <- Hs, join_split.
Qed.

(** * Quantiles *)
Lemma quantile_invalid t : ~ valid_type t -> quantile t = None.
Proof.
  unfold valid_type; intros H; unfold quantile.
  rewrite (proj2 (Z.eqb_neq t P10)) by (unfold P10; lia).
  rewrite (proj2 (Z.eqb_neq t P20)) by (unfold P20; lia).
  rewrite (proj2 (Z.eqb_neq t P30)) by (unfold P30; lia).
  rewrite (proj2 (Z.eqb_neq t P40)) by (unfold P40; lia).
  rewrite (proj2 (Z.eqb_neq t P50)) by (unfold P50; lia).
  rewrite (proj2 (Z.eqb_neq t Median)) by (unfold Median; lia).
  rewrite (proj2 (Z.eqb_neq t P60)) by (unfold P60; lia).
  rewrite (proj2 (Z.eqb_neq t P70)) by (unfold P70; lia).
  rewrite (proj2 (Z.eqb_neq t P80)) by (unfold P80; lia).
  rewrite (proj2 (Z.eqb_neq t P90)) by (unfold P90; lia).
  rewrite (proj2 (Z.eqb_neq t P95)) by (unfold P95; lia).
  rewrite (proj2 (Z.eqb_neq t P99)) by (unfold P99; lia).
  rewrite (proj2 (Z.eqb_neq t P999)) by (unfold P999; lia).
  rewrite (proj2 (Z.eqb_neq t P9999)) by (unfold P9999; lia).
  reflexivity.
Qed.

Lemma documented_quantile_invalid t : ~ valid_type t -> documented_quantile t = [].
Proof.
  intros H; unfold documented_quantile.
  assert (E : Forall (fun p => valid_type (fst p)) documented_quantiles).
  { unfold documented_quantiles, valid_type.
    repeat (constructor; [cbn [fst]; lia|]); constructor. }
  induction E as [|p ps Hp _ IH]; simpl; auto.
  destruct (Z.eqb_spec (fst p) t); [congruence|auto].
Qed.

Lemma quantile_documented t : match quantile t with Some q => [q] | None => [] end = documented_quantile t.
Proof.
  destruct (is_valid t) eqn:E.
  - apply is_valid_spec in E; revert t E; apply valid_type_cases, Forall_forall.
    repeat (constructor; [vm_compute; reflexivity|]); constructor.
  - apply is_valid_false in E; rewrite quantile_invalid, documented_quantile_invalid; auto.
Qed.

Lemma quantile_half t q : quantile t = Some q -> (q =? 5000) = ((t =? P50) || (t =? Median)).
Proof.
  intros Hq; destruct (is_valid t) eqn:E.
  - apply is_valid_spec in E; revert t E q Hq.
    set (P := fun t => forall q, quantile t = Some q -> (q =? 5000) = ((t =? P50) || (t =? Median))).
    apply (valid_type_cases P), (proj1 (Forall_forall P valid_types)); unfold P.
    repeat (constructor; [intros q; vm_compute; intros [= <-]; reflexivity || discriminate|]); constructor.
  - apply is_valid_false in E; rewrite quantile_invalid in Hq by auto; discriminate.
Qed.

Lemma quantiles_loop_spec b ts :
  quantiles_loop b ts = keep_first_half b (flat_map documented_quantile ts).
Proof.
  revert b; induction ts as [|t ts IH]; intros b; simpl; auto.
  rewrite <- quantile_documented; destruct (quantile t) as [q|] eqn:E; simpl; auto.
  rewrite (quantile_half _ _ E).
  destruct ((t =? P50) || (t =? Median)); [destruct b|]; now rewrite IH.
Qed.

(** * Type strings *)
Definition options_consistent (o : types_options) : Prop :=
  o_counter_strings o = compute_type_strings (o_quantile_fn o) (o_counter_fn o) /\
  o_timer_strings o = compute_type_strings (o_quantile_fn o) (o_timer_fn o) /\
  o_gauge_strings o = compute_type_strings (o_quantile_fn o) (o_gauge_fn o) /\
  o_quantiles o = quantiles (o_timer_types o).

Lemma compute_all_derived_consistent o : options_consistent (compute_all_derived o).
Proof. repeat split. Qed.

Lemma options_sets_consistent sets : options_consistent (fold_left apply_options_set sets new_types_options).
Proof.
  assert (H : options_consistent new_types_options) by apply compute_all_derived_consistent.
  revert H; generalize new_types_options as o; induction sets as [|s sets IH]; simpl; auto.
  intros o _; apply IH, compute_all_derived_consistent.
Qed.

Definition transform_of (o : types_options) (m : metric_type) : bytes -> bytes :=
  match m with
  | CounterMetric => o_counter_fn o
  | TimerMetric => o_timer_fn o
  | GaugeMetric => o_gauge_fn o
  | UnknownMetric => fun b => b
  end.

Lemma strings_of_consistent o m :
  options_consistent o -> m <> UnknownMetric ->
  strings_of o m = compute_type_strings (o_quantile_fn o) (transform_of o m).
Proof. intros (Hc & Ht & Hg & _) Hm; destruct m; simpl; auto; congruence. Qed.

Lemma nth_compute_type_strings qfn fn t :
  valid_type t ->
  nth_error (compute_type_strings qfn fn) (Z.to_nat t) = Some (fn (untransformed_type_string qfn t)).
Proof.
  intros H; unfold compute_type_strings.
  rewrite nth_error_map, nth_error_nth' with (d := 0%nat) by (rewrite seq_length; unfold valid_type in H; lia).
  rewrite seq_nth by (unfold valid_type in H; lia).
  cbn [option_map Nat.add]; rewrite Z2Nat.id by (unfold valid_type in H; lia).
  now rewrite (proj2 (is_valid_spec t) H).
Qed.

Lemma untransformed_documented qfn t :
  valid_type t -> untransformed_type_string qfn t = documented_suffix qfn t.
Proof.
  revert t; apply valid_type_cases, Forall_forall.
  repeat (constructor; [vm_compute; reflexivity|]); constructor.
Qed.

Lemma type_string_for_spec o m t :
  options_consistent o -> m <> UnknownMetric -> valid_type t ->
  type_string_for o m t = Some (transform_of o m (documented_suffix (o_quantile_fn o) t)).
Proof.
  intros Ho Hm Ht; unfold type_string_for.
  destruct (Z.ltb_spec t 0); [unfold valid_type in Ht; lia|].
  rewrite strings_of_consistent, nth_compute_type_strings, untransformed_documented; auto.
Qed.

Lemma type_for_loop_spec v i strs :
  0 <= i ->
  let r := type_for_loop v i strs in
  (exists k, nth_error strs k = Some v /\ r = i + Z.of_nat k /\ valid_type r /\
     forall j, (j < k)%nat -> nth_error strs j = Some v -> ~ valid_type (i + Z.of_nat j)) \/
  (r = UnknownType /\
     forall j, nth_error strs j = Some v -> ~ valid_type (i + Z.of_nat j)).
Proof.
  revert i; induction strs as [|s strs IH]; intros i Hi; simpl.
  - right; split; auto; intros [|j]; discriminate.
  - assert (Hskip : forall (Hno : s = v -> ~ valid_type i),
      let r := type_for_loop v (i + 1) strs in
      (exists k, nth_error (s :: strs) k = Some v /\ r = i + Z.of_nat k /\ valid_type r /\
         forall j, (j < k)%nat -> nth_error (s :: strs) j = Some v -> ~ valid_type (i + Z.of_nat j)) \/
      (r = UnknownType /\
         forall j, nth_error (s :: strs) j = Some v -> ~ valid_type (i + Z.of_nat j))).
    { intros Hno; destruct (IH (i + 1)) as [(k & Hk & Hr & Hv & Hmin)|(Hr & Hall)]; [lia| |].
      - left; exists (S k); repeat split; auto; try lia; try (unfold valid_type in *; lia).
        intros [|j] Hj Hn; simpl in Hn.
        + rewrite Z.add_0_r; apply Hno; congruence.
        + replace (i + Z.of_nat (S j)) with (i + 1 + Z.of_nat j) by lia. apply Hmin; auto; lia.
      - right; split; auto; intros [|j] Hn; simpl in Hn.
        + rewrite Z.add_0_r; apply Hno; congruence.
        + replace (i + Z.of_nat (S j)) with (i + 1 + Z.of_nat j) by lia; auto. }
    destruct (beqb v s) eqn:E; cbn [negb].
    + apply beqb_eq in E; subst s. destruct (is_valid i) eqn:V.
      * apply is_valid_spec in V; left; exists 0%nat; repeat split; simpl; try lia; try apply V.
      * apply Hskip; intros _; now apply is_valid_false.
    + apply beqb_neq in E; apply Hskip; congruence.
Qed.

Lemma type_for_spec o m v :
  options_consistent o -> m <> UnknownMetric ->
  let suffix t := type_string_for o m t in
  let r := type_for o m v in
  (valid_type r /\ suffix r = Some v /\ forall t, valid_type t -> suffix t = Some v -> r <= t) \/
  (r = UnknownType /\ forall t, valid_type t -> suffix t <> Some v).
Proof.
  intros Ho Hm suffix r; unfold r, type_for.
  assert (Hn : forall t, valid_type t -> suffix t = nth_error (strings_of o m) (Z.to_nat t)).
  { intros t Ht; unfold suffix, type_string_for; destruct (Z.ltb_spec t 0); auto; unfold valid_type in Ht; lia. }
  destruct (type_for_loop_spec v 0 (strings_of o m)) as [(k & Hk & Hr & Hv & Hmin)|(Hr & Hall)]; [lia| |].
  - left; rewrite Hr in Hv |- *; split; auto; split.
    + rewrite Hn by auto. replace (Z.to_nat (0 + Z.of_nat k)) with k by lia; auto.
    + intros t Ht Hs; rewrite Hn in Hs by auto.
      destruct (Z_le_gt_dec (0 + Z.of_nat k) t); auto. exfalso.
      apply (Hmin (Z.to_nat t)); auto; unfold valid_type in *; lia.
  - right; split; auto; intros t Ht; rewrite Hn by auto; intros Hs.
    apply (Hall _ Hs); unfold valid_type in *; lia.
Qed.

Lemma type_for_inverts o m t s :
  options_consistent o -> m <> UnknownMetric -> valid_type t ->
  (forall t1 t2, valid_type t1 -> valid_type t2 ->
     type_string_for o m t1 = type_string_for o m t2 -> t1 = t2) ->
  type_string_for o m t = Some s -> type_for o m s = t.
Proof.
  intros Ho Hm Ht Hinj Hs.
  destruct (type_for_spec o m s Ho Hm) as [(Hv & Hr & _)|(_ & Hno)].
  - apply Hinj; auto; congruence.
  - destruct (Hno t Ht Hs).
Qed.

Lemma is_contained_in_default_spec o t m :
  is_contained_in_default o t m = true <->
  match m with
  | CounterMetric => In t (o_counter_types o)
  | TimerMetric => In t (o_timer_types o)
  | GaugeMetric => In t (o_gauge_types o)
  | UnknownMetric => False
  end.
Proof. unfold is_contained_in_default; rewrite types_contains_in; destruct m; simpl; tauto. Qed.

(** * Protobuf enum *)
Lemma types_proto_roundtrip ts zs :
  Forall valid_type ts -> types_proto ts = Some zs -> types_from_proto zs = Some ts.
Proof.
  intros H E; rewrite <- (map_id ts); unfold types_from_proto.
  apply (map_opt_compose type_proto type_from_proto (fun x => x) ts zs); auto.
  intros t z Hin Hz; unfold type_proto in Hz; rewrite Forall_forall in H; specialize (H t Hin).
  unfold valid_type in H; rewrite to_int32_id in Hz by lia.
  destruct ((0 <=? t) && (t <=? 22)); [|discriminate]. injection Hz as <-.
  unfold type_from_proto; now rewrite (proj2 (is_valid_spec t) H).
Qed.

Lemma types_proto_ok ts : Forall valid_type ts -> types_proto ts = Some ts.
Proof.
  intros H; unfold types_proto; rewrite <- (map_id ts) at 2; apply map_opt_map.
  intros t Hin; rewrite Forall_forall in H; specialize (H t Hin); unfold valid_type in H.
  unfold type_proto; rewrite to_int32_id by lia.
  destruct (Z.leb_spec 0 t), (Z.leb_spec t 22); auto; lia.
Qed.

Lemma types_from_proto_some zs ts : types_from_proto zs = Some ts <-> Forall valid_type zs /\ ts = zs.
Proof.
  unfold types_from_proto; split.
  - intros H; apply map_opt_some in H; induction H as [|z t zs ts Hz _ [IH1 ->]]; auto.
    unfold type_from_proto in Hz; destruct (is_valid z) eqn:V; [|discriminate].
    injection Hz as ->; apply is_valid_spec in V; auto.
  - intros [H ->]; rewrite <- (map_id zs) at 2; apply map_opt_map.
    intros z Hin; unfold type_from_proto; rewrite Forall_forall in H.
    now rewrite (proj2 (is_valid_spec z) (H z Hin)).
Qed.

Lemma types_proto_some ts zs :
  types_proto ts = Some zs <->
  Forall (fun t => 0 <= to_int32 t <= 22) ts /\ zs = map to_int32 ts.
Proof.
  unfold types_proto; split.
  - intros H; apply map_opt_some in H; induction H as [|t z ts zs Hz _ [IH1 ->]]; simpl; auto.
    unfold type_proto in Hz.
    destruct (Z.leb_spec 0 (to_int32 t)), (Z.leb_spec (to_int32 t) 22); simpl in Hz; try discriminate.
    injection Hz as <-; auto.
  - intros [H ->]; apply map_opt_map; intros t Hin; rewrite Forall_forall in H; specialize (H t Hin).
    unfold type_proto; destruct (Z.leb_spec 0 (to_int32 t)), (Z.leb_spec (to_int32 t) 22); auto; lia.
Qed.

(** Which types are valid for which kind of metric. *)
Lemma valid_for_cases (f : Z -> bool) (Q : Z -> Prop) :
  (forall t, f t = true -> valid_type t) -> (forall t, Q t -> valid_type t) ->
  Forall (fun t => f t = true <-> Q t) valid_types ->
  forall ts, forallb f ts = true <-> forall t, In t ts -> Q t.
Proof.
  intros Hf HQ Hv ts. rewrite forallb_forall. rewrite Forall_forall in Hv.
  split; intros H t Ht; specialize (H t Ht); apply Hv; auto; apply in_valid_types; auto.
Qed.

Lemma valid_for_gauge_spec ts :
  types_valid_for_gauge ts = true <-> forall t, In t ts -> valid_type t /\ documented_quantile t = [].
Proof.
  apply valid_for_cases.
  - intros t H. apply types_contains_in in H. apply in_valid_types. simpl in *. tauto.
  - tauto.
  - repeat constructor; try reflexivity; try discriminate; intros [_ H]; try reflexivity; vm_compute in H; discriminate H.
Qed.
Lemma valid_for_counter_spec ts :
  types_valid_for_counter ts = true <-> forall t, In t ts -> valid_type t /\ documented_quantile t = [] /\ t <> 1.
Proof.
  apply valid_for_cases.
  - intros t H. apply types_contains_in in H. apply in_valid_types. simpl in *. tauto.
  - tauto.
  - repeat constructor; try reflexivity; try discriminate; intros (_ & H & H1); try reflexivity; try (vm_compute in H; discriminate H).
    now elim H1.
Qed.
Lemma valid_for_timer_spec ts : types_valid_for_timer ts = true <-> ~ In 1 ts.
Proof.
  unfold types_valid_for_timer. rewrite forallb_forall. split.
  - intros H H1. apply H in H1. discriminate.
  - intros H t Ht. unfold is_valid_for_timer. destruct (Z.eqb_spec t Last) as [->|]; auto.
Qed.
