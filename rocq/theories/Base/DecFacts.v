(** [undec] inverts [dec]. *)
From Coq Require Import Ascii NArith ZArith Bool Lia List.
From Verif.Base Require Import Bytes BytesFacts Dec.
Import ListNotations.
Open Scope N_scope.

Lemma digit_char_val d : d < 10 -> N_of_ascii (digit_char d) = 48 + d.
Proof. intros H; unfold digit_char; apply N_ascii_embedding; lia. Qed.

Lemma digit_char_is_digit d : d < 10 -> is_digit (digit_char d) = true.
Proof.
  intros H; unfold is_digit; rewrite digit_char_val by auto.
  apply andb_true_iff; split; apply N.leb_le; lia.
Qed.

Lemma digit_val_char d : d < 10 -> digit_val (digit_char d) = d.
Proof. intros H; unfold digit_val; rewrite digit_char_val by auto; lia. Qed.

Lemma dec_rev_nonempty f n : dec_rev (S f) n <> [].
Proof. discriminate. Qed.

Lemma dec_rev_digits f n : Forall (fun c => is_digit c = true) (dec_rev f n).
Proof.
  revert n; induction f as [|f IH]; intros n; simpl; constructor.
  - apply digit_char_is_digit, N.mod_lt; lia.
  - destruct (n / 10 =? 0); auto.
Qed.

Lemma dec_digits n : Forall (fun c => is_digit c = true) (dec n).
Proof. unfold dec; apply Forall_rev, dec_rev_digits. Qed.

Lemma dec_nonempty n : dec n <> [].
Proof.
  unfold dec; intros H; apply (f_equal (@length ascii)) in H.
  rewrite rev_length in H; simpl in H; discriminate.
Qed.

Lemma undec_acc_app acc s t :
  undec_acc acc (s ++ t) = match undec_acc acc s with Some a => undec_acc a t | None => None end.
Proof. revert acc; induction s as [|c s IH]; intros acc; simpl; auto. destruct (is_digit c); auto. Qed.

Definition pow10 (k : nat) : N := 10 ^ N.of_nat k.

Lemma size_nat_bound n : n < 2 ^ N.of_nat (N.size_nat n).
Proof.
  destruct n as [|p]; simpl; [lia|].
  induction p as [p IH|p IH|]; simpl Pos.size_nat.
  - rewrite Nat2N.inj_succ, N.pow_succ_r'. lia.
  - rewrite Nat2N.inj_succ, N.pow_succ_r'. lia.
  - reflexivity.
Qed.

Lemma dec_rev_value f n : n < 2 ^ N.of_nat f -> undec_acc 0 (rev (dec_rev f n)) = Some n.
Proof.
  revert n; induction f as [|f IH]; intros n H.
  - simpl in *. f_equal; lia.
  - cbn [dec_rev rev]. rewrite undec_acc_app.
    assert (n mod 10 < 10) by (apply N.mod_lt; lia).
    assert (Hdm := N.div_mod n 10 ltac:(lia)).
    replace (undec_acc 0 (rev (if n / 10 =? 0 then [] else dec_rev f (n / 10)))) with (Some (n / 10)).
    + cbn [undec_acc]. rewrite digit_char_is_digit, digit_val_char by auto. f_equal; lia.
    + destruct (N.eqb_spec (n / 10) 0) as [E|E].
      * simpl; congruence.
      * symmetry; apply IH.
        rewrite Nat2N.inj_succ, N.pow_succ_r' in H.
        apply N.div_lt_upper_bound; lia.
Qed.

Lemma undec_dec n : undec (dec n) = Some n.
Proof.
  unfold undec; destruct (dec n) eqn:E; [now apply dec_nonempty in E|]; rewrite <- E.
  unfold dec; apply dec_rev_value.
  rewrite Nat2N.inj_succ, N.pow_succ_r'. pose proof (size_nat_bound n); lia.
Qed.

Lemma dec_inj n m : dec n = dec m -> n = m.
Proof. intros H; apply (f_equal undec) in H; rewrite !undec_dec in H; congruence. Qed.
