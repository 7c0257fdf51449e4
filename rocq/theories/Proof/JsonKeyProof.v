(** Comparing the keys of JSON objects. *)
From Coq Require Import Ascii String Arith NArith ZArith Bool Lia List.
From Verif.Base Require Import Bytes BytesFacts Utf8.
From Verif.Proof Require Import Utf8Proof.
From Verif.Model Require Import Json.
From Verif.Spec Require Import TextSpec JsonSpec.
Import ListNotations.
Open Scope N_scope.

Ltac Zify.zify_post_hook ::= Z.to_euclidean_division_equations.

Lemma fold_plain a s : N_of_ascii a <> 197 -> N_of_ascii a <> 226 -> fold_key (a :: s) = lower a :: fold_key s.
Proof.
  intros H1 H2. apply N.eqb_neq in H1, H2. destruct s as [|b s]; [reflexivity|]. cbn [fold_key]. rewrite H1. cbn [andb].
  destruct s as [|c s]; [reflexivity|]. rewrite H2. reflexivity.
Qed.

Lemma fold_two a b s : N_of_ascii b <> 191 -> N_of_ascii a <> 226 -> fold_key (a :: b :: s) = lower a :: fold_key (b :: s).
Proof.
  intros H1 H2. apply N.eqb_neq in H1, H2.
  change (fold_key (a :: b :: s)) with
    (if (N_of_ascii a =? 197) && (N_of_ascii b =? 191) then "s"%char :: fold_key s
     else match s with
          | c :: s3 => if (N_of_ascii a =? 226) && (N_of_ascii b =? 132) && (N_of_ascii c =? 170) then "k"%char :: fold_key s3
                       else lower a :: fold_key (b :: s)
          | [] => lower a :: fold_key (b :: s)
          end).
  rewrite H1, H2, andb_false_r. cbn [andb]. now destruct s.
Qed.

Lemma fold_three a b c s : N_of_ascii a <> 197 -> (N_of_ascii b =? 132) && (N_of_ascii c =? 170) = false ->
  fold_key (a :: b :: c :: s) = lower a :: fold_key (b :: c :: s).
Proof.
  intros H1 H2. apply N.eqb_neq in H1.
  change (fold_key (a :: b :: c :: s)) with
    (if (N_of_ascii a =? 197) && (N_of_ascii b =? 191) then "s"%char :: fold_key (c :: s)
     else if (N_of_ascii a =? 226) && (N_of_ascii b =? 132) && (N_of_ascii c =? 170) then "k"%char :: fold_key s
          else lower a :: fold_key (b :: c :: s)).
  now rewrite H1, <- andb_assoc, H2, andb_false_r.
Qed.

Lemma lower_high a : 128 <= N_of_ascii a -> lower a = a.
Proof. intros H. unfold lower. replace (between 65 90 a) with false; [reflexivity|]. symmetry. apply between_false. lia. Qed.

Lemma fold_cont n s : 128 <= n < 192 -> fold_key (ascii_of_N n :: s) = ascii_of_N n :: fold_key s.
Proof. intros H. rewrite fold_plain by (rewrite n_ascii; lia). now rewrite lower_high by (rewrite n_ascii; lia). Qed.

Lemma fold_char c s : scalar_value c -> fold_key (utf8_encode c ++ s) = utf8_encode (folded c) ++ fold_key s.
Proof.
  intros H. unfold scalar_value in H.
  destruct (N.eq_dec c 0x17F) as [->|N1].
  { change (utf8_encode 0x17F) with (map ascii_of_N [197; 191]). change (utf8_encode (folded 0x17F)) with ["s"%char].
    cbn [map app]. cbn [fold_key]. rewrite !n_ascii by lia. reflexivity. }
  destruct (N.eq_dec c 0x212A) as [->|N2].
  { change (utf8_encode 0x212A) with (map ascii_of_N [226; 132; 170]). change (utf8_encode (folded 0x212A)) with ["k"%char].
    cbn [map app]. cbn [fold_key]. rewrite !n_ascii by lia. reflexivity. }
  unfold utf8_encode at 1. destruct (N.ltb_spec c 128) as [L1|L1].
  { cbn [map app]. rewrite fold_plain by (rewrite n_ascii; lia). unfold lower. rewrite between_n by lia. unfold folded.
    destruct ((65 <=? c) && (c <=? 90)) eqn:E.
    - apply andb_true_iff in E as [E1 E2]. apply N.leb_le in E1, E2. rewrite n_ascii by lia. unfold utf8_encode.
      rewrite (proj2 (N.ltb_lt (c + 32) 128)) by lia. reflexivity.
    - rewrite (proj2 (N.eqb_neq _ _) N2), (proj2 (N.eqb_neq _ _) N1). unfold utf8_encode.
      rewrite (proj2 (N.ltb_lt c 128)) by lia. reflexivity. }
  assert (F : folded c = c).
  { unfold folded. rewrite (proj2 (N.eqb_neq _ _) N2), (proj2 (N.eqb_neq _ _) N1).
    replace (c <=? 90) with false by (symmetry; apply N.leb_gt; lia). now rewrite andb_false_r. }
  rewrite F. unfold utf8_encode. rewrite (proj2 (N.ltb_ge c 128)) by lia.
  destruct (N.ltb_spec c 2048) as [L2|L2]; [|destruct (N.ltb_spec c 65536) as [L3|L3]]; cbn [map app].
  - set (x := c / 64) in *. set (y := c mod 64) in *.
    assert (E : c = 64 * x + y /\ x < 32 /\ y < 64) by (unfold x, y; lia). clearbody x y. destruct E as (-> & Hx & Hy).
    destruct (N.eq_dec x 5) as [->|N3].
    + rewrite fold_two by (rewrite n_ascii; lia). rewrite lower_high by (rewrite n_ascii; lia). now rewrite fold_cont by lia.
    + rewrite fold_plain by (rewrite n_ascii; lia). rewrite lower_high by (rewrite n_ascii; lia). now rewrite fold_cont by lia.
  - set (x := c / 4096) in *. set (y := c / 64 mod 64) in *. set (z := c mod 64) in *.
    assert (E : c = 4096 * x + 64 * y + z /\ x < 16 /\ y < 64 /\ z < 64) by (unfold x, y, z; lia).
    clearbody x y z. destruct E as (-> & Hx & Hy & Hz).
    destruct (N.eq_dec x 2) as [->|N3].
    + rewrite fold_three.
      * rewrite lower_high by (rewrite n_ascii; lia). now rewrite !fold_cont by lia.
      * rewrite n_ascii; lia.
      * rewrite !n_ascii by lia. apply andb_false_iff. destruct (N.eq_dec y 4) as [->|]; [right|left]; apply N.eqb_neq; lia.
    + rewrite fold_plain by (rewrite n_ascii; lia). rewrite lower_high by (rewrite n_ascii; lia). now rewrite !fold_cont by lia.
  - set (x := c / 262144) in *. set (w := c / 4096 mod 64) in *. set (y := c / 64 mod 64) in *. set (z := c mod 64) in *.
    assert (E : c = 262144 * x + 4096 * w + 64 * y + z /\ w < 64 /\ y < 64 /\ z < 64) by (unfold x, w, y, z; lia).
    clearbody x y z w. destruct E as (-> & Hw & Hy & Hz). assert (x <= 4) by lia.
    rewrite fold_plain by (rewrite n_ascii; lia). rewrite lower_high by (rewrite n_ascii; lia). now rewrite !fold_cont by lia.
Qed.

Lemma folded_scalar c : scalar_value c -> scalar_value (folded c).
Proof.
  unfold scalar_value, folded. intros H. destruct ((65 <=? c) && (c <=? 90)) eqn:E.
  - apply andb_true_iff in E as [E1 E2]. apply N.leb_le in E2. lia.
  - destruct (c =? 0x212A); [lia|]. destruct (c =? 0x17F); [lia|]. exact H.
Qed.

Lemma fold_text cs : Forall scalar_value cs -> fold_key (flat_map utf8_encode cs) = flat_map utf8_encode (map folded cs).
Proof.
  induction 1 as [|c cs Hc _ IH]; [reflexivity|]. cbn [flat_map map]. rewrite fold_char by exact Hc. now rewrite IH.
Qed.

Lemma text_runes cs : Forall scalar_value cs -> runes (flat_map utf8_encode cs) = cs.
Proof. induction 1 as [|c cs Hc _ IH]; [reflexivity|]. cbn [flat_map]. rewrite runes_char by exact Hc. now rewrite IH. Qed.

Lemma same_key_text cs ds : Forall scalar_value cs -> Forall scalar_value ds ->
  same_key (flat_map utf8_encode cs) (flat_map utf8_encode ds) = true <-> map folded cs = map folded ds.
Proof.
  intros Hc Hd. unfold same_key. rewrite beqb_eq, !fold_text by assumption. split; [|now intros ->].
  intros E. apply (f_equal runes) in E.
  rewrite !text_runes in E; [exact E| |]; apply Forall_map; eapply Forall_impl; eauto using folded_scalar.
Qed.
