(** UTF-8: what is decoded is what the encoding of code points says. *)
From Coq Require Import Ascii String Arith NArith ZArith Bool Lia Wf_nat List.
From Verif.Base Require Import Bytes BytesFacts Utf8.
From Verif.Spec Require Import TextSpec.
Import ListNotations.
Open Scope N_scope.

Ltac Zify.zify_post_hook ::= Z.to_euclidean_division_equations.

Lemma n_ascii n : n < 256 -> N_of_ascii (ascii_of_N n) = n.
Proof. apply N_ascii_embedding. Qed.

Lemma between_true lo hi c : between lo hi c = true <-> lo <= N_of_ascii c <= hi.
Proof. unfold between. rewrite andb_true_iff, !N.leb_le. lia. Qed.
Lemma between_false lo hi c : between lo hi c = false <-> ~ (lo <= N_of_ascii c <= hi).
Proof. rewrite <- between_true. destruct (between lo hi c); split; congruence. Qed.

Lemma between_n lo hi n : n < 256 -> between lo hi (ascii_of_N n) = ((lo <=? n) && (n <=? hi)).
Proof. intros. unfold between. now rewrite n_ascii. Qed.

Ltac bools := repeat match goal with
  | |- context [(?a <=? ?b)] => destruct (N.leb_spec a b); try (exfalso; lia)
  end; cbn [andb orb]; try reflexivity; try (exfalso; lia).

Lemma utf8_head_encode c s : scalar_value c -> utf8_head (utf8_encode c ++ s) = Some (length (utf8_encode c)).
Proof.
  unfold scalar_value, utf8_encode. intros H.
  destruct (N.ltb_spec c 128) as [L1|L1]; [|destruct (N.ltb_spec c 2048) as [L2|L2];
    [|destruct (N.ltb_spec c 65536) as [L3|L3]]]; cbn [map app length utf8_head]; unfold continues.
  - rewrite !between_n by lia. bools.
  - rewrite !between_n by lia. bools.
  - set (x := c / 4096) in *. set (y := c / 64 mod 64) in *. set (z := c mod 64) in *.
    assert (E : c = 4096 * x + 64 * y + z /\ x < 16 /\ y < 64 /\ z < 64) by (unfold x, y, z; lia).
    clearbody x y z. destruct E as (-> & Hx & Hy & Hz).
    rewrite !between_n by lia.
    destruct (N.eq_dec x 0) as [->|N0]; [|destruct (N.eq_dec x 13) as [->|N13]];
      repeat match goal with
      | |- context [(?a <=? ?b)] => first
         [ replace (a <=? b) with true by (symmetry; apply N.leb_le; lia)
         | replace (a <=? b) with false by (symmetry; apply N.leb_gt; lia)
         | destruct (N.leb_spec a b) ]; cbn [andb orb]
      end; try reflexivity; exfalso; lia.
  - set (x := c / 262144) in *. set (w := c / 4096 mod 64) in *. set (y := c / 64 mod 64) in *. set (z := c mod 64) in *.
    assert (E : c = 262144 * x + 4096 * w + 64 * y + z /\ w < 64 /\ y < 64 /\ z < 64) by (unfold x, w, y, z; lia).
    clearbody x y z w. destruct E as (-> & Hw & Hy & Hz). assert (x <= 4) by lia.
    rewrite !between_n by lia.
    destruct (N.eq_dec x 0) as [->|N0]; [|destruct (N.eq_dec x 4) as [->|N4]];
      repeat match goal with
      | |- context [(?a <=? ?b)] => first
         [ replace (a <=? b) with true by (symmetry; apply N.leb_le; lia)
         | replace (a <=? b) with false by (symmetry; apply N.leb_gt; lia)
         | destruct (N.leb_spec a b) ]; cbn [andb orb]
      end; try reflexivity; exfalso; lia.
Qed.

Lemma utf8_encode_cons c : exists a s, utf8_encode c = a :: s.
Proof.
  unfold utf8_encode. destruct (c <? 128); [|destruct (c <? 2048); [|destruct (c <? 65536)]]; cbn [map]; eauto.
Qed.

(** A well-formed sequence is the encoding of a code point. *)
Lemma ascii_n c n : N_of_ascii c = n -> c = ascii_of_N n.
Proof. intros <-. symmetry. apply ascii_N_embedding. Qed.

Lemma enc1 a : N_of_ascii a < 128 -> [a] = utf8_encode (N_of_ascii a).
Proof.
  intros H. unfold utf8_encode. rewrite (proj2 (N.ltb_lt _ _) H). cbn [map]. now rewrite ascii_N_embedding.
Qed.

Lemma enc_gen (a : ascii) (n : N) : N_of_ascii a = n -> a = ascii_of_N n.
Proof. apply ascii_n. Qed.

Lemma utf8_head_some s n : utf8_head s = Some n ->
  exists c t, scalar_value c /\ s = utf8_encode c ++ t /\ length (utf8_encode c) = n.
Proof.
  unfold utf8_head, continues, scalar_value. destruct s as [|a s]; [discriminate|].
  destruct (between 0 127 a) eqn:B0.
  { intros [= <-]. apply between_true in B0. exists (N_of_ascii a), s. rewrite <- enc1 by lia. split; [lia|]. now split. }
  apply between_false in B0.
  destruct s as [|b s]; [discriminate|].
  destruct (between 194 223 a) eqn:B1.
  { destruct (between 128 191 b) eqn:B2; [|discriminate]. intros [= <-].
    apply between_true in B1, B2. exists (64 * (N_of_ascii a - 192) + (N_of_ascii b - 128)), s.
    set (A := N_of_ascii a) in *. set (C := N_of_ascii b) in *. split; [lia|].
    unfold utf8_encode. set (c := 64 * (A - 192) + (C - 128)).
    replace (c <? 128) with false by (symmetry; apply N.ltb_ge; unfold c; lia).
    replace (c <? 2048) with true by (symmetry; apply N.ltb_lt; unfold c; lia).
    cbn [map app length]. split; [|reflexivity]. f_equal; [|f_equal]; apply ascii_n; unfold c, A, C in *; lia. }
  apply between_false in B1.
  destruct s as [|d s]; [discriminate|].
  match goal with |- context [if ?x then _ else _] => destruct x eqn:B3 end.
  { destruct (between 128 191 d) eqn:B2; [|discriminate]. intros [= <-]. apply between_true in B2.
    rewrite !orb_true_iff, !andb_true_iff, !between_true in B3.
    exists (4096 * (N_of_ascii a - 224) + 64 * (N_of_ascii b - 128) + (N_of_ascii d - 128)), s.
    set (A := N_of_ascii a) in *. set (C := N_of_ascii b) in *. set (D := N_of_ascii d) in *. split; [lia|].
    unfold utf8_encode. set (c := 4096 * (A - 224) + 64 * (C - 128) + (D - 128)).
    replace (c <? 128) with false by (symmetry; apply N.ltb_ge; unfold c; lia).
    replace (c <? 2048) with false by (symmetry; apply N.ltb_ge; unfold c; lia).
    replace (c <? 65536) with true by (symmetry; apply N.ltb_lt; unfold c; lia).
    cbn [map app length]. split; [|reflexivity]. f_equal; [|f_equal; [|f_equal]]; apply ascii_n; unfold c, A, C, D in *; lia. }
  destruct s as [|e s]; [discriminate|].
  match goal with |- context [if ?x then _ else _] => destruct x eqn:B4 end; [|discriminate].
  destruct (between 128 191 d && between 128 191 e) eqn:B5; [|discriminate]. intros [= <-].
  rewrite andb_true_iff, !between_true in B5. rewrite !orb_true_iff, !andb_true_iff, !between_true in B4.
  exists (262144 * (N_of_ascii a - 240) + 4096 * (N_of_ascii b - 128) + 64 * (N_of_ascii d - 128) + (N_of_ascii e - 128)), s.
  set (A := N_of_ascii a) in *. set (C := N_of_ascii b) in *. set (D := N_of_ascii d) in *. set (F := N_of_ascii e) in *.
  split; [lia|].
  unfold utf8_encode. set (c := 262144 * (A - 240) + 4096 * (C - 128) + 64 * (D - 128) + (F - 128)).
  replace (c <? 128) with false by (symmetry; apply N.ltb_ge; unfold c; lia).
  replace (c <? 2048) with false by (symmetry; apply N.ltb_ge; unfold c; lia).
  replace (c <? 65536) with false by (symmetry; apply N.ltb_ge; unfold c; lia).
  cbn [map app length]. split; [|reflexivity].
  f_equal; [|f_equal; [|f_equal; [|f_equal]]]; apply ascii_n; unfold c, A, C, D, F in *; lia.
Qed.

(** ** Ranging over a string *)

Lemma mod_of n m k : m < k -> (n * k + m) mod k = m.
Proof. intros H. assert (k <> 0) by lia. rewrite N.add_comm, N.mod_add by auto. now apply N.mod_small. Qed.

Lemma decode_encode c s : scalar_value c -> decode_rune (utf8_encode c ++ s) = (c, length (utf8_encode c)).
Proof.
  intros H. unfold decode_rune. rewrite (utf8_head_encode c s H). unfold scalar_value in H. unfold utf8_encode.
  destruct (N.ltb_spec c 128) as [L1|L1]; [|destruct (N.ltb_spec c 2048) as [L2|L2];
    [|destruct (N.ltb_spec c 65536) as [L3|L3]]]; cbn [map app length].
  - rewrite n_ascii by lia. reflexivity.
  - f_equal. rewrite !n_ascii by lia. lia.
  - f_equal. rewrite !n_ascii by lia.
    set (x := c / 4096) in *. set (y := c / 64 mod 64) in *. set (z := c mod 64) in *.
    assert (E : c = 4096 * x + 64 * y + z /\ x < 16 /\ y < 64 /\ z < 64) by (unfold x, y, z; lia).
    clearbody x y z. destruct E as (-> & Hx & Hy & Hz).
    replace ((224 + x) mod 16) with x by (symmetry; apply (mod_of 14 x 16); lia).
    replace ((128 + y) mod 64) with y by (symmetry; apply (mod_of 2 y 64); lia).
    replace ((128 + z) mod 64) with z by (symmetry; apply (mod_of 2 z 64); lia). lia.
  - f_equal. rewrite !n_ascii by lia.
    set (x := c / 262144) in *. set (w := c / 4096 mod 64) in *. set (y := c / 64 mod 64) in *. set (z := c mod 64) in *.
    assert (E : c = 262144 * x + 4096 * w + 64 * y + z /\ w < 64 /\ y < 64 /\ z < 64) by (unfold x, w, y, z; lia).
    clearbody x y z w. destruct E as (-> & Hw & Hy & Hz). assert (x <= 4) by lia.
    replace ((240 + x) mod 8) with x by (symmetry; apply (mod_of 30 x 8); lia).
    replace ((128 + w) mod 64) with w by (symmetry; apply (mod_of 2 w 64); lia).
    replace ((128 + y) mod 64) with y by (symmetry; apply (mod_of 2 y 64); lia).
    replace ((128 + z) mod 64) with z by (symmetry; apply (mod_of 2 z 64); lia). lia.
Qed.

Lemma runes_skip n s t : length s = n -> runes_from n (s ++ t) = runes_from 0 t.
Proof.
  revert n. induction s as [|c s IH]; intros n; cbn [length]; intros <-; [reflexivity|].
  cbn [app runes_from]. now apply IH.
Qed.

Lemma runes_char c s : scalar_value c -> runes (utf8_encode c ++ s) = c :: runes s.
Proof.
  intros H. unfold runes. pose proof (decode_encode c s H) as E. destruct (utf8_encode_cons c) as (a & t & Ec). rewrite Ec in *.
  cbn [app] in *. cbn [runes_from]. rewrite E. f_equal. apply runes_skip. cbn [length]. lia.
Qed.

Lemma runes_bad b s : (forall c r, scalar_value c -> b :: s <> utf8_encode c ++ r) -> runes (b :: s) = 65533 :: runes s.
Proof.
  intros H. unfold runes. cbn [runes_from].
  assert (E : utf8_head (b :: s) = None).
  { destruct (utf8_head (b :: s)) as [n|] eqn:E; [|reflexivity].
    destruct (utf8_head_some _ _ E) as (c & t & Hc & Es & _). exfalso. exact (H c t Hc Es). }
  unfold decode_rune. rewrite E. reflexivity.
Qed.

Lemma shows_runes s cs : shows s cs -> runes s = cs.
Proof.
  induction 1 as [|c s cs Hc _ IH|b s cs Hb _ IH]; [reflexivity| |].
  - rewrite runes_char by exact Hc. now rewrite IH.
  - rewrite runes_bad by exact Hb. now rewrite IH.
Qed.

Lemma shows_exists s : exists cs, shows s cs.
Proof.
  remember (length s) as m eqn:L. revert s L. induction m as [m IH] using (well_founded_induction lt_wf). intros s ->.
  destruct s as [|b s]; [exists []; constructor|].
  destruct (utf8_head (b :: s)) as [n|] eqn:E.
  - destruct (utf8_head_some _ _ E) as (c & t & Hc & Es & _). rewrite Es in *.
    destruct (utf8_encode_cons c) as (a & u & Ec).
    destruct (IH (length t)) with (s := t) as (cs & Ht); [rewrite app_length, Ec; cbn [length]; lia|reflexivity|].
    exists (c :: cs). now constructor.
  - destruct (IH (length s)) with (s := s) as (cs & Hs); [cbn [length]; lia|reflexivity|].
    exists (0xFFFD :: cs). constructor; [|exact Hs]. intros c r Hc Eq.
    rewrite Eq, (utf8_head_encode c r Hc) in E. discriminate.
Qed.

Lemma runes_shows s : shows s (runes s).
Proof. destruct (shows_exists s) as (cs & H). now rewrite (shows_runes s cs H). Qed.
