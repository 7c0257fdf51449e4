(** UTF-8: text is left alone when written, anything else is not. *)
From Coq Require Import Ascii String Arith NArith ZArith Bool Lia List.
From Verif.Base Require Import Bytes BytesFacts.
From Verif.Proof Require Export Utf8Proof.
From Verif.Model Require Import Json.
From Verif.Spec Require Import JsonSpec.
Import ListNotations.
Open Scope N_scope.

Ltac Zify.zify_post_hook ::= Z.to_euclidean_division_equations.

Lemma fix_skip n s t : length s = n -> utf8_fix_from n (s ++ t) = s ++ utf8_fix_from 0 t.
Proof.
  revert n. induction s as [|c s IH]; intros n; cbn [length]; intros <-; [reflexivity|].
  cbn [app utf8_fix_from]. f_equal. now apply IH.
Qed.

Lemma text_fix s : is_text s -> utf8_fix s = s.
Proof.
  intros (cs & F & ->). unfold utf8_fix. induction F as [|c cs H F IH]; [reflexivity|].
  cbn [flat_map]. pose proof (utf8_head_encode c (flat_map utf8_encode cs) H) as E.
  destruct (utf8_encode_cons c) as (a & s & Es). rewrite Es in *. cbn [app length utf8_fix_from] in *.
  rewrite E. f_equal. rewrite fix_skip by reflexivity. now f_equal.
Qed.

Lemma fix_text s : utf8_fix s = s -> is_text s.
Proof.
  unfold utf8_fix. remember (length s) as m eqn:L.
  revert s L. induction m as [m IH] using (well_founded_induction lt_wf). intros s L E.
  destruct s as [|a s]; [exists []; split; [constructor|reflexivity]|].
  destruct (utf8_head (a :: s)) as [n|] eqn:H.
  - destruct (utf8_head_some _ _ H) as (c & t & Hc & Es & Ln).
    destruct (utf8_encode_cons c) as (a' & s' & Ec). rewrite Ec in *. cbn [app length] in *. subst n.
    injection Es as <- ->. cbn [utf8_fix_from] in E. rewrite H in E.
    injection E as E. rewrite fix_skip in E by reflexivity. apply app_inv_head in E.
    assert (L' : (length t < m)%nat) by (subst m; rewrite app_length; lia).
    destruct (IH (length t) L' t eq_refl E) as (cs & F & ->).
    exists (c :: cs). split; [now constructor|]. cbn [flat_map]. rewrite Ec. reflexivity.
  - exfalso. cbn [utf8_fix_from] in E. rewrite H in E. rewrite <- E in H. discriminate H.
Qed.

Lemma text_iff s : utf8_fix s = s <-> is_text s.
Proof. split; [apply fix_text|apply text_fix]. Qed.

(** What is written is text. *)
Lemma text_app a b : is_text a -> is_text b -> is_text (a ++ b).
Proof.
  intros (x & Fx & ->) (y & Fy & ->). exists (x ++ y). split; [now apply Forall_app|]. now rewrite flat_map_app.
Qed.
Lemma text_nil : is_text [].
Proof. exists []. split; [constructor|reflexivity]. Qed.

Lemma fixed_text s : is_text (utf8_fix s).
Proof.
  unfold utf8_fix. remember (length s) as m eqn:L.
  revert s L. induction m as [m IH] using (well_founded_induction lt_wf). intros s L.
  destruct s as [|a s]; [apply text_nil|].
  destruct (utf8_head (a :: s)) as [n|] eqn:H.
  - destruct (utf8_head_some _ _ H) as (c & t & Hc & Es & Ln).
    assert (T : is_text (utf8_encode c)).
    { exists [c]. split; [constructor; [exact Hc|constructor]|]. cbn [flat_map]. now rewrite app_nil_r. }
    destruct (utf8_encode_cons c) as (a' & s' & Ec). rewrite Ec in *. cbn [app length] in *. subst n.
    injection Es as <- ->. cbn [utf8_fix_from]. rewrite H. rewrite fix_skip by reflexivity.
    assert (L' : (length t < m)%nat) by (subst m; rewrite app_length; lia).
    change (is_text ((a :: s') ++ utf8_fix_from 0 t)). apply text_app; [exact T|now apply (IH _ L')].
  - cbn [utf8_fix_from]. rewrite H. apply text_app; [|apply (IH (length s)); [subst m; cbn [length]; lia|reflexivity]].
    exists [65533]. split; [constructor; [right; split; [discriminate|reflexivity]|constructor]|reflexivity].
Qed.
