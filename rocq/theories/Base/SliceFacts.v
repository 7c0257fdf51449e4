From Coq Require Import Arith Lia List.
From Verif.Base Require Import Slice.
Import ListNotations.

Lemma resize_length {A} (z : A) s n : length (s_elems (resize z s n)) = n.
Proof.
  unfold resize; destruct (n <=? length (s_elems s ++ s_spare s)) eqn:E; cbn [s_elems].
  - apply Nat.leb_le in E; now apply firstn_length_le.
  - apply repeat_length.
Qed.

Lemma fill_ok {A C} (f : A -> C -> option C) (R : A -> C -> Prop) src : forall dst,
  length dst = length src ->
  Forall (fun a => forall c, exists c', f a c = Some c' /\ R a c') src ->
  exists l, fill f src dst = Some l /\ Forall2 R src l.
Proof.
  induction src as [|a src IH]; intros [|c dst] Hl H; try discriminate; simpl.
  - exists []; auto.
  - inversion H as [|? ? Ha Hs]; subst. destruct (Ha c) as (c' & E & HR); rewrite E.
    injection Hl as Hl; destruct (IH dst Hl Hs) as (l & E2 & H2); rewrite E2.
    exists (c' :: l); auto.
Qed.

Lemma into_slice_ok {A C} zero (f : A -> C -> option C) (R : A -> C -> Prop) src s :
  Forall (fun a => forall c, exists c', f a c = Some c' /\ R a c') src ->
  exists s', into_slice zero f src s = Some s' /\ Forall2 R src (s_elems s').
Proof.
  intros H; unfold into_slice.
  destruct (fill_ok f R src (s_elems (resize zero s (length src))) (resize_length _ _ _) H)
    as (l & E & HR).
  rewrite E; eexists; split; [reflexivity|exact HR].
Qed.

Lemma fill_some {A C} (f : A -> C -> option C) src : forall dst l,
  length dst = length src -> fill f src dst = Some l ->
  Forall2 (fun a c' => exists c, f a c = Some c') src l.
Proof.
  induction src as [|a src IH]; intros [|c dst] l Hl H; try discriminate; simpl in H.
  - injection H as <-; constructor.
  - destruct (f a c) eqn:E; [|discriminate]. destruct (fill f src dst) eqn:E2; [|discriminate].
    injection H as <-; injection Hl as Hl; constructor; eauto.
Qed.

Lemma into_slice_some {A C} zero (f : A -> C -> option C) src s s' :
  into_slice zero f src s = Some s' ->
  Forall2 (fun a c' => exists c, f a c = Some c') src (s_elems s').
Proof.
  unfold into_slice; destruct (fill _ _ _) eqn:E; [|discriminate]. intros [= <-].
  apply (fill_some f src _ _ (resize_length _ _ _) E).
Qed.
