(** Comparing and sorting views and changes. *)
From Coq Require Import Ascii String Arith NArith ZArith Bool Lia Permutation Sorting.Sorted List.
From Verif.Base Require Import Bytes BytesFacts.
From Verif.Proof Require Import PolicyProof MetadataProof JsonProof.
From Verif.Model Require Import AggType Policy Pipeline Rules RuleSet Json View.
From Verif.Spec Require Import PolicySpec MetadataSpec JsonSpec ViewSpec.
Import ListNotations.
Open Scope Z_scope.

Lemma ptr_equal_spec {A} (eq : A -> A -> bool) (R : A -> A -> Prop) :
  (forall x y, eq x y = true <-> R x y) -> forall a b, ptr_equal eq a b = true <-> same_ptr R a b.
Proof.
  intros H a b. unfold ptr_equal, same_ptr. destruct a as [x|], b as [y|]; split; intros E; try discriminate; auto.
  - right. exists x, y. split; auto. split; auto. now apply H.
  - destruct E as [[E _]|(x' & y' & [= <-] & [= <-] & E)]; [discriminate|]. now apply H.
  - destruct E as [[E _]|(x' & y' & _ & E & _)]; discriminate.
  - destruct E as [[_ E]|(x' & y' & E & _)]; discriminate.
Qed.

Section Equal.
  Context (sort : list storage_policy -> list storage_policy) (Hs : sorts sp_less sort).

  Lemma mapping_view_equal_spec a b : mapping_view_equal sort a b = true <-> same_ptr same_mapping_rule a b.
  Proof.
    apply ptr_equal_spec. intros x y. unfold same_mapping_rule.
    rewrite !andb_true_iff, !beqb_eq, N.eqb_eq, Z.eqb_eq, (sps_equal_perm sort) by exact Hs. tauto.
  Qed.

  Lemma view_target_equal_spec a b : view_target_equal sort a b = true <-> same_target a b.
  Proof.
    unfold view_target_equal, same_target. rewrite andb_true_iff, pipeline_equal_spec, (sps_equal_perm sort) by exact Hs. tauto.
  Qed.

  Lemma rollup_view_equal_spec a b : rollup_view_equal sort a b = true <-> same_ptr same_rollup_rule a b.
  Proof.
    apply ptr_equal_spec. intros x y. unfold same_rollup_rule, view_targets_equal.
    rewrite !andb_true_iff, !beqb_eq.
    pose proof (length_list_eqb _ _ (rv_body x) (rv_body y) view_target_equal_spec) as L.
    rewrite L. tauto.
  Qed.
End Equal.

Lemma op_same_refl a : op_same a a.
Proof. unfold op_same, rollup_same. repeat split; auto. Qed.
Lemma op_same_sym a b : op_same a b -> op_same b a.
Proof.
  unfold op_same, rollup_same. intros (K & A & T & R). rewrite <- K. split; [auto|].
  split; [intros E; symmetry; auto|]. split; [intros E; symmetry; auto|].
  intros E. destruct (R E) as (R1 & R2 & R3). split; [congruence|]. split; [now apply Permutation_sym|congruence].
Qed.
Lemma op_same_trans a b c : op_same a b -> op_same b c -> op_same a c.
Proof.
  unfold op_same, rollup_same. intros (K & A & T & R) (K' & A' & T' & R'). rewrite <- K in K', A', T', R'.
  split; [congruence|]. split; [intros E; rewrite A by auto; auto|]. split; [intros E; rewrite T by auto; auto|].
  intros E. destruct (R E) as (R1 & R2 & R3), (R' E) as (S1 & S2 & S3).
  split; [congruence|]. split; [eapply Permutation_trans; eauto|congruence].
Qed.
Lemma F2_refl {A} (R : A -> A -> Prop) : (forall a, R a a) -> forall l, Forall2 R l l.
Proof. intros H. induction l; constructor; auto. Qed.
Lemma F2_sym {A} (R : A -> A -> Prop) : (forall a b, R a b -> R b a) -> forall l m, Forall2 R l m -> Forall2 R m l.
Proof. intros H l m. induction 1; constructor; auto. Qed.
Lemma F2_trans {A} (R : A -> A -> Prop) : (forall a b c, R a b -> R b c -> R a c) ->
  forall l m n, Forall2 R l m -> Forall2 R m n -> Forall2 R l n.
Proof.
  intros H l m n F. revert n. induction F as [|a b l m E F IH]; intros n G; inversion G; subst; constructor; [|auto].
  eapply H; eauto.
Qed.

Lemma same_target_refl a : same_target a a.
Proof. split; [apply F2_refl, op_same_refl|apply Permutation_refl]. Qed.
Lemma same_target_sym a b : same_target a b -> same_target b a.
Proof. intros [H P]. split; [now apply (F2_sym _ op_same_sym)|now apply Permutation_sym]. Qed.
Lemma same_target_trans a b c : same_target a b -> same_target b c -> same_target a c.
Proof.
  intros [H P] [H' P']. split; [exact (F2_trans _ op_same_trans _ _ _ H H')|exact (Permutation_trans P P')].
Qed.

Lemma ptr_equivalence {A} (eq : option A -> option A -> bool) (R : A -> A -> Prop) :
  (forall a b, eq a b = true <-> same_ptr R a b) ->
  (forall a, R a a) -> (forall a b, R a b -> R b a) -> (forall a b c, R a b -> R b c -> R a c) -> equivalence_test eq.
Proof.
  intros E Rr Rs Rt. split; [|split].
  - intros [x|]; apply E; [right; exists x, x; auto|now left].
  - intros a b. rewrite !E. intros [[-> ->]|(x & y & -> & -> & H)]; [now left|right; exists y, x; auto].
  - intros a b c. rewrite !E. intros [[-> ->]|(x & y & -> & -> & H)] [[E1 ->]|(x' & y' & E1 & -> & H')]; try discriminate.
    + now left.
    + injection E1 as <-. right. exists x, y'. split; auto. split; auto. exact (Rt _ _ _ H H').
Qed.

Lemma mapping_equivalence sort : sorts sp_less sort -> equivalence_test (mapping_view_equal sort).
Proof.
  intros Hs. apply (ptr_equivalence _ same_mapping_rule (mapping_view_equal_spec sort Hs)); unfold same_mapping_rule.
  - intros a. repeat split; auto.
  - intros a b (E1 & E2 & E3 & E4 & E5 & E6). repeat split; auto. now apply Permutation_sym.
  - intros a b c (E1 & E2 & E3 & E4 & E5 & E6) (F1 & F2 & F3 & F4 & F5 & F6). repeat split; try congruence.
    exact (Permutation_trans E5 F5).
Qed.
Lemma rollup_equivalence sort : sorts sp_less sort -> equivalence_test (rollup_view_equal sort).
Proof.
  intros Hs. apply (ptr_equivalence _ same_rollup_rule (rollup_view_equal_spec sort Hs)); unfold same_rollup_rule.
  - intros a. repeat split; auto. apply F2_refl, same_target_refl.
  - intros a b (E1 & E2 & E3 & E4). repeat split; auto. now apply (F2_sym _ same_target_sym).
  - intros a b c (E1 & E2 & E3 & E4) (F1 & F2 & F3 & F4). repeat split; try congruence.
    exact (F2_trans _ same_target_trans _ _ _ E4 F4).
Qed.

(** Dropping payloads that mean nothing leaves rules the same. *)
Lemma op_cleaned_same a : op_same a (op_cleaned a).
Proof.
  unfold op_same, op_cleaned. cbn [op_kind op_agg op_tf op_rollup]. split; [auto|].
  split; [intros ->; reflexivity|]. split; [intros ->; reflexivity|]. intros ->. unfold rollup_same. repeat split; auto.
Qed.
Lemma cleaned_same v : same_rollup_rule v (with_body targets_cleaned v).
Proof.
  unfold same_rollup_rule, with_body. cbn [rv_id rv_name rv_filter rv_body]. repeat split; auto.
  unfold targets_cleaned. induction (rv_body v) as [|t l IH]; cbn [map]; constructor; [|exact IH].
  split; cbn [tg_pipeline tg_sps]; [|apply Permutation_refl].
  induction (tg_pipeline t) as [|a p IHp]; cbn [map]; constructor; [apply op_cleaned_same|exact IHp].
Qed.

(** * Sorting by name *)
Lemma bltb_false x y : bltb y x = false <-> bleb x y = true.
Proof. rewrite bltb_bleb. destruct (bleb x y); cbn [negb]; split; congruence. Qed.

Lemma key_orders {A} (key : A -> bytes) l : orders (fun a b => bltb (key a) (key b)) l.
Proof.
  split; [intros a _; apply bltb_irrefl|]. split; [intros a b c _ _ _; apply bltb_trans|].
  intros a b c _ _ _. rewrite !bltb_false. apply bleb_trans.
Qed.

Lemma SS_impl {A} (R S : A -> A -> Prop) l : (forall a b, In a l -> In b l -> R a b -> S a b) -> StronglySorted R l -> StronglySorted S l.
Proof.
  intros H F. induction F as [|a l F IH G]; constructor.
  - apply IH. intros x y Hx Hy. apply H; now right.
  - rewrite Forall_forall in *. intros x Hx. apply H; [now left|now right|auto].
Qed.

Lemma by_name_sorted {P} (sort : list (rule_view P) -> list (rule_view P)) l : go_sort by_name sort ->
  Permutation l (sort l) /\ ascending rv_name (sort l).
Proof.
  intros G. destruct (G l) as [P1 S]. split; [exact P1|].
  eapply SS_impl; [|exact (S (key_orders rv_name l))]. cbn beta. intros a b _ _. apply bltb_false.
Qed.

(** * Sorting changes *)
Definition label {P} (c : view_change P) : bytes := match vc_data c with Some v => rv_name v | None => id_of c end.
Definition pair_less (a b : bytes * bytes) : bool :=
  if bltb (fst a) (fst b) then true else if bltb (fst b) (fst a) then false else bltb (snd a) (snd b).

Lemma bltb_total x y : bltb x y = false -> bltb y x = false -> x = y.
Proof. rewrite !bltb_false. intros H1 H2. now apply bleb_antisym. Qed.

Lemma pair_less_irrefl a : pair_less a a = false.
Proof. unfold pair_less. now rewrite !bltb_irrefl. Qed.
Lemma pair_less_spec a b : pair_less a b = true <-> bltb (fst a) (fst b) = true \/ (fst a = fst b /\ bltb (snd a) (snd b) = true).
Proof.
  unfold pair_less. destruct (bltb (fst a) (fst b)) eqn:E1; [split; auto|]. destruct (bltb (fst b) (fst a)) eqn:E2.
  - split; [discriminate|]. intros [|[E _]]; [discriminate|]. rewrite E, bltb_irrefl in E2. discriminate.
  - pose proof (bltb_total _ _ E1 E2) as E. split; [auto|]. intros [|[_ H]]; [discriminate|exact H].
Qed.
Lemma pair_less_trans a b c : pair_less a b = true -> pair_less b c = true -> pair_less a c = true.
Proof.
  rewrite !pair_less_spec. intros [A|[A A']] [C|[C C']].
  - left. exact (bltb_trans _ _ _ A C).
  - left. now rewrite <- C.
  - left. now rewrite A.
  - right. split; [congruence|exact (bltb_trans _ _ _ A' C')].
Qed.
Lemma pair_less_false a b : pair_less b a = false <-> bltb (fst a) (fst b) = true \/ (fst a = fst b /\ bleb (snd a) (snd b) = true).
Proof.
  unfold pair_less. destruct (bltb (fst b) (fst a)) eqn:E1.
  - split; [discriminate|]. intros [H|[E _]]; [rewrite (bltb_asym _ _ H) in E1; discriminate|].
    rewrite E, bltb_irrefl in E1. discriminate.
  - destruct (bltb (fst a) (fst b)) eqn:E2; [split; auto|]. pose proof (bltb_total _ _ E1 E2) as E.
    rewrite bltb_false. split; [auto|]. intros [|[_ H]]; [discriminate|exact H].
Qed.
Lemma pair_less_neg a b c : pair_less b a = false -> pair_less c b = false -> pair_less c a = false.
Proof.
  rewrite !pair_less_false. intros [A|[A A']] [C|[C C']].
  - left. exact (bltb_trans _ _ _ A C).
  - left. now rewrite <- C.
  - left. now rewrite A.
  - right. split; [congruence|exact (bleb_trans _ _ _ A' C')].
Qed.

Lemma change_less_pair {P} (a b : view_change P) : well_formed a -> well_formed b ->
  change_less a b = pair_less (vc_op a, label a) (vc_op b, label b).
Proof.
  intros Wa Wb. unfold change_less, pair_less, label, id_of. cbn [fst snd].
  destruct (bltb (vc_op a) (vc_op b)) eqn:E1; [reflexivity|]. destruct (bltb (vc_op b) (vc_op a)) eqn:E2; [reflexivity|].
  pose proof (bltb_total _ _ E1 E2) as E.
  destruct Wa as [(v & Da & Oa)|(i & Da & Ia & Oa)], Wb as [(w & Db & Ob)|(j & Db & Ib & Ob)]; rewrite Da, Db.
  - reflexivity.
  - exfalso. rewrite E, Ob in Oa. destruct Oa; discriminate.
  - exfalso. rewrite <- E, Oa in Ob. destruct Ob; discriminate.
  - now rewrite Ia, Ib.
Qed.

Lemma change_orders {P} (l : list (view_change P)) : Forall well_formed l -> orders change_less l.
Proof.
  intros W. rewrite Forall_forall in W. split; [|split].
  - intros a Ha. rewrite change_less_pair by auto. apply pair_less_irrefl.
  - intros a b c Ha Hb Hc. rewrite !change_less_pair by auto. apply pair_less_trans.
  - intros a b c Ha Hb Hc. rewrite !change_less_pair by auto. apply pair_less_neg.
Qed.

Lemma Forall_permutation {A} (P : A -> Prop) l m : Permutation l m -> Forall P l -> Forall P m.
Proof. intros Q F. rewrite Forall_forall in *. intros x Hx. apply F. exact (Permutation_in _ (Permutation_sym Q) Hx). Qed.

(** A list in order of operation is additions, then changes, then deletions. *)
Lemma three_parts {P} (l : list (view_change P)) :
  Forall well_formed l ->
  StronglySorted (fun a b => pair_less (vc_op b, label b) (vc_op a, label a) = false) l ->
  exists adds chs dels, l = adds ++ chs ++ dels /\
    Forall (named "add") adds /\ Forall (named "change") chs /\ Forall deletion dels /\
    ascending name_of adds /\ ascending name_of chs /\ ascending id_of dels.
Proof.
  intros W S. revert W. induction S as [|a l S IH F]; intros W.
  - exists [], [], []. repeat split; constructor.
  - inversion W as [|? ? Wa Wl]; subst. destruct (IH Wl) as (A & C & D & -> & FA & FC & FD & SA & SC & SD).
    rewrite !Forall_app in F. destruct F as (GA & GC & GD).
    assert (Op : forall b : view_change P, pair_less (vc_op b, label b) (vc_op a, label a) = false ->
      bltb (vc_op a) (vc_op b) = true \/ (vc_op a = vc_op b /\ bleb (label a) (label b) = true)).
    { intros b Hb. now apply pair_less_false in Hb. }
    destruct Wa as [(v & Da & [Oa|Oa])|(i & Da & Ia & Oa)].
    + exists (a :: A), C, D. split; [reflexivity|]. split; [constructor; [split; eauto|exact FA]|].
      split; [exact FC|]. split; [exact FD|]. split; [|now split]. constructor; [exact SA|].
      rewrite Forall_forall in *. intros b Hb. destruct (FA b Hb) as (Ob & w & Db). specialize (GA b Hb).
      apply Op in GA. rewrite Oa, Ob in GA. destruct GA as [GA|[_ GA]]; [discriminate|].
      unfold label in GA. unfold name_of. now rewrite Da, Db in *.
    + assert (A = []) as ->.
      { destruct A as [|b A]; [reflexivity|]. inversion FA as [|? ? (Ob & _) _]; subst. inversion GA as [|? ? G _]; subst.
        apply Op in G. rewrite Oa, Ob in G. destruct G as [G|[G _]]; discriminate. }
      exists [], (a :: C), D. split; [reflexivity|]. split; [constructor|].
      split; [constructor; [split; eauto|exact FC]|]. split; [exact FD|]. split; [constructor|]. split; [|exact SD].
      constructor; [exact SC|].
      rewrite Forall_forall in *. intros b Hb. destruct (FC b Hb) as (Ob & w & Db). specialize (GC b Hb).
      apply Op in GC. rewrite Oa, Ob in GC. destruct GC as [GC|[_ GC]]; [discriminate|].
      unfold label in GC. unfold name_of. now rewrite Da, Db in *.
    + assert (A = []) as ->.
      { destruct A as [|b A]; [reflexivity|]. inversion FA as [|? ? (Ob & _) _]; subst. inversion GA as [|? ? G _]; subst.
        apply Op in G. rewrite Oa, Ob in G. destruct G as [G|[G _]]; discriminate. }
      assert (C = []) as ->.
      { destruct C as [|b C]; [reflexivity|]. inversion FC as [|? ? (Ob & _) _]; subst. inversion GC as [|? ? G _]; subst.
        apply Op in G. rewrite Oa, Ob in G. destruct G as [G|[G _]]; discriminate. }
      exists [], [], (a :: D). split; [reflexivity|]. split; [constructor|]. split; [constructor|].
      split; [constructor; [split; eauto|exact FD]|]. split; [constructor|]. split; [constructor|].
      constructor; [exact SD|]. cbn [app] in Wl.
      rewrite Forall_forall in *. intros b Hb. destruct (FD b Hb) as (Ob & j & Ib). specialize (GD b Hb).
      apply Op in GD. rewrite Oa, Ob in GD. destruct GD as [GD|[_ GD]]; [discriminate|].
      destruct (Wl b Hb) as [(w & Db & [O|O])|(k & Db & Ik & O)]; [rewrite Ob in O; discriminate|rewrite Ob in O; discriminate|].
      unfold label in GD. now rewrite Da, Db in GD.
Qed.

Lemma changes_sorted {P} (sort : list (view_change P) -> list (view_change P)) l :
  go_sort change_less sort -> Forall well_formed l ->
  Permutation l (sort l) /\
  exists adds chs dels, sort l = adds ++ chs ++ dels /\
    Forall (named "add") adds /\ Forall (named "change") chs /\ Forall deletion dels /\
    ascending name_of adds /\ ascending name_of chs /\ ascending id_of dels.
Proof.
  intros G W. destruct (G l) as [P1 S]. split; [exact P1|].
  pose proof (Forall_permutation _ _ _ P1 W) as W'. apply three_parts; [exact W'|].
  eapply SS_impl; [|exact (S (change_orders l W))]. cbn beta. intros a b Ha Hb.
  rewrite Forall_forall in W'. rewrite change_less_pair by auto. auto.
Qed.

(** Sorting by insertion meets the contract. *)
Lemma insertion_sorts {A} (less : A -> A -> bool) : go_sort less (isort (fun a b => negb (less b a))).
Proof.
  intros l. split; [apply isort_perm|].
  set (lq := fun a b => negb (less b a)).
  assert (I : forall x l, orders less (x :: l) -> StronglySorted (fun a b => less b a = false) l ->
    StronglySorted (fun a b => less b a = false) (insert_sorted lq x l)).
  { clear l. intros x l O S. induction S as [|y l S IH F]; cbn [insert_sorted]; [repeat constructor|].
    destruct O as (O1 & O2 & O3). unfold lq at 1. destruct (less y x) eqn:E; cbn [negb].
    - assert (E' : less x y = false).
      { destruct (less x y) eqn:E'; [|reflexivity]. rewrite <- (O1 x) by now left. symmetry.
        apply (O2 x y x); cbn [In]; auto. }
      constructor.
      + apply IH. split; [|split].
        * intros a [H|H]; apply O1; cbn [In]; auto.
        * intros a b c [Ha|Ha] [Hb|Hb] [Hc|Hc]; apply O2; cbn [In]; auto.
        * intros a b c [Ha|Ha] [Hb|Hb] [Hc|Hc]; apply O3; cbn [In]; auto.
      + apply Forall_forall. intros z Hz. apply (Permutation_in z (Permutation_sym (insert_sorted_perm lq x l))) in Hz.
        destruct Hz as [<-|Hz]; [exact E'|]. rewrite Forall_forall in F. auto.
    - constructor; [now constructor|]. constructor; [exact E|]. rewrite Forall_forall in *. intros z Hz.
      apply (O3 x y z); cbn [In]; auto. }
  induction l as [|x l IH]; cbn [isort]; intros O; [constructor|]. apply I.
  - destruct O as (O1 & O2 & O3).
    assert (Q : forall a, In a (x :: isort lq l) -> In a (x :: l)).
    { intros a [H|H]; [now left|right]. now apply isort_in in H. }
    split; [intros a Ha; apply O1; auto|]. split; [intros a b c Ha Hb Hc; apply O2; auto|intros a b c Ha Hb Hc; apply O3; auto].
  - apply IH. destruct O as (O1 & O2 & O3). split; [intros a Ha; apply O1; now right|]. split; [intros a b c Ha Hb Hc; apply O2; now right|intros a b c Ha Hb Hc; apply O3; now right].
Qed.
