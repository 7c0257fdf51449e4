(** General facts about [Bytes] definitions. *)
From Coq Require Import Ascii String NArith ZArith Bool Lia Permutation Sorting Orders List.
From Verif.Base Require Import Bytes.
Import ListNotations.

Lemma ascii_eqb_spec a b : Ascii.eqb a b = true <-> a = b.
Proof. destruct (Ascii.eqb_spec a b); split; congruence. Qed.

Lemma ascii_eqb_neq a b : Ascii.eqb a b = false <-> a <> b.
Proof. destruct (Ascii.eqb_spec a b); split; congruence. Qed.

Lemma beqb_eq x y : beqb x y = true <-> x = y.
Proof.
  revert y; induction x as [|a x IH]; destruct y as [|b y]; simpl; try (split; congruence).
  rewrite andb_true_iff, ascii_eqb_spec, IH; split; [intros [-> ->]|intros [= -> ->]]; auto.
Qed.

Lemma beqb_neq x y : beqb x y = false <-> x <> y.
Proof. rewrite <- not_true_iff_false, beqb_eq; tauto. Qed.

Lemma beqb_refl x : beqb x x = true.
Proof. now apply beqb_eq. Qed.

Lemma beqb_sym x y : beqb x y = beqb y x.
Proof.
  destruct (beqb x y) eqn:E; symmetry.
  - apply beqb_eq in E; subst; apply beqb_refl.
  - apply beqb_neq; apply beqb_neq in E; congruence.
Qed.

Lemma bytes_dec (x y : bytes) : {x = y} + {x <> y}.
Proof. apply list_eq_dec, Ascii.ascii_dec. Qed.

Lemma N_of_ascii_inj a b : N_of_ascii a = N_of_ascii b -> a = b.
Proof. intros H; rewrite <- (ascii_N_embedding a), <- (ascii_N_embedding b); congruence. Qed.

Lemma bcompare_eq x y : bcompare x y = Eq <-> x = y.
Proof.
  revert y; induction x as [|a x IH]; destruct y as [|b y]; simpl; try (split; congruence).
  destruct (N.compare_spec (N_of_ascii a) (N_of_ascii b)) as [H|H|H].
  - apply N_of_ascii_inj in H; subst; rewrite IH; split; [now intros ->|now intros [= ->]].
  - split; [discriminate|intros [= -> ->]; lia].
  - split; [discriminate|intros [= -> ->]; lia].
Qed.

Lemma bcompare_refl x : bcompare x x = Eq.
Proof. now apply bcompare_eq. Qed.

Lemma bcompare_antisym x y : bcompare y x = CompOpp (bcompare x y).
Proof.
  revert y; induction x as [|a x IH]; destruct y as [|b y]; simpl; auto.
  rewrite (N.compare_antisym (N_of_ascii a) (N_of_ascii b)).
  destruct (N.compare (N_of_ascii a) (N_of_ascii b)); simpl; auto.
Qed.

Lemma bcompare_lt_trans x y z : bcompare x y = Lt -> bcompare y z = Lt -> bcompare x z = Lt.
Proof.
  revert y z; induction x as [|a x IH]; destruct y as [|b y], z as [|c z]; simpl; try congruence.
  destruct (N.compare_spec (N_of_ascii a) (N_of_ascii b)) as [H|H|H];
  destruct (N.compare_spec (N_of_ascii b) (N_of_ascii c)) as [H'|H'|H']; try congruence; intros;
  destruct (N.compare_spec (N_of_ascii a) (N_of_ascii c)); try lia; eauto.
Qed.

Lemma bltb_lt x y : bltb x y = true <-> bcompare x y = Lt.
Proof. unfold bltb; destruct (bcompare x y); split; congruence. Qed.

Lemma bltb_irrefl x : bltb x x = false.
Proof. unfold bltb; now rewrite bcompare_refl. Qed.

Lemma bltb_trans x y z : bltb x y = true -> bltb y z = true -> bltb x z = true.
Proof. rewrite !bltb_lt; apply bcompare_lt_trans. Qed.

Lemma bltb_asym x y : bltb x y = true -> bltb y x = false.
Proof.
  intros H; destruct (bltb y x) eqn:E; auto.
  rewrite <- (bltb_irrefl x); symmetry; eapply bltb_trans; eauto.
Qed.

Lemma bltb_neq x y : bltb x y = true -> x <> y.
Proof. intros H ->; rewrite bltb_irrefl in H; discriminate. Qed.

Lemma bleb_total x y : bleb x y = true \/ bleb y x = true.
Proof. unfold bleb; rewrite (bcompare_antisym x y); destruct (bcompare x y); simpl; auto. Qed.

Lemma bleb_spec x y : bleb x y = true <-> (bltb x y = true \/ x = y).
Proof.
  unfold bleb, bltb; rewrite <- bcompare_eq; destruct (bcompare x y); split; auto; intuition congruence.
Qed.

Lemma bleb_refl x : bleb x x = true.
Proof. apply bleb_spec; auto. Qed.

Lemma bleb_antisym x y : bleb x y = true -> bleb y x = true -> x = y.
Proof.
  rewrite !bleb_spec; intros [H|H] [H'|H']; auto.
  rewrite (bltb_asym _ _ H) in H'; discriminate.
Qed.

Lemma bleb_trans x y z : bleb x y = true -> bleb y z = true -> bleb x z = true.
Proof.
  rewrite !bleb_spec; intros [H|H] [H'|H']; subst; auto.
  left; eapply bltb_trans; eauto.
Qed.

Lemma bltb_bleb x y : bltb x y = negb (bleb y x).
Proof.
  unfold bltb, bleb; rewrite (bcompare_antisym x y); destruct (bcompare x y); auto.
Qed.

Lemma btrichotomy x y : {bltb x y = true} + {x = y} + {bltb y x = true}.
Proof.
  destruct (bcompare x y) eqn:E.
  - left; right; now apply bcompare_eq.
  - left; left; now apply bltb_lt.
  - right; apply bltb_lt; rewrite bcompare_antisym, E; auto.
Qed.

(** * Sorting *)
Section SortFacts.
  Context {A : Type} (leb : A -> A -> bool).
  Hypothesis leb_total : forall x y, leb x y = true \/ leb y x = true.
  Hypothesis leb_trans : forall x y z, leb x y = true -> leb y z = true -> leb x z = true.

  Lemma insert_sorted_perm x l : Permutation (x :: l) (insert_sorted leb x l).
  Proof.
    induction l as [|y l IH]; simpl; auto.
    destruct (leb x y); auto.
    rewrite perm_swap; now constructor.
  Qed.

  Lemma isort_perm l : Permutation l (isort leb l).
  Proof.
    induction l as [|x l IH]; simpl; auto.
    rewrite IH at 1; apply insert_sorted_perm.
  Qed.

  Lemma insert_sorted_sorted x l :
    StronglySorted (fun a b => leb a b = true) l ->
    StronglySorted (fun a b => leb a b = true) (insert_sorted leb x l).
  Proof.
    induction 1 as [|y l Hs IH Hall]; simpl.
    - repeat constructor.
    - destruct (leb x y) eqn:E.
      + constructor; [constructor; auto|]. constructor; auto.
        eapply Forall_impl; [|apply Hall]; simpl; eauto.
      + assert (leb y x = true) by (destruct (leb_total x y); congruence).
        constructor; auto.
        apply Forall_forall; intros z Hz.
        apply (Permutation_in z (Permutation_sym (insert_sorted_perm x l))) in Hz.
        destruct Hz as [<-|Hz]; auto.
        rewrite Forall_forall in Hall; auto.
  Qed.

  Lemma isort_sorted l : StronglySorted (fun a b => leb a b = true) (isort leb l).
  Proof. induction l; simpl; [constructor|now apply insert_sorted_sorted]. Qed.

  Lemma isort_length l : length (isort leb l) = length l.
  Proof. symmetry; apply Permutation_length, isort_perm. Qed.

  Lemma isort_in x l : In x (isort leb l) <-> In x l.
  Proof.
    split; apply Permutation_in; [apply Permutation_sym|]; apply isort_perm.
  Qed.

  Hypothesis leb_refl : forall x, leb x x = true.

  (** Sorted permutations are unique when the order is antisymmetric on the elements present. *)
  Lemma sorted_perm_unique l1 l2 :
    (forall x y, In x l1 -> In y l1 -> leb x y = true -> leb y x = true -> x = y) ->
    StronglySorted (fun a b => leb a b = true) l1 ->
    StronglySorted (fun a b => leb a b = true) l2 ->
    Permutation l1 l2 -> l1 = l2.
  Proof.
    intros Hanti H1; revert l2 Hanti.
    induction H1 as [|x l1 Hs IH Hall]; intros l2 Hanti H2 P.
    - now apply Permutation_nil in P.
    - destruct H2 as [|y l2 Hs2 Hall2].
      + apply Permutation_sym, Permutation_nil in P; discriminate.
      + assert (x = y) as ->.
        { assert (In x (y :: l2)) as Hx by (eapply Permutation_in; [apply P|now left]).
          assert (In y (x :: l1)) as Hy by (eapply Permutation_in; [apply Permutation_sym, P|now left]).
          apply Hanti; auto; [now left| |].
          - destruct Hy as [->|Hy]; auto. rewrite Forall_forall in Hall; auto.
          - destruct Hx as [->|Hx]; auto. rewrite Forall_forall in Hall2; auto. }
        f_equal; apply IH; auto.
        * intros a b Ha Hb; apply Hanti; now right.
        * eapply Permutation_cons_inv; eauto.
  Qed.
End SortFacts.

Lemma isort_sorted_id {A} (leb : A -> A -> bool) l :
  StronglySorted (fun a b => leb a b = true) l -> isort leb l = l.
Proof.
  induction 1 as [|x l Hs IH Hall]; simpl; auto.
  rewrite IH; destruct l as [|y l]; simpl; auto.
  now rewrite (Forall_inv Hall).
Qed.

(** * Splitting and joining *)
Lemma split_on_nonempty c s : split_on c s <> [].
Proof.
  destruct s as [|a s]; simpl; [discriminate|].
  destruct (Ascii.eqb a c); [discriminate|]. destruct (split_on c s); discriminate.
Qed.

Lemma split_on_no_sep c s : ~ In c s -> split_on c s = [s].
Proof.
  induction s as [|a s IH]; simpl; auto; intros H.
  destruct (Ascii.eqb_spec a c) as [->|Hne]; [tauto|].
  rewrite IH; tauto.
Qed.

Lemma split_on_app c p s : ~ In c p -> split_on c (p ++ c :: s) = p :: split_on c s.
Proof.
  induction p as [|a p IH]; simpl; intros H.
  - now rewrite Ascii.eqb_refl.
  - destruct (Ascii.eqb_spec a c) as [->|Hne]; [tauto|].
    rewrite IH; tauto.
Qed.

Lemma split_join c ps : ps <> [] -> Forall (fun p => ~ In c p) ps -> split_on c (join_with c ps) = ps.
Proof.
  intros Hne H; induction H as [|p ps Hp Hps IH]; [congruence|].
  destruct ps as [|q ps].
  - simpl; now apply split_on_no_sep.
  - change (join_with c (p :: q :: ps)) with (p ++ c :: join_with c (q :: ps)).
    rewrite split_on_app by auto; f_equal; apply IH; discriminate.
Qed.

Lemma join_split c s : join_with c (split_on c s) = s.
Proof.
  induction s as [|a s IH]; simpl; auto.
  destruct (Ascii.eqb_spec a c) as [->|Hne].
  - destruct (split_on c s) eqn:E; [now apply split_on_nonempty in E|].
    simpl in *; now rewrite IH.
  - destruct (split_on c s) as [|p ps] eqn:E; [now apply split_on_nonempty in E|].
    destruct ps; simpl in *; now rewrite IH.
Qed.

Lemma split_on_pieces c s : Forall (fun p => ~ In c p) (split_on c s).
Proof.
  induction s as [|a s IH]; simpl; auto.
  destruct (Ascii.eqb_spec a c) as [->|Hne]; auto.
  destruct (split_on c s) as [|p ps]; [constructor; simpl; [intuition|auto]|].
  inversion IH; subst; constructor; auto. simpl; intuition.
Qed.

Lemma split_on_inj c s t : split_on c s = split_on c t -> s = t.
Proof. intros H; rewrite <- (join_split c s), <- (join_split c t); congruence. Qed.

Lemma index_byte_none c s : index_byte c s = None <-> ~ In c s.
Proof.
  induction s as [|a s IH]; simpl; [tauto|].
  destruct (Ascii.eqb_spec a c) as [->|Hne].
  - split; [discriminate|tauto].
  - destruct (index_byte c s); simpl; [split; [discriminate|]|]; intuition congruence.
Qed.

Lemma index_byte_app c p s : ~ In c p -> index_byte c (p ++ c :: s) = Some (length p).
Proof.
  induction p as [|a p IH]; simpl; intros H.
  - now rewrite Ascii.eqb_refl.
  - destruct (Ascii.eqb_spec a c) as [->|Hne]; [tauto|]. rewrite IH; tauto.
Qed.

Lemma index_byte_some c s n :
  index_byte c s = Some n ->
  ~ In c (firstn n s) /\ s = firstn n s ++ c :: skipn (S n) s /\ n < length s.
Proof.
  revert n; induction s as [|a s IH]; simpl; intros n H; [discriminate|].
  destruct (Ascii.eqb_spec a c) as [->|Hne].
  - injection H as <-; simpl; intuition lia.
  - destruct (index_byte c s) as [m|] eqn:E; simpl in H; [|discriminate].
    injection H as <-; destruct (IH m eq_refl) as (H1 & H2 & H3); simpl; repeat split.
    + intros [?|?]; congruence.
    + f_equal; auto.
    + lia.
Qed.

Lemma has_prefix_spec s p : has_prefix s p = true <-> exists r, s = p ++ r.
Proof.
  revert s; induction p as [|a p IH]; intros s; simpl.
  - destruct s; simpl; split; eauto.
  - destruct s as [|b s]; simpl.
    + split; [discriminate|intros (r & H); discriminate].
    + rewrite andb_true_iff, ascii_eqb_spec, IH; split.
      * intros (-> & r & ->); eauto.
      * intros (r & [= -> ->]); eauto.
Qed.

Lemma has_suffix_spec s p : has_suffix s p = true <-> exists r, s = r ++ p.
Proof.
  unfold has_suffix; rewrite has_prefix_spec; split; intros (r & H).
  - exists (rev r); rewrite <- (rev_involutive s), H, rev_app_distr, rev_involutive; auto.
  - exists (rev r); rewrite H, rev_app_distr; auto.
Qed.

Lemma contains_sub_spec s p : contains_sub s p = true <-> exists l r, s = l ++ p ++ r.
Proof.
  induction s as [|a s IH]; simpl.
  - rewrite orb_false_r, has_prefix_spec; split.
    + intros (r & H); exists [], r; auto.
    + intros (l & r & H). destruct l; [|discriminate]. eauto.
  - rewrite orb_true_iff, has_prefix_spec, IH; split.
    + intros [(r & H)|(l & r & ->)]; [exists [], r|exists (a :: l), r]; auto.
    + intros (l & r & H); destruct l as [|b l]; simpl in H; eauto.
      injection H as -> ->; eauto.
Qed.

(** * [list_eqb] and [map_opt] *)
Lemma list_eqb_spec {A} (eqb : A -> A -> bool) :
  (forall x y, eqb x y = true <-> x = y) ->
  forall l1 l2, list_eqb eqb l1 l2 = true <-> l1 = l2.
Proof.
  intros H; induction l1 as [|a l1 IH]; destruct l2 as [|b l2]; simpl; try (split; congruence).
  rewrite andb_true_iff, H, IH; split; [intros [-> ->]|intros [= -> ->]]; auto.
Qed.

Lemma list_eqb_forall2 {A} (eqb : A -> A -> bool) l1 l2 :
  list_eqb eqb l1 l2 = true <-> Forall2 (fun x y => eqb x y = true) l1 l2.
Proof.
  revert l2; induction l1 as [|a l1 IH]; destruct l2 as [|b l2]; simpl.
  - split; auto.
  - split; [discriminate|inversion 1].
  - split; [discriminate|inversion 1].
  - rewrite andb_true_iff, IH; split; [intros [? ?]; auto|inversion 1; auto].
Qed.

Lemma map_opt_some {A C} (f : A -> option C) l ys :
  map_opt f l = Some ys <-> Forall2 (fun x y => f x = Some y) l ys.
Proof.
  revert ys; induction l as [|x l IH]; simpl; intros ys.
  - split; [intros [= <-]; auto|inversion 1; auto].
  - destruct (f x) eqn:E.
    + destruct (map_opt f l) eqn:E2.
      * split; [intros [= <-]; constructor; auto; now apply IH|].
        inversion 1; subst; f_equal; f_equal; [congruence|].
        apply IH in H4; congruence.
      * split; [discriminate|inversion 1; subst]. apply IH in H4; discriminate.
    + split; [discriminate|inversion 1; congruence].
Qed.

Lemma map_opt_none {A C} (f : A -> option C) l :
  map_opt f l = None <-> exists x, In x l /\ f x = None.
Proof.
  induction l as [|x l IH]; simpl.
  - split; [discriminate|intros (? & [] & _)].
  - destruct (f x) eqn:E.
    + destruct (map_opt f l) eqn:E2.
      * split; [discriminate|]. intros (y & [<-|Hy] & H); [congruence|].
        assert (Some l0 = None) by (apply IH; eauto); discriminate.
      * split; auto; intros _. destruct (proj1 IH eq_refl) as (y & ? & ?); eauto.
    + split; eauto.
Qed.

Lemma map_opt_map {A C} (f : A -> option C) (g : A -> C) l :
  (forall x, In x l -> f x = Some (g x)) -> map_opt f l = Some (map g l).
Proof.
  intros H; induction l as [|x l IH]; simpl; auto.
  rewrite H by now left. rewrite IH; auto. intros; apply H; now right.
Qed.

Lemma map_opt_length {A C} (f : A -> option C) l ys : map_opt f l = Some ys -> length ys = length l.
Proof. rewrite map_opt_some; induction 1; simpl; auto. Qed.

Lemma map_opt_compose {A C D} (f : A -> option C) (g : C -> option D) (h : A -> D) l ys :
  map_opt f l = Some ys ->
  (forall x y, In x l -> f x = Some y -> g y = Some (h x)) ->
  map_opt g ys = Some (map h l).
Proof.
  rewrite map_opt_some; induction 1 as [|x y l ys Hxy _ IH]; simpl; intros H; auto.
  rewrite (H x y); auto. rewrite IH; auto.
Qed.

Lemma to_int32_id z : (- 2 ^ 31 <= z < 2 ^ 31)%Z -> to_int32 z = z.
Proof.
  intros H; unfold to_int32.
  destruct (Z.leb_spec (2 ^ 31) (z mod 2 ^ 32)) as [L|L].
  - assert (z < 0)%Z.
    { destruct (Z_lt_le_dec z 0); auto. rewrite Z.mod_small in L; lia. }
    replace z with (-1 * 2 ^ 32 + (z + 2 ^ 32))%Z at 1 by lia.
    rewrite Z.add_comm, Z_mod_plus_full, Z.mod_small; lia.
  - destruct (Z_lt_le_dec z 0).
    + exfalso. replace z with (z + 2 ^ 32 + (-1) * 2 ^ 32)%Z in L by lia.
      rewrite Z_mod_plus_full, Z.mod_small in L; lia.
    + apply Z.mod_small; lia.
Qed.

(** Distinct sorted names: sorted by a strict order. *)
Lemma strongly_sorted_map {A C} (f : A -> C) (R : C -> C -> Prop) l :
  StronglySorted R (map f l) <-> StronglySorted (fun x y => R (f x) (f y)) l.
Proof.
  induction l as [|x l IH]; simpl; split; intros H; try constructor; inversion H; subst.
  - now apply IH.
  - now rewrite Forall_map in H3.
  - now apply IH.
  - now rewrite Forall_map.
Qed.

Lemma strongly_sorted_impl {A} (R S : A -> A -> Prop) l :
  (forall x y, R x y -> S x y) -> StronglySorted R l -> StronglySorted S l.
Proof.
  intros H; induction 1; constructor; auto.
  eapply Forall_impl; [|eassumption]; auto.
Qed.

Lemma strongly_sorted_nodup {A} (R : A -> A -> Prop) l :
  (forall x, ~ R x x) -> StronglySorted R l -> NoDup l.
Proof.
  intros H; induction 1; constructor; auto.
  intros Hin; rewrite Forall_forall in H1; apply (H a); auto.
Qed.
