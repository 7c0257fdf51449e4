(** Proofs about rule histories, cutovers and matches over a window. *)
From Coq Require Import Ascii String Arith NArith ZArith Bool Lia Permutation Sorting.Sorted List.
From Verif.Base Require Import Bytes BytesFacts.
From Verif.Model Require Import AggType Policy Transformation Pipeline Metadata Filter MetricID Rules.
From Verif.Spec Require Import AggSpec MetadataSpec RulesSpec.
Import ListNotations.
Open Scope Z_scope.

(** ** The snapshot in effect *)
Section History.
  Context {P : Type}.
  Implicit Types (l : list (snapshot P)) (s : snapshot P) (r : rule P).

  Lemma active_index_from_some l n t i :
    (n <= length l)%nat -> active_index_from l n t = Some i ->
    (i < n)%nat /\ (exists s, nth_error l i = Some s /\ sn_cutover s <= t) /\
    forall k s, (i < k < n)%nat -> nth_error l k = Some s -> t < sn_cutover s.
  Proof.
    induction n as [|n IH]; cbn [active_index_from]; intros Hn H; [discriminate|].
    destruct (nth_error l n) as [s|] eqn:E; [|discriminate].
    destruct (Z.ltb_spec t (sn_cutover s)) as [Hlt|Hge].
    - destruct (IH ltac:(lia) H) as (H1 & H2 & H3). split; [lia|]. split; auto.
      intros k s' Hk Hs. destruct (Nat.eq_dec k n) as [->|]; [congruence|]. apply (H3 k); auto; lia.
    - injection H as <-. split; [lia|]. split; [eauto|]. intros; lia.
  Qed.

  Lemma active_index_from_none l n t :
    (n <= length l)%nat -> active_index_from l n t = None ->
    forall k s, (k < n)%nat -> nth_error l k = Some s -> t < sn_cutover s.
  Proof.
    induction n as [|n IH]; cbn [active_index_from]; intros Hn H; [intros; lia|].
    destruct (nth_error l n) as [s|] eqn:E.
    - destruct (Z.ltb_spec t (sn_cutover s)) as [Hlt|Hge]; [|discriminate].
      intros k s' Hk Hs. destruct (Nat.eq_dec k n) as [->|]; [congruence|]. apply (IH ltac:(lia) H k); auto; lia.
    - apply nth_error_None in E; lia.
  Qed.

  Lemma active_index_effect l t i :
    active_index l t = Some i -> exists s, nth_error l i = Some s /\ sn_cutover s <= t /\
      Forall (fun s' => t < sn_cutover s') (skipn (S i) l).
  Proof.
    intros H; apply active_index_from_some in H as (Hi & (s & Hs & Hc) & Hk); auto.
    exists s; split; auto; split; auto. apply Forall_forall; intros s' H'.
    apply In_nth_error in H' as (k & Hk').
    apply (Hk (S i + k)%nat).
    - split; [lia|]. assert (k < length (skipn (S i) l))%nat by (apply nth_error_Some; congruence).
      rewrite skipn_length in *; lia.
    - rewrite <- Hk'. clear. revert l; induction (S i) as [|n IH]; intros l; auto.
      destruct l; simpl; auto. destruct k; auto.
  Qed.

  Lemma split_skipn {A} (l : list A) i a : nth_error l i = Some a -> l = firstn i l ++ a :: skipn (S i) l.
  Proof.
    revert l; induction i as [|i IH]; intros [|x l] H; try discriminate; simpl in *.
    - now injection H as ->.
    - f_equal; auto.
  Qed.

  Lemma in_effect_unique l t s s' : in_effect l t s -> in_effect l t s' -> s = s'.
  Proof.
    intros (b & a & E & Hc & Ha) (b' & a' & E' & Hc' & Ha').
    subst l. revert b' E'. induction b as [|x b IH]; intros [|x' b'] E'; simpl in *.
    - now injection E'.
    - exfalso. injection E' as -> E'. subst a. rewrite Forall_app in Ha; destruct Ha as [_ Ha].
      inversion Ha; subst; lia.
    - exfalso. injection E' as <- E'. subst a'. rewrite Forall_app in Ha'; destruct Ha' as [_ Ha'].
      inversion Ha'; subst; lia.
    - injection E' as -> E'; eauto.
  Qed.

  Lemma active_snapshot_none r t :
    active_snapshot r t = None <-> Forall (fun s => t < sn_cutover s) (ru_snapshots r).
  Proof.
    unfold active_snapshot. destruct (active_index (ru_snapshots r) t) as [i|] eqn:E.
    - destruct (active_index_effect _ _ _ E) as (s & Hs & Hc & _). rewrite Hs. split; [discriminate|].
      rewrite Forall_forall; intros H. apply nth_error_In in Hs; apply H in Hs; lia.
    - split; auto. intros _. apply Forall_forall; intros s Hs. apply In_nth_error in Hs as (k & Hk).
      apply (active_index_from_none _ _ _ (le_n _) E k); auto. apply nth_error_Some; congruence.
  Qed.

  Lemma active_snapshot_effect r t s : active_snapshot r t = Some s -> in_effect (ru_snapshots r) t s.
  Proof.
    unfold active_snapshot. destruct (active_index (ru_snapshots r) t) as [i|] eqn:E; [|discriminate].
    destruct (active_index_effect _ _ _ E) as (s' & Hs & Hc & Ha). rewrite Hs; intros [= ->].
    exists (firstn i (ru_snapshots r)), (skipn (S i) (ru_snapshots r)); split; auto. now apply split_skipn.
  Qed.

  Lemma active_snapshot_some r t s : active_snapshot r t = Some s <-> in_effect (ru_snapshots r) t s.
  Proof.
    split; [apply active_snapshot_effect|]. intros H.
    destruct (active_snapshot r t) as [s'|] eqn:E.
    - f_equal; eapply in_effect_unique; eauto; now apply active_snapshot_effect.
    - exfalso. apply active_snapshot_none in E. destruct H as (b & a & Eq & Hc & _). rewrite Eq in E.
      apply Forall_app in E as [_ E]; inversion E; subst; lia.
  Qed.

  Lemma in_effect_ascending l t s :
    ascending l ->
    in_effect l t s -> In s l /\ sn_cutover s <= t /\ forall s', In s' l -> sn_cutover s' <= t -> sn_cutover s' <= sn_cutover s.
  Proof.
    intros Hs (b & a & E & Hc & Ha). subst l. split; [apply in_elt|]. split; auto.
    intros s' Hin Hle. apply in_app_or in Hin as [Hin|[<-|Hin]]; [|lia|].
    - clear Ha. induction b as [|x b IH]; [destruct Hin|]. simpl in Hs; inversion Hs as [|? ? Hs' Hf]; subst.
      destruct Hin as [<-|Hin]; [|now apply IH]. rewrite Forall_forall in Hf; apply Hf, in_elt.
    - rewrite Forall_forall in Ha. apply Ha in Hin; lia.
  Qed.

  (** Moving between instants. *)
  Lemma in_effect_move l t u s :
    in_effect l t s -> sn_cutover s <= u -> (forall s', In s' l -> t < sn_cutover s' -> u < sn_cutover s') ->
    in_effect l u s.
  Proof.
    intros (b & a & E & Hc & Ha) Hu Hn. exists b, a; split; auto; split; auto.
    rewrite Forall_forall in *; intros s' H'. apply Hn; auto. subst l; apply in_or_app; right; now right.
  Qed.

  Lemma in_effect_earlier l t u s : in_effect l t s -> sn_cutover s <= u -> u <= t -> in_effect l u s.
  Proof. intros H Hu Hle; eapply in_effect_move; eauto; intros; lia. Qed.

  Lemma in_effect_skipn l i t s :
    (i < length l)%nat -> (exists s0, nth_error l i = Some s0 /\ sn_cutover s0 <= t) ->
    in_effect l t s <-> in_effect (skipn i l) t s.
  Proof.
    intros Hi (s0 & H0 & Hc0). split.
    - intros (b & a & E & Hc & Ha). exists (skipn i b), a.
      assert (Hb : (i <= length b)%nat).
      { destruct (le_lt_dec i (length b)) as [|Hlt]; auto. exfalso. subst l.
        rewrite nth_error_app2 in H0 by lia. destruct (i - length b)%nat eqn:En; [lia|]. simpl in H0.
        apply nth_error_In in H0. rewrite Forall_forall in Ha; apply Ha in H0; lia. }
      subst l. rewrite skipn_app. replace (i - length b)%nat with 0%nat by lia. auto.
    - intros (b & a & E & Hc & Ha). exists (firstn i l ++ b), a. rewrite <- app_assoc, <- E, firstn_skipn; auto.
  Qed.

  Lemma active_rule_snapshot r t0 t : t0 <= t -> active_snapshot (active_rule r t0) t = active_snapshot r t.
  Proof.
    intros Hle. unfold active_rule. destruct (active_index (ru_snapshots r) t0) as [i|] eqn:E; auto.
    destruct (active_index_effect _ _ _ E) as (s0 & Hs & Hc & _).
    assert (Hi : (i < length (ru_snapshots r))%nat) by (apply nth_error_Some; congruence).
    assert (Hx : exists s0, nth_error (ru_snapshots r) i = Some s0 /\ sn_cutover s0 <= t)
      by (exists s0; split; auto; lia).
    destruct (active_snapshot r t) as [s|] eqn:Es.
    - apply active_snapshot_some. cbn [ru_snapshots]. rewrite <- in_effect_skipn; auto.
      now apply active_snapshot_some.
    - exfalso. apply active_snapshot_none in Es. rewrite Forall_forall in Es. apply nth_error_In in Hs.
      apply Es in Hs; lia.
  Qed.

  Lemma active_rule_changes r t0 c : ascending (ru_snapshots r) -> t0 < c ->
    (exists s, In s (ru_snapshots (active_rule r t0)) /\ sn_cutover s = c) <->
    (exists s, In s (ru_snapshots r) /\ sn_cutover s = c).
  Proof.
    intros Hs Hc. unfold active_rule. destruct (active_index (ru_snapshots r) t0) as [i|] eqn:E; [|tauto].
    destruct (active_index_effect _ _ _ E) as (s0 & H0 & Hc0 & _). cbn [ru_snapshots]. split.
    - intros (s & Hin & He); exists s; split; auto. rewrite <- (firstn_skipn i); apply in_or_app; auto.
    - intros (s & Hin & He); exists s; split; auto. rewrite <- (firstn_skipn i) in Hin.
      apply in_app_or in Hin as [Hin|]; auto. exfalso.
      rewrite (split_skipn _ _ _ H0) in Hs. clear - Hs Hin Hc0 Hc He.
      induction (firstn i (ru_snapshots r)) as [|x b IH]; [destruct Hin|]. simpl in Hs; inversion Hs as [|? ? Hs' Hf]; subst.
      destruct Hin as [<-|Hin]; [|now apply IH]. rewrite Forall_forall in Hf. specialize (Hf s0 (in_elt _ _ _)); lia.
  Qed.
End History.

(** ** The cutover list *)

Lemma strict_of_sorted_nodup l : StronglySorted (fun a b => Z.leb a b = true) l -> NoDup l -> StronglySorted Z.lt l.
Proof.
  induction 1 as [|x l Hs IH Hf]; intros Hn; constructor; inversion Hn; subst; auto.
  rewrite Forall_forall in *; intros y Hy. specialize (Hf y Hy). apply Z.leb_le in Hf.
  assert (x <> y) by congruence. lia.
Qed.

Lemma cutovers_sorted ms rs : StronglySorted Z.lt (isort Z.leb (nodup Z.eq_dec (all_cutovers ms rs))).
Proof.
  apply strict_of_sorted_nodup.
  - apply isort_sorted.
    + intros x y; destruct (Z.leb_spec x y), (Z.leb_spec y x); auto; lia.
    + intros x y z H1 H2; apply Z.leb_le in H1, H2; apply Z.leb_le; lia.
  - eapply Permutation_NoDup; [apply isort_perm|]. apply NoDup_nodup.
Qed.

Lemma cutovers_in ms rs c : In c (isort Z.leb (nodup Z.eq_dec (all_cutovers ms rs))) <-> is_change ms rs c.
Proof.
  rewrite isort_in, nodup_In. unfold all_cutovers, is_change. rewrite in_app_iff, !in_flat_map. split.
  - intros [(r & Hr & H)|(r & Hr & H)]; apply in_map_iff in H as (s & He & Hs); [left|right]; exists r, s; auto.
  - intros [(r & s & Hr & Hs & He)|(r & s & Hr & Hs & He)]; [left|right]; exists r; split; auto; apply in_map_iff; eauto.
Qed.

Lemma sorted_nth (l : list Z) i j : StronglySorted Z.lt l -> (i < j < length l)%nat -> nth i l 0 < nth j l 0.
Proof.
  intros Hs; revert i j; induction Hs as [|x l Hs IH Hf]; intros i j H; simpl in H; [lia|].
  destruct j as [|j]; [lia|]. destruct i as [|i]; simpl.
  - rewrite Forall_forall in Hf; apply Hf, nth_In; lia.
  - apply IH; lia.
Qed.

Lemma cutover_search_spec l t : StronglySorted Z.lt l -> forall fuel i j,
  (i <= j <= length l)%nat -> (j - i < fuel)%nat ->
  (forall k, (k < i)%nat -> nth k l 0 <= t) -> (forall k, (j <= k < length l)%nat -> t < nth k l 0) ->
  let x := cutover_search fuel l t i j in
  (x <= length l)%nat /\ (forall k, (k < x)%nat -> nth k l 0 <= t) /\ (forall k, (x <= k < length l)%nat -> t < nth k l 0).
Proof.
  intros Hs; induction fuel as [|fuel IH]; intros i j Hij Hf Hi Hj; [lia|]. cbn [cutover_search].
  destruct (Nat.ltb_spec i j) as [Hlt|Hge].
  2:{ assert (i = j) by lia; subst. split; [lia|]. auto. }
  assert (Hd : (Nat.div2 (j - i) < j - i)%nat) by (apply Nat.lt_div2; lia).
  set (h := (i + Nat.div2 (j - i))%nat) in *. cbv zeta.
  destruct (Z.leb_spec (nth h l 0) t) as [Hle|Hgt].
  - apply IH; try lia; auto. intros k Hk. destruct (Nat.eq_dec k h) as [->|]; auto.
    assert (nth k l 0 < nth h l 0) by (apply sorted_nth; auto; lia). lia.
  - apply IH; try lia; auto. intros k Hk. destruct (Nat.eq_dec k h) as [->|]; auto.
    assert (nth h l 0 < nth k l 0) by (apply sorted_nth; auto; lia). lia.
Qed.

Lemma next_cutover_idx_spec a t : StronglySorted Z.lt (as_cutovers a) ->
  let x := next_cutover_idx a t in
  (x <= length (as_cutovers a))%nat /\
  (forall c, In c (firstn x (as_cutovers a)) -> c <= t) /\
  (forall c, In c (skipn x (as_cutovers a)) -> t < c).
Proof.
  intros Hs. unfold next_cutover_idx. cbv zeta.
  destruct (cutover_search_spec _ t Hs (S (length (as_cutovers a))) 0 (length (as_cutovers a))) as (H1 & H2 & H3);
    try lia; try (intros; lia).
  set (x := cutover_search _ _ _ _ _) in *. split; auto. split.
  - intros c Hc. apply (In_nth _ _ 0) in Hc as (k & Hk & <-). rewrite firstn_length in Hk.
    rewrite <- (H2 k) by lia. rewrite <- (firstn_skipn x (as_cutovers a)) at 2.
    rewrite app_nth1; [lia|]. rewrite firstn_length; lia.
  - intros c Hc. apply (In_nth _ _ 0) in Hc as (k & Hk & <-). rewrite skipn_length in Hk.
    specialize (H3 (x + k)%nat ltac:(lia)).
    rewrite <- (firstn_skipn x (as_cutovers a)) in H3.
    rewrite app_nth2 in H3 by (rewrite firstn_length; lia). rewrite firstn_length in H3.
    now replace (x + k - Nat.min x (length (as_cutovers a)))%nat with k in H3 by lia.
Qed.

(** ** The loops over the cutovers *)

Fixpoint take_while {A} (f : A -> bool) (l : list A) : list A :=
  match l with [] => [] | x :: l => if f x then x :: take_while f l else [] end.

Lemma take_while_filter f l : StronglySorted Z.lt l -> (forall x y, x < y -> f y = true -> f x = true) ->
  take_while f l = List.filter f l.
Proof.
  intros Hs Hf; induction Hs as [|x l Hs IH Hall]; simpl; auto. destruct (f x) eqn:E; [now rewrite IH|].
  symmetry; clear IH Hs. induction l as [|y l IH]; simpl; auto. inversion Hall; subst.
  destruct (f y) eqn:Ey; [rewrite (Hf x y) in E; auto; discriminate|]. auto.
Qed.

Lemma take_while_prefix {A} (f : A -> bool) l : firstn (length (take_while f l)) l = take_while f l.
Proof. induction l as [|x l IH]; simpl; auto. destruct (f x); simpl; auto. now rewrite IH. Qed.

Lemma skipn_nth_error {A} (l : list A) i :
  skipn i l = match nth_error l i with Some x => x :: skipn (S i) l | None => [] end.
Proof.
  revert i; induction l as [|x l IH]; intros [|i]; auto. change (skipn (S i) (x :: l)) with (skipn i l).
  change (nth_error (x :: l) (S i)) with (nth_error l i). rewrite IH. destruct (nth_error l i); auto.
Qed.

Lemma nth_error_skipn_add {A} (l : list A) i k : nth_error (skipn i l) k = nth_error l (i + k).
Proof. revert i; induction l as [|x l IH]; intros [|i]; simpl; auto. destruct k; auto. Qed.

Section Loops.
  Variable a : active_ruleset.

  Definition step_existing (id : bytes) (e : staged_metadatas) (c : Z) : staged_metadatas :=
    merge_existing e (fst (forward_match_at a id c)) c.
  Definition step_news (id : bytes) (n : list id_with_metadatas) (c : Z) : list id_with_metadatas :=
    merge_news n (snd (forward_match_at a id c)) c.

  Lemma forward_loop_spec id to : forall fuel idx e n,
    (length (as_cutovers a) - idx <= fuel)%nat ->
    let cs := take_while (fun c => c <? to) (skipn idx (as_cutovers a)) in
    forward_loop fuel a id to idx e n =
      ((idx + length cs)%nat, fold_left (step_existing id) cs e, fold_left (step_news id) cs n).
  Proof.
    induction fuel as [|fuel IH]; intros idx e n Hf; cbv zeta; cbn [forward_loop].
    - rewrite skipn_all2 by lia. simpl. now rewrite Nat.add_0_r.
    - rewrite skipn_nth_error. unfold cutover_at.
      destruct (nth_error (as_cutovers a) idx) as [c|] eqn:E.
      + assert (idx < length (as_cutovers a))%nat by (apply nth_error_Some; congruence).
        rewrite (proj2 (Nat.ltb_lt _ _)) by auto. cbn [andb take_while].
        destruct (c <? to) eqn:Ec; cbn [length fold_left]; [|now rewrite Nat.add_0_r].
        destruct (forward_match_at a id c) as [e' n'] eqn:Em.
        assert (He : step_existing id e c = merge_existing e e' c) by (unfold step_existing; now rewrite Em).
        assert (Hn : step_news id n c = merge_news n n' c) by (unfold step_news; now rewrite Em).
        rewrite IH by lia. cbv zeta. rewrite He, Hn. f_equal; f_equal; lia.
      + apply nth_error_None in E. rewrite (proj2 (Nat.ltb_ge _ _)) by lia. cbn [andb take_while length fold_left].
        now rewrite Nat.add_0_r.
  Qed.

  Definition step_reverse (id : bytes) mt at_ multi opts (e : staged_metadatas) (c : Z) : staged_metadatas :=
    merge_found e (reverse_mappings_for a id c mt at_ multi opts) c.

  Lemma reverse_loop_spec id to mt at_ multi opts : forall fuel idx e,
    (length (as_cutovers a) - idx <= fuel)%nat ->
    let cs := take_while (fun c => c <? to) (skipn idx (as_cutovers a)) in
    reverse_loop fuel a id to idx mt at_ multi opts e =
      ((idx + length cs)%nat, fold_left (step_reverse id mt at_ multi opts) cs e).
  Proof.
    induction fuel as [|fuel IH]; intros idx e Hf; cbv zeta; cbn [reverse_loop].
    - rewrite skipn_all2 by lia. simpl. now rewrite Nat.add_0_r.
    - rewrite skipn_nth_error. unfold cutover_at.
      destruct (nth_error (as_cutovers a) idx) as [c|] eqn:E.
      + assert (idx < length (as_cutovers a))%nat by (apply nth_error_Some; congruence).
        rewrite (proj2 (Nat.ltb_lt _ _)) by auto. cbn [andb take_while].
        destruct (c <? to) eqn:Ec; cbn [length fold_left]; [|now rewrite Nat.add_0_r].
        rewrite IH by lia. cbv zeta. f_equal; lia.
      + apply nth_error_None in E. rewrite (proj2 (Nat.ltb_ge _ _)) by lia. cbn [andb take_while length fold_left].
        now rewrite Nat.add_0_r.
  Qed.

  (** The changes inside the window and the one that ends it. *)
  Definition window (from to : Z) : list Z := List.filter (fun c => (from <? c) && (c <? to)) (as_cutovers a).
  Definition expiry (from to : Z) : Z :=
    match List.filter (fun c => (from <? c) && (to <=? c)) (as_cutovers a) with [] => time_max | c :: _ => c end.

  Hypothesis Hsorted : StronglySorted Z.lt (as_cutovers a).

  Lemma filter_ext_in_list {A} (f g : A -> bool) l : (forall x, In x l -> f x = g x) -> List.filter f l = List.filter g l.
  Proof. intros H; induction l as [|x l IH]; simpl; auto. rewrite H by now left. rewrite IH; auto. intros; apply H; now right. Qed.

  Lemma filter_false {A} (f : A -> bool) l : (forall x, In x l -> f x = false) -> List.filter f l = [].
  Proof. intros H; induction l as [|x l IH]; simpl; auto. rewrite H by now left. apply IH; intros; apply H; now right. Qed.

  Lemma sorted_skipn {A} (R : A -> A -> Prop) l i : StronglySorted R l -> StronglySorted R (skipn i l).
  Proof. intros H; revert i; induction H as [|x l Hs IH Hf]; intros [|i]; simpl; auto; constructor; auto. Qed.

  Lemma window_shape from to :
    let idx := next_cutover_idx a from in
    let cs := take_while (fun c => c <? to) (skipn idx (as_cutovers a)) in
    cs = window from to /\ cutover_at a (idx + length cs) = expiry from to.
  Proof.
    destruct (next_cutover_idx_spec a from Hsorted) as (H1 & H2 & H3). cbv zeta in *.
    set (idx := next_cutover_idx a from) in *.
    assert (Hsk : StronglySorted Z.lt (skipn idx (as_cutovers a))) by now apply sorted_skipn.
    rewrite take_while_filter; auto.
    2:{ intros x y Hxy Hy; apply Z.ltb_lt in Hy; apply Z.ltb_lt; lia. }
    split.
    - unfold window. rewrite <- (firstn_skipn idx (as_cutovers a)) at 2. rewrite filter_app, (filter_false _ (firstn idx (as_cutovers a))), app_nil_l.
      + apply filter_ext_in_list; intros x Hx. apply H3 in Hx. now rewrite (proj2 (Z.ltb_lt from x) Hx).
      + intros x Hx. apply H2 in Hx. now rewrite (proj2 (Z.ltb_ge from x) Hx).
    - unfold expiry. rewrite <- (firstn_skipn idx (as_cutovers a)) at 2. rewrite filter_app, (filter_false _ (firstn idx (as_cutovers a))), app_nil_l.
      2:{ intros x Hx. apply H2 in Hx. now rewrite (proj2 (Z.ltb_ge from x) Hx). }
      unfold cutover_at.
      assert (En : nth_error (as_cutovers a) (idx + length (List.filter (fun c => c <? to) (skipn idx (as_cutovers a))))
                   = nth_error (skipn idx (as_cutovers a)) (length (List.filter (fun c => c <? to) (skipn idx (as_cutovers a))))).
      { symmetry; apply nth_error_skipn_add. }
      rewrite En. clear En. revert Hsk H3. generalize (skipn idx (as_cutovers a)) as l.
      induction l as [|x l IH]; simpl; intros Hs Hgt; auto. inversion Hs as [|? ? Hs' Hf]; subst.
      assert (from < x) by (apply Hgt; auto). rewrite (proj2 (Z.ltb_lt from x)) by auto. cbn [andb].
      destruct (Z.ltb_spec x to) as [Hx|Hx].
      + simpl. rewrite (proj2 (Z.leb_gt _ _)) by lia. apply IH; auto.
      + rewrite (filter_false (fun c => c <? to)); simpl.
        2:{ intros y Hy. rewrite Forall_forall in Hf; apply Hf in Hy. apply Z.ltb_ge; lia. }
        now rewrite (proj2 (Z.leb_le _ _)) by lia.
  Qed.

  Lemma forward_match_shape id from to :
    forward_match a id from to =
      mk_mr (as_version a) (expiry from to)
        (fold_left (step_existing id) (window from to) [fst (forward_match_at a id from)])
        (fold_left (step_news id) (window from to) (snd (forward_match_at a id from))).
  Proof.
    unfold forward_match. destruct (forward_match_at a id from) as [e n] eqn:E.
    rewrite forward_loop_spec by lia. destruct (window_shape from to) as [-> ->]. reflexivity.
  Qed.

  Lemma reverse_match_shape id from to mt at_ multi opts :
    reverse_match a id from to mt at_ multi opts =
      mk_mr (as_version a) (expiry from to)
        (fold_left (step_reverse id mt at_ multi opts) (window from to)
           (merge_found [] (reverse_mappings_for a id from mt at_ multi opts) from)) [].
  Proof.
    unfold reverse_match. rewrite reverse_loop_spec by lia. destruct (window_shape from to) as [-> ->]. reflexivity.
  Qed.
End Loops.
