(** Slices under construction: appending, removing, de-duplicating, filtering and sorting in place. *)
From Coq Require Import Ascii String Arith NArith ZArith Bool Lia Permutation List.
From Verif.Proof Require Import MemProof MemSep RuleMemCopy RuleMemRules MatchMemSep.
From Verif.Base Require Import Bytes Mem.
From Verif.Model Require Import AggType Policy Transformation Pipeline Metadata Filter MetricID Rules RuleSet
  RuleMem MatchMem.
From Verif.Spec Require Import RuleMemSpec MatchMemSpec.
Import ListNotations.
Open Scope nat_scope.

Arguments mk_it {X}. Arguments it_v {X}. Arguments it_x {X}. Arguments it_w {X}. Arguments it_f {X}.
Notation vals L := (map it_v L).
Notation xs L := (map it_x L).
Notation own L := (flat_map it_w L).
Notation looks L := (flat_map it_f L).

Lemma in_own {X} (i : item X) L p : In i L -> In p (it_w i) -> In p (own L).
Proof. intros H K. apply in_flat_map. eauto. Qed.
Lemma in_looks {X} (i : item X) L l : In i L -> In l (it_f i) -> In l (looks L).
Proof. intros H K. apply in_flat_map. eauto. Qed.
Lemma own_incl {X} (L L' : list (item X)) : incl L' L -> incl (own L') (own L).
Proof. intros H p Hp. apply in_flat_map in Hp. destruct Hp as (i & Hi & K). exact (in_own i L p (H i Hi) K). Qed.
Lemma looks_incl {X} (L L' : list (item X)) : incl L' L -> incl (looks L') (looks L).
Proof. intros H p Hp. apply in_flat_map in Hp. destruct Hp as (i & Hi & K). exact (in_looks i L p (H i Hi) K). Qed.

(** * In place, whatever the elements are *)

Lemma edits_impl {X} A (e : prog X) m (Q Q' : X -> memory -> Prop) :
  edits A e m Q -> (forall x m', m_next m' = m_next m -> (forall p, ~ In p A -> m_at m' p = m_at m p) -> Q x m' -> Q' x m') ->
  edits A e m Q'.
Proof. intros (x & m' & E & N & S & H) K. exists x, m'. auto. Qed.

Lemma layout_shift m s vs v w ws : layout m s (vs ++ v :: w :: ws) ->
  edits (arr s) (bind (upto s (length vs)) (fun head => bind (from s (S (length vs)))
                   (fun tail => append_all (fun _ => O) head tail))) m
    (fun s' m' => layout m' s' (vs ++ w :: ws) /\ arr s' = arr s).
Proof.
  destruct s as [| | |a off len cap|]; cbn [layout]; try contradiction.
  - intro H. destruct vs; discriminate.
  - intros (H1 & H2 & E). set (cells := m_at m a) in *. set (i := length vs).
    assert (len = i + S (S (length ws)) /\ off + len <= length cells) as [Hi Hl].
    { apply (f_equal (@length _)) in E. rewrite app_length, firstn_length, skipn_length in E. cbn [length] in E. unfold i. lia. }
    assert (firstn (len - S i) (skipn (off + S i) cells) = w :: ws) as Et.
    { replace (skipn (off + S i) cells) with (skipn (S i) (skipn off cells)) by apply skipn_twice.
      assert (len - S i + S i = len) as El by lia.
      rewrite firstn_skipn_comm. replace (S i + (len - S i)) with len by lia. rewrite E.
      rewrite skipn_app. unfold i. rewrite skipn_all2 by lia. replace (S (length vs) - length vs) with 1 by lia. reflexivity. }
    set (m' := put a (write_at (off + i) (w :: ws) cells) m).
    exists (VSlice a off (i + length (w :: ws)) cap), m'.
    split; [|split; [|split]].
    + unfold bind, upto, from, ret, append_all. fold i.
      rewrite (proj2 (Nat.leb_le i cap)) by lia. rewrite (proj2 (Nat.leb_le (S i) len)) by lia.
      unfold bind. cbn [elems]. fold cells. rewrite (proj2 (Nat.leb_le (off + S i + (len - S i)) _)) by lia. rewrite Et.
      rewrite (proj2 (Nat.leb_le (i + length (w :: ws)) cap)) by (cbn [length]; lia). reflexivity.
    + reflexivity.
    + intros p Hp. apply at_put_other. intros ->. apply Hp. left. reflexivity.
    + split; [|reflexivity]. cbn [layout length]. unfold m'. rewrite at_put_same.
      assert (firstn (off + i) cells = firstn off cells ++ vs) as Ef.
      { rewrite <- (firstn_skipn off cells) at 1. rewrite firstn_app, firstn_firstn, Nat.min_r by lia.
        rewrite firstn_length, Nat.min_l by lia. f_equal. replace (off + i - off) with i by lia.
        transitivity (firstn i (firstn len (skipn off cells))); [rewrite firstn_firstn, Nat.min_l by lia; reflexivity|].
        rewrite E. unfold i. rewrite firstn_app, firstn_all, Nat.sub_diag. apply app_nil_r. }
      unfold write_at. rewrite Ef. split; [lia|]. split.
      * rewrite !app_length, firstn_length, skipn_length. cbn [length]. fold i. lia.
      * rewrite <- !app_assoc. rewrite skipn_app, firstn_length, (Nat.min_l off) by lia. rewrite Nat.sub_diag.
        rewrite skipn_all2 by (rewrite firstn_length; lia). cbn [app skipn]. rewrite app_comm_cons, (app_assoc vs).
        rewrite firstn_app. rewrite firstn_all2 by (rewrite app_length; cbn [length]; fold i; lia).
        rewrite app_length. cbn [length]. fold i. replace (i + S (length ws) - (i + S (length ws))) with 0 by lia.
        apply app_nil_r.
Qed.

Lemma nth_split_at {A} i (l : list A) x : nth_error l i = Some x -> l = firstn i l ++ x :: skipn (S i) l /\ length (firstn i l) = i.
Proof.
  revert l. induction i as [|i IH]; intros [|y l] H; cbn [nth_error] in H; try discriminate.
  - injection H as ->. split; reflexivity.
  - destruct (IH l H) as [E L]. cbn [firstn skipn app length]. split; [f_equal; exact E|]. rewrite L. reflexivity.
Qed.

(** removing elements, on any list *)
Fixpoint rem_by {A} (d : A -> bool) (n : nat) (l : list A) : list A :=
  match n with
  | O => l
  | S i => rem_by d i (match nth_error l i with
                       | Some x => if d x then l else remove_at i l
                       | None => l
                       end)
  end.
Lemma remove_at_map {A C} (f : A -> C) i l : remove_at i (map f l) = map f (remove_at i l).
Proof.
  unfold remove_at. rewrite map_length. destruct (Nat.eqb i (length l - 1)).
  - apply firstn_map.
  - rewrite map_app, firstn_map, skipn_map. reflexivity.
Qed.
Lemma rem_by_drops n l : remove_drops n l = rem_by (fun p => drop_is_default (pm_drop p)) n l.
Proof.
  revert l. induction n as [|n IH]; intro l; [reflexivity|]. cbn [remove_drops rem_by]. cbv zeta. rewrite IH.
  destruct (nth_error l n) as [x|]; [|reflexivity]. destruct (drop_is_default (pm_drop x)); reflexivity.
Qed.
Lemma rem_by_map {A C} (f : A -> C) d n l : rem_by d n (map f l) = map f (rem_by (fun x => d (f x)) n l).
Proof.
  revert l. induction n as [|n IH]; intro l; [reflexivity|]. cbn [rem_by]. rewrite nth_error_map.
  destruct (nth_error l n) as [x|]; cbn [option_map]; [|apply IH]. destruct (d (f x)); [apply IH|].
  rewrite remove_at_map. apply IH.
Qed.
Lemma remove_at_incl {A} i (l : list A) : incl (remove_at i l) l.
Proof.
  unfold remove_at. intros x Hx. destruct (Nat.eqb i (length l - 1)).
  - rewrite <- (firstn_skipn i l). apply in_or_app. auto.
  - apply in_app_or in Hx. destruct Hx as [Hx|Hx].
    + rewrite <- (firstn_skipn i l). apply in_or_app. auto.
    + rewrite <- (firstn_skipn (S i) l). apply in_or_app. auto.
Qed.
Lemma rem_by_incl {A} d n (l : list A) : incl (rem_by d n l) l.
Proof.
  revert l. induction n as [|n IH]; intro l; [apply incl_refl|]. cbn [rem_by]. intros x Hx. apply IH in Hx.
  destruct (nth_error l n) as [y|]; [|exact Hx]. destruct (d y); [exact Hx|]. exact (remove_at_incl _ _ x Hx).
Qed.

Lemma remove_in_place_ok (d : val -> bool) n : forall s vs m,
  layout m s vs -> n <= length vs -> (forall v, In v vs -> exists z, drop_field v = ret z /\ drop_is_default z = d v) ->
  edits (arr s) (remove_in_place n s) m (fun s' m' => layout m' s' (rem_by d n vs) /\ arr s' = arr s).
Proof.
  induction n as [|i IH]; intros s vs m Hl Hn Hd.
  { apply edits_ret. auto. }
  cbn [remove_in_place rem_by].
  destruct (nth_error vs i) as [v|] eqn:Ev; [|apply nth_error_None in Ev; lia].
  eapply edits_read; [exact (layout_index _ _ _ _ _ Hl Ev)|].
  destruct (Hd v (nth_error_In _ _ Ev)) as (z & -> & Hz). eapply edits_read; [reflexivity|]. rewrite Hz.
  destruct (d v); [exact (IH s vs m Hl ltac:(lia) Hd)|].
  eapply edits_read; [exact (layout_len _ _ _ Hl)|]. unfold remove_at.
  destruct (Nat.eqb i (length vs - 1)) eqn:Ei.
  - destruct (layout_upto m s vs i Hl ltac:(lia)) as (s' & E & Hl' & Ha).
    eapply edits_read; [exact E|]. rewrite <- Ha. apply (IH s' (firstn i vs) m Hl').
    + rewrite firstn_length. lia.
    + intros w Hw. apply Hd. rewrite <- (firstn_skipn i vs). apply in_or_app. auto.
  - apply Nat.eqb_neq in Ei. destruct (nth_split_at _ _ _ Ev) as [Es Li].
    destruct (skipn (S i) vs) as [|w ws] eqn:Ek.
    { apply (f_equal (@length _)) in Ek. rewrite skipn_length in Ek. cbn [length] in Ek. lia. }
    rewrite Es in Hl. pose proof (layout_shift m s _ v w ws Hl) as Hsh. rewrite Li in Hsh.
    destruct Hsh as (s' & m' & E & N & S' & Hl' & Ha).
    assert (edits (arr s) (remove_in_place i s') m' (fun s2 m2 => layout m2 s2 (rem_by d i (firstn i vs ++ w :: ws)) /\ arr s2 = arr s')) as (s2 & m2 & E2 & N2 & S2 & H2 & Ha2).
    { rewrite <- Ha. apply (IH s' (firstn i vs ++ w :: ws) m' Hl').
      - rewrite app_length, Li. lia.
      - intros u Hu. apply Hd. rewrite Es. rewrite in_app_iff in *. cbn [In] in *. tauto. }
    exists s2, m2. split; [|split; [congruence|split; [|split; [exact H2|congruence]]]].
    + unfold bind in *. destruct (upto s i m) as [[h mh]|] eqn:Eu; [|discriminate].
      destruct (from s (S i) mh) as [[t mt]|]; [|discriminate]. rewrite E. exact E2.
    + intros p Hp. rewrite S2 by exact Hp. apply S'. exact Hp.
Qed.

(** zeroing the rest *)
Lemma zero_rest_ok z : forall ws s vs m,
  layout m s (vs ++ ws) ->
  edits (arr s) (each (fun i => set_elem s i z) (seq (length vs) (length ws))) m
    (fun _ m' => exists ws', layout m' s (vs ++ ws') /\ length ws' = length ws).
Proof.
  induction ws as [|w ws IH]; intros s vs m Hl; cbn [length seq each].
  - apply edits_ret. exists []. auto.
  - eapply edits_bind; [exact (layout_set _ _ _ _ _ z Hl)|]. intros ? m1 _ _ Hl1.
    assert (vs ++ z :: ws = (vs ++ [z]) ++ ws) as E by (rewrite <- app_assoc; reflexivity).
    rewrite E in Hl1. eapply edits_bind.
    { replace (S (length vs)) with (length (vs ++ [z])) by (rewrite app_length; cbn [length]; lia). exact (IH s _ m1 Hl1). }
    intros ? m2 _ _ (ws' & Hl2 & L). apply edits_ret. exists (z :: ws'). rewrite <- app_assoc in Hl2. split; [exact Hl2|].
    cbn [length]. congruence.
Qed.

(** writing all elements *)
Lemma write_all_ok : forall us ws s vs m,
  layout m s (vs ++ ws) -> length us = length ws ->
  edits (arr s) (each (fun ie => set_elem s (fst ie) (snd ie)) (combine (seq (length vs) (length us)) us)) m
    (fun _ m' => layout m' s (vs ++ us)).
Proof.
  induction us as [|u us IH]; intros [|w ws] s vs m Hl Hn; try discriminate; cbn [length seq combine each].
  - apply edits_ret. exact Hl.
  - cbn [fst snd]. eapply edits_bind; [exact (layout_set _ _ _ _ _ u Hl)|]. intros ? m1 _ _ Hl1.
    assert (vs ++ u :: ws = (vs ++ [u]) ++ ws) as E by (rewrite <- app_assoc; reflexivity).
    rewrite E in Hl1. eapply edits_bind.
    { replace (S (length vs)) with (length (vs ++ [u])) by (rewrite app_length; cbn [length]; lia).
      apply (IH ws s _ m1 Hl1). cbn [length] in Hn. lia. }
    intros ? m2 _ _ Hl2. apply edits_ret. rewrite <- app_assoc in Hl2. exact Hl2.
Qed.

Lemma isort_map {A C} (f : A -> C) (le : A -> A -> bool) (le' : C -> C -> bool) :
  (forall a b, le' (f a) (f b) = le a b) -> forall l, isort le' (map f l) = map f (isort le l).
Proof.
  intro H. assert (forall x l, insert_sorted le' (f x) (map f l) = map f (insert_sorted le x l)) as Hi.
  { intros x l. induction l as [|y l IH]; [reflexivity|]. cbn [map insert_sorted]. rewrite H.
    destruct (le x y); [reflexivity|]. cbn [map]. rewrite IH. reflexivity. }
  induction l as [|x l IH]; [reflexivity|]. cbn [map isort]. rewrite IH. apply Hi.
Qed.
Lemma isort_permutation {A} (le : A -> A -> bool) l : Permutation l (isort le l).
Proof.
  assert (forall x l, Permutation (x :: l) (insert_sorted le x l)) as Hi.
  { intros x k. induction k as [|y k IH]; [reflexivity|]. cbn [insert_sorted]. destruct (le x y); [reflexivity|].
    rewrite perm_swap. constructor. exact IH. }
  induction l as [|x l IH]; [constructor|]. cbn [isort]. rewrite <- Hi. constructor. exact IH.
Qed.

(** * Slices of items *)

Section Slice.
  Context (m0 : memory) (G : list look) (HG : Forall (fun l => addr l < m_next m0) G).
  Notation ok := (ok m0 G).
  Notation run := (run m0 G).

  Section Items.
    Context {X : Type} (T : memory -> item X -> Prop).
    Context (T_frame : forall m m' i, T m i -> same m m' (it_w i) (it_f i) -> T m' i).

    Definition slice (m : memory) (s : val) (L : list (item X)) : Prop := layout m s (vals L) /\ Forall (T m) L.

    Lemma items_frame m m' L : Forall (T m) L -> same m m' (own L) (looks L) -> Forall (T m') L.
    Proof.
      intros H Hs. apply Forall_forall. intros i Hi. apply (T_frame m); [exact (proj1 (Forall_forall _ _) H i Hi)|].
      apply (same_incl _ _ _ _ _ _ Hs); intros p Hp; [exact (in_own i L p Hi Hp)|exact (in_looks i L p Hi Hp)].
    Qed.
    Lemma slice_frame m m' s L : slice m s L -> same m m' (arr s ++ own L) (looks L) -> slice m' s L.
    Proof.
      intros [Hl Hf] Hs. split.
      - apply (layout_same m); [exact Hl|]. intros p Hp. apply Hs. left. apply in_or_app. auto.
      - apply (items_frame m); [exact Hf|]. apply (same_incl _ _ _ _ _ _ Hs); [apply incl_appr, incl_refl|apply incl_refl].
    Qed.

    (** a step that leaves a slice of items that were there before *)
    Lemma slice_step (e : prog val) m m' s s' L L' :
      ok m (arr s ++ own L) (looks L) -> Forall (T m) L ->
      e m = Some (s', m') -> m_next m <= m_next m' ->
      (forall p, p < m_next m -> ~ In p (arr s) -> m_at m' p = m_at m p) ->
      (forall p, In p (arr s') -> In p (arr s) \/ m_next m <= p < m_next m') ->
      layout m' s' (vals L') -> incl L' L -> NoDup (own L') ->
      run (arr s ++ own L) (looks L) e m
        (fun s2 m2 W F => s2 = s' /\ m2 = m' /\ slice m2 s2 L' /\ W = arr s2 ++ own L' /\ F = looks L').
    Proof.
      intros Hok Hf E Hn Hk Ha Hl Hi Hnd. pose proof Hok as (H0 & H1 & H2 & H3).
      assert (kept (arr s ++ own L) m m') as Hkept.
      { split; [exact Hn|]. intros p Hp K. apply Hk; [exact Hp|]. intro J. apply K. apply in_or_app. auto. }
      assert (same m m' (own L) (looks L)) as Hs.
      { apply (kept_same m0 G m (arr s) [] (own L) (looks L)); [exact Hok|]. split; auto. }
      exists s', m', (arr s' ++ own L'), (looks L'). split; [exact E|]. split; [exact Hkept|].
      pose proof (ok_kept m0 G _ _ _ _ Hok Hkept) as (J0 & _ & J2 & J3).
      assert (forall p, In p (arr s') -> ~ In p (own L)) as Hdis.
      { intros p Hp K. destruct (Ha p Hp) as [J|J].
        - clear - H1 J K. induction (arr s) as [|q W IH]; [contradiction|]. cbn [app] in H1. inversion H1; subst.
          destruct J as [->|J]; [|auto]. apply H2. apply in_or_app. auto.
        - specialize (H2 p (in_or_app _ _ _ (or_intror K))). lia. }
      split; [|split; [|split]].
      - split; [exact J0|]. split; [|split].
        + clear - Hdis Hnd Hi. pose proof (own_incl _ _ Hi) as Ho.
          destruct s' as [| | |a off len cap|]; cbn [arr app] in *; try exact Hnd. constructor; [|exact Hnd].
          intro K. exact (Hdis a (or_introl eq_refl) (Ho a K)).
        + intros p Hp. apply in_app_or in Hp. destruct Hp as [Hp|Hp].
          * destruct (Ha p Hp) as [J|J]; [apply J2; apply in_or_app; auto|]. pose proof (proj1 H0). lia.
          * apply J2. apply in_or_app. right. exact (own_incl _ _ Hi p Hp).
        + intros l Hl2. apply (looks_incl _ _ Hi) in Hl2. destruct (J3 l Hl2) as (A & B & C). split; [exact A|]. split; [exact B|].
          rewrite in_app_iff in *. intros [K|K].
          * destruct (Ha _ K) as [J|J]; [tauto|]. destruct (H3 l Hl2). lia.
          * apply C. right. exact (own_incl _ _ Hi _ K).
      - intros p Hp. apply in_app_or in Hp. destruct Hp as [Hp|Hp].
        + destruct (Ha p Hp) as [J|J]; [left; apply in_or_app; auto|right; lia].
        + left. apply in_or_app. right. exact (own_incl _ _ Hi p Hp).
      - intros l Hl2. left. exact (looks_incl _ _ Hi l Hl2).
      - repeat split; auto. pose proof (items_frame _ _ _ Hf Hs) as Hf'. apply Forall_forall. intros i Hin.
        exact (proj1 (Forall_forall _ _) Hf' i (Hi i Hin)).
    Qed.

    (** a slice that is changed in place *)
    Lemma slice_edit (e : prog val) m s L L' :
      ok m (arr s ++ own L) (looks L) -> Forall (T m) L ->
      edits (arr s) e m (fun s' m' => layout m' s' (vals L') /\ arr s' = arr s) ->
      incl L' L -> NoDup (own L') ->
      run (arr s ++ own L) (looks L) e m
        (fun s2 m2 W F => slice m2 s2 L' /\ W = arr s2 ++ own L' /\ F = looks L').
    Proof.
      intros Hok Hf (s' & m' & E & N & S' & Hl & Ha) Hi Hnd.
      eapply run_impl; [eapply (slice_step e m m' s s' L L'); auto|].
      - lia.
      - intros p Hp. left. rewrite Ha in Hp. exact Hp.
      - intros x m2 W F _ _ (-> & -> & H). exact H.
    Qed.

    Lemma ok_nodup m W F W2 : ok m (W2 ++ W) F -> NoDup W.
    Proof.
      intros (_ & H & _). induction W2 as [|p W2 IH]; [exact H|]. apply IH. cbn [app] in H. inversion H. assumption.
    Qed.

    Lemma at_new m cells : m_at (mk_mem (m_at (put (m_next m) cells m)) (S (m_next m))) (m_next m) = cells :> list val.
    Proof. apply at_alloc. Qed.

    Lemma append_run grow m s L i :
      slice m s L -> T m i -> ok m (arr s ++ own (L ++ [i])) (looks (L ++ [i])) ->
      run (arr s ++ own (L ++ [i])) (looks (L ++ [i])) (append grow s (it_v i)) m
        (fun s2 m2 W F => slice m2 s2 (L ++ [i]) /\ W = arr s2 ++ own (L ++ [i]) /\ F = looks (L ++ [i])).
    Proof.
      intros [Hl Hf] Hi Hok.
      assert (Forall (T m) (L ++ [i])) as Hf2 by (apply Forall_app; auto).
      assert (NoDup (own (L ++ [i]))) as Hnd by exact (ok_nodup _ _ _ _ Hok).
      assert (forall s' m', append grow s (it_v i) m = Some (s', m') -> m_next m <= m_next m' ->
        (forall p, p < m_next m -> ~ In p (arr s) -> m_at m' p = m_at m p) ->
        (forall p, In p (arr s') -> In p (arr s) \/ m_next m <= p < m_next m') ->
        layout m' s' (vals (L ++ [i])) ->
        run (arr s ++ own (L ++ [i])) (looks (L ++ [i])) (append grow s (it_v i)) m
          (fun s2 m2 W F => slice m2 s2 (L ++ [i]) /\ W = arr s2 ++ own (L ++ [i]) /\ F = looks (L ++ [i]))) as Hstep.
      { intros s' m' E Hn Hk Ha Hl'. eapply run_impl; [eapply (slice_step _ m m' s s' (L ++ [i]) (L ++ [i])); auto; apply incl_refl|].
        intros x m2 W F _ _ (-> & -> & H). exact H. }
      destruct s as [| | |a off len cap|]; cbn [layout] in Hl; try contradiction.
      - eapply Hstep; [cbn [append]; reflexivity| | | |]; cbn [m_next].
        + lia.
        + intros p Hp _. apply (proj2 (old_alloc m _)). exact Hp.
        + cbn [arr]. intros p [<-|[]]. right. lia.
        + rewrite map_app, Hl. cbn [layout app map length skipn]. rewrite at_new. cbn [length firstn]. repeat split; lia.
      - destruct Hl as (H1 & H2 & E). cbn [append] in Hstep |- *. destruct (len <? cap) eqn:Ec.
        + apply Nat.ltb_lt in Ec.
          eapply Hstep; [reflexivity| | | |]; cbn [m_next put].
          * lia.
          * intros p Hp Hn. cbn [arr] in Hn. apply at_put_other. intros ->. apply Hn. left. reflexivity.
          * cbn [arr]. intros p [<-|[]]. left. left. reflexivity.
          * cbn [layout]. rewrite at_put_same, set_cell_length. split; [lia|]. split; [lia|].
            rewrite map_app. cbn [map]. rewrite <- E. rewrite firstn_skipn_comm. replace (off + S len) with (S (off + len)) by lia.
            rewrite set_cell_firstn_S by lia. rewrite skipn_app, firstn_length, Nat.min_l by lia.
            replace (off - (off + len)) with 0 by lia. cbn [skipn]. rewrite <- firstn_skipn_comm. reflexivity.
        + eapply Hstep; [reflexivity| | | |]; cbn [m_next].
          * lia.
          * intros p Hp _. apply (proj2 (old_alloc m _)). exact Hp.
          * cbn [arr]. intros p [<-|[]]. right. lia.
          * cbn [layout skipn]. rewrite at_new. rewrite app_length. cbn [length]. rewrite repeat_length.
            assert (length (firstn len (skipn off (m_at m a))) = len) as L1 by (rewrite firstn_length, skipn_length; lia).
            rewrite L1. split; [lia|]. split; [lia|]. rewrite map_app. cbn [map]. rewrite <- E.
            rewrite firstn_app, L1. replace (S len - len) with 1 by lia. rewrite firstn_all2 by lia. reflexivity.
    Qed.

    (** appending all items of a list *)
    Lemma append_all_run grow m s L t L2 :
      slice m s L -> slice m t L2 -> ok m (arr s ++ own (L ++ L2)) (looks (L ++ L2)) ->
      run (arr s ++ own (L ++ L2)) (looks (L ++ L2)) (append_all grow s t) m
        (fun s2 m2 W F => slice m2 s2 (L ++ L2) /\ W = arr s2 ++ own (L ++ L2) /\ F = looks (L ++ L2)).
    Proof.
      intros [Hl Hf] [Hl2 Hf2] Hok. unfold append_all.
      assert (Forall (T m) (L ++ L2)) as Hf3 by (apply Forall_app; auto).
      assert (NoDup (own (L ++ L2))) as Hnd by exact (ok_nodup _ _ _ _ Hok).
      eapply run_read; [exact (layout_elems _ _ _ Hl2)|]. match goal with |- MatchMemSep.run _ _ _ _ ?x _ _ => set (e := x) end.
      assert (forall s' m', e m = Some (s', m') -> m_next m <= m_next m' ->
        (forall p, p < m_next m -> ~ In p (arr s) -> m_at m' p = m_at m p) ->
        (forall p, In p (arr s') -> In p (arr s) \/ m_next m <= p < m_next m') ->
        layout m' s' (vals (L ++ L2)) ->
        run (arr s ++ own (L ++ L2)) (looks (L ++ L2)) e m
          (fun s2 m2 W F => slice m2 s2 (L ++ L2) /\ W = arr s2 ++ own (L ++ L2) /\ F = looks (L ++ L2))) as Hstep.
      { intros s' m' E Hn Hk Ha Hl'. eapply run_impl; [eapply (slice_step _ m m' s s' (L ++ L2) (L ++ L2)); auto; apply incl_refl|].
        intros x m2 W F _ _ (-> & -> & H). exact H. }
      rewrite map_app in Hstep. destruct (vals L2) as [|v vs] eqn:Ev.
      { apply (Hstep s m eq_refl); auto. rewrite app_nil_r. exact Hl. }
      set (n := length (v :: vs)) in *.
      destruct s as [| | |a off len cap|]; cbn [layout] in Hl; try contradiction.
      - eapply Hstep; [reflexivity| | | |]; cbn [m_next].
        + lia.
        + intros p Hp _. apply (proj2 (old_alloc m _)). exact Hp.
        + cbn [arr]. intros p [<-|[]]. right. lia.
        + rewrite Hl. cbn [layout skipn app]. rewrite at_new. split; [cbn [length]; rewrite app_length; unfold n; cbn [length]; lia|].
          split; [lia|]. unfold n. cbn [length firstn]. f_equal. rewrite firstn_app, firstn_all, Nat.sub_diag. apply app_nil_r.
      - destruct Hl as (H1 & H2 & E). destruct (Nat.leb (len + n) cap) eqn:Ec.
        + pose proof (proj1 (Nat.leb_le _ _) Ec) as Hc.
          assert (e m = Some (VSlice a off (len + n) cap, put a (write_at (off + len) (v :: vs) (m_at m a)) m)) as Ee.
          { reflexivity. }
          eapply Hstep; [exact Ee| | | |]; cbn [m_next put].
          * lia.
          * intros p Hp Hn. cbn [arr] in Hn. apply at_put_other. intros ->. apply Hn. left. reflexivity.
          * cbn [arr]. intros p [<-|[]]. left. left. reflexivity.
          * cbn [layout]. rewrite at_put_same. unfold write_at. fold n. rewrite <- E.
            assert (length (firstn (off + len) (m_at m a)) = off + len) as L1 by (rewrite firstn_length; lia).
            split; [lia|]. split; [rewrite !app_length, skipn_length, L1; fold n; lia|].
            rewrite firstn_skipn_comm. rewrite firstn_app, firstn_all2 by lia. rewrite L1.
            replace (off + (len + n) - (off + len)) with n by lia. rewrite firstn_app. fold n. rewrite Nat.sub_diag. cbn [firstn].
            rewrite app_nil_r. unfold n. rewrite firstn_all. rewrite skipn_app, L1. replace (off - (off + len)) with 0 by lia. cbn [skipn].
            rewrite <- firstn_skipn_comm. reflexivity.
        + assert (e m = Some (let cells := firstn len (skipn off (m_at m a)) ++ (v :: vs) ++ repeat VNil (grow (len + n)) in
            (VSlice (m_next m) 0 (len + n) (length cells), mk_mem (m_at (put (m_next m) cells m)) (S (m_next m))))) as Ee.
          { reflexivity. }
          eapply Hstep; [exact Ee| | | |]; cbn [m_next].
          * lia.
          * intros p Hp _. apply (proj2 (old_alloc m _)). exact Hp.
          * cbn [arr]. intros p [<-|[]]. right. lia.
          * cbn [layout skipn]. rewrite at_new. rewrite E.
            assert (length (vals L) = len) as L1 by (rewrite <- E, firstn_length, skipn_length; lia).
            rewrite !app_length, repeat_length, L1. fold n. split; [lia|]. split; [lia|].
            rewrite app_assoc, firstn_app, app_length, L1. fold n. rewrite Nat.sub_diag. cbn [firstn]. rewrite app_nil_r.
            apply firstn_all2. rewrite app_length, L1. fold n. lia.
    Qed.

    Lemma make_slice_run m L :
      Forall (T m) L -> ok m (own L) (looks L) ->
      run (own L) (looks L) (make_slice (vals L)) m
        (fun s2 m2 W F => slice m2 s2 L /\ W = arr s2 ++ own L /\ F = looks L).
    Proof.
      intros Hf Hok. change (own L) with (arr (VNil : val) ++ own L).
      eapply run_impl; [eapply (slice_step _ m _ VNil _ L L); [exact Hok|exact Hf|reflexivity| | | | | |]; cbn [m_next]|].
      - lia.
      - intros p Hp _. apply (proj2 (old_alloc m _)). exact Hp.
      - cbn [arr]. intros p [<-|[]]. right. lia.
      - cbn [layout skipn]. rewrite at_new. split; [lia|]. split; [lia|]. apply firstn_all.
      - apply incl_refl.
      - exact (proj1 (proj2 Hok)).
      - intros x m2 W F _ _ (-> & -> & H). exact H.
    Qed.

    Lemma make_empty_run n m W F :
      ok m W F -> run W F (make_empty n) m (fun s2 m2 W' F' => slice m2 s2 [] /\ W' = arr s2 ++ W /\ F' = F /\ old m m2).
    Proof.
      intro Hok. pose proof (old_alloc m (repeat VNil n)) as Ho.
      eexists _, _, (m_next m :: W), F. split; [reflexivity|]. split; [exact (old_kept _ _ _ Ho)|].
      pose proof (proj1 (proj1 Hok)) as N0. pose proof (ok_kept m0 G _ _ _ _ Hok (old_kept _ _ W Ho)) as (A & B & C & D).
      split; [|split; [|split]].
      - split; [exact A|]. split; [|split].
        + constructor; [|exact B]. intro K. pose proof (proj1 (proj2 (proj2 Hok)) _ K). lia.
        + intros p [<-|Hp]; [cbn [m_next]; lia|exact (C p Hp)].
        + intros l Hl. destruct (D l Hl) as (K1 & K2 & K3). split; [exact K1|]. split; [exact K2|].
          intros [K|K]; [|contradiction]. pose proof (proj1 (proj2 (proj2 (proj2 Hok)) l Hl)). lia.
      - intros p [<-|Hp]; auto.
      - auto.
      - split; [|auto]. split; [|constructor]. cbn [layout map skipn]. rewrite at_new, repeat_length. repeat split; lia.
    Qed.

    (** an element of a slice is replaced *)
    Lemma nth_items (L : list (item X)) i it : nth_error L i = Some it -> nth_error (vals L) i = Some (it_v it).
    Proof. intro H. rewrite nth_error_map, H. reflexivity. Qed.

    Lemma set_elem_run m s L1 i L2 j :
      slice m s (L1 ++ i :: L2) -> T m j -> ok m (arr s ++ own (L1 ++ j :: L2)) (looks (L1 ++ j :: L2)) ->
      run (arr s ++ own (L1 ++ j :: L2)) (looks (L1 ++ j :: L2)) (set_elem s (length L1) (it_v j)) m
        (fun _ m2 W F => slice m2 s (L1 ++ j :: L2) /\ W = arr s ++ own (L1 ++ j :: L2) /\ F = looks (L1 ++ j :: L2)).
    Proof.
      intros [Hl Hf] Hj Hok. rewrite map_app in Hl. cbn [map] in Hl.
      assert (Forall (T m) (L1 ++ j :: L2)) as Hf2.
      { rewrite Forall_app in *. destruct Hf as [A B]. inversion B; subst. auto. }
      destruct (layout_set _ _ _ _ _ (it_v j) Hl) as ([] & m' & E & N & S' & Hl'). rewrite map_length in E.
      assert (run (arr s ++ own (L1 ++ j :: L2)) (looks (L1 ++ j :: L2)) (bind (set_elem s (length L1) (it_v j)) (fun _ => ret s)) m
        (fun s2 m2 W F => s2 = s /\ m2 = m' /\ slice m2 s2 (L1 ++ j :: L2) /\ W = arr s2 ++ own (L1 ++ j :: L2) /\ F = looks (L1 ++ j :: L2))) as H.
      { eapply (slice_step _ m m' s s); auto.
        - unfold bind. rewrite E. reflexivity.
        - lia.
        - rewrite map_app. exact Hl'.
        - apply incl_refl.
        - exact (ok_nodup _ _ _ _ Hok). }
      destruct H as (x & m2 & W & F & E2 & H1 & H2 & H3 & H4 & -> & -> & H5).
      exists tt, m', W, F. split; [exact E|]. auto 10.
    Qed.

    (** what is seen of it *)
    Lemma slice_shows (t : X -> tree) m s L :
      (forall i, T m i -> exists f, shows m (it_v i) (t (it_x i)) f /\ forall l, In l f -> In (addr l) (it_w i) \/ In l (it_f i)) ->
      slice m s L ->
      exists f, shows m s (TList (map t (xs L))) f /\ forall l, In l f -> In (addr l) (arr s ++ own L) \/ In l (looks L).
    Proof.
      intros Ht [Hl Hf].
      assert (exists f, shows_all m (vals L) (map t (xs L)) f /\ forall l, In l f -> In (addr l) (own L) \/ In l (looks L)) as (f & Hs & Hfl).
      { clear Hl. induction Hf as [|i L Hi Hf IH].
        - exists []. split; [constructor|intros l []].
        - destruct (Ht i Hi) as (f1 & Hs1 & K1). destruct IH as (f2 & Hs2 & K2). exists (f1 ++ f2).
          split; [constructor; assumption|]. intros l Hin. cbn [flat_map]. rewrite !in_app_iff. apply in_app_or in Hin.
          destruct Hin as [Hin|Hin]; [destruct (K1 l Hin)|destruct (K2 l Hin)]; auto. }
      destruct s as [| | |a off len cap|]; cbn [layout] in Hl; try contradiction.
      - destruct L; [|discriminate]. exists []. split; [constructor|intros l []].
      - destruct Hl as (H1 & H2 & E). exists (Upto a (off + len) :: f). split.
        + constructor; [lia|]. rewrite E. exact Hs.
        + intros l [<-|Hin]; [left; left; reflexivity|]. rewrite in_app_iff. destruct (Hfl l Hin); auto.
    Qed.
  End Items.
End Slice.
