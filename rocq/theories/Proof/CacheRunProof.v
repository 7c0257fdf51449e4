(** Every action of the cache keeps the invariant and serves what it may. *)
From Coq Require Import Arith ZArith Bool Lia List.
From Verif Require Import Base.Bytes Base.BytesFacts Base.BMap Base.BMapFacts
  Model.Rules Model.CacheList Model.Cache Spec.CacheListSpec Spec.CacheSpec
  Proof.CacheListProof Proof.CacheProof.
Import ListNotations.
Local Open Scope nat_scope.

Definition dead_of (c : cache) : list nat := c_pending c ++ map snd (concat (c_to_delete c)).

Definition tokens (o : cache_opts) (c : cache) : Prop :=
  ((co_capacity o + co_evict_batch o < dl_len (ls_list (c_ls c)))%Z -> c_evict c || c_evicting c = true) /\
  (c_to_delete c <> [] -> c_delete c || c_deleting c = true).

Definition Inv (c : cache) (q g : list nat) (tr : list event) : Prop :=
  inv (c_ls c) q g (c_alloc c) (c_ns c) (dead_of c) (map fst (c_readers c)) tr.

Lemma inv_len s q g al m dead rd tr :
  inv s q g al m dead rd tr -> dl_len (ls_list s) = Z.of_nat (length q).
Proof. intros [i_ref0 i_al0 i_dead0 i_reg0 i_none0 i_rd0 i_ord0]. apply i_ref0. Qed.

Lemma inv_nodup s q g al m dead rd tr : inv s q g al m dead rd tr -> NoDup q.
Proof. intros [i_ref0 i_al0 i_dead0 i_reg0 i_none0 i_rd0 i_ord0]. destruct i_ref0 as (K & _). rewrite known_nodup in K. apply K. Qed.

Lemma inv_tail s q g al m dead rd tr :
  inv s q g al m dead rd tr -> dl_tail (ls_list s) = lasto q.
Proof. intros [i_ref0 i_al0 i_dead0 i_reg0 i_none0 i_rd0 i_ord0]. destruct i_ref0 as (_ & L & _). apply L. Qed.

Lemma drop_length a q : length (drop_elem a q) <= length q.
Proof.
  unfold drop_elem. induction q as [|b q IH]; cbn; [lia|]. destruct (negb _); cbn; lia.
Qed.

Lemma in_maps_seq s q g al m dead rd tr a :
  inv s q g al m dead rd tr -> in_maps m a -> In a q /\ ~ In a dead /\ a < al.
Proof.
  intros [i_ref0 i_al0 i_dead0 i_reg0 i_none0 i_rd0 i_ord0] (ns & r & id & H1 & H2). destruct (i_reg0 ns r H1) as [_ X].
  destruct (X id a H2) as (X1 & _ & _ & X2 & _). repeat split; auto.
  apply i_al0. rewrite in_app_iff. tauto.
Qed.

Lemma dead_not_in_maps s q g al m dead rd tr a :
  inv s q g al m dead rd tr -> In a dead -> ~ in_maps m a.
Proof. intros I H X. destruct (in_maps_seq _ _ _ _ _ _ _ _ _ I X) as (_ & Y & _). auto. Qed.

(** the entry of an element is the only one that leads to it *)
Lemma dropped_not_in_maps s q g al m dead rd tr ns r id a :
  inv s q g al m dead rd tr -> bget m ns = Some r ->
  el_ns (ls_heap s a) = ns -> el_id (ls_heap s a) = id ->
  ~ in_maps (bset m ns (mk_results (bdel (r_elems r) id) (r_source r))) a.
Proof.
  intros [i_ref0 i_al0 i_dead0 i_reg0 i_none0 i_rd0 i_ord0] Hr En Ei (n & r' & i & H1 & H2). apply bset_in in H1 as [[-> ->]|[H1 N]].
  - cbn in H2. apply bdel_in in H2 as [H2 N]. apply bget_in in Hr.
    destruct (i_reg0 ns r Hr) as [_ X]. destruct (X i a H2) as (_ & _ & X3 & _). congruence.
  - destruct (i_reg0 n r' H1) as [_ X]. destruct (X i a H2) as (_ & X2 & _). congruence.
Qed.

(** ** Eviction *)

Lemma evict_loop_ok o tr :
  (0 <= co_capacity o)%Z ->
  forall fuel c q g,
  inv (c_ls c) q g (c_alloc c) (c_ns c) (dead_of c) [] tr ->
  length q <= fuel ->
  exists c' g', evict_loop fuel o c = Some c' /\
    inv (c_ls c') (firstn (Z.to_nat (co_capacity o)) q) g' (c_alloc c') (c_ns c') (dead_of c') [] tr /\
    c_to_delete c' = c_to_delete c /\ c_pending c' = c_pending c /\ c_alloc c' = c_alloc c /\
    c_evict c' = c_evict c /\ c_evicting c' = c_evicting c /\
    c_delete c' = c_delete c /\ c_deleting c' = c_deleting c /\
    c_readers c' = c_readers c /\ c_closed c' = c_closed c.
Proof.
  intros Hc. induction fuel as [|fuel IH]; intros c q g I Hf.
  - destruct q; [|cbn in Hf; lia]. pose proof (inv_len _ _ _ _ _ _ _ _ I) as EL. cbn in EL.
    exists c, g. cbn [evict_loop]. rewrite EL.
    assert (0 <=? co_capacity o = true)%Z as -> by (apply Z.leb_le; exact Hc).
    rewrite firstn_nil. split; [reflexivity|]. split; [exact I|]. repeat split.
  - pose proof (inv_len _ _ _ _ _ _ _ _ I) as EL. cbn [evict_loop].
    destruct (dl_len (ls_list (c_ls c)) <=? co_capacity o)%Z eqn:Le.
    + apply Z.leb_le in Le. exists c, g. rewrite firstn_all2 by lia.
      split; [reflexivity|]. split; [exact I|]. repeat split.
    + apply Z.leb_gt in Le. rewrite (inv_tail _ _ _ _ _ _ _ _ I).
      destruct (lasto q) as [a|] eqn:Eq.
      2: { apply lasto_none in Eq. subst. cbn in EL. lia. }
      apply lasto_some in Eq as [l ->].
      assert (Al : a < c_alloc c) by (apply (i_al _ _ _ _ _ _ _ _ I); rewrite in_app_iff; left; apply in_elt).
      assert (Dr : drop_elem a (l ++ [a]) = l).
      { rewrite (drop_split a l []); [apply app_nil_r|]. exact (inv_nodup _ _ _ _ _ _ _ _ I). }
      assert (Fn : firstn (Z.to_nat (co_capacity o)) (l ++ [a]) = firstn (Z.to_nat (co_capacity o)) l).
      { rewrite app_length in EL. cbn in EL. rewrite firstn_app.
        replace (Z.to_nat (co_capacity o) - length l) with 0 by lia. cbn. apply app_nil_r. }
      rewrite app_length in Hf. cbn in Hf.
      cbn zeta.
      change (c_ns (with_ls c (list_remove (c_ls c) (Some a)))) with (c_ns c).
      destruct (bget (c_ns c) (el_ns (ls_heap (c_ls c) a))) as [r|] eqn:Eb.
      * set (m' := bset (c_ns c) (el_ns (ls_heap (c_ls c) a))
                     (mk_results (bdel (r_elems r) (el_id (ls_heap (c_ls c) a))) (r_source r))).
        assert (I1 : inv (c_ls c) (l ++ [a]) g (c_alloc c) m' (dead_of c) [] tr).
        { eapply inv_drop_entry; [exact I|exact Eb|intros ? []]. }
        assert (Nm : ~ in_maps m' a).
        { eapply dropped_not_in_maps; [exact I|exact Eb|reflexivity|reflexivity]. }
        destruct (inv_remove _ _ _ _ _ _ _ _ a I1 Al Nm) as (q' & g' & E1 & I2 & _ & _).
        rewrite Dr in E1. subst q'.
        destruct (IH (with_ns (with_ls c (list_remove (c_ls c) (Some a))) m') l g' I2 ltac:(lia))
          as (c' & g'' & F1 & F2 & F3).
        exists c', g''. rewrite Fn. split; [exact F1|]. split; [exact F2|exact F3].
      * assert (Nm : ~ in_maps (c_ns c) a).
        { intros (n & r & i & H1 & H2). destruct (i_reg _ _ _ _ _ _ _ _ I n r H1) as [_ X].
          destruct (X i a H2) as (_ & X2 & _). rewrite X2 in Eb. exact (bget_none _ _ Eb r H1). }
        destruct (inv_remove _ _ _ _ _ _ _ _ a I Al Nm) as (q' & g' & E1 & I2 & _ & _).
        rewrite Dr in E1. subst q'.
        destruct (IH (with_ls c (list_remove (c_ls c) (Some a))) l g' I2 ltac:(lia))
          as (c' & g'' & F1 & F2 & F3).
        exists c', g''. rewrite Fn. split; [exact F1|]. split; [exact F2|exact F3].
Qed.

Lemma do_evict_ok o c q g tr :
  (0 <= co_capacity o)%Z ->
  inv (c_ls c) q g (c_alloc c) (c_ns c) (dead_of c) [] tr ->
  exists c' g', do_evict o c = Some c' /\
    inv (c_ls c') (firstn (Z.to_nat (co_capacity o)) q) g' (c_alloc c') (c_ns c') (dead_of c') [] tr /\
    c_to_delete c' = c_to_delete c /\ c_pending c' = c_pending c /\ c_alloc c' = c_alloc c /\
    c_evict c' = c_evict c /\ c_evicting c' = c_evicting c /\
    c_delete c' = c_delete c /\ c_deleting c' = c_deleting c /\
    c_readers c' = c_readers c /\ c_closed c' = c_closed c.
Proof.
  intros Hc I. unfold do_evict. apply (evict_loop_ok o tr Hc _ c q g); [exact I|].
  rewrite (inv_len _ _ _ _ _ _ _ _ I). lia.
Qed.

(** ** One action *)

Definition served_ok (tr ev : list event) : Prop :=
  forall u ns id from to res a v, ev = u ++ EvServe ns id from to res a :: v ->
    may_serve (tr ++ u) ns id from to res.

Lemma served_ok_none tr ev :
  (forall ns id from to res a, ~ In (EvServe ns id from to res a) ev) -> served_ok tr ev.
Proof. intros H u ns id from to res a v E. exfalso. apply (H ns id from to res a). rewrite E. apply in_elt. Qed.

Lemma served_ok_last tr ev ns id from to res a :
  (forall ns id from to res a, ~ In (EvServe ns id from to res a) ev) ->
  may_serve (tr ++ ev) ns id from to res ->
  served_ok tr (ev ++ [EvServe ns id from to res a]).
Proof.
  intros H M u n i f t x b v E. symmetry in E.
  apply split_app in E as [(k & E1 & E2)|(k & E1 & E2)].
  - exfalso. apply (H n i f t x b). rewrite E1. apply in_elt.
  - destruct k as [|k0 k]; cbn in E1.
    + injection E1 as <- <- <- <- <- <- <-. rewrite E2, app_nil_r. exact M.
    + injection E1 as _ E1. destruct k; discriminate.
Qed.

Lemma answered_may_serve tr ns s id from to res :
  registered tr ns = Some s -> answered tr ns s id res -> (to < mr_expire res)%Z ->
  may_serve tr ns id from to res.
Proof.
  intros R (t1 & f & t & t2 & E & U) X. unfold may_serve. rewrite R.
  exists t1, f, t, t2. split; [exact E|]. split; [exact U|]. right. exact X.
Qed.

Lemma try_get_hit c q g tr ns id to a res :
  Inv c q g tr -> try_get c ns id to = Hit a res ->
  In a q /\ in_maps (c_ns c) a /\ res = el_result (ls_heap (c_ls c) a) /\ (to < mr_expire res)%Z /\
  exists s, registered tr ns = Some s /\ answered tr ns s id res.
Proof.
  intros I. unfold try_get. destruct (bget (c_ns c) ns) as [r|] eqn:E1; [|discriminate].
  destruct (bget (r_elems r) id) as [b|] eqn:E2; [|discriminate].
  destruct (mr_has_expired _ _) eqn:E3; [discriminate|]. intros E. injection E as X Y. subst b.
  apply bget_in in E1, E2.
  destruct (i_reg _ _ _ _ _ _ _ _ I ns r E1) as [R X].
  destruct (X id a E2) as (X1 & X2 & X3 & X4 & X5).
  split; [exact X1|]. split; [exists ns, r, id; split; assumption|]. split; [congruence|].
  split.
  - subst res. unfold mr_has_expired in E3. apply Z.leb_gt in E3. exact E3.
  - exists (r_source r). rewrite <- Y. split; assumption.
Qed.

Lemma try_get_none c q g tr ns id to from :
  Inv c q g tr -> try_get c ns id to = NoNamespace -> may_serve tr ns id from to empty_match_result.
Proof.
  intros I. unfold try_get. destruct (bget (c_ns c) ns) as [r|] eqn:E1.
  - destruct (bget (r_elems r) id); [destruct (mr_has_expired _ _)|]; discriminate.
  - intros _. unfold may_serve. rewrite (i_none _ _ _ _ _ _ _ _ I ns (bget_none _ _ E1)). reflexivity.
Qed.

Lemma inv_serve s q g al m dead rd tr ns id from to res a :
  inv s q g al m dead rd tr -> inv s q g al m dead rd (tr ++ [EvServe ns id from to res a]).
Proof.
  intros I. apply inv_event; [exact I|reflexivity|intros n []|intros b (? & X); discriminate].
Qed.

Lemma unlocked_readers c : unlocked c = true -> c_readers c = [].
Proof. unfold unlocked. destruct (c_readers c); [reflexivity|discriminate]. Qed.

Lemma remove_nth_in {A} n (l : list A) x : In x (remove_nth n l) -> In x l.
Proof.
  revert l. induction n as [|n IH]; intros [|y l]; cbn; try tauto.
  intros [H|H]; [tauto|right; auto].
Qed.

Lemma token_le o c len :
  tokens o c -> (len <= dl_len (ls_list (c_ls c)))%Z ->
  (co_capacity o + co_evict_batch o < len)%Z -> c_evict c || c_evicting c = true.
Proof. intros [T _] H X. apply T. lia. Qed.

Lemma promote_ok o c q g tr now st a :
  Inv c q g tr -> tokens o c -> In a q ->
  exists q', let '(c', ev) := promote o c now st a in
    Inv c' q' g (tr ++ ev) /\ tokens o c' /\ (forall n, registered (tr ++ ev) n = registered tr n) /\
    (forall n s i x, answered tr n s i x -> answered (tr ++ ev) n s i x) /\
    (forall ns id from to res b, ~ In (EvServe ns id from to res b) ev) /\
    (forall b, In b q' <-> In b q) /\
    c_readers c' = c_readers c.
Proof.
  intros I T Ha. unfold promote. destruct (should_promote _ _).
  - destruct (inv_promote _ _ _ _ _ _ _ _ a (new_promotion_expiry o now st) now I Ha) as (q' & Q & E & I').
    exists q'. split; [exact I'|]. split; [|split; [|split; [|split; [|split; [exact Q|reflexivity]]]]].
    + split; [|exact (proj2 T)].
      change (c_evict (with_ls c _)) with (c_evict c). change (c_evicting (with_ls c _)) with (c_evicting c).
      apply (token_le o c _ T). rewrite (inv_len _ _ _ _ _ _ _ _ I).
      pose proof (inv_len _ _ _ _ _ _ _ _ I') as EL. unfold promote_calls in EL.
      cbn [with_ls c_ls]. rewrite EL.
      apply Nat2Z.inj_le. apply NoDup_incl_length; [exact (inv_nodup _ _ _ _ _ _ _ _ I')|].
      intros b Hb. apply Q. exact Hb.
    + intros n. rewrite registered_app. reflexivity.
    + intros n s i x H. apply answered_snoc; [exact H|intros []].
    + intros ns id from to res b [H|[]]. discriminate.
  - exists q. rewrite app_nil_r. split; [exact I|]. split; [exact T|]. split; [reflexivity|].
    split; [auto|]. split; [intros ? ? ? ? ? ? []|]. split; [tauto|reflexivity].
Qed.

Lemma set_ok o c q g tr ns id from to now st answer r expired :
  (0 <= co_capacity o)%Z -> Inv c q g tr -> tokens o c -> c_readers c = [] ->
  try_get c ns id to = Miss r expired ->
  exists q' g', let '(c', ev) := set_with_lock o c ns id from to r expired now st answer in
    Inv c' q' g' (tr ++ ev) /\ tokens o c' /\ served_ok tr ev.
Proof.
  intros Hc I T Rd. unfold try_get.
  destruct (bget (c_ns c) ns) as [r0|] eqn:E1; [|discriminate].
  unfold Inv in I. rewrite Rd in I. cbn [map] in I.
  assert (MAIN : forall c1 q1 g1 r1,
    inv (c_ls c1) q1 g1 (c_alloc c1) (c_ns c1) (dead_of c1) [] tr -> tokens o c1 -> c_readers c1 = [] ->
    bget (c_ns c1) ns = Some r1 -> (forall a, ~ In (id, a) (r_elems r1)) ->
    let a := c_alloc c1 in
    let c2 := with_ns c1 (bset (c_ns c1) ns (mk_results (bset (r_elems r1) id a) (r_source r1))) in
    let c3 := with_ls (with_alloc c2 (S a))
                (list_run (c_ls c2)
                   [ LNew a ns id answer; LSetExpiry a (new_promotion_expiry o now st); LPushFront (Some a) ]) in
    let c4 := if (co_capacity o + co_evict_batch o <? dl_len (ls_list (c_ls c3)))%Z
              then notify_eviction c3 else c3 in
    let ev := [ EvSource ns (r_source r1) id from to answer; EvPromote a now;
                EvServe ns id from to answer (Some a) ] in
    Inv c4 (a :: q1) g1 (tr ++ ev) /\ tokens o c4 /\ served_ok tr ev).
  { intros c1 q1 g1 r1 I1 T1 R1 G1 N1 a c2 c3 c4 ev.
    pose proof (inv_add _ _ _ _ _ _ _ ns r1 id from to answer (new_promotion_expiry o now st) now I1 G1 N1) as A.
    fold a in A.
    assert (A' : inv (c_ls c3) (a :: q1) g1 (c_alloc c3) (c_ns c3) (dead_of c3) [] (tr ++ ev)).
    { replace (tr ++ ev) with ((tr ++ [EvSource ns (r_source r1) id from to answer; EvPromote a now]) ++
        [EvServe ns id from to answer (Some a)]) by (rewrite <- app_assoc; reflexivity).
      apply inv_serve. exact A. }
    split; [|split].
    - unfold c4, Inv. destruct (_ <? _)%Z; cbn [c_readers notify_eviction with_eviction];
        change (c_readers c3) with (c_readers c1); rewrite R1; exact A'.
    - unfold c4. destruct (_ <? _)%Z eqn:Lt.
      + split; [intros _; reflexivity|exact (proj2 T1)].
      + apply Z.ltb_ge in Lt. split; [intros X; exfalso; lia|exact (proj2 T1)].
    - change ev with ([EvSource ns (r_source r1) id from to answer; EvPromote a now] ++
        [EvServe ns id from to answer (Some a)]).
      apply served_ok_last.
      + intros n i f t x b [X|[X|[]]]; discriminate.
      + unfold may_serve. rewrite registered_app. cbn.
        destruct (i_reg _ _ _ _ _ _ _ _ I1 ns r1 (bget_in _ _ _ G1)) as [RG _]. rewrite RG.
        exists tr, from, to, [EvPromote a now]. split; [reflexivity|]. split.
        * apply (uncleared_snoc _ _ []); [apply uncleared_nil|intros []].
        * left. repeat split. repeat constructor. }
  destruct (bget (r_elems r0) id) as [b|] eqn:E2.
  - destruct (mr_has_expired _ _); [|discriminate]. intros E. injection E as -> <-.
    unfold set_with_lock, invalidate_with_lock. destruct (co_invalidate_all o) eqn:Ei.
    + set (c1 := with_ns (notify_deletion (with_to_delete c (c_to_delete c ++ [r_elems r])))
                   (bset (c_ns (notify_deletion (with_to_delete c (c_to_delete c ++ [r_elems r])))) ns
                      (mk_results [] (r_source r)))).
      exists (c_alloc c1 :: q), g. apply (MAIN c1 q g (mk_results [] (r_source r))).
      * eapply (inv_shrink _ _ _ _ _ _ _ _ ns r); [exact I|exact (bget_in _ _ _ E1)| | | | | |left; reflexivity].
        -- intros n r' H N. apply bset_in in H as [[H _]|[H _]]; [congruence|exact H].
        -- intros r' H. apply bset_in in H as [[_ ->]|[_ H]]; [|congruence].
           split; [exact (proj1 (i_reg _ _ _ _ _ _ _ _ I ns r (bget_in _ _ _ E1)))|reflexivity].
        -- intros H. exfalso. eapply H. apply bset_in. left. split; reflexivity.
        -- intros n r' H N. apply bset_in. right. split; assumption.
        -- intros a H. unfold dead_of, c1 in H. cbn in H. rewrite concat_app, map_app in H. cbn in H.
           rewrite app_nil_r in H. unfold dead_of. rewrite !in_app_iff in *. tauto.
      * split; [exact (proj1 T)|]. intros _. reflexivity.
      * exact Rd.
      * apply bget_set_same.
      * intros a [].
    + set (c1 := with_ls (with_ns c (bset (c_ns c) ns (mk_results (bdel (r_elems r) id) (r_source r))))
                   (list_remove (c_ls c) (bget (r_elems r) id))).
      assert (I1 : inv (c_ls c) q g (c_alloc c) (bset (c_ns c) ns (mk_results (bdel (r_elems r) id) (r_source r)))
                     (dead_of c) [] tr).
      { eapply inv_drop_entry; [exact I|exact E1|intros ? []]. }
      destruct (i_reg _ _ _ _ _ _ _ _ I ns r (bget_in _ _ _ E1)) as [RG X].
      destruct (X id b (bget_in _ _ _ E2)) as (X1 & X2 & X3 & X4 & X5).
      assert (Al : b < c_alloc c) by (apply (i_al _ _ _ _ _ _ _ _ I); rewrite in_app_iff; tauto).
      assert (Nm : ~ in_maps (bset (c_ns c) ns (mk_results (bdel (r_elems r) id) (r_source r))) b).
      { eapply dropped_not_in_maps; [exact I|exact E1|exact X2|exact X3]. }
      destruct (inv_remove _ _ _ _ _ _ _ _ b I1 Al Nm) as (q' & g' & F1 & F2 & _ & F3).
      exists (c_alloc c1 :: q'), g'. apply (MAIN c1 q' g' (mk_results (bdel (r_elems r) id) (r_source r))).
      * unfold c1. rewrite E2. exact F2.
      * split; [|exact (proj2 T)]. unfold c1. rewrite E2. cbn [with_ls c_ls with_ns c_evict c_evicting].
        apply (token_le o c _ T). rewrite F3, (inv_len _ _ _ _ _ _ _ _ I), F1.
        apply Nat2Z.inj_le. apply drop_length.
      * exact Rd.
      * apply bget_set_same.
      * cbn. intros a H. apply bdel_in in H. tauto.
  - intros E. injection E as -> <-. unfold set_with_lock.
    exists (c_alloc c :: q), g. apply (MAIN c q g r); auto.
    exact (bget_none _ _ E2).
Qed.

Lemma refresh_ok o c q g tr ns r src e :
  Inv c q g tr -> tokens o c -> c_readers c = [] -> bget (c_ns c) ns = Some r ->
  (forall n cur, n <> ns -> registered_step n cur e = cur) ->
  (forall n, n <> ns -> ~ clears tr n e) -> (forall a, ~ promotes e a) ->
  registered (tr ++ [e]) ns = Some src ->
  Inv (refresh_with_lock c ns src r) q g (tr ++ [e]) /\ tokens o (refresh_with_lock c ns src r).
Proof.
  intros I T Rd E1 H1 H2 H3 H4. unfold Inv in *. rewrite Rd in I. cbn [map] in I. split.
  - unfold refresh_with_lock. cbn [c_readers with_ns notify_deletion with_deletion with_to_delete].
    rewrite Rd. cbn [map].
    eapply (inv_shrink _ _ _ _ _ _ _ _ ns r); [exact I|exact (bget_in _ _ _ E1)| | | | | |].
    + intros n r' H N. apply bset_in in H as [[H _]|[H _]]; [congruence|exact H].
    + intros r' H. apply bset_in in H as [[_ ->]|[_ H]]; [|congruence]. split; [exact H4|reflexivity].
    + intros H. exfalso. eapply H. apply bset_in. left. split; reflexivity.
    + intros n r' H N. apply bset_in. right. split; assumption.
    + intros a H. unfold dead_of in H. cbn in H. rewrite concat_app, map_app in H. cbn in H.
      rewrite app_nil_r in H. unfold dead_of. rewrite !in_app_iff in *. tauto.
    + right. exists e. repeat split; assumption.
  - split; [exact (proj1 T)|intros _; reflexivity].
Qed.

Lemma act_ok o c q g tr x c' ev :
  (0 <= co_capacity o)%Z -> (0 <= co_evict_batch o)%Z ->
  Inv c q g tr -> tokens o c -> cache_act o c x = Some (c', ev) ->
  (exists q' g', Inv c' q' g' (tr ++ ev) /\ tokens o c') /\ served_ok tr ev.
Proof.
  intros Hc Hb I T. destruct x as [ns id from to now|n st|ns id from to now st answer|ns src|ns src|ns| | | | | |n];
    cbn [cache_act].
  - (* read *)
    destruct (try_get c ns id to) as [|a res|r expired] eqn:Et; intros E; injection E as <- <-.
    + split; [exists q, g; split; [apply inv_serve; exact I|exact T]|].
      apply (served_ok_last tr []); [intros ? ? ? ? ? ? []|]. rewrite app_nil_r.
      eapply try_get_none; eassumption.
    + destruct (try_get_hit _ _ _ _ _ _ _ _ _ I Et) as (H1 & H2 & H3 & H4 & s & H5 & H6).
      split.
      * exists q, g. split.
        -- apply inv_serve. destruct (should_promote _ _); [|exact I].
           cbn [c_ls c_alloc c_ns c_readers with_readers]. rewrite map_app. cbn [map fst].
           destruct I as [i_ref0 i_al0 i_dead0 i_reg0 i_none0 i_rd0 i_ord0]. constructor; auto. intros b Hb'. apply in_app_iff in Hb' as [Hb'|[<-|[]]]; auto.
        -- destruct (should_promote _ _); exact T.
      * apply (served_ok_last tr []); [intros ? ? ? ? ? ? []|]. rewrite app_nil_r.
        eapply answered_may_serve; eassumption.
    + split; [exists q, g; rewrite app_nil_r; split; assumption|].
      apply served_ok_none. intros ? ? ? ? ? ? [].
  - (* promote *)
    destruct (stutter_ok o st); [|discriminate].
    destruct (nth_error (c_readers c) n) as [[a now]|] eqn:En; [|discriminate].
    set (c1 := with_readers c (remove_nth n (c_readers c))).
    assert (I1 : Inv c1 q g tr).
    { eapply inv_sets; [exact I|auto|]. intros b Hb'. apply in_map_iff in Hb' as (p & Ep & Hp).
      apply in_map_iff. exists p. split; [exact Ep|]. eapply remove_nth_in. exact Hp. }
    assert (Ha : In a q).
    { apply nth_error_In in En. destruct (in_maps_seq _ _ _ _ _ _ _ _ a I) as [X _]; [|exact X].
      apply (i_rd _ _ _ _ _ _ _ _ I). apply in_map_iff. exists (a, now). split; [reflexivity|exact En]. }
    destruct (promote_ok o c1 q g tr now st a I1 T Ha) as (q' & P).
    destruct (promote o c1 now st a) as [c2 ev2]. intros E. injection E as <- <-.
    destruct P as (P1 & P2 & P3 & P4 & P5 & P6 & P7).
    split; [exists q', g; split; assumption|]. apply served_ok_none. exact P5.
  - (* write *)
    destruct (unlocked c && stutter_ok o st) eqn:Eu; [|discriminate].
    apply andb_prop in Eu as [Eu _]. apply unlocked_readers in Eu.
    destruct (try_get c ns id to) as [|a res|r expired] eqn:Et.
    + intros E; injection E as <- <-.
      split; [exists q, g; split; [apply inv_serve; exact I|exact T]|].
      apply (served_ok_last tr []); [intros ? ? ? ? ? ? []|]. rewrite app_nil_r.
      eapply try_get_none; eassumption.
    + destruct (try_get_hit _ _ _ _ _ _ _ _ _ I Et) as (H1 & H2 & H3 & H4 & s & H5 & H6).
      destruct (promote_ok o c q g tr now st a I T H1) as (q' & P).
      destruct (should_promote (ls_heap (c_ls c) a) now).
      * destruct (promote o c now st a) as [c2 ev2]. intros E. injection E as <- <-.
        destruct P as (P1 & P2 & P3 & P4 & P5 & P6 & P7). split.
        -- exists q', g. rewrite app_assoc. split; [apply inv_serve; exact P1|exact P2].
        -- apply served_ok_last; [exact P5|].
           eapply answered_may_serve; [rewrite P3; exact H5|apply P4; exact H6|exact H4].
      * intros E. injection E as <- <-. cbn [app]. split.
        -- exists q, g. split; [apply inv_serve; exact I|exact T].
        -- apply (served_ok_last tr []); [intros ? ? ? ? ? ? []|]. rewrite app_nil_r.
           eapply answered_may_serve; eassumption.
    + intros E. injection E as E.
      destruct (set_ok o c q g tr ns id from to now st answer r expired Hc I T Eu Et) as (q' & g' & P).
      rewrite E in P. destruct P as (P1 & P2 & P3). split; [exists q', g'; split; assumption|exact P3].
  - (* register *)
    destruct (unlocked c) eqn:Eu; [|discriminate]. apply unlocked_readers in Eu.
    destruct (bget (c_ns c) ns) as [r|] eqn:Eb; intros E; injection E as <- <-.
    + split; [|apply served_ok_none; intros ? ? ? ? ? ? [X|[]]; discriminate].
      exists q, g. eapply (refresh_ok o c q g tr ns r src); try assumption.
      * intros n cur N. cbn. assert (beqb ns n = false) as -> by (apply beqb_neq; congruence). reflexivity.
      * intros n N X. cbn in X. congruence.
      * intros a (? & X). discriminate.
      * rewrite registered_app. cbn. rewrite beqb_refl. reflexivity.
    + split; [|apply served_ok_none; intros ? ? ? ? ? ? [X|[]]; discriminate].
      exists q, g. split; [|exact T]. unfold Inv in *. rewrite Eu in I.
      cbn [c_readers with_ns]. rewrite Eu.
      apply inv_register; [exact I|exact (bget_none _ _ Eb)].
  - (* refresh *)
    destruct (unlocked c) eqn:Eu; [|discriminate]. apply unlocked_readers in Eu.
    destruct (bget (c_ns c) ns) as [r|] eqn:Eb.
    + pose proof (i_reg _ _ _ _ _ _ _ _ I ns r (bget_in _ _ _ Eb)) as [RG _].
      destruct (Nat.eqb_spec (r_source r) src) as [Es|Ns]; intros E; injection E as <- <-.
      * split; [|apply served_ok_none; intros ? ? ? ? ? ? [X|[]]; discriminate].
        exists q, g. eapply (refresh_ok o c q g tr ns r src); try assumption.
        -- reflexivity.
        -- intros n N [X _]. congruence.
        -- intros a (? & X). discriminate.
        -- rewrite registered_app. cbn. congruence.
      * split; [|apply served_ok_none; intros ? ? ? ? ? ? [X|[]]; discriminate].
        exists q, g. split; [|exact T]. apply inv_event; [exact I|reflexivity| |intros a (? & X); discriminate].
        intros n [<- X]. congruence.
    + intros E; injection E as <- <-.
      split; [|apply served_ok_none; intros ? ? ? ? ? ? [X|[]]; discriminate].
      exists q, g. split; [|exact T]. apply inv_event; [exact I|reflexivity| |intros a (? & X); discriminate].
      intros n [<- X]. rewrite (i_none _ _ _ _ _ _ _ _ I ns (bget_none _ _ Eb)) in X. discriminate.
  - (* unregister *)
    destruct (unlocked c) eqn:Eu; [|discriminate]. apply unlocked_readers in Eu.
    destruct (bget (c_ns c) ns) as [r|] eqn:Eb; intros E; injection E as <- <-.
    + split; [|apply served_ok_none; intros ? ? ? ? ? ? [X|[]]; discriminate].
      exists q, g. split; [|split; [exact (proj1 T)|intros _; reflexivity]].
      unfold Inv in *. rewrite Eu in I. cbn [map] in I.
      cbn [c_readers notify_deletion with_deletion with_to_delete with_ns]. rewrite Eu. cbn [map].
      eapply (inv_shrink _ _ _ _ _ _ _ _ ns r); [exact I|exact (bget_in _ _ _ Eb)| | | | | |].
      * intros n r' H N. apply bdel_in in H. tauto.
      * intros r' H. apply bdel_in in H. tauto.
      * intros _. rewrite registered_app. cbn. rewrite beqb_refl. reflexivity.
      * intros n r' H N. apply bdel_in. split; assumption.
      * intros a H. unfold dead_of in H. cbn in H. rewrite concat_app, map_app in H. cbn in H.
        rewrite app_nil_r in H. unfold dead_of. rewrite !in_app_iff in *. tauto.
      * right. exists (EvUnregister ns). split; [reflexivity|]. split; [|split].
        -- intros n cur N. cbn. assert (beqb ns n = false) as -> by (apply beqb_neq; congruence). reflexivity.
        -- intros n N X. cbn in X. congruence.
        -- intros a (? & X). discriminate.
    + split; [|apply served_ok_none; intros ? ? ? ? ? ? [X|[]]; discriminate].
      exists q, g. split; [|exact T].
      pose proof (i_none _ _ _ _ _ _ _ _ I ns (bget_none _ _ Eb)) as RN.
      destruct I as [i_ref0 i_al0 i_dead0 i_reg0 i_none0 i_rd0 i_ord0]. constructor; auto.
      * intros n r Hr. destruct (i_reg0 n r Hr) as [A B'].
        assert (n <> ns) as N.
        { intros ->. exact (bget_none _ _ Eb r Hr). }
        assert (beqb ns n = false) as Nb by (apply beqb_neq; congruence).
        split; [rewrite registered_app; cbn; rewrite Nb; exact A|].
        intros i a H. destruct (B' i a H) as (B1 & B2 & B3 & B4 & B5). repeat split; auto.
        apply answered_snoc; [exact B5|]. cbn. congruence.
      * intros n H. rewrite registered_app. cbn. destruct (beqb ns n); [reflexivity|]. auto.
      * apply latest_first_snoc; [assumption|]. intros b _ (? & X). discriminate.
  - (* close *)
    destruct (unlocked c); [|discriminate]. intros E. injection E as <- <-.
    split; [|apply served_ok_none; intros ? ? ? ? ? ? []].
    exists q, g. rewrite app_nil_r. split; [exact I|exact T].
  - (* evict receive *)
    destruct (c_evict c && negb (c_evicting c)); [|discriminate]. intros E. injection E as <- <-.
    split; [|apply served_ok_none; intros ? ? ? ? ? ? []].
    exists q, g. rewrite app_nil_r. split; [exact I|]. split; [intros _; reflexivity|exact (proj2 T)].
  - (* evict *)
    destruct (unlocked c && c_evicting c) eqn:Eu; [|discriminate].
    apply andb_prop in Eu as [Eu _]. apply unlocked_readers in Eu.
    set (c1 := with_eviction c (c_evict c) false).
    assert (I1 : inv (c_ls c1) q g (c_alloc c1) (c_ns c1) (dead_of c1) [] tr).
    { unfold Inv in I. rewrite Eu in I. exact I. }
    destruct (do_evict_ok o c1 q g tr Hc I1) as (c2 & g' & F1 & F2 & F3 & F4 & F5 & F6 & F7 & F8 & F9 & F10 & F11).
    rewrite F1. intros E. injection E as <- <-.
    split; [|apply served_ok_none; intros ? ? ? ? ? ? []].
    exists (firstn (Z.to_nat (co_capacity o)) q), g'. rewrite app_nil_r. split.
    + unfold Inv. rewrite F10. change (c_readers c1) with (c_readers c). rewrite Eu. exact F2.
    + split.
      * rewrite (inv_len _ _ _ _ _ _ _ _ F2). intros X. exfalso.
        pose proof (firstn_le_length (Z.to_nat (co_capacity o)) q). lia.
      * rewrite F3, F8, F9. exact (proj2 T).
  - (* delete receive *)
    destruct (c_pending c) as [|p ps] eqn:Ep; [|discriminate].
    destruct (c_delete c && negb (c_deleting c)); [|discriminate]. intros E. injection E as <- <-.
    split; [|apply served_ok_none; intros ? ? ? ? ? ? []].
    exists q, g. rewrite app_nil_r. split; [|split; [exact (proj1 T)|intros _; reflexivity]].
    unfold Inv, dead_of in *. rewrite Ep in I. exact I.
  - (* delete take *)
    destruct (unlocked c && c_deleting c); [|discriminate]. intros E. injection E as <- <-.
    split; [|apply served_ok_none; intros ? ? ? ? ? ? []].
    exists q, g. rewrite app_nil_r. split; [|split; [exact (proj1 T)|]].
    + eapply inv_sets; [exact I| |auto]. intros a H. unfold dead_of in *. cbn in H.
      rewrite app_nil_r in H. exact H.
    + intros X. exfalso. apply X. reflexivity.
  - (* delete one *)
    destruct (nth_error (c_pending c) n) as [a|] eqn:En; [|discriminate]. intros E. injection E as <- <-.
    split; [|apply served_ok_none; intros ? ? ? ? ? ? []].
    apply nth_error_In in En.
    assert (Da : In a (dead_of c)) by (unfold dead_of; rewrite in_app_iff; tauto).
    pose proof (i_dead _ _ _ _ _ _ _ _ I a Da) as Al.
    pose proof (dead_not_in_maps _ _ _ _ _ _ _ _ a I Da) as Nm.
    destruct (inv_remove _ _ _ _ _ _ _ _ a I Al Nm) as (q' & g' & F1 & F2 & F4 & F3).
    exists q', g'. rewrite app_nil_r. split.
    + eapply inv_sets; [exact F2| |auto]. intros b H. unfold dead_of in *.
      cbn [c_pending c_to_delete with_ls with_deletion] in H. rewrite in_app_iff in *.
      destruct H as [H|H]; [left; eapply remove_nth_in; exact H|right; exact H].
    + split; [|exact (proj2 T)]. cbn [c_ls with_ls c_evict c_evicting with_deletion].
      apply (token_le o c _ T). unfold list_remove in F3. rewrite F3, (inv_len _ _ _ _ _ _ _ _ I), F1.
      apply Nat2Z.inj_le. apply drop_length.
Qed.

(** ** All executions *)

Lemma run_ok o xs : (0 <= co_capacity o)%Z -> (0 <= co_evict_batch o)%Z ->
  forall c q g tr c' ev,
  Inv c q g tr -> tokens o c -> cache_run o c xs = Some (c', ev) ->
  (exists q' g', Inv c' q' g' (tr ++ ev) /\ tokens o c') /\ served_ok tr ev.
Proof.
  intros Hc Hb. induction xs as [|x xs IH]; intros c q g tr c' ev I T E; cbn in E.
  - injection E as <- <-. split; [exists q, g; rewrite app_nil_r; split; assumption|].
    apply served_ok_none. intros ? ? ? ? ? ? [].
  - destruct (cache_act o c x) as [[c1 e1]|] eqn:E1; [|discriminate].
    destruct (cache_run o c1 xs) as [[c2 e2]|] eqn:E2; [|discriminate].
    injection E as <- <-.
    destruct (act_ok o c q g tr x c1 e1 Hc Hb I T E1) as [(q1 & g1 & I1 & T1) S1].
    destruct (IH c1 q1 g1 _ c2 e2 I1 T1 E2) as [(q2 & g2 & I2 & T2) S2].
    split; [exists q2, g2; rewrite app_assoc; split; assumption|].
    intros u ns id from to res a v E. symmetry in E.
    apply split_app in E as [(k & F1 & F2)|(k & F1 & F2)].
    + exact (S1 _ _ _ _ _ _ _ _ F1).
    + rewrite F2. rewrite app_assoc. exact (S2 _ _ _ _ _ _ _ _ F1).
Qed.

Lemma Inv_new : Inv new_cache [] [] [].
Proof. apply inv_init. Qed.

Lemma tokens_new o : (0 <= co_capacity o)%Z -> (0 <= co_evict_batch o)%Z -> tokens o new_cache.
Proof. intros H1 H2. split; [cbn; lia|intros X; exfalso; apply X; reflexivity]. Qed.

Lemma reachable_inv o xs c tr :
  (0 <= co_capacity o)%Z -> (0 <= co_evict_batch o)%Z -> cache_run o new_cache xs = Some (c, tr) ->
  (exists q g, Inv c q g tr) /\ tokens o c /\ served_ok [] tr.
Proof.
  intros H1 H2 E. destruct (run_ok o xs H1 H2 _ _ _ _ _ _ Inv_new (tokens_new o H1 H2) E) as [(q & g & I & T) S].
  split; [exists q, g; exact I|]. split; [exact T|exact S].
Qed.

Lemma served_what_may o xs c tr u ns id from to res a v :
  (0 <= co_capacity o)%Z -> (0 <= co_evict_batch o)%Z -> cache_run o new_cache xs = Some (c, tr) ->
  tr = u ++ EvServe ns id from to res a :: v ->
  may_serve u ns id from to res.
Proof. intros H1 H2 H3 E. destruct (reachable_inv o xs c tr H1 H2 H3) as (_ & _ & S). exact (S _ _ _ _ _ _ _ _ E). Qed.

Lemma Inv_shows c q g tr : Inv c q g tr -> shows (c_ls c) q.
Proof. intros [i_ref0 i_al0 i_dead0 i_reg0 i_none0 i_rd0 i_ord0]. apply linked_shows. apply i_ref0. Qed.

(** ** Eviction and the list *)

Lemma list_order o xs c tr :
  (0 <= co_capacity o)%Z -> (0 <= co_evict_batch o)%Z -> cache_run o new_cache xs = Some (c, tr) ->
  exists q, shows (c_ls c) q /\ NoDup q /\ latest_first promotes tr q.
Proof.
  intros H1 H2 H3. destruct (reachable_inv o xs c tr H1 H2 H3) as ((q & g & I) & _).
  exists q. split; [exact (Inv_shows _ _ _ _ I)|]. split; [exact (inv_nodup _ _ _ _ _ _ _ _ I)|apply I].
Qed.

Lemma evict_ok o xs c tr q :
  (0 <= co_capacity o)%Z -> (0 <= co_evict_batch o)%Z -> cache_run o new_cache xs = Some (c, tr) ->
  c_evicting c = true -> c_readers c = [] -> shows (c_ls c) q ->
  exists c', cache_act o c AEvict = Some (c', []) /\
    shows (c_ls c') (firstn (Z.to_nat (co_capacity o)) q) /\
    (dl_len (ls_list (c_ls c')) <= co_capacity o)%Z.
Proof.
  intros H1 H2 H3 He Hr Hq. destruct (reachable_inv o xs c tr H1 H2 H3) as ((q0 & g & I) & T & _).
  assert (q0 = q) as -> by (eapply shows_unique; [exact (Inv_shows _ _ _ _ I)|exact Hq]).
  cbn [cache_act]. unfold unlocked. rewrite Hr, He. cbn [andb].
  set (c1 := with_eviction c (c_evict c) false).
  assert (I1 : inv (c_ls c1) q g (c_alloc c1) (c_ns c1) (dead_of c1) [] tr).
  { unfold Inv in I. rewrite Hr in I. exact I. }
  destruct (do_evict_ok o c1 q g tr H1 I1) as (c2 & g' & F1 & F2 & F3).
  rewrite F1. exists c2. split; [reflexivity|].
  assert (S : shows (c_ls c2) (firstn (Z.to_nat (co_capacity o)) q)) by (apply linked_shows; apply F2).
  split; [exact S|]. rewrite (inv_len _ _ _ _ _ _ _ _ F2).
  pose proof (firstn_le_length (Z.to_nat (co_capacity o)) q). lia.
Qed.

Lemma reachable_in_list o xs c tr ns id a :
  (0 <= co_capacity o)%Z -> (0 <= co_evict_batch o)%Z -> cache_run o new_cache xs = Some (c, tr) ->
  reachable c ns id a ->
  exists q, shows (c_ls c) q /\ In a q /\ ~ awaits_deletion c a /\
    el_ns (ls_heap (c_ls c) a) = ns /\ el_id (ls_heap (c_ls c) a) = id /\
    el_deleted (ls_heap (c_ls c) a) = false.
Proof.
  intros H1 H2 H3 (r & E1 & E2). destruct (reachable_inv o xs c tr H1 H2 H3) as ((q & g & I) & _).
  apply bget_in in E1, E2. destruct (i_reg _ _ _ _ _ _ _ _ I ns r E1) as [_ X].
  destruct (X id a E2) as (X1 & X2 & X3 & X4 & X5).
  exists q. split; [exact (Inv_shows _ _ _ _ I)|]. split; [exact X1|]. split; [|split; [exact X2|split; [exact X3|]]].
  - intros Y. apply X4. unfold dead_of. rewrite in_app_iff. destruct Y as [Y|(m & Y1 & Y2)]; [tauto|].
    right. apply in_map_iff in Y2 as ([k v] & Ev & Y2). apply in_map_iff. exists (k, v).
    split; [exact Ev|]. apply in_concat. exists m. split; assumption.
  - destruct (i_ref _ _ _ _ _ _ _ _ I) as (_ & _ & _ & S). apply S. cbn. rewrite app_nil_r. exact X1.
Qed.

Lemma tokens_pending o xs c tr :
  (0 <= co_capacity o)%Z -> (0 <= co_evict_batch o)%Z -> cache_run o new_cache xs = Some (c, tr) ->
  ((co_capacity o + co_evict_batch o < dl_len (ls_list (c_ls c)))%Z -> c_evict c = true \/ c_evicting c = true) /\
  (c_to_delete c <> [] -> c_delete c = true \/ c_deleting c = true).
Proof.
  intros H1 H2 H3. destruct (reachable_inv o xs c tr H1 H2 H3) as (_ & (T1 & T2) & _).
  split; intros X; apply orb_prop; auto.
Qed.
