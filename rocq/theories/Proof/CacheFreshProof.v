(** When elements are promoted: not within the freshness duration of their last promotion, and on the
    first use after the freshness and the stutter have passed. *)
From Coq Require Import Arith ZArith Bool Lia List.
From Verif Require Import Base.Bytes Base.BytesFacts Base.BMap Base.BMapFacts
  Model.Rules Model.CacheList Model.Cache Spec.CacheListSpec Spec.CacheSpec
  Proof.CacheListProof Proof.CacheProof Proof.CacheRunProof.
Import ListNotations.
Local Open Scope nat_scope.

Definition exps (h h' : heap) : Prop := forall a, el_expiry (h' a) = el_expiry (h a).
Definition still (ev : list event) : Prop := forall a t, ~ In (EvPromote a t) ev.

Lemma exps_refl h : exps h h. Proof. intros a. reflexivity. Qed.
Lemma exps_trans h1 h2 h3 : exps h1 h2 -> exps h2 h3 -> exps h1 h3.
Proof. intros A B' a. rewrite (B' a). apply A. Qed.
Lemma exps_prev h a v : exps h (set_prev h a v).
Proof. intros b. unfold set_prev, upd. now destruct (Nat.eqb_spec b a) as [->|_]. Qed.
Lemma exps_next h a v : exps h (set_next h a v).
Proof. intros b. unfold set_next, upd. now destruct (Nat.eqb_spec b a) as [->|_]. Qed.
Lemma exps_deleted h a v : exps h (set_deleted h a v).
Proof. intros b. unfold set_deleted, upd. now destruct (Nat.eqb_spec b a) as [->|_]. Qed.

Ltac ex := repeat first
  [ apply exps_refl
  | match goal with
    | |- exps _ (set_prev _ _ _) => eapply exps_trans; [|apply exps_prev]
    | |- exps _ (set_next _ _ _) => eapply exps_trans; [|apply exps_next]
    | |- exps _ (set_deleted _ _ _) => eapply exps_trans; [|apply exps_deleted]
    end ].

Lemma exps_push s e : exps (ls_heap s) (ls_heap (push_front s e)).
Proof. destruct e as [e|]; cbn; [|ex]. destruct (el_deleted _); [ex|]. destruct (dl_head _); cbn [ls_heap]; ex. Qed.
Lemma exps_unlink s e m : exps (ls_heap s) (ls_heap (unlink s e m)).
Proof. unfold unlink. destruct (el_prev _), (el_next _), m; cbn [ls_heap]; ex. Qed.
Lemma exps_remove s e : exps (ls_heap s) (ls_heap (list_remove s e)).
Proof. destruct e as [e|]; cbn; [|ex]. destruct (el_deleted _); [ex|]. apply exps_unlink. Qed.
Lemma exps_move s e : exps (ls_heap s) (ls_heap (move_to_front s e)).
Proof.
  destruct e as [e|]; unfold move_to_front; [|ex]. destruct (el_deleted _); [ex|].
  eapply exps_trans; [apply exps_unlink|apply exps_push].
Qed.

Lemma exps_evict o fuel : forall c c', evict_loop fuel o c = Some c' ->
  exps (ls_heap (c_ls c)) (ls_heap (c_ls c')) /\ c_alloc c' = c_alloc c.
Proof.
  induction fuel as [|fuel IH]; intros c c'; cbn [evict_loop].
  - destruct (_ <=? _)%Z; [|discriminate]. intros E. injection E as <-. split; [ex|reflexivity].
  - destruct (_ <=? _)%Z; [intros E; injection E as <-; split; [ex|reflexivity]|].
    destruct (dl_tail _) as [a|]; [|discriminate]. cbn zeta.
    match goal with |- context [bget ?m ?k] => destruct (bget m k) as [r|] end; intros E;
      apply IH in E as [E1 E2]; (split; [|exact E2]); eapply exps_trans; [apply (exps_remove (c_ls c) (Some a))|exact E1| |exact E1];
      apply (exps_remove (c_ls c) (Some a)).
Qed.

(** What one action does to the times. *)
Definition promoted_at (o : cache_opts) (c c' : cache) (ev : list event) (a : nat) : Prop :=
  exists now st e1 e2, stutter_ok o st = true /\ ev = e1 ++ EvPromote a now :: e2 /\ still e1 /\ still e2 /\
    el_expiry (ls_heap (c_ls c') a) = new_promotion_expiry o now st /\
    (forall b, b <> a -> el_expiry (ls_heap (c_ls c') b) = el_expiry (ls_heap (c_ls c) b)) /\
    (c_alloc c' = c_alloc c /\ (el_expiry (ls_heap (c_ls c) a) <= now)%Z /\
       (In a (map fst (c_readers c)) \/ exists ns id, reachable c ns id a) \/
     c_alloc c' = S (c_alloc c) /\ a = c_alloc c).

Lemma promote_stamp o c now st a c' ev : stutter_ok o st = true ->
  In a (map fst (c_readers c)) \/ (exists ns id, reachable c ns id a) ->
  promote o c now st a = (c', ev) ->
  (still ev /\ exps (ls_heap (c_ls c)) (ls_heap (c_ls c')) /\ c_alloc c' = c_alloc c) \/ promoted_at o c c' ev a.
Proof.
  intros Hst Ha. unfold promote. destruct (should_promote _ _) eqn:S; intros E; injection E as <- <-.
  - right. exists now, st, [], []. split; [exact Hst|]. split; [reflexivity|]. split; [intros ? ? []|]. split; [intros ? ? []|].
    cbn [with_ls c_ls list_run fold_left list_step].
    assert (X : forall b, el_expiry (ls_heap (move_to_front
        {| ls_heap := set_expiry (ls_heap (c_ls c)) a (new_promotion_expiry o now st); ls_list := ls_list (c_ls c) |} (Some a)) b) =
      if Nat.eqb b a then new_promotion_expiry o now st else el_expiry (ls_heap (c_ls c) b)).
    { intros b. rewrite exps_move. cbn [ls_heap]. unfold set_expiry, upd. destruct (Nat.eqb b a); reflexivity. }
    split; [rewrite X, Nat.eqb_refl; reflexivity|]. split.
    + intros b N. rewrite X. destruct (Nat.eqb_spec b a); [contradiction|reflexivity].
    + left. split; [reflexivity|]. split; [apply Z.leb_le; exact S|exact Ha].
  - left. split; [intros ? ? []|]. split; [ex|reflexivity].
Qed.

Lemma hit_reachable c ns id to a res : try_get c ns id to = Hit a res -> reachable c ns id a.
Proof.
  unfold try_get. destruct (bget (c_ns c) ns) as [r|] eqn:E1; [|discriminate].
  destruct (bget (r_elems r) id) as [b|] eqn:E2; [|discriminate].
  destruct (mr_has_expired _ _); [discriminate|]. intros E. injection E as -> _. exists r. split; assumption.
Qed.

Lemma set_stamp o c ns id from to r expired now st answer c' ev : stutter_ok o st = true ->
  set_with_lock o c ns id from to r expired now st answer = (c', ev) -> promoted_at o c c' ev (c_alloc c).
Proof.
  intros Hst. unfold set_with_lock.
  destruct (if expired then invalidate_with_lock o c ns id r else (c, r)) as [c1 r1] eqn:Ei.
  assert (R1 : c_alloc c1 = c_alloc c /\ exps (ls_heap (c_ls c)) (ls_heap (c_ls c1))).
  { destruct expired; [|injection Ei as <- <-; split; [reflexivity|ex]].
    unfold invalidate_with_lock in Ei. destruct (co_invalidate_all o); injection Ei as <- <-.
    - split; [reflexivity|ex].
    - split; [reflexivity|]. exact (exps_remove (c_ls c) (bget (r_elems r) id)). }
  destruct R1 as [R1 R2]. clear Ei. cbn zeta. rewrite <- R1.
  set (c3 := with_ls _ (list_run _ _)).
  assert (C3 : c_alloc c3 = S (c_alloc c1)) by reflexivity.
  assert (X : forall b, el_expiry (ls_heap (c_ls c3) b) =
    if Nat.eqb b (c_alloc c1) then new_promotion_expiry o now st else el_expiry (ls_heap (c_ls c) b)).
  { intros b. unfold c3. cbn [with_ls with_alloc with_ns c_ls list_run fold_left list_step].
    match goal with |- context [push_front ?s ?e] => rewrite (exps_push s e) end. cbn [ls_heap]. unfold set_expiry, upd. destruct (Nat.eqb b (c_alloc c1)); [reflexivity|apply R2]. }
  clearbody c3. intros E. injection E as <- <-.
  assert (Y : c_alloc (if (co_capacity o + co_evict_batch o <? dl_len (ls_list (c_ls c3)))%Z then notify_eviction c3 else c3) = c_alloc c3)
    by (destruct (_ <? _)%Z; reflexivity).
  assert (Z0 : c_ls (if (co_capacity o + co_evict_batch o <? dl_len (ls_list (c_ls c3)))%Z then notify_eviction c3 else c3) = c_ls c3)
    by (destruct (_ <? _)%Z; reflexivity).
  exists now, st, [EvSource ns (r_source r1) id from to answer], [EvServe ns id from to answer (Some (c_alloc c1))].
  split; [exact Hst|]. split; [reflexivity|]. split; [intros ? ? [F|[]]; discriminate|]. split; [intros ? ? [F|[]]; discriminate|].
  rewrite Z0. split; [rewrite X, Nat.eqb_refl; reflexivity|]. split.
  - intros b N. rewrite X. destruct (Nat.eqb_spec b (c_alloc c1)); [contradiction|reflexivity].
  - right. rewrite Y, C3, R1. split; reflexivity.
Qed.

Lemma act_stamp o c x c' ev : cache_act o c x = Some (c', ev) ->
  (still ev /\ exps (ls_heap (c_ls c)) (ls_heap (c_ls c')) /\ c_alloc c' = c_alloc c) \/ exists a, promoted_at o c c' ev a.
Proof.
  assert (Q : forall ns s, still [EvRegister ns s]) by (intros ? ? ? ? [F|[]]; discriminate).
  assert (Q' : forall ns s, still [EvRefresh ns s]) by (intros ? ? ? ? [F|[]]; discriminate).
  assert (Q2 : forall ns, still [EvUnregister ns]) by (intros ? ? ? [F|[]]; discriminate).
  assert (Q3 : still []) by (intros ? ? []).
  assert (Q4 : forall ns id from to res a, still [EvServe ns id from to res a]) by (intros ? ? ? ? ? ? ? ? [F|[]]; discriminate).
  destruct x as [ns id from to now|n st|ns id from to now st answer|ns src|ns src|ns| | | | | |n]; cbn [cache_act].
  - destruct (try_get c ns id to) as [|a res|r expired]; intros E; injection E as <- <-; left;
      try (split; [auto|split; [ex|reflexivity]]).
    split; [auto|]. destruct (should_promote _ _); (split; [ex|reflexivity]).
  - destruct (stutter_ok o st) eqn:Hst; [|discriminate].
    destruct (nth_error (c_readers c) n) as [[a now]|] eqn:En; [|discriminate].
    intros E. injection E as E. unfold promote in E. cbn [with_readers c_ls] in E.
    assert (Ha : In a (map fst (c_readers c))) by (apply nth_error_In in En; exact (in_map fst _ _ En)).
    destruct (promote o c now st a) as [c1 ev1] eqn:P.
    destruct (promote_stamp o c now st a c1 ev1 Hst (or_introl Ha) P) as [(A & B' & C)|D].
    + left. unfold promote in P. destruct (should_promote _ _); injection P as <- <-; injection E as <- <-.
      * exfalso. exact (A a now (or_introl eq_refl)).
      * split; [exact A|]. split; [ex|reflexivity].
    + right. exists a. unfold promote in P. destruct (should_promote _ _); injection P as <- <-; injection E as <- <-.
      * exact D.
      * destruct D as (w & s & e1 & e2 & _ & F & _). destruct e1; discriminate.
  - destruct (unlocked c && stutter_ok o st) eqn:U; [|discriminate]. apply andb_true_iff in U as [U Hst].
    destruct (try_get c ns id to) as [|a res|r expired] eqn:T.
    + intros E. injection E as <- <-. left. split; [auto|split; [ex|reflexivity]].
    + destruct (should_promote _ _).
      * destruct (promote o c now st a) as [c1 ev1] eqn:P. intros E. injection E as <- <-.
        destruct (promote_stamp o c now st a c1 ev1 Hst (or_intror (ex_intro _ ns (ex_intro _ id (hit_reachable _ _ _ _ _ _ T)))) P) as [(A & B' & C)|D].
        -- left. split; [|split; assumption]. intros b t I. apply in_app_iff in I as [I|[I|[]]]; [exact (A b t I)|discriminate].
        -- right. exists a. destruct D as (w & s & e1 & e2 & D1 & -> & D3 & D4 & D5).
           exists w, s, e1, (e2 ++ [EvServe ns id from to res (Some a)]). split; [exact D1|].
           split; [rewrite <- app_assoc; reflexivity|]. split; [exact D3|]. split; [|exact D5].
           intros b t I. apply in_app_iff in I as [I|[I|[]]]; [exact (D4 b t I)|discriminate].
      * intros E. injection E as <- <-. left. split; [|split; [ex|reflexivity]]. apply Q4.
    + intros E. injection E as E. right. eexists. exact (set_stamp _ _ _ _ _ _ _ _ _ _ _ _ _ Hst E).
  - destruct (unlocked c); [|discriminate]. destruct (bget _ _); intros E; injection E as <- <-; left; (split; [auto|split; [ex|reflexivity]]).
  - destruct (unlocked c); [|discriminate]. destruct (bget _ _) as [r|]; [destruct (Nat.eqb _ _)|]; intros E; injection E as <- <-; left;
      (split; [auto|split; [ex|reflexivity]]).
  - destruct (unlocked c); [|discriminate]. destruct (bget _ _); intros E; injection E as <- <-; left; (split; [auto|split; [ex|reflexivity]]).
  - destruct (unlocked c); [|discriminate]. intros E. injection E as <- <-. left. (split; [auto|split; [ex|reflexivity]]).
  - destruct (_ && _); [|discriminate]. intros E. injection E as <- <-. left. (split; [auto|split; [ex|reflexivity]]).
  - destruct (_ && _); [|discriminate]. destruct (do_evict _ _) as [c1|] eqn:D; [|discriminate]. intros E. injection E as <- <-.
    left. split; [auto|]. apply exps_evict in D. exact D.
  - destruct (c_pending c); [|discriminate]. destruct (_ && _); [|discriminate]. intros E. injection E as <- <-. left.
    (split; [auto|split; [ex|reflexivity]]).
  - destruct (_ && _); [|discriminate]. intros E. injection E as <- <-. left. (split; [auto|split; [ex|reflexivity]]).
  - destruct (nth_error _ _) as [a|]; [|discriminate]. intros E. injection E as <- <-. left. split; [auto|].
    split; [|reflexivity]. exact (exps_remove (c_ls c) (Some a)).
Qed.

(** * The last promotion *)

Lemma last_promotion_app tr ev a t : last_promotion (tr ++ ev) a t ->
  last_promotion ev a t \/ (forall t', ~ In (EvPromote a t') ev) /\ last_promotion tr a t.
Proof.
  intros (t1 & t2 & E & N). symmetry in E. apply split_app in E as [(k & E1 & E2)|(k & E1 & E2)].
  - right. split; [intros t' I; apply (N t'); rewrite E2, in_app_iff; tauto|].
    exists t1, k. split; [exact E1|]. intros t' I. apply (N t'). rewrite E2, in_app_iff. tauto.
  - left. exists k, t2. split; assumption.
Qed.

Lemma classic_event e a : promotes e a \/ ~ promotes e a.
Proof.
  destruct e; try (right; intros (? & X); discriminate). destruct (Nat.eq_dec elem a) as [->|N]; [left; exists now; reflexivity|].
  right. intros (? & X). congruence.
Qed.

Lemma last_promotion_ex tr a t : In (EvPromote a t) tr -> exists t', last_promotion tr a t'.
Proof.
  induction tr as [|e tr IH] using rev_ind; [intros []|]. intros I.
  destruct (classic_event e a) as [(w & ->)|N].
  - exists w, tr, []. split; [reflexivity|intros ? []].
  - apply in_app_iff in I as [I|[I|[]]]; [|subst e; exfalso; apply N; exists t; reflexivity].
    destruct (IH I) as (t' & t1 & t2 & -> & N'). exists t', t1, (t2 ++ [e]). split; [rewrite <- app_assoc; reflexivity|].
    intros t'' J. apply in_app_iff in J as [J|[J|[]]]; [exact (N' _ J)|]. apply N. exists t''. exact J.
Qed.

(** * The invariant *)

Record stamped (o : cache_opts) (c : cache) (tr : list event) : Prop := {
  st_bounds : forall a t, last_promotion tr a t ->
    (t + co_fresh o <= el_expiry (ls_heap (c_ls c) a) <= t + co_fresh o + Z.max 0 (co_stutter o))%Z;
  st_alloc : forall a, a < c_alloc c <-> exists t, In (EvPromote a t) tr }.

(** the promotions of an element in [ev], which follows [tr], are the freshness apart *)
Definition apart (o : cache_opts) (tr ev : list event) : Prop := forall e1 a t' e2 t,
  ev = e1 ++ EvPromote a t' :: e2 -> last_promotion (tr ++ e1) a t -> (t + co_fresh o <= t')%Z.

Lemma expiry_bounds o now st : stutter_ok o st = true ->
  (now + co_fresh o <= new_promotion_expiry o now st <= now + co_fresh o + Z.max 0 (co_stutter o))%Z.
Proof.
  unfold stutter_ok, new_promotion_expiry. destruct (0 <? co_stutter o)%Z eqn:E.
  - apply Z.ltb_lt in E. intros H. apply andb_true_iff in H as [H1 H2]. apply Z.leb_le in H1. apply Z.ltb_lt in H2. lia.
  - apply Z.ltb_ge in E. intros _. lia.
Qed.

Lemma in_seq_alloc c q g tr a : Inv c q g tr -> In a q -> a < c_alloc c.
Proof. intros I H. apply (i_al _ _ _ _ _ _ _ _ I). apply in_app_iff. left. exact H. Qed.

Lemma reachable_alloc c q g tr ns id a : Inv c q g tr -> reachable c ns id a -> a < c_alloc c.
Proof.
  intros I (r & H1 & H2). apply (in_seq_alloc _ _ _ _ _ I).
  apply (in_maps_seq _ _ _ _ _ _ _ _ a I). exists ns, r, id. split; apply bget_in; assumption.
Qed.

Lemma stamp_step o c q g tr x c' ev : Inv c q g tr -> stamped o c tr -> cache_act o c x = Some (c', ev) ->
  stamped o c' (tr ++ ev) /\ apart o tr ev.
Proof.
  intros I [Hb Ha] E. apply act_stamp in E as [(A & B' & C)|(a & now & st & e1 & e2 & Hst & -> & S1 & S2 & X1 & X2 & X3)].
  - split.
    + constructor.
      * intros a t L. apply last_promotion_app in L as [(t1 & t2 & -> & _)|[_ L]].
        -- exfalso. apply (A a t). apply in_elt.
        -- rewrite (B' a). exact (Hb a t L).
      * intros a. rewrite C, Ha. split; intros (t & H); exists t; [apply in_app_iff; left; exact H|].
        apply in_app_iff in H as [H|H]; [exact H|elim (A a t H)].
    + intros f1 a t' f2 t -> _. exfalso. apply (A a t'). apply in_elt.
  - assert (U : forall f1 b t' f2, e1 ++ EvPromote a now :: e2 = f1 ++ EvPromote b t' :: f2 -> f1 = e1 /\ b = a /\ t' = now /\ f2 = e2).
    { intros f1 b t' f2 F. symmetry in F. apply split_app in F as [(k & F1 & F2)|(k & F1 & F2)].
      - exfalso. apply (S1 b t'). rewrite F1. apply in_elt.
      - destruct k as [|y k].
        + cbn in F1. injection F1 as <- <- <-. rewrite app_nil_r in F2. auto.
        + cbn in F1. injection F1 as <- F1. exfalso. apply (S2 b t'). rewrite F1. apply in_elt. }
    assert (AL : c_alloc c' = c_alloc c /\ (el_expiry (ls_heap (c_ls c) a) <= now)%Z /\ a < c_alloc c \/
      c_alloc c' = S (c_alloc c) /\ a = c_alloc c).
    { destruct X3 as [(X3 & X4 & [X5|(ns & id & X5)])|X3]; [left|left|right; exact X3].
      - split; [exact X3|]. split; [exact X4|]. apply (i_rd _ _ _ _ _ _ _ _ I) in X5. exact (proj2 (proj2 (in_maps_seq _ _ _ _ _ _ _ _ a I X5))).
      - split; [exact X3|]. split; [exact X4|]. exact (reachable_alloc _ _ _ _ _ _ _ I X5). }
    split.
    + constructor.
      * intros b t L. apply last_promotion_app in L as [(t1 & t2 & F & _)|[N L]].
        -- apply U in F as (_ & -> & -> & _). rewrite X1. apply expiry_bounds. exact Hst.
        -- assert (Nb : b <> a) by (intros ->; apply (N now); apply in_elt). rewrite (X2 b Nb). exact (Hb b t L).
      * intros b. assert (In1 : (exists t, In (EvPromote b t) (tr ++ e1 ++ EvPromote a now :: e2)) <-> b = a \/ b < c_alloc c).
        { split.
          - intros (t & H). apply in_app_iff in H as [H|H]; [right; apply Ha; exists t; exact H|].
            apply in_split in H as (f1 & f2 & F). apply U in F as (_ & -> & _). left. reflexivity.
          - intros [->|H]; [exists now; apply in_app_iff; right; apply in_elt|]. apply Ha in H as (t & H). exists t. apply in_app_iff. left. exact H. }
        rewrite In1. destruct AL as [(-> & _ & X)|[-> X]]; [|lia]. split; [tauto|]. intros [->|H]; assumption.
    + intros f1 b t' f2 t F L. apply U in F as (-> & -> & -> & _).
      apply last_promotion_app in L as [(t1 & t2 & F & _)|[_ L]]; [exfalso; apply (S1 a t); rewrite F; apply in_elt|].
      destruct AL as [(_ & X & _)|[_ X]].
      * specialize (Hb a t L). lia.
      * exfalso. assert (Y : a < c_alloc c) by (apply Ha; destruct L as (t1 & t2 & -> & _); exists t; apply in_elt). lia.
Qed.

Lemma stamped_run o xs : (0 <= co_capacity o)%Z -> (0 <= co_evict_batch o)%Z ->
  forall c q g tr c' ev, Inv c q g tr -> tokens o c -> stamped o c tr -> cache_run o c xs = Some (c', ev) ->
  stamped o c' (tr ++ ev) /\ apart o tr ev.
Proof.
  intros H1 H2. induction xs as [|x xs IH]; intros c q g tr c' ev I T S E; cbn [cache_run] in E.
  - injection E as <- <-. rewrite app_nil_r. split; [exact S|]. intros e1 a t' e2 t F. destruct e1; discriminate.
  - destruct (cache_act o c x) as [[c1 f1]|] eqn:E1; [|discriminate].
    destruct (cache_run o c1 xs) as [[c2 f2]|] eqn:E2; [|discriminate]. injection E as <- <-.
    destruct (stamp_step o c q g tr x c1 f1 I S E1) as [S1 A1].
    destruct (act_ok o c q g tr x c1 f1 H1 H2 I T E1) as [(q' & g' & I1 & T1) _].
    destruct (IH c1 q' g' (tr ++ f1) c2 f2 I1 T1 S1 E2) as [S2 A2]. rewrite app_assoc. split; [exact S2|].
    intros e1 a t' e2 t F L. symmetry in F. apply split_app in F as [(k & F1 & F2)|(k & F1 & F2)].
    + apply (A1 e1 a t' k t F1 L).
    + apply (A2 k a t' e2 t F1). rewrite <- app_assoc, <- F2. exact L.
Qed.

Lemma stamped_new o : stamped o new_cache [].
Proof.
  constructor.
  - intros a t (t1 & t2 & F & _). destruct t1; discriminate.
  - intros a. cbn. split; [lia|intros (? & [])].
Qed.

Lemma promotions_apart o xs c tr u a t v t' w :
  (0 <= co_capacity o)%Z -> (0 <= co_evict_batch o)%Z ->
  cache_run o new_cache xs = Some (c, tr) ->
  tr = u ++ EvPromote a t :: v ++ EvPromote a t' :: w -> (forall t'', ~ In (EvPromote a t'') v) ->
  (t + co_fresh o <= t')%Z.
Proof.
  intros H1 H2 E F N. destruct (stamped_run o xs H1 H2 _ _ _ _ _ _ Inv_new (tokens_new o H1 H2) (stamped_new o) E) as [_ A].
  apply (A (u ++ EvPromote a t :: v) a t' w t); [rewrite F, <- app_assoc; reflexivity|].
  exists u, v. split; [reflexivity|exact N].
Qed.

Lemma use_promotes o xs c tr ns id from to now st answer c' ev res a :
  (0 <= co_capacity o)%Z -> (0 <= co_evict_batch o)%Z ->
  cache_run o new_cache xs = Some (c, tr) -> c_readers c = [] ->
  forward_match_call o c ns id from to now st answer = Some (c', ev) ->
  In (EvServe ns id from to res (Some a)) ev ->
  In (EvPromote a now) ev \/ exists t, last_promotion tr a t /\ (now < t + co_fresh o + Z.max 0 (co_stutter o))%Z.
Proof.
  intros H1 H2 E Rd. destruct (stamped_run o xs H1 H2 _ _ _ _ _ _ Inv_new (tokens_new o H1 H2) (stamped_new o) E) as [[Sb Sa] _].
  destruct (reachable_inv o xs c tr H1 H2 E) as [(q & g & I) _].
  unfold forward_match_call. cbn [cache_act]. destruct (try_get c ns id to) as [|b r|r expired] eqn:T.
  - rewrite Rd. intros F. injection F as <- <-. intros [X|[]]. discriminate.
  - destruct (should_promote (ls_heap (c_ls c) b) now) eqn:S.
    + cbn [c_readers with_readers]. rewrite Rd. cbn [app nth_error remove_nth]. destruct (stutter_ok o st); [|discriminate].
      unfold promote. cbn [c_ls with_readers]. rewrite S. intros F. injection F as <- <-. intros [X|[X|[]]]; [|discriminate].
      injection X as <- <-. left. right. left. reflexivity.
    + rewrite Rd. intros F. injection F as <- <-. intros [X|[]]. injection X as -> ->. right.
      assert (Y : a < c_alloc c) by exact (reachable_alloc _ _ _ _ _ _ _ I (hit_reachable _ _ _ _ _ _ T)).
      apply Sa in Y as (t & Y). apply last_promotion_ex in Y as (t' & L). exists t'. split; [exact L|].
      specialize (Sb a t' L). apply Z.leb_gt in S. lia.
  - rewrite Rd. cbn [cache_act]. rewrite T. destruct (unlocked c && stutter_ok o st) eqn:U; [|discriminate].
    apply andb_true_iff in U as [_ U]. intros F. injection F as F. unfold set_with_lock in F.
    destruct (if expired then _ else _) as [c1 r1]. cbn zeta in F. injection F as <- <-.
    intros [X|[X|[X|[]]]]; try discriminate. injection X as <- <-. left. right. left. reflexivity.
Qed.
