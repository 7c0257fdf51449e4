(** With zero freshness durations every hit promotes, so the list is in order of
    last use. *)
From Coq Require Import Arith ZArith Bool Lia List.
From Verif Require Import Base.Bytes Base.BytesFacts Base.BMap Base.BMapFacts
  Model.Rules Model.CacheList Model.Cache Spec.CacheListSpec Spec.CacheSpec
  Proof.CacheListProof Proof.CacheProof Proof.CacheRunProof.
Import ListNotations.
Local Open Scope nat_scope.

(** ** Uses and promotions come in pairs *)

Definition block (ev : list event) : Prop :=
  (forall e a, In e ev -> ~ promotes e a /\ ~ uses e a) \/
  exists a, (exists e, In e ev /\ promotes e a) /\ (exists e, In e ev /\ uses e a) /\
    forall e b, In e ev -> b <> a -> ~ promotes e b /\ ~ uses e b.

Inductive paired : list event -> Prop :=
| paired_nil : paired []
| paired_app tr ev : paired tr -> block ev -> paired (tr ++ ev).

Lemma more_recent_app P tr a b ev :
  more_recent P tr a b -> (forall e, In e ev -> ~ P e b) -> more_recent P (tr ++ ev) a b.
Proof.
  intros (t1 & x & t2 & E & Pa & N) C. exists t1, x, (t2 ++ ev). repeat split.
  - rewrite E, <- app_assoc. reflexivity.
  - exact Pa.
  - intros e' H. apply in_app_iff in H as [H|H]; auto.
Qed.

Lemma paired_recent tr a b :
  paired tr -> a <> b -> more_recent promotes tr a b -> more_recent uses tr a b.
Proof.
  intros P N. induction P as [|tr ev P IH B']; intros (t1 & e & t2 & E & Pa & Nb).
  - destruct t1; discriminate.
  - assert (CASE : ~ (exists e', In e' ev /\ promotes e' a) ->
             (forall e', In e' ev -> ~ uses e' b) -> more_recent uses (tr ++ ev) a b).
    { intros C U. apply more_recent_app; [|exact U]. apply IH.
      symmetry in E. apply split_app in E as [(k & E1 & E2)|(k & E1 & E2)].
      - exists t1, e, k. split; [exact E1|]. split; [exact Pa|].
        intros e' H. apply Nb. rewrite E2, in_app_iff. tauto.
      - exfalso. apply C. exists e. split; [rewrite E1; apply in_elt|exact Pa]. }
    destruct B' as [Q|(x & (ep & Hp & Pp) & (eu & Hu & Pu) & Q)].
    + apply CASE.
      * intros (e' & H & X). exact (proj1 (Q e' a H) X).
      * intros e' H. exact (proj2 (Q e' b H)).
    + destruct (Nat.eq_dec x a) as [->|Nxa].
      * apply in_split in Hu as (u & v & Eu). exists (tr ++ u), eu, v.
        split; [rewrite Eu, <- app_assoc; reflexivity|]. split; [exact Pu|].
        intros e' H. apply (Q e' b); [rewrite Eu, in_app_iff; right; right; exact H|congruence].
      * destruct (Nat.eq_dec x b) as [->|Nxb].
        -- exfalso. symmetry in E. apply split_app in E as [(k & E1 & E2)|(k & E1 & E2)].
           ++ apply (Nb ep); [rewrite E2, in_app_iff; right; exact Hp|exact Pp].
           ++ apply (proj1 (Q e a ltac:(rewrite E1; apply in_elt) N)). exact Pa.
        -- apply CASE.
           ++ intros (e' & H & X). exact (proj1 (Q e' a H ltac:(congruence)) X).
           ++ intros e' H. exact (proj2 (Q e' b H ltac:(congruence))).
Qed.

Lemma nodup_pair (q l1 l2 l3 : list nat) a b : NoDup q -> q = l1 ++ a :: l2 ++ b :: l3 -> a <> b.
Proof.
  intros H E X. subst. apply NoDup_remove_2 in H. apply H. rewrite !in_app_iff. cbn. tauto.
Qed.

(** ** Promotion times *)

Definition before (h : heap) (t : Z) : Prop := forall a, (el_expiry (h a) <= t)%Z.

Lemma set_prev_before h a v t : before h t -> before (set_prev h a v) t.
Proof. intros H b. specialize (H b). unfold set_prev, upd. destruct (Nat.eqb_spec b a) as [->|_]; exact H. Qed.
Lemma set_next_before h a v t : before h t -> before (set_next h a v) t.
Proof. intros H b. specialize (H b). unfold set_next, upd. destruct (Nat.eqb_spec b a) as [->|_]; exact H. Qed.
Lemma set_deleted_before h a v t : before h t -> before (set_deleted h a v) t.
Proof. intros H b. specialize (H b). unfold set_deleted, upd. destruct (Nat.eqb_spec b a) as [->|_]; exact H. Qed.
Lemma set_expiry_before h a v t : before h t -> (v <= t)%Z -> before (set_expiry h a v) t.
Proof.
  intros H Hv b. specialize (H b). unfold set_expiry, upd.
  destruct (Nat.eqb_spec b a) as [->|_]; [exact Hv|exact H].
Qed.

Lemma push_front_before s e t : before (ls_heap s) t -> before (ls_heap (push_front s e)) t.
Proof.
  intros H. destruct e as [e|]; cbn; [|exact H]. destruct (el_deleted _); [exact H|].
  destruct (dl_head _); cbn [ls_heap]; auto using set_prev_before, set_next_before.
Qed.
Lemma unlink_before s e m t : before (ls_heap s) t -> before (ls_heap (unlink s e m)) t.
Proof.
  intros H. unfold unlink. destruct (el_prev _), (el_next _); cbn [ls_heap];
    auto 10 using set_prev_before, set_next_before, set_deleted_before.
Qed.
Lemma remove_before s e t : before (ls_heap s) t -> before (ls_heap (list_remove s e)) t.
Proof.
  intros H. destruct e as [e|]; cbn; [|exact H]. destruct (el_deleted _); [exact H|]. apply unlink_before. exact H.
Qed.
Lemma move_before s e t : before (ls_heap s) t -> before (ls_heap (move_to_front s e)) t.
Proof.
  intros H. destruct e as [e|]; unfold move_to_front; [|exact H]. destruct (el_deleted _); [exact H|].
  apply push_front_before, unlink_before. exact H.
Qed.

Lemma evict_loop_before o t fuel : forall c c',
  before (ls_heap (c_ls c)) t -> evict_loop fuel o c = Some c' ->
  before (ls_heap (c_ls c')) t /\ c_readers c' = c_readers c.
Proof.
  induction fuel as [|fuel IH]; intros c c' H; cbn [evict_loop].
  - destruct (_ <=? _)%Z; [|discriminate]. intros E. injection E as <-. split; [exact H|reflexivity].
  - destruct (_ <=? _)%Z; [intros E; injection E as <-; split; [exact H|reflexivity]|].
    destruct (dl_tail _) as [a|]; [|discriminate]. cbn zeta.
    match goal with |- context [bget ?m ?k] => destruct (bget m k) as [r|] end; intros E;
      apply IH in E; try exact E; apply (remove_before (c_ls c) (Some a) t H).
Qed.

Lemma unlocked_nil c : c_readers c = [] -> unlocked c = true.
Proof. intros H. unfold unlocked. rewrite H. reflexivity. Qed.

(** ** One operation of a sequential history *)

Definition zero_fresh (o : cache_opts) : Prop := (co_fresh o = 0 /\ co_stutter o = 0)%Z.

Lemma zero_expiry o now st : zero_fresh o -> new_promotion_expiry o now st = now.
Proof. intros [F S]. unfold new_promotion_expiry. rewrite F, S. cbn. lia. Qed.

Lemma other_ok o c x c' ev t :
  c_readers c = [] -> before (ls_heap (c_ls c)) t -> seq_act o c (SOther x) = Some (c', ev) ->
  c_readers c' = [] /\ before (ls_heap (c_ls c')) t /\ block ev /\ cache_run o c [x] = Some (c', ev).
Proof.
  intros Rd H E.
  assert (E' : cache_act o c x = Some (c', ev)) by (destruct x; try exact E; discriminate).
  assert (RUN : cache_run o c [x] = Some (c', ev)).
  { cbn [cache_run]. rewrite E'. rewrite app_nil_r. reflexivity. }
  enough (c_readers c' = [] /\ before (ls_heap (c_ls c')) t /\ block ev) by tauto.
  clear RUN.
  assert (Q : forall e, In e ev -> match e with EvServe _ _ _ _ _ _ | EvPromote _ _ => False | _ => True end ->
    forall a, ~ promotes e a /\ ~ uses e a).
  { intros e _ X a. split.
    - intros Y. destruct Y as (w & ->). exact X.
    - intros (? & ? & ? & ? & ? & Y). subst e. exact X. }
  destruct x; try discriminate; cbn [cache_act] in E'; rewrite ?(unlocked_nil c Rd) in E'; cbn [andb] in E'.
  - destruct (bget _ _) as [r|]; injection E' as <- <-; (split; [exact Rd|split; [exact H|]]); left;
      intros e a He; apply Q; destruct He as [<-|[]]; cbn; auto.
  - destruct (bget _ _) as [r|]; [destruct (Nat.eqb _ _)|]; injection E' as <- <-;
      (split; [exact Rd|split; [exact H|]]); left;
      intros e a He; apply Q; destruct He as [<-|[]]; cbn; auto.
  - destruct (bget _ _) as [r|]; injection E' as <- <-; (split; [exact Rd|split; [exact H|]]); left;
      intros e a He; apply Q; destruct He as [<-|[]]; cbn; auto.
  - injection E' as <- <-. (split; [exact Rd|split; [exact H|]]). left. intros e a [].
  - destruct (c_evict c && negb (c_evicting c)); [|discriminate]. injection E' as <- <-.
    (split; [exact Rd|split; [exact H|]]). left. intros e a [].
  - destruct (c_evicting c); [|discriminate]. destruct (do_evict o _) as [c1|] eqn:Ee; [|discriminate].
    injection E' as <- <-. apply (evict_loop_before o t) in Ee; [|exact H].
    destruct Ee as [H1 H2]. split; [rewrite H2; exact Rd|]. split; [exact H1|]. left. intros e a [].
  - destruct (c_pending c); [|discriminate]. destruct (c_delete c && negb (c_deleting c)); [|discriminate].
    injection E' as <- <-. (split; [exact Rd|split; [exact H|]]). left. intros e a [].
  - destruct (c_deleting c); [|discriminate].
    injection E' as <- <-. (split; [exact Rd|split; [exact H|]]). left. intros e a [].
  - destruct (nth_error _ _) as [a|]; [|discriminate]. injection E' as <- <-.
    split; [exact Rd|]. split; [|left; intros e b []]. exact (remove_before (c_ls c) (Some a) t H).
Qed.

Lemma promote_zero o c now st a :
  zero_fresh o -> before (ls_heap (c_ls c)) now ->
  exists c', promote o c now st a = (c', [EvPromote a now]) /\ before (ls_heap (c_ls c')) now /\
    c_readers c' = c_readers c.
Proof.
  intros Z0 H. unfold promote.
  assert (should_promote (ls_heap (c_ls c) a) now = true) as -> by (apply Z.leb_le; apply H).
  eexists. split; [reflexivity|]. split; [|reflexivity].
  cbn [c_ls with_ls list_run fold_left list_step].
  apply move_before. cbn [ls_heap]. apply set_expiry_before; [exact H|].
  rewrite zero_expiry by exact Z0. lia.
Qed.

Lemma block_use a w ns id from to res evs :
  (evs = [EvPromote a w; EvServe ns id from to res (Some a)] \/
   evs = [EvServe ns id from to res (Some a); EvPromote a w]) -> block evs.
Proof.
  intros [-> | ->]; right; exists a; (split; [exists (EvPromote a w); split; [cbn; tauto|exists w; reflexivity]|]);
    (split; [exists (EvServe ns id from to res (Some a)); split; [cbn; tauto|exists ns, id, from, to, res; reflexivity]|]);
    intros e b He N; cbn in He; destruct He as [<-|[<-|[]]];
    (split; [intros (? & X); congruence|intros (? & ? & ? & ? & ? & X); congruence]).
Qed.

Lemma match_ok o c ns id from to now st answer c' ev :
  zero_fresh o -> c_readers c = [] -> before (ls_heap (c_ls c)) now -> (0 <= now)%Z ->
  seq_act o c (SMatch ns id from to now st answer) = Some (c', ev) ->
  c_readers c' = [] /\ before (ls_heap (c_ls c')) now /\ block ev /\
  exists xs, cache_run o c xs = Some (c', ev).
Proof.
  intros Z0 Rd H H0. cbn [seq_act]. unfold forward_match_call.
  destruct (cache_act o c (ARead ns id from to now)) as [[c1 ev1]|] eqn:E1; [|discriminate].
  pose proof E1 as E1'. cbn [cache_act] in E1'.
  destruct (try_get c ns id to) as [|a res|r expired] eqn:Et.
  - injection E1' as <- <-. rewrite Rd. intros E. injection E as <- <-.
    split; [exact Rd|]. split; [exact H|]. split.
    + left. intros e b [<-|[]]. split; [intros (? & X); discriminate|intros (? & ? & ? & ? & ? & X); discriminate].
    + exists [ARead ns id from to now]. cbn [cache_run]. rewrite E1. rewrite app_nil_r. reflexivity.
  - assert (SP : should_promote (ls_heap (c_ls c) a) now = true) by (apply Z.leb_le; apply H).
    rewrite SP in E1'. injection E1' as <- <-. cbn [c_readers with_readers]. rewrite Rd. cbn [app].
    destruct (cache_act o _ (APromote 0 st)) as [[c2 ev2]|] eqn:E2; [|discriminate].
    intros E. injection E as <- <-.
    pose proof E2 as E2'. cbn [cache_act] in E2'.
    destruct (stutter_ok o st); [|discriminate]. cbn [c_readers with_readers nth_error] in E2'.
    injection E2' as E2'.
    match type of E2' with promote o ?cc _ _ _ = _ =>
      destruct (promote_zero o cc now st a Z0 H) as (c3 & P1 & P2 & P3) end.
    rewrite P1 in E2'. injection E2' as <- <-.
    split; [rewrite P3; reflexivity|]. split; [exact P2|]. split.
    + eapply block_use. right. reflexivity.
    + exists [ARead ns id from to now; APromote 0 st]. cbn [cache_run].
      rewrite E1. rewrite Rd. cbn [app]. rewrite E2. reflexivity.
  - injection E1' as <- <-. rewrite Rd. intros E.
    assert (RUN : cache_run o c [ARead ns id from to now; AWrite ns id from to now st answer] = Some (c', ev)).
    { cbn [cache_run]. rewrite E1, E. cbn. rewrite app_nil_r. reflexivity. }
    enough (c_readers c' = [] /\ before (ls_heap (c_ls c')) now /\ block ev) as (A & B' & C).
    { split; [exact A|]. split; [exact B'|]. split; [exact C|]. eexists. exact RUN. }
    clear RUN E1. cbn [cache_act] in E. rewrite (unlocked_nil c Rd), Et in E. cbn [andb] in E.
    destruct (stutter_ok o st); [|discriminate]. injection E as E.
    unfold set_with_lock in E.
    destruct (if expired then invalidate_with_lock o c ns id r else (c, r)) as [c1 r1] eqn:Ei.
    assert (R1 : c_readers c1 = [] /\ before (ls_heap (c_ls c1)) now).
    { destruct expired; [|injection Ei as <- <-; split; assumption].
      unfold invalidate_with_lock in Ei. destruct (co_invalidate_all o); injection Ei as <- <-.
      - split; assumption.
      - split; [exact Rd|]. exact (remove_before (c_ls c) (bget (r_elems r) id) now H). }
    destruct R1 as [R1 R2]. clear Ei.
    assert (H3 : before (ls_heap (list_run (c_ls c1)
        [LNew (c_alloc c1) ns id answer; LSetExpiry (c_alloc c1) (new_promotion_expiry o now st);
         LPushFront (Some (c_alloc c1))])) now).
    { cbn [list_run fold_left list_step]. apply push_front_before. cbn [ls_heap].
      apply set_expiry_before; [|rewrite zero_expiry by exact Z0; lia].
      intros b. destruct (Nat.eq_dec b (c_alloc c1)) as [->|N].
      - rewrite upd_same. cbn. exact H0.
      - rewrite upd_other by exact N. apply R2. }
    cbn zeta in E.
    change (c_ls (with_ns c1 (bset (c_ns c1) ns (mk_results (bset (r_elems r1) id (c_alloc c1)) (r_source r1)))))
      with (c_ls c1) in E.
    set (c3 := with_ls (with_alloc (with_ns c1 (bset (c_ns c1) ns
      (mk_results (bset (r_elems r1) id (c_alloc c1)) (r_source r1)))) (S (c_alloc c1)))
      (list_run (c_ls c1) [LNew (c_alloc c1) ns id answer;
         LSetExpiry (c_alloc c1) (new_promotion_expiry o now st); LPushFront (Some (c_alloc c1))])) in E.
    assert (C3 : c_readers c3 = [] /\ before (ls_heap (c_ls c3)) now) by (split; [exact R1|exact H3]).
    destruct C3 as [C3 C4]. clearbody c3.
    injection E as <- <-. split; [destruct (_ <? _)%Z; exact C3|].
    split; [destruct (_ <? _)%Z; exact C4|].
    right. exists (c_alloc c1).
    split; [exists (EvPromote (c_alloc c1) now); split; [cbn; tauto|exists now; reflexivity]|].
    split; [exists (EvServe ns id from to answer (Some (c_alloc c1))); split;
              [cbn; tauto|exists ns, id, from, to, answer; reflexivity]|].
    intros e b He N. cbn in He. destruct He as [<-|[<-|[<-|[]]]];
      (split; [intros (? & X); congruence|intros (? & ? & ? & ? & ? & X); congruence]).
Qed.

Lemma cache_run_app o xs : forall c c1 e1 ys c2 e2,
  cache_run o c xs = Some (c1, e1) -> cache_run o c1 ys = Some (c2, e2) ->
  cache_run o c (xs ++ ys) = Some (c2, e1 ++ e2).
Proof.
  induction xs as [|x xs IH]; intros c c1 e1 ys c2 e2 H1 H2; cbn in *.
  - injection H1 as <- <-. exact H2.
  - destruct (cache_act o c x) as [[c3 e3]|]; [|discriminate].
    destruct (cache_run o c3 xs) as [[c4 e4]|] eqn:E; [|discriminate].
    injection H1 as <- <-. rewrite (IH _ _ _ _ _ _ E H2), app_assoc. reflexivity.
Qed.

Lemma before_mono h t t' : before h t -> (t <= t')%Z -> before h t'.
Proof. intros H L a. specialize (H a). lia. Qed.

Lemma seq_run_ok o ps : zero_fresh o -> forall c t tr c' ev,
  (0 <= t)%Z -> clock_from t ps -> c_readers c = [] -> before (ls_heap (c_ls c)) t -> paired tr ->
  seq_run o c ps = Some (c', ev) ->
  paired (tr ++ ev) /\ exists xs, cache_run o c xs = Some (c', ev).
Proof.
  intros Z0. induction ps as [|p ps IH]; intros c t tr c' ev Ht Hc Rd H P E; cbn [seq_run] in E.
  - injection E as <- <-. rewrite app_nil_r. split; [exact P|]. exists []. reflexivity.
  - destruct (seq_act o c p) as [[c1 e1]|] eqn:E1; [|discriminate].
    destruct (seq_run o c1 ps) as [[c2 e2]|] eqn:E2; [|discriminate]. injection E as <- <-.
    destruct p as [ns id from to now st answer|x].
    + cbn [clock_from] in Hc. destruct Hc as [Hn Hc].
      destruct (match_ok o c ns id from to now st answer c1 e1 Z0 Rd (before_mono _ _ _ H Hn) ltac:(lia) E1)
        as (R1 & B1 & K1 & xs & X1).
      destruct (IH c1 now (tr ++ e1) c2 e2 ltac:(lia) Hc R1 B1 (paired_app _ _ P K1) E2) as (P2 & ys & Y).
      rewrite app_assoc. split; [exact P2|]. exists (xs ++ ys). eapply cache_run_app; eassumption.
    + cbn [clock_from] in Hc.
      destruct (other_ok o c x c1 e1 t Rd H E1) as (R1 & B1 & K1 & X1).
      destruct (IH c1 t (tr ++ e1) c2 e2 Ht Hc R1 B1 (paired_app _ _ P K1) E2) as (P2 & ys & Y).
      rewrite app_assoc. split; [exact P2|]. exists ([x] ++ ys). eapply cache_run_app; eassumption.
Qed.

Lemma lru o ps c tr :
  (0 <= co_capacity o)%Z -> (0 <= co_evict_batch o)%Z ->
  co_fresh o = 0%Z -> co_stutter o = 0%Z -> clock_from 0 ps ->
  seq_run o new_cache ps = Some (c, tr) ->
  exists q, shows (c_ls c) q /\ latest_first uses tr q.
Proof.
  intros H1 H2 F S Hc E.
  assert (B0 : before (ls_heap (c_ls new_cache)) 0) by (intros a; cbn; lia).
  destruct (seq_run_ok o ps (conj F S) new_cache 0%Z [] c tr ltac:(lia) Hc eq_refl B0 paired_nil E) as (P & xs & X).
  cbn in P. destruct (list_order o xs c tr H1 H2 X) as (q & Q1 & Q2 & Q3).
  exists q. split; [exact Q1|]. intros l1 a l2 b l3 El.
  apply paired_recent; [exact P|eapply nodup_pair; eassumption|eapply Q3; exact El].
Qed.

(** ** Deletion *)

(** once the deletion goroutine has removed an element it is gone from the list *)
Lemma deleted_gone o xs c tr n a :
  (0 <= co_capacity o)%Z -> (0 <= co_evict_batch o)%Z -> cache_run o new_cache xs = Some (c, tr) ->
  nth_error (c_pending c) n = Some a ->
  exists c' q, cache_act o c (ADeleteOne n) = Some (c', []) /\ shows (c_ls c') q /\ ~ In a q.
Proof.
  intros H1 H2 H3 Hn. destruct (reachable_inv o xs c tr H1 H2 H3) as ((q & g & I) & T & _).
  cbn [cache_act]. rewrite Hn. eexists.
  pose proof (nth_error_In _ _ Hn) as Hi.
  assert (Da : In a (dead_of c)) by (unfold dead_of; rewrite in_app_iff; tauto).
  pose proof (i_dead _ _ _ _ _ _ _ _ I a Da) as Al.
  pose proof (dead_not_in_maps _ _ _ _ _ _ _ _ a I Da) as Nm.
  destruct (inv_remove _ _ _ _ _ _ _ _ a I Al Nm) as (q' & g' & F1 & F2 & F4 & F3).
  exists q'. split; [reflexivity|]. split.
  - apply linked_shows. exact (proj1 (proj2 (i_ref _ _ _ _ _ _ _ _ F2))).
  - rewrite F1, drop_in. tauto.
Qed.
