(** What the matcher serves through its cache is a match against the latest
    rules processed, once the cache has been told about them. *)
From Coq Require Import Arith ZArith Bool Lia List.
From Verif Require Import Base.Bytes Base.BytesFacts Base.BMap Base.BMapFacts Model.Rules
  Model.RuleSet Model.RuleSetProto Model.Namespace Model.CacheList Model.Cache Model.Matcher
  Spec.CacheListSpec Spec.CacheSpec Spec.MatcherSpec
  Proof.CacheListProof Proof.CacheProof Proof.CacheRunProof Proof.CacheLruProof Proof.MatcherProof.
Import ListNotations.
Local Open Scope nat_scope.

Lemma cache_events_split : forall tr a e b, cache_events tr = a ++ e :: b ->
  exists t1 t2, tr = t1 ++ MEv e :: t2 /\ cache_events t1 = a /\ cache_events t2 = b.
Proof.
  induction tr as [|y tr IH]; intros a e b H; [destruct a; discriminate|].
  assert (SKIP : cache_events (y :: tr) = cache_events tr ->
    exists t1 t2, y :: tr = t1 ++ MEv e :: t2 /\ cache_events t1 = a /\ cache_events t2 = b).
  { intros E. rewrite E in H. destruct (IH a e b H) as (t1 & t2 & -> & <- & <-).
    exists (y :: t1), t2. split; [reflexivity|]. split; [|reflexivity].
    destruct y; try reflexivity. exfalso. apply (f_equal (@length _)) in E. exact (Nat.neq_succ_diag_l _ E). }
  destruct y as [e0|x|n o rs t|n o|n o t]; try (apply SKIP; reflexivity).
  destruct a as [|e1 a]; cbn in H; injection H as -> H.
  - exists [], tr. repeat split. exact H.
  - destruct (IH a e b H) as (t1 & t2 & -> & <- & <-). exists (MEv e1 :: t1), t2. repeat split.
Qed.

Definition refreshes_ns (ns : bytes) (o : nat) (e : mevent) : bool :=
  match e with MEv (EvRefresh n s) => beqb n ns && Nat.eqb s o | _ => false end.

Lemma refreshes_ns_iff ns o e : refreshes_ns ns o e = true <-> e = MEv (EvRefresh ns o).
Proof.
  split; [|intros ->; cbn; rewrite beqb_refl, Nat.eqb_refl; reflexivity].
  destruct e as [[]| | | |]; try discriminate. cbn. rewrite andb_true_iff, beqb_eq, Nat.eqb_eq. intros [-> ->]. reflexivity.
Qed.

Lemma in_refresh_dec ns o l : In (MEv (EvRefresh ns o)) l \/ ~ In (MEv (EvRefresh ns o)) l.
Proof.
  destruct (existsb (refreshes_ns ns o) l) eqn:E.
  - left. apply existsb_exists in E as (e & I & H). apply refreshes_ns_iff in H as ->. exact I.
  - right. intros I. assert (X : existsb (refreshes_ns ns o) l = true); [|congruence].
    apply existsb_exists. exists (MEv (EvRefresh ns o)). split; [exact I|]. apply refreshes_ns_iff. reflexivity.
Qed.

(** nothing cleared the namespace: its registration did not change *)
Lemma uncleared_registered t1 ns t2 : uncleared t1 ns t2 -> registered (t1 ++ t2) ns = registered t1 ns.
Proof.
  revert t1. induction t2 as [|e t2 IH]; intros t1 U; [rewrite app_nil_r; reflexivity|].
  replace (t1 ++ e :: t2) with ((t1 ++ [e]) ++ t2) by (rewrite <- app_assoc; reflexivity).
  rewrite IH.
  - pose proof (U [] e t2 eq_refl) as N. rewrite app_nil_r in N. rewrite registered_app. cbn.
    destruct e; cbn; try reflexivity; cbn in N.
    + destruct (beqb ns0 ns) eqn:E; [apply beqb_eq in E; tauto|reflexivity].
    + destruct (beqb ns0 ns) eqn:E; [apply beqb_eq in E; tauto|reflexivity].
  - intros u x v E. rewrite <- app_assoc. apply (U (e :: u) x v). rewrite E. reflexivity.
Qed.

Lemma uncleared_prefix t1 ns a b : uncleared t1 ns (a ++ b) -> uncleared t1 ns a.
Proof. intros U u e v E. apply (U u e (v ++ b)). rewrite E, <- app_assoc. reflexivity. Qed.

(** while it is not cleared, and every update was told to the cache, the rules of
    a registered namespace do not change *)
Lemma rules_stay tr ns u1 u2 s :
  trace_ok tr -> (exists v, tr = u1 ++ u2 ++ v) -> reg u1 ns = Some s ->
  uncleared (cache_events u1) ns (cache_events u2) -> ~ updating (u1 ++ u2) ns ->
  rules_of (u1 ++ u2) ns = rules_of u1 ns.
Proof.
  intros T (v & E) R U NU.
  assert (K : forall a e b, u2 = a ++ e :: b -> rules_step ns (rules_of u1 ns) e = rules_of u1 ns).
  { intros a e b Eu.
    assert (OK : event_ok (u1 ++ a) e).
    { apply (T (u1 ++ a) e (b ++ v)). rewrite E, Eu. rewrite <- !app_assoc. reflexivity. }
    assert (Ra : reg (u1 ++ a) ns = Some s).
    { unfold reg. rewrite cache_events_app, uncleared_registered; [exact R|].
      rewrite Eu, cache_events_app in U. exact (uncleared_prefix _ _ _ _ U). }
    destruct e as [e|x|n o rs t|n o|n o t]; cbn in *; try reflexivity.
    - destruct (beqb n ns) eqn:Eb; [|reflexivity]. apply beqb_eq in Eb as ->. exfalso.
      pose proof (OK s Ra) as <-. apply NU. exists (u1 ++ a), s, rs, t, b.
      split; [rewrite Eu, app_assoc; reflexivity|]. intros I.
      apply in_split in I as (b1 & b2 & ->).
      assert (C : cache_events u2 = (cache_events a ++ cache_events b1) ++ EvRefresh ns s :: cache_events b2).
      { rewrite Eu, cache_events_app. cbn. rewrite cache_events_app. cbn. rewrite <- app_assoc. reflexivity. }
      apply (U _ _ _ C). split; [reflexivity|].
      rewrite uncleared_registered; [exact R|]. rewrite C in U. exact (uncleared_prefix _ _ _ _ U).
    - destruct (beqb n ns) eqn:Eb; [|reflexivity]. apply beqb_eq in Eb as ->. exfalso. destruct OK. congruence.
    - destruct (beqb n ns) eqn:Eb; [|reflexivity]. apply beqb_eq in Eb as ->. exfalso. destruct OK. congruence. }
  rewrite rules_of_app. revert K. generalize (rules_of u1 ns) as k. clear.
  induction u2 as [|e u2 IH]; intros k K; [reflexivity|]. cbn [fold_left].
  rewrite (K [] e u2 eq_refl). apply IH. intros a e' b E. apply (K (e :: a) e' b). rewrite E. reflexivity.
Qed.

Lemma matcher_serves p xs s tr u ns id from to res a v :
  (0 <= co_capacity (mo_cache_opts p))%Z -> (0 <= co_evict_batch (mo_cache_opts p))%Z ->
  matcher_run p new_matcher xs = Some (s, tr) ->
  tr = u ++ MEv (EvServe ns id from to res a) :: v -> ~ updating u ns ->
  match registered (cache_events u) ns with
  | None => res = empty_match_result
  | Some _ => exists from' to', res = matched_by (rules_of u ns) id from' to' /\
      (from' = from /\ to' = to \/ (to < mr_expire res)%Z)
  end.
Proof.
  intros Hc Hb Run E NU. destruct (reachable_J _ _ _ _ Hc Hb Run) as [Bs _].
  pose proof (b_trace _ _ _ _ _ _ _ Bs) as T. destruct (b_cache _ _ _ _ _ _ _ Bs) as [ys C].
  assert (CE : cache_events tr = cache_events u ++ EvServe ns id from to res a :: cache_events v).
  { rewrite E, cache_events_app. reflexivity. }
  pose proof (served_what_may _ _ _ _ _ _ _ _ _ _ _ _ Hc Hb C CE) as S.
  unfold may_serve in S. destruct (registered (cache_events u) ns) as [o|] eqn:R; [|exact S].
  destruct S as (t1 & f' & to' & t2 & S1 & S2 & S3). exists f', to'.
  destruct (cache_events_split _ _ _ _ S1) as (u1 & u2 & Eu & <- & <-).
  set (src := MEv (EvSource ns o id f' to' res)) in *.
  assert (Es : cache_events u1 ++ [EvSource ns o id f' to' res] = cache_events (u1 ++ [src])).
  { rewrite cache_events_app. reflexivity. }
  rewrite Es in S2.
  assert (Eu' : u = (u1 ++ [src]) ++ u2) by (rewrite Eu, <- app_assoc; reflexivity).
  assert (K : rules_of u ns = rules_of u1 ns).
  { rewrite Eu'. rewrite (rules_stay tr ns (u1 ++ [src]) u2 o).
    - rewrite rules_of_app. reflexivity.
    - exact T.
    - exists (MEv (EvServe ns id from to res a) :: v). rewrite E, Eu', <- !app_assoc. reflexivity.
    - unfold reg. rewrite <- R, Eu', (cache_events_app (u1 ++ [src]) u2). symmetry. apply uncleared_registered. exact S2.
    - exact S2.
    - rewrite <- Eu'. exact NU. }
  split.
  - rewrite K. apply (T u1 src (u2 ++ MEv (EvServe ns id from to res a) :: v)).
    rewrite E, Eu, <- app_assoc. reflexivity.
  - destruct S3 as [(A & B & _)|S3]; auto.
Qed.

(** when nothing is under way, no namespace is being updated and the registered
    ones are those known *)
Lemma at_rest p xs s tr :
  (0 <= co_capacity (mo_cache_opts p))%Z -> (0 <= co_evict_batch (mo_cache_opts p))%Z ->
  matcher_run p new_matcher xs = Some (s, tr) -> m_thread s = NIdle -> m_refreshing s = [] ->
  forall ns, ~ updating tr ns /\ (registered (cache_events tr) ns = None <-> rules_of tr ns = None).
Proof.
  intros Hc Hb Run Th Rf ns. destruct (reachable_J _ _ _ _ Hc Hb Run) as [Bs T]. rewrite Th in Bs, T. rewrite Rf in Bs.
  split.
  - intros (t1 & o & rs & t & t2 & E & N). destruct (b_pending _ _ _ _ _ _ _ Bs _ _ _ _ _ _ E) as [X|[]]. exact (N X).
  - fold (reg tr ns). destruct (bget (m_rules s) ns) as [o|] eqn:G.
    + destruct (t_reg _ _ _ _ _ T ns o G) as [X|[_ []]]. rewrite X.
      destruct (b_known _ _ _ _ _ _ _ Bs ns o G) as (_ & k & K & _). rewrite K. split; discriminate.
    + rewrite (b_unknown _ _ _ _ _ _ _ Bs ns G). split; [reflexivity|]. intros _.
      destruct (reg tr ns) as [o|] eqn:R; [|reflexivity]. apply (b_reg _ _ _ _ _ _ _ Bs) in R. congruence.
Qed.

Lemma matcher_run_app p xs ys : forall s,
  matcher_run p s (xs ++ ys) =
  match matcher_run p s xs with
  | None => None
  | Some (s1, e1) => match matcher_run p s1 ys with None => None | Some (s2, e2) => Some (s2, e1 ++ e2) end
  end.
Proof.
  induction xs as [|x xs IH]; intros s; cbn [matcher_run app].
  - destruct (matcher_run p s ys) as [[s2 e2]|]; reflexivity.
  - destruct (matcher_act p s x) as [[s1 e1]|]; [|reflexivity]. rewrite IH.
    destruct (matcher_run p s1 xs) as [[s2 e2]|]; [|reflexivity].
    destruct (matcher_run p s2 ys) as [[s3 e3]|]; [|reflexivity]. rewrite app_assoc. reflexivity.
Qed.

Lemma updating_quiet tr ev ns : ~ updating tr ns -> ~ updating (tr ++ map MEv ev) ns.
Proof.
  intros N (t1 & o & rs & t & t2 & E & NI).
  refine (in_pending_app tr ev t1 t2 ns o rs t E _). intros k E1 E2. apply N. exists t1, o, rs, t, k.
  split; [exact E1|]. intros I. apply NI. rewrite E2. apply in_app_iff. left. exact I.
Qed.

(** a match when nothing is under way *)
Lemma match_at_rest p xs s tr x s' ev ns id from to res a :
  (0 <= co_capacity (mo_cache_opts p))%Z -> (0 <= co_evict_batch (mo_cache_opts p))%Z ->
  matcher_run p new_matcher xs = Some (s, tr) -> m_thread s = NIdle -> m_refreshing s = [] ->
  matcher_act p s x = Some (s', ev) -> In (MEv (EvServe ns id from to res a)) ev ->
  exists from' to', res = matched_by (rules_of tr ns) id from' to' /\
      (from' = from /\ to' = to \/ (to < mr_expire res)%Z).
Proof.
  intros Hc Hb Run Th Rf A I.
  assert (Q : exists ev0, ev = map MEv ev0 /\ quiet ev0).
  { destruct x; cbn [matcher_act] in A.
    - rewrite Th in A. destruct (new_namespaces _ _); [|discriminate]. injection A as <- <-. destruct I as [I|[]]. discriminate.
    - unfold process_step in A. rewrite Th in A. discriminate.
    - destruct (_ && _); [|discriminate]. unfold deliver in A. destruct (rule_set_from_proto _ _ _); [|discriminate].
      injection A as <- <-. destruct I as [I|[]]. discriminate.
    - rewrite Rf in A. destruct i; discriminate.
    - unfold call_cache in A. destruct (cache_act _ _ _) as [[c' ev0]|] eqn:C; [|discriminate]. injection A as <- <-.
      exists ev0. split; [reflexivity|]. exact (proj1 (read_events _ _ _ _ _ _ _ _ _ C)).
    - unfold call_cache in A. destruct (cache_act _ _ _) as [[c' ev0]|] eqn:C; [|discriminate]. injection A as <- <-.
      exists ev0. split; [reflexivity|]. exact (proj1 (write_events _ _ _ _ _ _ _ _ _ _ _ C)).
    - assert (S : match x with ARead _ _ _ _ _ | AWrite _ _ _ _ _ _ _ | ARegister _ _ | ARefresh _ _ | AUnregister _ => False | _ => True end
        /\ call_cache p s x = Some (s', ev)) by (destruct x; try discriminate; split; auto).
      destruct S as [S E]. unfold call_cache in E.
      destruct (cache_act _ _ _) as [[c' ev0]|] eqn:C; [|discriminate]. injection E as <- <-.
      exists ev0. split; [reflexivity|].
      destruct (silent_events _ _ _ _ _ S C) as [->|(b & w & ->)]; [intros e []|intros e [<-|[]]; reflexivity].
    - injection A as <- <-. destruct I. }
  destruct Q as (ev0 & -> & Q). destruct (at_rest _ _ _ _ Hc Hb Run Th Rf ns) as [NU RK].
  apply in_map_iff in I as (e & Ee & I). injection Ee as ->. apply in_split in I as (e1 & e2 & Ev).
  assert (Run' : matcher_run p new_matcher (xs ++ [x]) = Some (s', tr ++ map MEv ev0)).
  { rewrite matcher_run_app, Run. cbn [matcher_run]. rewrite A, app_nil_r. reflexivity. }
  assert (Q1 : quiet e1) by (intros e Ie; apply Q; rewrite Ev; apply in_app_iff; left; exact Ie).
  pose proof (matcher_serves p (xs ++ [x]) s' (tr ++ map MEv ev0) (tr ++ map MEv e1) ns id from to res a (map MEv e2)
    Hc Hb Run') as S.
  assert (E : tr ++ map MEv ev0 = (tr ++ map MEv e1) ++ MEv (EvServe ns id from to res a) :: map MEv e2).
  { rewrite Ev, map_app, <- app_assoc. reflexivity. }
  specialize (S E (updating_quiet _ _ _ NU)). rewrite rules_of_cache in S.
  change (registered (cache_events (tr ++ map MEv e1)) ns) with (reg (tr ++ map MEv e1) ns) in S.
  rewrite (reg_quiet _ _ _ Q1) in S. unfold reg in S.
  destruct (registered (cache_events tr) ns) as [o|].
  - destruct S as (f' & t' & S1 & S2). exists f', t'. split; [exact S1|]. destruct S2; auto.
  - exists from, to. split; [|left; split; reflexivity]. rewrite (proj1 RK eq_refl). exact S.
Qed.
