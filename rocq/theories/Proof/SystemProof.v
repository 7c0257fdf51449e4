(** Proofs about the store and a matcher that follows it. *)
From Coq Require Import Arith ZArith Bool Lia List.
From Verif Require Import Proof.RulesProof Proof.MatchProof Proof.InstantProof Proof.ReverseProof Proof.StoreProof Proof.StoreEditProof Proof.MatcherProof Proof.MatcherServeProof Proof.MatcherLiveProof.
From Verif.Model Require Import Metadata Filter Rules RuleSet RuleSetProto Namespace Store CacheList Cache Matcher System.
From Verif.Base Require Import Bytes BytesFacts BMap.
From Verif.Spec Require Import RulesSpec RuleSetProtoSpec StoreSpec CacheSpec MatcherSpec SystemSpec.
Import ListNotations.
Open Scope Z_scope.

(** ** A match over a window that is extended up to the expiry *)

Lemma match_extended v ms rs opts nid isr id from to T :
  let a := new_active_ruleset v ms rs opts nid isr in
  to <= T -> T <= mr_expire (forward_match a id from to) ->
  forward_match a id from T = forward_match a id from to.
Proof.
  intros a H1 H2. rewrite !forward_match_shape in * by apply built_sorted. cbn [mr_expire] in H2.
  pose proof (expiry_first v ms rs opts nid isr from to) as X. fold a in X.
  assert (G : forall c, is_change ms rs c -> from < c -> to <= c -> T <= c).
  { intros c C1 C2 C3. destruct X as [[_ X]|[X _]].
    - specialize (X c (conj C1 (conj C2 C3))). lia.
    - elim (X c). auto. }
  assert (W : window a from T = window a from to).
  { apply changes_between_unique. destruct (window_changes v ms rs opts nid isr from T) as [Hs Hi].
    split; [exact Hs|]. intros c. fold a in Hi. rewrite Hi. split; intros [C1 C2]; split; auto; [|lia].
    destruct (Z.le_gt_cases to c) as [L|L]; [|lia]. specialize (G c C1 ltac:(lia) L). lia. }
  rewrite W. f_equal.
  apply (first_of_unique (fun c => is_change ms rs c /\ from < c /\ T <= c) (fun c => is_change ms rs c /\ from < c /\ to <= c)).
  - intros c. split; intros (C1 & C2 & C3); repeat split; auto; lia.
  - apply expiry_first.
  - exact X.
Qed.

(** ** What is served, and since when *)

Lemma matcher_serves_since p xs s tr u ns id from to res a v :
  0 <= co_capacity (mo_cache_opts p) -> 0 <= co_evict_batch (mo_cache_opts p) ->
  matcher_run p new_matcher xs = Some (s, tr) ->
  tr = u ++ MEv (EvServe ns id from to res a) :: v -> ~ updating u ns ->
  match registered (cache_events u) ns with
  | None => res = empty_match_result
  | Some o => exists from' to' u1 u2, u = u1 ++ MEv (EvSource ns o id from' to' res) :: u2 /\
      rules_of u1 ns = rules_of u ns /\ res = matched_by (rules_of u ns) id from' to' /\
      (from' = from /\ to' = to \/ to < mr_expire res)
  end.
Proof.
  intros Hc Hb Run E NU. destruct (reachable_J _ _ _ _ Hc Hb Run) as [Bs _].
  pose proof (b_trace _ _ _ _ _ _ _ Bs) as T. destruct (b_cache _ _ _ _ _ _ _ Bs) as [ys C].
  assert (CE : cache_events tr = cache_events u ++ EvServe ns id from to res a :: cache_events v).
  { rewrite E, cache_events_app. reflexivity. }
  pose proof (CacheRunProof.served_what_may _ _ _ _ _ _ _ _ _ _ _ _ Hc Hb C CE) as S.
  unfold may_serve in S. destruct (registered (cache_events u) ns) as [o|] eqn:R; [|exact S].
  destruct S as (t1 & f' & to' & t2 & S1 & S2 & S3).
  destruct (cache_events_split _ _ _ _ S1) as (u1 & u2 & Eu & <- & <-). exists f', to', u1, u2.
  set (src := MEv (EvSource ns o id f' to' res)) in *.
  assert (Es : cache_events u1 ++ [EvSource ns o id f' to' res] = cache_events (u1 ++ [src])).
  { rewrite cache_events_app. reflexivity. }
  rewrite Es in S2.
  assert (Eu' : u = (u1 ++ [src]) ++ u2) by (rewrite Eu, <- app_assoc; reflexivity).
  assert (K : rules_of u ns = rules_of u1 ns).
  { rewrite Eu'. rewrite (rules_stay tr ns (u1 ++ [src]) u2 o).
    - rewrite rules_of_app. reflexivity.
    - exact T.
    - exists (MEv (EvServe ns id from to res a) :: v). rewrite E, Eu', <- !app_assoc. reflexivity.
    - unfold reg. rewrite <- R, Eu', (cache_events_app (u1 ++ [src]) u2). symmetry. apply uncleared_registered. exact S2.
    - exact S2.
    - rewrite <- Eu'. exact NU. }
  split; [exact Eu|]. split; [symmetry; exact K|]. split.
  - rewrite K. apply (T u1 src (u2 ++ MEv (EvServe ns id from to res a) :: v)).
    rewrite E, Eu, <- app_assoc. reflexivity.
  - destruct S3 as [(A & B & _)|S3]; auto.
Qed.

(** the rules in use were processed *)
Lemma rules_of_processed tr ns rs t : rules_of tr ns = Some (Some (rs, t)) -> exists o, In (MProcessed ns o rs t) tr.
Proof.
  induction tr as [|e tr IH] using rev_ind; [discriminate|]. rewrite rules_of_app. cbn [fold_left].
  intros E. assert (K : rules_of tr ns = Some (Some (rs, t)) \/ exists o, e = MProcessed ns o rs t).
  { destruct e; cbn [rules_step] in E; auto.
    - destruct (beqb ns0 ns) eqn:B; auto. apply beqb_eq in B as ->. destruct (rules_of tr ns); [|discriminate].
      injection E as <- <-. right. eauto.
    - destruct (beqb ns0 ns); auto. discriminate.
    - destruct (beqb ns0 ns); auto. discriminate. }
  destruct K as [K|(o & ->)].
  - destruct (IH K) as (o & I). exists o. apply in_app_iff. auto.
  - exists o. apply in_app_iff. right. now left.
Qed.

(** ** What the actions of the matcher cause *)

Lemma refresh_events o c ns b c' ev : cache_act o c (ARefresh ns b) = Some (c', ev) -> ev = [EvRefresh ns b].
Proof.
  cbn [cache_act]. destruct (unlocked c); [|discriminate]. destruct (bget _ _) as [r|]; [destruct (Nat.eqb _ _)|];
    intros E; injection E as _ <-; reflexivity.
Qed.
Lemma register_events o c ns b c' ev : cache_act o c (ARegister ns b) = Some (c', ev) -> ev = [EvRegister ns b].
Proof.
  cbn [cache_act]. destruct (unlocked c); [|discriminate]. destruct (bget _ _) as [r|];
    intros E; injection E as _ <-; reflexivity.
Qed.
Lemma unregister_events o c ns c' ev : cache_act o c (AUnregister ns) = Some (c', ev) -> ev = [EvUnregister ns].
Proof.
  cbn [cache_act]. destruct (unlocked c); [|discriminate]. destruct (bget _ _) as [r|];
    intros E; injection E as _ <-; reflexivity.
Qed.

Definition delivery (x : maction) (s : mstate) (ob : nat) (v : Z) (pb : rule_set_pb) (now : Z) : Prop :=
  x = MRuleSet ob v pb now \/ exists i, x = MStep i now (Some (v, pb)) /\ starts_watching s = Some ob.

Lemma deliver_event p s o v pb now s' ev ns ob rs t :
  deliver p s o v pb now = Some (s', ev) -> In (MProcessed ns ob rs t) ev ->
  ob = o /\ ns = ob_ns (m_objs s ob) /\ rule_set_from_proto v (Some pb) (mo_rule_opts p) = Some rs /\ t = now - mo_match_range_past p.
Proof.
  unfold deliver. destruct (rule_set_from_proto v (Some pb) (mo_rule_opts p)) as [x|]; [|discriminate].
  intros E I. injection E as _ <-. destruct I as [I|[]]. injection I as <- <- <- <-. auto.
Qed.

Lemma nstep_events p s x now init s' more ev :
  do_nstep p s x now init = Some (s', more, ev) ->
  (forall ns ob rs t, In (MProcessed ns ob rs t) ev -> exists v pb, x = NWatch ob /\ init = Some (v, pb) /\
     ns = ob_ns (m_objs s ob) /\ rule_set_from_proto v (Some pb) (mo_rule_opts p) = Some rs /\ t = now - mo_match_range_past p) /\
  (forall ns o id f t res, ~ In (MEv (EvSource ns o id f t res)) ev).
Proof.
  assert (CALL : forall y e0 s1 ev1, call_cache p s y = Some (s1, ev1) ->
    (forall c' ev', cache_act (mo_cache_opts p) (m_cache s) y = Some (c', ev') -> ev' = [e0]) ->
    (forall ns o id f t res, e0 <> EvSource ns o id f t res) ->
    (forall ns ob rs t, ~ In (MProcessed ns ob rs t) ev1) /\
    (forall ns o id f t res, ~ In (MEv (EvSource ns o id f t res)) ev1)).
  { intros y e0 s1 ev1 E H N. unfold call_cache in E. destruct (cache_act _ _ _) as [[c' ev']|]; [|discriminate].
    injection E as <- <-. rewrite (H _ _ eq_refl). split.
    - intros ns ob rs t [X|[]]. discriminate.
    - intros ns o id f t res [X|[]]. injection X as X. exact (N _ _ _ _ _ _ X). }
  destruct x; cbn [do_nstep]; intros E.
  - destruct (ob_watched _).
    { injection E as <- <- <-. split; [intros; contradiction|intros ? ? ? ? ? ? []]. }
    destruct init as [[v pb]|].
    2:{ injection E as <- <- <-. split; [intros; contradiction|intros ? ? ? ? ? ? []]. }
    destruct (deliver p (with_obj s o (with_watched true)) o v pb now) as [[s2 ev2]|] eqn:D.
    2:{ injection E as <- <- <-. split; [intros; contradiction|intros ? ? ? ? ? ? []]. }
    injection E as <- <- <-. split.
    + intros ns ob rs t I. destruct (deliver_event _ _ _ _ _ _ _ _ _ _ _ _ D I) as (-> & -> & F & ->).
      exists v, pb. repeat split; auto. cbn [with_obj m_objs]. rewrite Nat.eqb_refl. reflexivity.
    + intros ns o' id f t res I. unfold deliver in D. destruct (rule_set_from_proto _ _ _); [|discriminate].
      injection D as _ <-. destruct I as [I|[]]. discriminate.
  - injection E as <- <- <-. split; [intros; contradiction|intros ? ? ? ? ? ? []].
  - destruct (call_cache p s _) as [[s1 ev1]|] eqn:D; [|discriminate]. injection E as <- <- <-.
    destruct (CALL _ _ _ _ D (fun c' ev' => refresh_events _ _ _ _ c' ev') ltac:(discriminate)) as [A B].
    split; [intros ns ob rs t I; elim (A _ _ _ _ I)|exact B].
  - destruct (call_cache p s _) as [[s1 ev1]|] eqn:D; [|discriminate]. injection E as <- <- <-.
    destruct (CALL _ _ _ _ D (fun c' ev' => register_events _ _ _ _ c' ev') ltac:(discriminate)) as [A B].
    split; [intros ns ob rs t I; elim (A _ _ _ _ I)|exact B].
  - injection E as <- <- <-. split; [intros; contradiction|intros ? ? ? ? ? ? []].
  - destruct (call_cache p s _) as [[s1 ev1]|] eqn:D; [|discriminate]. injection E as <- <- <-.
    destruct (CALL _ _ _ _ D (fun c' ev' => unregister_events _ _ _ c' ev') ltac:(discriminate)) as [A B].
    split; [intros ns' ob rs t I; elim (A _ _ _ _ I)|exact B].
  - injection E as <- <- <-. split; [intros ns' ob rs t [I|[]]|intros ns' o' id f t res [I|[]]]; discriminate.
Qed.

Lemma process_events p s i now init s' ev :
  process_step p s i now init = Some (s', ev) ->
  (forall ns ob rs t, In (MProcessed ns ob rs t) ev -> exists v pb, starts_watching s = Some ob /\ init = Some (v, pb) /\
     ns = ob_ns (m_objs s ob) /\ rule_set_from_proto v (Some pb) (mo_rule_opts p) = Some rs /\ t = now - mo_match_range_past p) /\
  (forall ns o id f t res, ~ In (MEv (EvSource ns o id f t res)) ev).
Proof.
  assert (NIL : (forall ns ob rs t, In (MProcessed ns ob rs t) [] -> exists v pb, starts_watching s = Some ob /\ init = Some (v, pb) /\
     ns = ob_ns (m_objs s ob) /\ rule_set_from_proto v (Some pb) (mo_rule_opts p) = Some rs /\ t = now - mo_match_range_past p) /\
    (forall ns o id f t res, ~ In (MEv (EvSource ns o id f t res)) [])) by (split; intros; [contradiction|intros []]).
  unfold process_step, starts_watching in *. destruct (m_thread s) as [|body todo inc|body todo inc]; [discriminate| |].
  - destruct body as [|x body].
    + destruct todo as [|n0 todo]; [intros E; injection E as <- <-; exact NIL|].
      destruct (nth_error _ i) as [n|]; [|discriminate]. unfold enter.
      destruct (bget (m_rules s) (ns_name n)); cbn beta iota zeta; intros E; injection E as <- <-; [exact NIL|].
      split; [intros ns ob rs t [I|[]]|intros ns o id f t res [I|[]]]; discriminate.
    + destruct (do_nstep p s x now init) as [[[s1 more] ev1]|] eqn:D; [|discriminate]. intros E. injection E as <- <-.
      destruct (nstep_events _ _ _ _ _ _ _ _ D) as [A B]. split; [|exact B].
      intros ns ob rs t I. destruct (A ns ob rs t I) as (v & pb & -> & R). exists v, pb. split; [reflexivity|exact R].
  - destruct body as [|x body].
    + destruct todo as [|n0 todo]; [intros E; injection E as <- <-; exact NIL|].
      destruct (nth_error _ i) as [[n o]|]; [|discriminate]. intros E; injection E as <- <-. exact NIL.
    + destruct (do_nstep p s x now init) as [[[s1 more] ev1]|] eqn:D; [|discriminate]. intros E. injection E as <- <-.
      destruct (nstep_events _ _ _ _ _ _ _ _ D) as [A B]. split; [|exact B].
      intros ns ob rs t I. destruct (A ns ob rs t I) as (v & pb & -> & R). exists v, pb. split; [reflexivity|exact R].
Qed.

Lemma act_events p s x s' ev : matcher_act p s x = Some (s', ev) ->
  (forall ns ob rs t, In (MProcessed ns ob rs t) ev -> exists v pb now, delivery x s ob v pb now /\
     ns = ob_ns (m_objs s ob) /\ rule_set_from_proto v (Some pb) (mo_rule_opts p) = Some rs /\ t = now - mo_match_range_past p) /\
  (forall ns o id f t res, In (MEv (EvSource ns o id f t res)) ev -> exists now st, x = MWrite id f t now st).
Proof.
  assert (CALL : forall y s1 ev1, call_cache p s y = Some (s1, ev1) -> forall ns ob rs t, ~ In (MProcessed ns ob rs t) ev1).
  { intros y s1 ev1 E ns ob rs t I. unfold call_cache in E. destruct (cache_act _ _ _) as [[c' ev']|]; [|discriminate].
    injection E as <- <-. apply in_map_iff in I as (e & X & _). discriminate. }
  destruct x; cbn [matcher_act]; intros E.
  - destruct (m_thread s); [|discriminate|discriminate]. destruct (new_namespaces _ _); [|discriminate].
    injection E as <- <-. split; [intros ns ob rs t [I|[]]|intros ns o id f t res [I|[]]]; discriminate.
  - destruct (process_events _ _ _ _ _ _ _ E) as [A B]. split.
    + intros ns ob rs t I. destruct (A ns ob rs t I) as (v & pb & W & -> & R). exists v, pb, now. split; [|exact R].
      right. exists i. auto.
    + intros ns o id f t res I. elim (B _ _ _ _ _ _ I).
  - destruct ((o <? m_next s)%nat && ob_watched (m_objs s o)); [|discriminate].
    destruct (deliver p s o version pb now) as [[s1 ev1]|] eqn:D; [|discriminate]. injection E as <- <-. split.
    + intros ns ob rs t I. destruct (deliver_event _ _ _ _ _ _ _ _ _ _ _ _ D I) as (-> & R).
      exists version, pb, now. split; [left; reflexivity|exact R].
    + intros ns o' id f t res I. unfold deliver in D. destruct (rule_set_from_proto _ _ _); [|discriminate].
      injection D as _ <-. destruct I as [I|[]]. discriminate.
  - destruct (nth_error _ _) as [o|]; [|discriminate]. pose proof E as E0. unfold call_cache in E.
    destruct (cache_act _ _ _) as [[c' ev']|] eqn:D; [|discriminate]. injection E as <- <-.
    apply refresh_events in D as ->. split; [intros ns ob rs t [I|[]]|intros ns o' id f t res [I|[]]]; discriminate.
  - split; [intros ns ob rs t I; elim (CALL _ _ _ E _ _ _ _ I)|]. intros ns o id' f t res I.
    unfold call_cache in E. destruct (cache_act _ _ _) as [[c' ev']|] eqn:D; [|discriminate]. injection E as <- <-.
    apply in_map_iff in I as (e & X & I). injection X as ->. elim (proj2 (read_events _ _ _ _ _ _ _ _ _ D) _ _ _ _ _ _ I).
  - split; [intros ns ob rs t I; elim (CALL _ _ _ E _ _ _ _ I)|]. intros ns o id' f t res I.
    unfold call_cache in E. destruct (cache_act _ _ _) as [[c' ev']|] eqn:D; [|discriminate]. injection E as <- <-.
    apply in_map_iff in I as (e & X & I). injection X as ->.
    destruct (proj2 (write_events _ _ _ _ _ _ _ _ _ _ _ D)) as [N|(r & b & _ & ->)]; [elim (N _ _ _ _ _ _ I)|].
    destruct I as [I|[I|[I|[]]]]; try discriminate. injection I as <- <- <- <- <- <-. exists now, st. reflexivity.
  - assert (S : match x with ARead _ _ _ _ _ | AWrite _ _ _ _ _ _ _ | ARegister _ _ | ARefresh _ _ | AUnregister _ => False | _ => True end
      /\ call_cache p s x = Some (s', ev)) by (destruct x; try discriminate; split; auto).
    destruct S as [S C]. split; [intros ns ob rs t I; elim (CALL _ _ _ C _ _ _ _ I)|]. intros ns o id' f t res I.
    unfold call_cache in C. destruct (cache_act _ _ _) as [[c' ev']|] eqn:D; [|discriminate]. injection C as <- <-.
    apply in_map_iff in I as (e & X & I). injection X as ->.
    destruct (silent_events _ _ _ _ _ S D) as [->|(b & w & ->)]; [destruct I|destruct I as [I|[]]; discriminate].
  - injection E as <- <-. split; [intros ns ob rs t []|intros ns o id f t res []].
Qed.

(** ** The system *)

Lemma system_run_app o p xs ys : forall s,
  system_run o p s (xs ++ ys) =
  match system_run o p s xs with
  | None => None
  | Some (s1, e1) => match system_run o p s1 ys with None => None | Some (s2, e2) => Some (s2, e1 ++ e2) end
  end.
Proof.
  induction xs as [|x xs IH]; intros s; cbn [system_run app].
  - destruct (system_run o p s ys) as [[s2 e2]|]; reflexivity.
  - destruct (system_act o p s x) as [[s1 e1]|]; [|reflexivity]. rewrite IH.
    destruct (system_run o p s1 xs) as [[s2 e2]|]; [|reflexivity].
    destruct (system_run o p s2 ys) as [[s3 e3]|]; [|reflexivity]. rewrite app_assoc. reflexivity.
Qed.

Lemma store_after_app o s xs ys : store_after o s (xs ++ ys) = run_writes o (store_after o s xs) (writes_of ys).
Proof. unfold store_after, writes_of. rewrite flat_map_app. apply run_writes_app. Qed.

Lemma within_range_prefix p xs ys : within_range p (xs ++ ys) -> within_range p xs.
Proof.
  intros H a x b y c now id from to E. apply (H a x b y (c ++ ys) now id from to). rewrite E, <- !app_assoc. cbn.
  rewrite <- !app_assoc. reflexivity.
Qed.

Record follows (o : store_opts) (p : matcher_opts) (d : kv) (xs : list saction) (s : system) (tr : list mevent) : Prop := mk_follows {
  fo_run : exists ys, matcher_run p new_matcher ys = Some (sy_matcher s, tr);
  fo_now : sy_kv s = store_after o d xs;
  fo_past : forall n x, nth_error (sy_kv s :: sy_past s) n = Some x -> exists a b, xs = a ++ b /\ x = store_after o d a;
  fo_processed : forall ns ob rs t, In (MProcessed ns ob rs t) tr ->
    (exists a b, xs = a ++ b /\ stored_rules o p (store_after o d a) ns = ROk rs) /\
    (exists x now, In x xs /\ processes_at x now /\ t = now - mo_match_range_past p);
  fo_source : forall u ns ob id f t res v, tr = u ++ MEv (EvSource ns ob id f t res) :: v ->
    (exists x, In x xs /\ asks x id f t) /\
    (within_range p xs -> forall ns' ob' rs t', In (MProcessed ns' ob' rs t') u -> t' <= f) }.

Lemma rules_ago_held o p d xs s tr ago ob v pb rs : follows o p d xs s tr -> rules_ago o s ago ob = Some (v, pb) ->
  rule_set_from_proto v (Some pb) (mo_rule_opts p) = Some rs ->
  exists a b, xs = a ++ b /\ stored_rules o p (store_after o d a) (ob_ns (m_objs (sy_matcher s) ob)) = ROk rs.
Proof.
  intros F R P. unfold rules_ago, value_ago in R. destruct (nth_error (sy_kv s :: sy_past s) ago) as [x|] eqn:N; [|discriminate].
  destruct (fo_past _ _ _ _ _ _ F _ _ N) as (a & b & E & ->). exists a, b. split; [exact E|].
  unfold stored_rules, read_rule_set, with_rule_opts. cbn [so_rule].
  change (rule_set_key _ (ob_ns (m_objs (sy_matcher s) ob))) with (rule_set_key o (ob_ns (m_objs (sy_matcher s) ob))).
  destruct (store_after o d a _) as [[v' [pb'| |]]|]; try discriminate. injection R as -> ->. rewrite P. reflexivity.
Qed.

(** what an action of the system other than a write does *)
Lemma system_act_matcher o p s x s' ev : system_act o p s x = Some (s', ev) -> (forall w, x <> SWrite w) ->
  exists y, matcher_action o s x = Some y /\ matcher_act p (sy_matcher s) y = Some (sy_matcher s', ev) /\
    sy_kv s' = sy_kv s /\ sy_past s' = sy_past s /\ writes_of [x] = [].
Proof.
  unfold system_act. intros E N. destruct x; [elim (N w eq_refl)| | | |];
    (destruct (matcher_action o s _) as [y|]; [|discriminate]; destruct (matcher_act p (sy_matcher s) y) as [[m e]|] eqn:A; [|discriminate];
     injection E as <- <-; exists y; auto).
Qed.

Lemma matcher_action_delivery o p d xs s tr x y ob v pb now rs : follows o p d xs s tr ->
  matcher_action o s x = Some y -> delivery y (sy_matcher s) ob v pb now ->
  rule_set_from_proto v (Some pb) (mo_rule_opts p) = Some rs ->
  (exists a b, xs = a ++ b /\ stored_rules o p (store_after o d a) (ob_ns (m_objs (sy_matcher s) ob)) = ROk rs) /\ processes_at x now.
Proof.
  intros F A D P. destruct x; cbn [matcher_action] in A.
  - discriminate.
  - destruct (value_ago _ _ _) as [[? []]|]; try discriminate. injection A as <-. destruct D as [D|(i & D & _)]; discriminate.
  - destruct init as [ago|].
    + destruct (starts_watching (sy_matcher s)) as [ob'|] eqn:W; [|discriminate]. injection A as <-.
      destruct D as [D|(i' & D & W')]; [discriminate|]. injection D as -> -> R. rewrite W in W'. injection W' as ->.
      split; [exact (rules_ago_held _ _ _ _ _ _ _ _ _ _ _ F R P)|reflexivity].
    + injection A as <-. destruct D as [D|(i' & D & W')]; discriminate.
  - destruct (rules_ago o s ago ob0) as [[v' pb']|] eqn:R; [|discriminate]. injection A as <-.
    destruct D as [D|(i' & D & W')]; [|discriminate]. injection D as -> -> -> ->.
    split; [exact (rules_ago_held _ _ _ _ _ _ _ _ _ _ _ F R P)|reflexivity].
  - destruct x; try discriminate; injection A as <-; (destruct D as [D|(i' & D & W')]; discriminate).
Qed.

Lemma matcher_action_write o s x id f t now st : matcher_action o s x = Some (MWrite id f t now st) -> asks x id f t.
Proof.
  destruct x; cbn [matcher_action].
  - discriminate.
  - destruct (value_ago _ _ _) as [[? []]|]; discriminate.
  - destruct init; [destruct (starts_watching _)|]; discriminate.
  - destruct (rules_ago o s ago ob) as [[v' pb']|]; discriminate.
  - destruct x; try discriminate; intros A; injection A as -> -> -> -> ->. cbn. auto.
Qed.

Lemma follows_act o p d xs s tr x s' ev : follows o p d xs s tr -> system_act o p s x = Some (s', ev) ->
  follows o p d (xs ++ [x]) s' (tr ++ ev).
Proof.
  intros F A. destruct x as [w|ago|i now init|ob ago now|y].
  { cbn [system_act] in A. injection A as <- <-. rewrite app_nil_r. destruct F as [F1 F2 F3 F4 F5].
    assert (ST : fst (run_write o (sy_kv s) w) = store_after o d (xs ++ [SWrite w])).
    { rewrite store_after_app, <- F2. reflexivity. }
    constructor; cbn [sy_kv sy_past sy_matcher].
    - exact F1.
    - exact ST.
    - intros [|n] x N.
      + injection N as <-. exists (xs ++ [SWrite w]), []. rewrite app_nil_r. auto.
      + destruct (F3 n x N) as (a & b & -> & ->). exists a, (b ++ [SWrite w]). rewrite <- app_assoc. auto.
    - intros ns ob rs t I. destruct (F4 ns ob rs t I) as [(a & b & -> & S) (x & now & I' & P & T)]. split.
      + exists a, (b ++ [SWrite w]). rewrite <- app_assoc. auto.
      + exists x, now. split; auto. apply in_app_iff. auto.
    - intros u ns ob id f t res v E. destruct (F5 u ns ob id f t res v E) as [(x & I & Q) H]. split.
      + exists x. split; auto. apply in_app_iff. auto.
      + intros W. apply H. exact (within_range_prefix _ _ _ W). }
  all: match type of A with system_act _ _ _ ?a = _ => set (x := a) in * end.
  all: assert (NW : forall w, x <> SWrite w) by (intros w; subst x; discriminate).
  all: clearbody x;
    destruct (system_act_matcher _ _ _ _ _ _ A NW) as (y0 & MA & ACT & KV & PAST & NOW);
    destruct (act_events _ _ _ _ _ ACT) as [EP ES]; pose proof F as F0; destruct F as [(ys & F1) F2 F3 F4 F5];
    (assert (ST : store_after o d (xs ++ [x]) = store_after o d xs) by (rewrite store_after_app, NOW; reflexivity));
    (constructor;
     [ exists (ys ++ [y0]); rewrite matcher_run_app, F1; cbn [matcher_run]; rewrite ACT, app_nil_r; reflexivity
     | rewrite ST, KV; exact F2
     | rewrite KV, PAST; intros n z N; destruct (F3 n z N) as (a & b & -> & ->); exists a, (b ++ [x]); rewrite <- app_assoc; auto
     | intros ns ob1 rs t I; apply in_app_iff in I as [I|I];
       [ destruct (F4 ns ob1 rs t I) as [(a & b & -> & S) (x' & now' & I' & P & T)]; split;
         [exists a, (b ++ [x]); rewrite <- app_assoc; auto|exists x', now'; split; auto; apply in_app_iff; auto]
       | destruct (EP ns ob1 rs t I) as (v & pb & now' & D & -> & P & ->);
         destruct (matcher_action_delivery _ _ _ _ _ _ _ _ _ _ _ _ _ F0 MA D P) as [(a & b & -> & S) Q]; split;
         [exists a, (b ++ [x]); rewrite <- app_assoc; auto|exists x, now'; split; auto; apply in_app_iff; right; now left] ]
     | intros u ns ob1 id f t res v E ]).
  all: assert (SPLIT : (exists v0, tr = u ++ MEv (EvSource ns ob1 id f t res) :: v0) \/
      (exists u0, u = tr ++ u0 /\ ev = u0 ++ MEv (EvSource ns ob1 id f t res) :: v)).
  1,3,5,7: clear - E; revert u E; induction tr as [|e tr IH]; intros u E; [right; exists u; auto|];
    destruct u as [|e' u]; injection E as -> E; [left; eexists; reflexivity|];
    destruct (IH u E) as [(v0 & ->)|(u0 & -> & ->)]; [left; exists v0; reflexivity|right; exists u0; auto].
  all: destruct SPLIT as [(v0 & E0)|(u0 & -> & E0)];
    [ destruct (F5 u ns ob1 id f t res v0 E0) as [(x' & I & Q) H]; split;
      [exists x'; split; auto; apply in_app_iff; auto|intros W; apply H; exact (within_range_prefix _ _ _ W)]
    | assert (IS : In (MEv (EvSource ns ob1 id f t res)) ev) by (rewrite E0; apply in_elt);
      destruct (ES _ _ _ _ _ _ IS) as (now1 & st1 & ->); pose proof (matcher_action_write _ _ _ _ _ _ _ _ MA) as ASK; split;
      [exists x; split; [apply in_app_iff; right; now left|exact ASK]|] ].
  all: intros W ns' ob' rs t' I; apply in_app_iff in I as [I|I];
    [ destruct (F4 ns' ob' rs t' I) as [_ (x' & now' & I' & P & ->)]; apply in_split in I' as (a & b & ->);
      apply (W a x' b x [] now' id f t); [rewrite <- app_assoc; reflexivity|exact P|exact ASK]
    | exfalso; assert (I2 : In (MProcessed ns' ob' rs t') ev) by (rewrite E0; apply in_app_iff; auto);
      destruct (EP _ _ _ _ I2) as (v2 & pb2 & now2 & [D|(i2 & D & _)] & _); discriminate ].
Qed.

Lemma follows_new o p d : follows o p d [] (new_system d) [].
Proof.
  constructor; cbn.
  - exists []. reflexivity.
  - reflexivity.
  - intros [|[|n]] x N; try discriminate. injection N as <-. exists [], []. auto.
  - intros ns ob rs t [].
  - intros [|] ns ob id f t res v E; discriminate.
Qed.

Lemma follows_run o p d xs : forall s tr, system_run o p (new_system d) xs = Some (s, tr) -> follows o p d xs s tr.
Proof.
  induction xs as [|x xs IH] using rev_ind; intros s tr E.
  - injection E as <- <-. apply follows_new.
  - rewrite system_run_app in E. destruct (system_run o p (new_system d) xs) as [[s1 e1]|]; [|discriminate].
    cbn [system_run] in E. destruct (system_act o p s1 x) as [[s2 e2]|] eqn:A; [|discriminate].
    injection E as <- <-. rewrite app_nil_r. exact (follows_act _ _ _ _ _ _ _ _ _ (IH _ _ eq_refl) A).
Qed.

(** ** The matcher's rules are the store's when the versions agree *)

Lemma stored_rules_version o p s ns rs : stored_rules o p s ns = ROk rs ->
  exists pb, s (rule_set_key o ns) = Some (rs_version rs, VRules pb) /\
    rule_set_from_proto (rs_version rs) (Some pb) (mo_rule_opts p) = Some rs.
Proof.
  unfold stored_rules, read_rule_set, with_rule_opts. cbn [so_rule].
  change (rule_set_key _ ns) with (rule_set_key o ns). destruct (s (rule_set_key o ns)) as [[v [pb| |]]|]; try discriminate.
  destruct (rule_set_from_proto v (Some pb) (mo_rule_opts p)) as [x|] eqn:P; [|discriminate]. intros E. injection E as ->.
  assert (V : rs_version rs = v).
  { unfold rule_set_from_proto in P. destruct (map_opt _ _); [|discriminate]. destruct (map_opt _ _); [|discriminate].
    injection P as <-. reflexivity. }
  rewrite V. eauto.
Qed.

Lemma stored_rules_same o p s s' ns : s' (rule_set_key o ns) = s (rule_set_key o ns) ->
  stored_rules o p s' ns = stored_rules o p s ns.
Proof.
  unfold stored_rules, read_rule_set, with_rule_opts. change (rule_set_key _ ns) with (rule_set_key o ns). intros ->. reflexivity.
Qed.

Lemma positive_after o d xs : versions_positive d -> versions_positive (store_after o d xs).
Proof.
  intros P k v x E. destruct (run_writes_later o (writes_of xs) d k) as [L1 L2]. fold (store_after o d xs) in L1, L2.
  unfold kv_version in *. rewrite E in *. destruct (d k) as [[v0 x0]|] eqn:D.
  - specialize (P _ _ _ D). lia.
  - destruct (Z.eq_dec v 0) as [->|N]; [|lia]. specialize (L2 eq_refl). discriminate.
Qed.

Lemma processed_held o p d xs s tr ns ob rs t : system_run o p (new_system d) xs = Some (s, tr) ->
  In (MProcessed ns ob rs t) tr ->
  exists a b, xs = a ++ b /\ stored_rules o p (store_after o d a) ns = ROk rs.
Proof. intros R I. exact (proj1 (fo_processed _ _ _ _ _ _ (follows_run _ _ _ _ _ _ R) _ _ _ _ I)). Qed.

Lemma processed_older o p d xs s tr ns ob rs t : system_run o p (new_system d) xs = Some (s, tr) ->
  In (MProcessed ns ob rs t) tr ->
  rs_version rs <= stored_version o (sy_kv s) ns /\
  (rs_version rs = stored_version o (sy_kv s) ns -> stored_rules o p (sy_kv s) ns = ROk rs).
Proof.
  intros R I. destruct (processed_held _ _ _ _ _ _ _ _ _ _ R I) as (a & b & E & S).
  destruct (stored_rules_version _ _ _ _ _ S) as (pb & K & _).
  rewrite (fo_now _ _ _ _ _ _ (follows_run _ _ _ _ _ _ R)), E, store_after_app.
  destruct (run_writes_later o (writes_of b) (store_after o d a) (rule_set_key o ns)) as [L1 L2].
  unfold stored_version. assert (V : kv_version (store_after o d a) (rule_set_key o ns) = rs_version rs).
  { unfold kv_version. rewrite K. reflexivity. }
  rewrite V in *. split; [exact L1|]. intros Q. rewrite <- S. apply stored_rules_same. apply L2. symmetry. exact Q.
Qed.

Lemma current_rules o p d xs s tr ns :
  0 <= co_capacity (mo_cache_opts p) -> 0 <= co_evict_batch (mo_cache_opts p) -> versions_positive d ->
  system_run o p (new_system d) xs = Some (s, tr) ->
  ns_version (sy_matcher s) ns = stored_version o (sy_kv s) ns ->
  (exists rs t, rules_of tr ns = Some (Some (rs, t)) /\ stored_rules o p (sy_kv s) ns = ROk rs) \/
  ((forall rs t, rules_of tr ns <> Some (Some (rs, t))) /\ stored_rules o p (sy_kv s) ns = RNotFound).
Proof.
  intros Hc Hb P R V. pose proof (follows_run _ _ _ _ _ _ R) as F. destruct (fo_run _ _ _ _ _ _ F) as [ys M].
  rewrite (proj1 (MatcherLiveProof.queries p ys (sy_matcher s) tr ns Hc Hb M)) in V.
  assert (Z0 : 0 = stored_version o (sy_kv s) ns -> stored_rules o p (sy_kv s) ns = RNotFound).
  { unfold stored_version, stored_rules, read_rule_set, kv_version, with_rule_opts.
    change (rule_set_key (mk_so _ _ _ _ _) ns) with (rule_set_key o ns).
    destruct (sy_kv s (rule_set_key o ns)) as [[v x]|] eqn:K; [|reflexivity].
    rewrite (fo_now _ _ _ _ _ _ F) in K. apply positive_after in K; [lia|exact P]. }
  unfold version_of in V. destruct (rules_of tr ns) as [[[rs t]|]|] eqn:K.
  - left. exists rs, t. split; [reflexivity|]. destruct (rules_of_processed _ _ _ _ K) as [ob I].
    exact (proj2 (processed_older _ _ _ _ _ _ _ _ _ _ R I) V).
  - right. split; [discriminate|]. apply Z0. exact V.
  - right. split; [discriminate|]. apply Z0. exact V.
Qed.

(** ** What is served *)

Lemma served_full o p d xs s tr u ns id from to res a v ob rs t :
  0 <= co_capacity (mo_cache_opts p) -> 0 <= co_evict_batch (mo_cache_opts p) ->
  system_run o p (new_system d) xs = Some (s, tr) -> within_range p xs ->
  tr = u ++ MEv (EvServe ns id from to res a) :: v -> ~ updating u ns ->
  registered (cache_events u) ns = Some ob -> rules_of u ns = Some (Some (rs, t)) -> histories_ascend rs ->
  exists from' T, to <= T /\ res = full_match rs id from' T /\ exists x t', In x xs /\ asks x id from' t'.
Proof.
  intros Hc Hb R W E NU G K [A1 A2]. pose proof (follows_run _ _ _ _ _ _ R) as F. destruct (fo_run _ _ _ _ _ _ F) as [ys M].
  pose proof (matcher_serves_since p ys _ tr u ns id from to res a v Hc Hb M E NU) as S. rewrite G in S.
  destruct S as (f' & t' & u1 & u2 & E1 & K1 & Q & C).
  assert (E2 : tr = u1 ++ MEv (EvSource ns ob id f' t' res) :: (u2 ++ MEv (EvServe ns id from to res a) :: v)).
  { rewrite E, E1, <- app_assoc. reflexivity. }
  destruct (fo_source _ _ _ _ _ _ F _ _ _ _ _ _ _ _ E2) as [(x & Ix & Ax) H].
  rewrite K in K1. destruct (rules_of_processed _ _ _ _ K1) as [ob' I]. specialize (H W _ _ _ _ I).
  rewrite K in Q. cbn [matched_by] in Q.
  assert (Q' : res = full_match rs id f' t').
  { rewrite Q. unfold full_match. apply trim_forward; auto. }
  clear Q. exists f'. destruct C as [[-> ->]|C].
  - exists to. split; [lia|]. split; [exact Q'|]. eauto.
  - destruct (Z.le_gt_cases to t') as [L|L].
    + exists t'. split; [exact L|]. split; [exact Q'|]. eauto.
    + exists to. split; [lia|]. split; [|eauto]. rewrite Q'. symmetry. apply match_extended; [lia|].
      fold (full_match rs id f' t'). rewrite <- Q'. lia.
Qed.

(** the events of an action of a matcher at rest, up to the serving of a match *)
Lemma resting_serves p s x s' ev ns id from to res a :
  resting s -> matcher_act p s x = Some (s', ev) -> In (MEv (EvServe ns id from to res a)) ev ->
  exists e1 e2, ev = map MEv e1 ++ MEv (EvServe ns id from to res a) :: map MEv e2 /\ quiet e1.
Proof.
  intros [Th Rf] A I.
  assert (Q : exists ev0, ev = map MEv ev0 /\ quiet ev0).
  { destruct x; cbn [matcher_act] in A.
    - rewrite Th in A. destruct (new_namespaces _ _); [|discriminate]. injection A as <- <-. destruct I as [I|[]]. discriminate.
    - unfold process_step in A. rewrite Th in A. discriminate.
    - destruct (_ && _); [|discriminate]. unfold deliver in A. destruct (rule_set_from_proto _ _ _); [|discriminate].
      injection A as <- <-. destruct I as [I|[]]. discriminate.
    - rewrite Rf in A. destruct i; discriminate.
    - unfold call_cache in A. destruct (cache_act _ _ _) as [[c' ev0]|] eqn:C; [|discriminate]. injection A as <- <-.
      exists ev0. split; [reflexivity|]. exact (proj1 (read_events _ _ _ _ _ _ _ _ _ C)).
    - unfold call_cache in A. destruct (cache_act _ _ _) as [[c' ev0]|] eqn:C; [|discriminate]. injection A as <- <-.
      exists ev0. split; [reflexivity|]. exact (proj1 (write_events _ _ _ _ _ _ _ _ _ _ _ C)).
    - assert (S : match x with ARead _ _ _ _ _ | AWrite _ _ _ _ _ _ _ | ARegister _ _ | ARefresh _ _ | AUnregister _ => False | _ => True end
        /\ call_cache p s x = Some (s', ev)) by (destruct x; try discriminate; split; auto).
      destruct S as [S E]. unfold call_cache in E.
      destruct (cache_act _ _ _) as [[c' ev0]|] eqn:C; [|discriminate]. injection E as <- <-.
      exists ev0. split; [reflexivity|].
      destruct (silent_events _ _ _ _ _ S C) as [->|(b & w & ->)]; [intros e []|intros e [<-|[]]; reflexivity].
    - injection A as <- <-. destruct I. }
  destruct Q as (ev0 & -> & Q). apply in_map_iff in I as (e & Ee & I). injection Ee as ->. apply in_split in I as (e1 & e2 & Ev).
  exists e1, e2. split; [rewrite Ev, map_app; reflexivity|]. intros e Ie. apply Q. rewrite Ev. apply in_app_iff. auto.
Qed.

Lemma served_at_rest o p d xs s tr x s' ev ns id from to res a :
  0 <= co_capacity (mo_cache_opts p) -> 0 <= co_evict_batch (mo_cache_opts p) -> versions_positive d ->
  system_run o p (new_system d) xs = Some (s, tr) -> resting (sy_matcher s) ->
  ns_version (sy_matcher s) ns = stored_version o (sy_kv s) ns ->
  system_act o p s x = Some (s', ev) -> In (MEv (EvServe ns id from to res a)) ev -> within_range p (xs ++ [x]) ->
  (stored_rules o p (sy_kv s) ns = RNotFound /\ res = empty_match_result) \/
  exists rs, stored_rules o p (sy_kv s) ns = ROk rs /\ (histories_ascend rs ->
    exists from' T, asked_from (xs ++ [x]) id from' /\ to <= T /\ res = full_match rs id from' T).
Proof.
  intros Hc Hb P R Rest V A I W. pose proof (follows_run _ _ _ _ _ _ R) as F. destruct (fo_run _ _ _ _ _ _ F) as [ys M].
  destruct Rest as [Th Rf]. destruct (at_rest _ _ _ _ Hc Hb M Th Rf ns) as [NU RK].
  assert (NW : forall w, x <> SWrite w).
  { intros w ->. cbn [system_act] in A. injection A as _ <-. destruct I. }
  destruct (system_act_matcher _ _ _ _ _ _ A NW) as (y & _ & ACT & _).
  destruct (resting_serves _ _ _ _ _ _ _ _ _ _ _ (conj Th Rf) ACT I) as (e1 & e2 & Ev & Q).
  assert (R' : system_run o p (new_system d) (xs ++ [x]) = Some (s', tr ++ ev)).
  { rewrite system_run_app, R. cbn [system_run]. rewrite A, app_nil_r. reflexivity. }
  assert (E : tr ++ ev = (tr ++ map MEv e1) ++ MEv (EvServe ns id from to res a) :: map MEv e2).
  { rewrite Ev, <- app_assoc. reflexivity. }
  assert (NU' : ~ updating (tr ++ map MEv e1) ns) by (apply updating_quiet; exact NU).
  assert (RG : registered (cache_events (tr ++ map MEv e1)) ns = registered (cache_events tr) ns) by exact (reg_quiet _ _ _ Q).
  destruct (current_rules _ _ _ _ _ _ _ Hc Hb P R V) as [(rs & t & K & S)|[K S]].
  - right. exists rs. split; [exact S|]. intros As.
    destruct (registered (cache_events tr) ns) as [ob|] eqn:G; [|rewrite (proj1 RK eq_refl) in K; discriminate].
    destruct (served_full o p d (xs ++ [x]) s' (tr ++ ev) (tr ++ map MEv e1) ns id from to res a (map MEv e2) ob rs t
      Hc Hb R' W E NU' RG) as (f' & T & L & Q' & (x' & t' & Ix & Ax)).
    + rewrite rules_of_cache. exact K.
    + exact As.
    + exists f', T. split; [exists x', t'; auto|auto].
  - left. split; [exact S|]. destruct (fo_run _ _ _ _ _ _ (follows_run _ _ _ _ _ _ R')) as [ys' M'].
    pose proof (matcher_serves p ys' _ _ (tr ++ map MEv e1) ns id from to res a (map MEv e2) Hc Hb M' E NU') as X.
    rewrite RG in X. destruct (registered (cache_events tr) ns) as [ob|]; [|exact X].
    destruct X as (f' & t' & X & _). rewrite rules_of_cache in X. rewrite X. unfold matched_by.
    destruct (rules_of tr ns) as [[[rs t]|]|]; auto. elim (K rs t eq_refl).
Qed.

(** ** Catching up *)

Lemma step_refreshing p s i now init s' ev : process_step p s i now init = Some (s', ev) -> m_refreshing s' = m_refreshing s.
Proof.
  assert (CALL : forall y s1 ev1, call_cache p s y = Some (s1, ev1) -> m_refreshing s1 = m_refreshing s).
  { intros y s1 ev1 E. unfold call_cache in E. destruct (cache_act _ _ _) as [[c' ev']|]; [|discriminate].
    injection E as <- <-. reflexivity. }
  assert (ST : forall x s1 more ev1, do_nstep p s x now init = Some (s1, more, ev1) -> m_refreshing s1 = m_refreshing s).
  { intros x s1 more ev1. destruct x; cbn [do_nstep]; intros E.
    - destruct (ob_watched _); [injection E as <- <- <-; reflexivity|]. destruct init as [[v pb]|]; [|injection E as <- <- <-; reflexivity].
      unfold deliver in E. destruct (rule_set_from_proto _ _ _); injection E as <- <- <-; reflexivity.
    - injection E as <- <- <-; reflexivity.
    - destruct (call_cache p s _) as [[s2 ev2]|] eqn:D; [|discriminate]. injection E as <- <- <-. exact (CALL _ _ _ D).
    - destruct (call_cache p s _) as [[s2 ev2]|] eqn:D; [|discriminate]. injection E as <- <- <-. exact (CALL _ _ _ D).
    - injection E as <- <- <-; reflexivity.
    - destruct (call_cache p s _) as [[s2 ev2]|] eqn:D; [|discriminate]. injection E as <- <- <-. exact (CALL _ _ _ D).
    - injection E as <- <- <-; reflexivity. }
  unfold process_step. destruct (m_thread s) as [|body todo inc|body todo inc]; [discriminate| |].
  - destruct body as [|x body].
    + destruct todo as [|n0 todo]; [intros E; injection E as <- <-; reflexivity|].
      destruct (nth_error _ i) as [n|]; [|discriminate]. unfold enter.
      destruct (bget (m_rules s) (ns_name n)); cbn beta iota zeta; intros E; injection E as <- <-; reflexivity.
    + destruct (do_nstep p s x now init) as [[[s1 more] ev1]|] eqn:D; [|discriminate]. intros E. injection E as <- <-.
      exact (ST _ _ _ _ D).
  - destruct body as [|x body].
    + destruct todo as [|n0 todo]; [intros E; injection E as <- <-; reflexivity|].
      destruct (nth_error _ i) as [[n o]|]; [|discriminate]. intros E; injection E as <- <-. reflexivity.
    + destruct (do_nstep p s x now init) as [[[s1 more] ev1]|] eqn:D; [|discriminate]. intros E. injection E as <- <-.
      exact (ST _ _ _ _ D).
Qed.

Lemma finishes_unlocked p now :
  0 <= co_capacity (mo_cache_opts p) -> 0 <= co_evict_batch (mo_cache_opts p) ->
  forall w s tr, (weight s <= w)%nat -> J p s tr -> c_readers (m_cache s) = [] ->
  exists n s' ev, matcher_run p s (repeat (MStep 0 now None) n) = Some (s', ev) /\ m_thread s' = NIdle /\
    m_refreshing s' = m_refreshing s /\ c_readers (m_cache s') = [] /\ no_update ev.
Proof.
  intros Hc Hb. induction w as [|w IH]; intros s tr W Js R.
  - exists 0%nat, s, []. split; [reflexivity|]. split; [|split; [reflexivity|split; [exact R|intros y []]]].
    unfold weight in W. destruct (m_thread s); [reflexivity|lia|lia].
  - assert (D : m_thread s = NIdle \/ m_thread s <> NIdle) by (destruct (m_thread s); [left; reflexivity|right; discriminate|right; discriminate]).
    destruct D as [D|D]; [exists 0%nat, s, []; split; [reflexivity|]; split; [exact D|]; split; [reflexivity|]; split; [exact R|intros y []]|].
    destruct (step_down p s tr now Js R D) as (s1 & ev1 & E & N & R1 & W1).
    destruct (IH s1 (tr ++ ev1) ltac:(lia) (J_act _ _ _ _ _ _ Hc Hb Js E) R1) as (n & s2 & ev2 & E2 & I2 & F2 & R2 & N2).
    exists (S n), s2, (ev1 ++ ev2). cbn [repeat matcher_run]. rewrite E, E2. split; [reflexivity|]. split; [exact I2|].
    split; [rewrite F2; exact (step_refreshing _ _ _ _ _ _ _ E)|]. split; [exact R2|].
    intros y Y. apply in_app_iff in Y as [Y|Y]; [exact (N y Y)|exact (N2 y Y)].
Qed.

Lemma lift_steps o p now n : forall s m ev, matcher_run p (sy_matcher s) (repeat (MStep 0 now None) n) = Some (m, ev) ->
  system_run o p s (repeat (SStep 0 now None) n) = Some (mk_sys (sy_kv s) (sy_past s) m, ev).
Proof.
  induction n as [|n IH]; intros s m ev E.
  - injection E as <- <-. destruct s; reflexivity.
  - cbn [repeat matcher_run] in E. destruct (matcher_act p (sy_matcher s) (MStep 0 now None)) as [[m1 e1]|] eqn:A; [|discriminate].
    destruct (matcher_run p m1 (repeat (MStep 0 now None) n)) as [[m2 e2]|] eqn:R; [|discriminate]. injection E as <- <-.
    cbn [repeat system_run system_act matcher_action]. rewrite A.
    rewrite (IH (mk_sys (sy_kv s) (sy_past s) m1) m2 e2 R). reflexivity.
Qed.

Lemma catches_up_watched o p d xs s tr ns rs now :
  0 <= co_capacity (mo_cache_opts p) -> 0 <= co_evict_batch (mo_cache_opts p) ->
  system_run o p (new_system d) xs = Some (s, tr) -> resting (sy_matcher s) -> c_readers (m_cache (sy_matcher s)) = [] ->
  watched_ns (sy_matcher s) ns = true -> stored_rules o p (sy_kv s) ns = ROk rs ->
  exists ob s' ev, system_run o p s [SRuleSet ob 0 now; SMatcher (MRefresh 0)] = Some (s', ev) /\
    resting (sy_matcher s') /\ sy_kv s' = sy_kv s /\ ns_version (sy_matcher s') ns = stored_version o (sy_kv s) ns.
Proof.
  intros Hc Hb R [Th Rf] Rd Wa S. destruct (fo_run _ _ _ _ _ _ (follows_run _ _ _ _ _ _ R)) as [ys M].
  destruct (reachable_J _ _ _ _ Hc Hb M) as [Bs _]. destruct s as [k past m]. cbn [sy_kv sy_past sy_matcher] in *.
  unfold watched_ns in Wa. destruct (bget (m_rules m) ns) as [ob|] eqn:G; [|discriminate].
  destruct (b_known _ _ _ _ _ _ _ Bs ns ob G) as (Nm & _). pose proof (b_fresh _ _ _ _ _ _ _ Bs ns ob G) as Lt.
  destruct (stored_rules_version _ _ _ _ _ S) as (pb & K & P).
  exists ob. cbn [system_run system_act matcher_action sy_matcher].
  unfold rules_ago, value_ago. cbn [nth_error sy_kv sy_matcher]. rewrite Nm, K. cbn [matcher_act].
  apply Nat.ltb_lt in Lt. rewrite Lt, Wa. cbn [andb]. unfold deliver. rewrite P.
  set (t := now - mo_match_range_past p). cbn [sy_matcher with_refreshing m_refreshing with_obj nth_error remove_nth m_objs].
  rewrite Nat.eqb_refl. cbn [rs_process ob_ns]. rewrite Nm, Rf. cbn [remove_nth].
  set (m2 := with_refreshing _ _).
  destruct (call_ok p m2 (ARefresh ns ob) I Rd) as (m3 & ev & C & _). rewrite C.
  do 2 eexists. split; [reflexivity|]. cbn [sy_matcher sy_kv].
  unfold call_cache in C. destruct (cache_act _ _ _) as [[c' ev']|]; [|discriminate]. injection C as <- _.
  split; [split; [exact Th|reflexivity]|]. split; [reflexivity|].
  unfold ns_version. subst m2. cbn [with_cache m_rules m_objs with_refreshing with_obj]. rewrite G, Nat.eqb_refl. cbn [rs_process ob_version].
  unfold stored_version, kv_version. rewrite K. reflexivity.
Qed.

Lemma catches_up o p d xs s tr ns x n rs now :
  0 <= co_capacity (mo_cache_opts p) -> 0 <= co_evict_batch (mo_cache_opts p) ->
  system_run o p (new_system d) xs = Some (s, tr) -> resting (sy_matcher s) -> c_readers (m_cache (sy_matcher s)) = [] ->
  read_namespaces o (sy_kv s) = ROk x -> mention x ns = Some n -> deleted_as_of n (ns_version (sy_matcher s) ns) = false ->
  stored_rules o p (sy_kv s) ns = ROk rs ->
  exists k ob s' ev,
    system_run o p s ([SNamespaces 0] ++ repeat (SStep 0 now None) k ++ [SRuleSet ob 0 now; SMatcher (MRefresh 0)]) = Some (s', ev) /\
    resting (sy_matcher s') /\ sy_kv s' = sy_kv s /\ ns_version (sy_matcher s') ns = stored_version o (sy_kv s) ns.
Proof.
  intros Hc Hb R [Th Rf] Rd Rn Me De S. destruct (fo_run _ _ _ _ _ _ (follows_run _ _ _ _ _ _ R)) as [ys M].
  destruct s as [kv0 past m]. cbn [sy_kv sy_past sy_matcher] in *.
  unfold read_namespaces in Rn. destruct (kv0 (so_names_key o)) as [[v [| pb |]]|] eqn:K; try discriminate.
  destruct (new_namespaces v (Some pb)) as [x'|] eqn:P; [|discriminate]. injection Rn as ->.
  assert (U : exists m1, matcher_act p m (MNamespaces v pb) = Some (m1, [MUpdate x])).
  { cbn [matcher_act]. rewrite Th, P. eexists. reflexivity. }
  destruct U as [m1 U].
  assert (M1 : matcher_run p new_matcher (ys ++ [MNamespaces v pb]) = Some (m1, tr ++ [MUpdate x])).
  { rewrite matcher_run_app, M. cbn [matcher_run]. rewrite U. reflexivity. }
  assert (F1 : m_refreshing m1 = [] /\ c_readers (m_cache m1) = []).
  { cbn [matcher_act] in U. rewrite Th, P in U. injection U as <-. split; [exact Rf|exact Rd]. }
  destruct F1 as [Rf1 Rd1].
  destruct (finishes_unlocked p now Hc Hb (weight m1) m1 _ (le_n _) (reachable_J _ _ _ _ Hc Hb M1) Rd1)
    as (k & m2 & ev2 & E2 & Th2 & Rf2 & Rd2 & N2). rewrite Rf1 in Rf2.
  assert (W2 : watched_ns m2 ns = true).
  { rewrite (processed_watched p x Hc Hb ys m tr v pb m1 (repeat (MStep 0 now None) k) m2 ev2 M U E2 N2 Th2 ns n Me).
    - rewrite <- (proj1 (queries p ys m tr ns Hc Hb M)), De. reflexivity.
    - apply Forall_forall. intros y Y. apply repeat_spec in Y as ->. exact I. }
  set (s1 := mk_sys kv0 past m1). set (s2 := mk_sys kv0 past m2).
  assert (A1 : system_run o p (mk_sys kv0 past m) [SNamespaces 0] = Some (s1, [MUpdate x])).
  { cbn [system_run system_act matcher_action]. unfold value_ago. cbn [nth_error sy_kv sy_matcher]. rewrite K, U. reflexivity. }
  assert (A2 : system_run o p s1 (repeat (SStep 0 now None) k) = Some (s2, ev2)) by exact (lift_steps o p now k s1 m2 ev2 E2).
  assert (R2 : system_run o p (new_system d) (xs ++ ([SNamespaces 0] ++ repeat (SStep 0 now None) k)) = Some (s2, tr ++ [MUpdate x] ++ ev2)).
  { rewrite system_run_app, R. rewrite system_run_app, A1, A2. reflexivity. }
  destruct (catches_up_watched o p d _ s2 _ ns rs now Hc Hb R2 (conj Th2 Rf2) Rd2 W2 S) as (ob & s' & ev & E & H).
  exists k, ob, s', ([MUpdate x] ++ ev2 ++ ev). split; [|exact H].
  rewrite system_run_app, A1, system_run_app, A2, E. reflexivity.
Qed.

(** ** What was written *)

Lemma written_rules o p d a w rs b : keys_distinct o -> storable (mo_rule_opts p) rs ->
  writes_rules w = Some rs -> snd (run_write o (store_after o d a) w) = WOk ->
  Forall (fun w' => forall rs', writes_rules w' = Some rs' -> rs_namespace rs' <> rs_namespace rs) (writes_of b) ->
  let s := store_after o d (a ++ SWrite w :: b) in
  stored_version o s (rs_namespace rs) = rs_version rs + 1 /\
  exists rs', stored_rules o p s (rs_namespace rs) = ROk rs' /\ read_back (rs_version rs + 1) (mo_rule_opts p) rs rs'.
Proof.
  intros Hk St W Ok F s.
  assert (K : s (rule_set_key o (rs_namespace rs)) = fst (run_write o (store_after o d a) w) (rule_set_key o (rs_namespace rs))).
  { unfold s. rewrite store_after_app. change (writes_of (SWrite w :: b)) with (w :: writes_of b).
    unfold run_writes. cbn [fold_left]. exact (run_writes_other o (rs_namespace rs) (writes_of b) _ Hk F). }
  destruct (storable_reads (rs_version rs + 1) _ rs St) as (pb & rs' & Hp & Hr & Hb).
  assert (G : fst (run_write o (store_after o d a) w) (rule_set_key o (rs_namespace rs)) = Some (rs_version rs + 1, VRules pb)).
  { pose proof (run_write_shape o (store_after o d a) w) as Sh. rewrite Ok in Sh. inversion Sh as [r N E1 E2|rs0 pb0 r A0 W0 N0 P0 V0 E1|rs0 pb0 x r A0 W0 N0 P0 V0 V1 E1].
    - contradiction.
    - rewrite W in W0. injection W0 as <-. rewrite Hp in P0. injection P0 as <-. rewrite kv_set_same, V0. reflexivity.
    - rewrite W in W0. injection W0 as <-. rewrite Hp in P0. injection P0 as <-.
      rewrite kv_set_other by (apply Hk). rewrite kv_set_same, V0. reflexivity. }
  rewrite G in K. split.
  - unfold stored_version, kv_version. rewrite K. reflexivity.
  - exists rs'. split; [|exact Hb]. unfold stored_rules, read_rule_set, with_rule_opts. cbn [so_rule].
    change (rule_set_key _ (rs_namespace rs)) with (rule_set_key o (rs_namespace rs)). rewrite K, Hr. reflexivity.
Qed.

Lemma ascending_kept P (R : snapshot P -> snapshot P -> Prop) h h' :
  (forall s s', R s s' -> sn_cutover s' = sn_cutover s) -> Forall2 R h h' -> ascending h -> ascending h'.
Proof.
  intros C F. unfold ascending. induction F as [|x y h h' XY F IH]; intros A; [constructor|].
  inversion A as [|? ? A1 A2]; subst. constructor; [exact (IH A1)|].
  clear IH A A1. induction F as [|x' y' h h' XY' F IH]; [constructor|]. inversion A2 as [|? ? B1 B2]; subst.
  constructor; [|exact (IH B2)]. rewrite (C _ _ XY), (C _ _ XY'). exact B1.
Qed.

Lemma read_back_ascend v o rs rs' : read_back v o rs rs' -> histories_ascend rs -> histories_ascend rs'.
Proof.
  intros (_ & _ & _ & _ & _ & _ & _ & _ & M & R & _) [A1 A2].
  assert (G : forall P (Q : snapshot P -> snapshot P -> Prop) l l', (forall s s', Q s s' -> sn_cutover s' = sn_cutover s) ->
    Forall2 (rule_rel Q) l l' -> Forall (fun r => ascending (ru_snapshots r)) l -> Forall (fun r => ascending (ru_snapshots r)) l').
  { intros P Q l l' C F. induction F as [|x y l l' [_ XY] F IH]; intros A; [constructor|]. inversion A as [|? ? B1 B2]; subst.
    constructor; [exact (ascending_kept P Q _ _ C XY B1)|exact (IH B2)]. }
  split.
  - refine (G _ _ _ _ _ M A1). intros s s' (f & agg & _ & _ & _ & ->). reflexivity.
  - refine (G _ _ _ _ _ R A2). intros s s' (f & ts & _ & _ & ->). reflexivity.
Qed.

Lemma written_served o p d a w rs b s tr x s' ev id from to res adm :
  0 <= co_capacity (mo_cache_opts p) -> 0 <= co_evict_batch (mo_cache_opts p) -> versions_positive d -> keys_distinct o ->
  storable (mo_rule_opts p) rs -> histories_ascend rs ->
  writes_rules w = Some rs -> snd (run_write o (store_after o d a) w) = WOk ->
  Forall (fun w' => forall rs', writes_rules w' = Some rs' -> rs_namespace rs' <> rs_namespace rs) (writes_of b) ->
  let xs := a ++ SWrite w :: b in
  system_run o p (new_system d) xs = Some (s, tr) -> resting (sy_matcher s) ->
  ns_version (sy_matcher s) (rs_namespace rs) = rs_version rs + 1 ->
  system_act o p s x = Some (s', ev) -> In (MEv (EvServe (rs_namespace rs) id from to res adm)) ev -> within_range p (xs ++ [x]) ->
  exists rs' from' T, read_back (rs_version rs + 1) (mo_rule_opts p) rs rs' /\ asked_from (xs ++ [x]) id from' /\ to <= T /\
    res = full_match rs' id from' T.
Proof.
  intros Hc Hb P Hk St As W Ok F xs R Rest V A I Wi.
  destruct (written_rules o p d a w rs b Hk St W Ok F) as (Sv & rs' & Sr & Rb). fold xs in Sv, Sr.
  rewrite <- (fo_now _ _ _ _ _ _ (follows_run _ _ _ _ _ _ R)) in Sv, Sr.
  assert (V' : ns_version (sy_matcher s) (rs_namespace rs) = stored_version o (sy_kv s) (rs_namespace rs)) by (rewrite Sv; exact V).
  destruct (served_at_rest o p d xs s tr x s' ev _ id from to res adm Hc Hb P R Rest V' A I Wi) as [[N _]|(rs1 & S1 & H)].
  - rewrite Sr in N. discriminate.
  - rewrite Sr in S1. injection S1 as <-. destruct (H (read_back_ascend _ _ _ _ Rb As)) as (f' & T & H1 & H2 & H3).
    exists rs', f', T. auto.
Qed.

Lemma served_stage o p d xs s tr x s' ev ns id from to res a rs t :
  0 <= co_capacity (mo_cache_opts p) -> 0 <= co_evict_batch (mo_cache_opts p) -> versions_positive d ->
  system_run o p (new_system d) xs = Some (s, tr) -> resting (sy_matcher s) ->
  ns_version (sy_matcher s) ns = stored_version o (sy_kv s) ns ->
  system_act o p s x = Some (s', ev) -> In (MEv (EvServe ns id from to res a)) ev -> within_range p (xs ++ [x]) ->
  (forall f, asked_from (xs ++ [x]) id f -> 0 <= f <= from) -> from <= t < to ->
  stored_rules o p (sy_kv s) ns = ROk rs -> histories_ascend rs ->
  (forall r, In r (rs_mapping rs) -> steady id r) -> (forall r, In r (rs_rollup rs) -> steady id r) ->
  tfo_name_and_tags (rs_opts rs) id <> None ->
  (forall r s, In r (rs_rollup rs) -> In s (ru_snapshots r) -> accepts s id -> sn_tomb s = false /\ sn_body s <> []) ->
  exists st rest, mr_existing_at res t = st :: rest /\
    map sm_pipelines (mr_existing (full_match rs id t t)) = [sm_pipelines st] /\ sm_tombstoned st = false /\ sm_cutover st <= t.
Proof.
  intros Hc Hb P R Rest V A I W N Ht S As Sm Sr Tg Rl.
  destruct (served_at_rest o p d xs s tr x s' ev ns id from to res a Hc Hb P R Rest V A I W) as [[X _]|(rs1 & S1 & H)].
  - rewrite S in X. discriminate.
  - rewrite S in S1. injection S1 as <-. destruct (H As) as (f' & T & Ak & L & ->). specialize (N f' Ak).
    unfold full_match. set (v := rs_version rs). set (ms := rs_mapping rs) in *. set (rr := rs_rollup rs) in *.
    destruct (existing_served v ms rr (rs_opts rs) (rs_new_id rs) (rs_is_rollup rs) id f' T _
      (window_changes v ms rr (rs_opts rs) (rs_new_id rs) (rs_is_rollup rs) f' T) ltac:(lia) Sm Sr Tg Rl t ltac:(lia))
      as (st & rest & E & Hp & Htomb & Hcut).
    exists st, rest. split; [exact E|]. split; [|auto]. rewrite instant. cbn [mr_existing map]. now rewrite Hp.
Qed.
