(** Whose rules a metric is matched against. *)
From Coq Require Import Ascii String Arith ZArith Bool Lia List.
From Verif.Proof Require Import TagProof.
From Verif.Base Require Import Bytes BMap.
From Verif.Model Require Import AggType Policy Transformation Pipeline Metadata Filter MetricID Rules RuleSet RuleSetProto
  Namespace Store CacheList Cache Matcher System.
From Verif.Spec Require Import FilterSpec MatcherSpec SystemSpec.
Import ListNotations.
Open Scope Z_scope.

Lemma namespace_of_belongs p id : belongs_to (mo_namespace_tag p) (mo_default_namespace p) id (namespace_of p id).
Proof.
  unfold namespace_of, belongs_to. destruct (tag_value id (mo_namespace_tag p)) as [v|] eqn:E.
  - left. unfold tag_value in E. destruct (name_and_tags id) as [[name section]|] eqn:En; [|discriminate].
    destruct (proj1 (name_and_tags_spec id name section) En) as (before & Hb & Hn & Eid).
    destruct (sorted_tags section) as [ps malformed] eqn:Es.
    pose proof (proj1 (sorted_tags_spec section ps malformed) Es) as Hs.
    exists before, name, section, ps, malformed. split; [exact Hb|]. split; [exact Hn|]. split; [exact Eid|]. split; [exact Hs|].
    assert (tag_value (id_text before name section) (mo_namespace_tag p) = Some v) as K.
    { rewrite <- Eid. unfold tag_value. rewrite En, Es. exact E. }
    exact (proj1 (tag_value_spec before name section ps malformed (mo_namespace_tag p) Hb Hn Hs (Some v)) K).
  - right. split; [reflexivity|]. intros before name section ps malformed v Hb Hn Eid Hs. subst id.
    exact (proj1 (tag_value_spec before name section ps malformed (mo_namespace_tag p) Hb Hn Hs None) E v).
Qed.

Lemma cache_act_serves o c x c' ev ns id from to res a :
  cache_act o c x = Some (c', ev) -> In (EvServe ns id from to res a) ev ->
  match x with
  | ARead ns' id' from' to' _ | AWrite ns' id' from' to' _ _ _ => ns' = ns /\ id' = id /\ from' = from /\ to' = to
  | _ => False
  end.
Proof.
  intros H Hin. destruct x as [ns' id' f t now|n st|ns' id' f t now st ans|ns' src|ns' src|ns'| | | | | |n]; cbn [cache_act] in H.
  - destruct (try_get c ns' id' t) as [|e r|r b]; injection H as _ <-.
    + destruct Hin as [E|[]]; injection E; auto.
    + destruct Hin as [E|[]]; injection E; auto.
    + destruct Hin.
  - destruct (stutter_ok o st); [|discriminate]. destruct (nth_error (c_readers c) n) as [[e now]|]; [|discriminate].
    unfold promote in H. match type of H with context [if ?b then _ else _] => destruct b end;
      injection H as _ <-; [destruct Hin as [E|[]]; discriminate|destruct Hin].
  - destruct (unlocked c && stutter_ok o st)%bool; [|discriminate]. destruct (try_get c ns' id' t) as [|e r|r b].
    + injection H as _ <-. destruct Hin as [E|[]]. injection E; auto.
    + destruct (if should_promote (ls_heap (c_ls c) e) now then promote o c now st e else (c, [])) as [c1 ev1] eqn:Ep.
      injection H as _ <-. apply in_app_iff in Hin. destruct Hin as [Hin|[E|[]]]; [|injection E; auto].
      exfalso. unfold promote in Ep. destruct (should_promote (ls_heap (c_ls c) e) now); injection Ep as _ <-;
        [destruct Hin as [E|[]]; discriminate|destruct Hin].
    + injection H as H. unfold set_with_lock in H.
      destruct (if b then invalidate_with_lock o c ns' id' r else (c, r)) as [c1 r1]. injection H as _ <-.
      destruct Hin as [E|[E|[E|[]]]]; [discriminate|discriminate|injection E; auto].
  - destruct (unlocked c); [|discriminate]. destruct (bget (c_ns c) ns'); injection H as _ <-; destruct Hin as [E|[]]; discriminate.
  - destruct (unlocked c); [|discriminate]. destruct (bget (c_ns c) ns') as [r|].
    + destruct (Nat.eqb (r_source r) src); injection H as _ <-; destruct Hin as [E|[]]; discriminate.
    + injection H as _ <-. destruct Hin as [E|[]]; discriminate.
  - destruct (unlocked c); [|discriminate]. destruct (bget (c_ns c) ns'); injection H as _ <-; destruct Hin as [E|[]]; discriminate.
  - destruct (unlocked c); [|discriminate]. injection H as _ <-. destruct Hin.
  - match type of H with context [if ?b then _ else _] => destruct b end; [|discriminate]. injection H as _ <-. destruct Hin.
  - match type of H with context [if ?b then _ else _] => destruct b end; [|discriminate].
    destruct (do_evict o _); [|discriminate]. injection H as _ <-. destruct Hin.
  - destruct (c_pending c); [|discriminate].
    match type of H with context [if ?b then _ else _] => destruct b end; [|discriminate]. injection H as _ <-. destruct Hin.
  - match type of H with context [if ?b then _ else _] => destruct b end; [|discriminate]. injection H as _ <-. destruct Hin.
  - destruct (nth_error (c_pending c) n); [|discriminate]. injection H as _ <-. destruct Hin.
Qed.

Definition no_serve (ev : list mevent) : Prop := forall ns id from to res a, ~ In (MEv (EvServe ns id from to res a)) ev.

Lemma call_cache_serves p s x s' ev ns id from to res a :
  call_cache p s x = Some (s', ev) -> In (MEv (EvServe ns id from to res a)) ev ->
  match x with
  | ARead ns' id' from' to' _ | AWrite ns' id' from' to' _ _ _ => ns' = ns /\ id' = id /\ from' = from /\ to' = to
  | _ => False
  end.
Proof.
  unfold call_cache. intros H Hin. destruct (cache_act (mo_cache_opts p) (m_cache s) x) as [[c ev']|] eqn:E; [|discriminate].
  injection H as _ <-. apply in_map_iff in Hin. destruct Hin as (e & Ee & Hin). injection Ee as ->.
  exact (cache_act_serves _ _ _ _ _ _ _ _ _ _ _ E Hin).
Qed.

Lemma deliver_serves p s o v pb now s' ev : deliver p s o v pb now = Some (s', ev) -> no_serve ev.
Proof.
  unfold deliver. destruct (rule_set_from_proto v (Some pb) (mo_rule_opts p)); [|discriminate].
  intro H. injection H as _ <-. intros ns id from to res a [E|[]]. discriminate.
Qed.

Lemma do_nstep_serves p s x now init s' more ev : do_nstep p s x now init = Some (s', more, ev) -> no_serve ev.
Proof.
  intros H ns id from to res a Hin. destruct x as [o|o|o|o|n o e|n o e|n o e]; cbn [do_nstep] in H.
  - destruct (ob_watched (m_objs s o)); [injection H as _ _ <-; destruct Hin|].
    destruct init as [[v pb]|]; [|injection H as _ _ <-; destruct Hin].
    destruct (deliver p (with_obj s o (with_watched true)) o v pb now) as [[s2 ev2]|] eqn:E; injection H as _ _ <-; [|destruct Hin].
    exact (deliver_serves _ _ _ _ _ _ _ _ E _ _ _ _ _ _ Hin).
  - injection H as _ _ <-. destruct Hin.
  - destruct (call_cache p s (ARefresh (ob_ns (m_objs s o)) o)) as [[s1 ev1]|] eqn:E; [|discriminate]. injection H as _ _ <-.
    exact (call_cache_serves _ _ _ _ _ _ _ _ _ _ _ E Hin).
  - destruct (call_cache p s (ARegister (ob_ns (m_objs s o)) o)) as [[s1 ev1]|] eqn:E; [|discriminate]. injection H as _ _ <-.
    exact (call_cache_serves _ _ _ _ _ _ _ _ _ _ _ E Hin).
  - injection H as _ _ <-. destruct Hin.
  - destruct (call_cache p s (AUnregister (ob_ns (m_objs s o)))) as [[s1 ev1]|] eqn:E; [|discriminate]. injection H as _ _ <-.
    exact (call_cache_serves _ _ _ _ _ _ _ _ _ _ _ E Hin).
  - injection H as _ _ <-. destruct Hin as [E|[]]. discriminate.
Qed.

Lemma process_step_serves p s i now init s' ev : process_step p s i now init = Some (s', ev) -> no_serve ev.
Proof.
  unfold process_step. intros H ns id from to res a Hin.
  destruct (m_thread s) as [|[|x body] todo inc|[|x body] todo inc].
  - discriminate.
  - destruct todo as [|n todo]; [injection H as _ <-; destruct Hin|].
    destruct (nth_error (n :: todo) i) as [n'|]; [|discriminate]. unfold enter in H.
    destruct (bget (m_rules s) (ns_name n')); injection H as _ <-; [destruct Hin|destruct Hin as [E|[]]; discriminate].
  - destruct (do_nstep p s x now init) as [[[s1 more] ev1]|] eqn:E; [|discriminate]. injection H as _ <-.
    exact (do_nstep_serves _ _ _ _ _ _ _ _ E _ _ _ _ _ _ Hin).
  - destruct todo as [|n todo]; [injection H as _ <-; destruct Hin|].
    destruct (nth_error (n :: todo) i) as [[n' o]|]; [|discriminate]. injection H as _ <-. destruct Hin.
  - destruct (do_nstep p s x now init) as [[[s1 more] ev1]|] eqn:E; [|discriminate]. injection H as _ <-.
    exact (do_nstep_serves _ _ _ _ _ _ _ _ E _ _ _ _ _ _ Hin).
Qed.

Lemma matcher_act_serves p s x s' ev ns id from to res a :
  matcher_act p s x = Some (s', ev) -> In (MEv (EvServe ns id from to res a)) ev ->
  asks_matcher x id from to /\ ns = namespace_of p id.
Proof.
  intros H Hin. destruct x as [v pb|i now init|o v pb now|i|id' f t now|id' f t now st|x|]; cbn [matcher_act] in H.
  - destruct (m_thread s); [|discriminate|discriminate]. destruct (new_namespaces v (Some pb)); [|discriminate].
    injection H as _ <-. destruct Hin as [E|[]]. discriminate.
  - exfalso. exact (process_step_serves _ _ _ _ _ _ _ H _ _ _ _ _ _ Hin).
  - destruct ((o <? m_next s)%nat && ob_watched (m_objs s o))%bool; [|discriminate].
    destruct (deliver p s o v pb now) as [[s1 ev1]|] eqn:E; [|discriminate]. injection H as _ <-.
    exfalso. exact (deliver_serves _ _ _ _ _ _ _ _ E _ _ _ _ _ _ Hin).
  - destruct (nth_error (m_refreshing s) i) as [o|]; [|discriminate].
    exfalso. exact (call_cache_serves _ _ _ _ _ _ _ _ _ _ _ H Hin).
  - destruct (call_cache_serves _ _ _ _ _ _ _ _ _ _ _ H Hin) as (<- & <- & <- & <-). cbn [asks_matcher]. auto.
  - destruct (call_cache_serves _ _ _ _ _ _ _ _ _ _ _ H Hin) as (<- & <- & <- & <-). cbn [asks_matcher]. auto.
  - destruct x; try discriminate; exfalso; exact (call_cache_serves _ _ _ _ _ _ _ _ _ _ _ H Hin).
  - injection H as _ <-. destruct Hin.
Qed.

Lemma matcher_run_serves p : forall xs s s' tr ns id from to res a,
  matcher_run p s xs = Some (s', tr) -> In (MEv (EvServe ns id from to res a)) tr ->
  (exists x, In x xs /\ asks_matcher x id from to) /\
  belongs_to (mo_namespace_tag p) (mo_default_namespace p) id ns.
Proof.
  induction xs as [|x xs IH]; intros s s' tr ns id from to res a H Hin; cbn [matcher_run] in H.
  - injection H as _ <-. destruct Hin.
  - destruct (matcher_act p s x) as [[s1 e1]|] eqn:E1; [|discriminate].
    destruct (matcher_run p s1 xs) as [[s2 e2]|] eqn:E2; [|discriminate]. injection H as _ <-.
    apply in_app_iff in Hin. destruct Hin as [Hin|Hin].
    + destruct (matcher_act_serves _ _ _ _ _ _ _ _ _ _ _ E1 Hin) as [Ha ->]. split; [|apply namespace_of_belongs].
      exists x. split; [left; reflexivity|exact Ha].
    + destruct (IH _ _ _ _ _ _ _ _ _ E2 Hin) as [(y & Hy & Ha) Hb]. split; [|exact Hb]. exists y. split; [right; exact Hy|exact Ha].
Qed.

Lemma system_run_serves o p : forall xs s s' tr ns id from to res a,
  system_run o p s xs = Some (s', tr) -> In (MEv (EvServe ns id from to res a)) tr ->
  (exists x, In x xs /\ asks x id from to) /\
  belongs_to (mo_namespace_tag p) (mo_default_namespace p) id ns.
Proof.
  induction xs as [|x xs IH]; intros s s' tr ns id from to res a H Hin; cbn [system_run] in H.
  - injection H as _ <-. destruct Hin.
  - destruct (system_act o p s x) as [[s1 e1]|] eqn:E1; [|discriminate].
    destruct (system_run o p s1 xs) as [[s2 e2]|] eqn:E2; [|discriminate]. injection H as _ <-.
    apply in_app_iff in Hin. destruct Hin as [Hin|Hin].
    + assert (forall y m ev, matcher_act p (sy_matcher s) y = Some (m, ev) -> In (MEv (EvServe ns id from to res a)) ev ->
        asks_matcher y id from to /\ ns = namespace_of p id) as K
        by (intros y m ev Hy Hi; exact (matcher_act_serves _ _ _ _ _ _ _ _ _ _ _ Hy Hi)).
      destruct x as [w|ago|i now init|ob ago now|y]; cbn [system_act] in E1.
      * injection E1 as _ <-. destruct Hin.
      * destruct (matcher_action o s (SNamespaces ago)) as [y|] eqn:Ey; [|discriminate].
        destruct (matcher_act p (sy_matcher s) y) as [[m ev]|] eqn:Em; [|discriminate]. injection E1 as _ <-.
        destruct (K _ _ _ Em Hin) as [Ha _]. cbn [matcher_action] in Ey.
        destruct (value_ago s ago (so_names_key o)) as [[v [pb|pb|]]|]; try discriminate. injection Ey as <-. destruct Ha.
      * destruct (matcher_action o s (SStep i now init)) as [y|] eqn:Ey; [|discriminate].
        destruct (matcher_act p (sy_matcher s) y) as [[m ev]|] eqn:Em; [|discriminate]. injection E1 as _ <-.
        destruct (K _ _ _ Em Hin) as [Ha _]. cbn [matcher_action] in Ey. destruct init as [ago|].
        -- destruct (starts_watching (sy_matcher s)); [|discriminate]. injection Ey as <-. destruct Ha.
        -- injection Ey as <-. destruct Ha.
      * destruct (matcher_action o s (SRuleSet ob ago now)) as [y|] eqn:Ey; [|discriminate].
        destruct (matcher_act p (sy_matcher s) y) as [[m ev]|] eqn:Em; [|discriminate]. injection E1 as _ <-.
        destruct (K _ _ _ Em Hin) as [Ha _]. cbn [matcher_action] in Ey.
        destruct (rules_ago o s ago ob) as [[v pb]|]; [|discriminate]. injection Ey as <-. destruct Ha.
      * destruct (matcher_action o s (SMatcher y)) as [y'|] eqn:Ey; [|discriminate].
        assert (y' = y) as -> by (cbn [matcher_action] in Ey; destruct y; congruence).
        destruct (matcher_act p (sy_matcher s) y) as [[m ev]|] eqn:Em; [|discriminate]. injection E1 as _ <-.
        destruct (K _ _ _ Em Hin) as [Ha ->]. split; [|apply namespace_of_belongs]. exists (SMatcher y).
        split; [left; reflexivity|]. destruct y; try contradiction; exact Ha.
    + destruct (IH _ _ _ _ _ _ _ _ _ E2 Hin) as [(y & Hy & Ha) Hb]. split; [|exact Hb]. exists y. split; [right; exact Hy|exact Ha].
Qed.
