(** The matcher follows the namespaces it watches, in every interleaving. *)
From Coq Require Import Arith ZArith Bool Lia List.
From Verif Require Import Base.Bytes Base.BytesFacts Base.BMap Base.BMapFacts Model.MetricID Model.Rules
  Model.RuleSet Model.RuleSetProto Model.Namespace Model.CacheList Model.Cache Model.Matcher
  Spec.CacheListSpec Spec.CacheSpec Spec.MatcherSpec
  Proof.CacheListProof Proof.CacheProof Proof.CacheRunProof Proof.CacheLruProof.
Import ListNotations.
Local Open Scope nat_scope.

(** ** Traces *)

Definition reg (tr : list mevent) (ns : bytes) : option nat := registered (cache_events tr) ns.

Lemma cache_events_app a b : cache_events (a ++ b) = cache_events a ++ cache_events b.
Proof. unfold cache_events. apply flat_map_app. Qed.

Lemma cache_events_map ev : cache_events (map MEv ev) = ev.
Proof. induction ev as [|e ev IH]; cbn; [reflexivity|]. f_equal. exact IH. Qed.

Lemma rules_of_app a b ns : rules_of (a ++ b) ns = fold_left (rules_step ns) b (rules_of a ns).
Proof. unfold rules_of. apply fold_left_app. Qed.

Lemma rules_of_cache a ev ns : rules_of (a ++ map MEv ev) ns = rules_of a ns.
Proof.
  rewrite rules_of_app. generalize (rules_of a ns). induction ev as [|e ev IH]; intros k; cbn; [reflexivity|apply IH].
Qed.

Lemma last_update_app a b : last_update (a ++ b) = fold_left update_step b (last_update a).
Proof. unfold last_update. apply fold_left_app. Qed.

Definition no_update (ev : list mevent) : Prop := forall y, ~ In (MUpdate y) ev.

Lemma last_update_keep a ev : no_update ev -> last_update (a ++ ev) = last_update a.
Proof.
  rewrite last_update_app. generalize (last_update a). induction ev as [|e ev IH]; intros k H; cbn; [reflexivity|].
  rewrite IH by (intros y Y; apply (H y); right; exact Y).
  destruct e; try reflexivity. exfalso. apply (H x). left. reflexivity.
Qed.

Lemma no_update_cache ev : no_update (map MEv ev).
Proof. intros y H. apply in_map_iff in H as (e & E & _). discriminate. Qed.

Lemma since_update_keep tr x P ev : no_update ev -> since_update tr x P -> since_update (tr ++ ev) x P.
Proof.
  intros N (u & v & E & L & Nv & H). exists u, (v ++ ev). split; [rewrite E, <- app_assoc; reflexivity|].
  split; [exact L|]. split; [|exact H]. intros y Y. apply in_app_iff in Y as [Y|Y]; [exact (Nv y Y)|exact (N y Y)].
Qed.

Lemma since_update_now tr x (P : list mevent -> Prop) : last_update tr = Some x -> P tr -> since_update tr x P.
Proof. intros L H. exists tr, []. rewrite app_nil_r. repeat split; try assumption. intros y []. Qed.

(** what each event tells about the moment it happens *)
Definition removable (t1 : list mevent) (ns : bytes) (e : Z) : Prop :=
  exists x, last_update t1 = Some x /\ ~ lists x ns /\
    since_update t1 x (rules_deleted ns) /\ since_update t1 x (rules_older ns e).

Definition event_ok (t1 : list mevent) (e : mevent) : Prop :=
  match e with
  | MAdded ns _ => reg t1 ns = None /\ rules_of t1 ns = None
  | MRemoved ns _ e => reg t1 ns = None /\ removable t1 ns e
  | MProcessed ns o _ _ => forall s, reg t1 ns = Some s -> s = o
  | MEv (EvSource ns _ id f t res) => res = matched_by (rules_of t1 ns) id f t
  | _ => True
  end.

Definition trace_ok (tr : list mevent) : Prop :=
  forall t1 e t2, tr = t1 ++ e :: t2 -> event_ok t1 e.

Lemma trace_ok_app tr ev : trace_ok tr -> (forall a e b, ev = a ++ e :: b -> event_ok (tr ++ a) e) -> trace_ok (tr ++ ev).
Proof.
  intros H N t1 e t2 E. symmetry in E. apply split_app in E as [(k & E1 & E2)|(k & E1 & E2)].
  - exact (H _ _ _ E1).
  - rewrite E2. exact (N _ _ _ E1).
Qed.

Lemma trace_ok_one tr e : trace_ok tr -> event_ok tr e -> trace_ok (tr ++ [e]).
Proof.
  intros H N. apply trace_ok_app; [exact H|]. intros a e' b E. destruct a as [|x a].
  - injection E as <- <-. rewrite app_nil_r. exact N.
  - injection E as _ E. destruct a; discriminate.
Qed.

(** ** Objects *)

Definition shows_rules (r : rs_obj) (k : option (rule_set * Z)) : Prop :=
  match k with
  | None => ob_version r = 0%Z /\ ob_cutover r = 0%Z /\ ob_tomb r = false /\ ob_matcher r = None
  | Some (rs, t) => ob_version r = rs_version rs /\ ob_cutover r = rs_cutover rs /\
      ob_tomb r = rs_tomb rs /\ ob_matcher r = Some (active_set rs t)
  end.

Lemma shows_forward r k id from to : shows_rules r k -> rs_forward_match r id from to = matched_by (Some k) id from to.
Proof.
  unfold rs_forward_match. destruct k as [[rs t]|]; intros (_ & _ & _ & ->); reflexivity.
Qed.

Lemma shows_watched r k b : shows_rules r k -> shows_rules (with_watched b r) k.
Proof. destruct k as [[rs t]|]; exact (fun H => H). Qed.

(** ** The invariant *)

Definition is_reg_event (e : event) : bool :=
  match e with EvRegister _ _ | EvUnregister _ | EvRefresh _ _ => true | _ => false end.

Record base (p : matcher_opts) (rules : bmap nat) (objs : nat -> rs_obj) (next : nat) (c : cache)
    (pend : list nat) (tr : list mevent) : Prop := mk_base {
  b_cache : exists ys, cache_run (mo_cache_opts p) new_cache ys = Some (c, cache_events tr);
  b_nodup : NoDup (map fst rules);
  b_fresh : forall ns o, bget rules ns = Some o -> o < next;
  b_known : forall ns o, bget rules ns = Some o ->
    ob_ns (objs o) = ns /\ exists k, rules_of tr ns = Some k /\ shows_rules (objs o) k;
  b_unknown : forall ns, bget rules ns = None -> rules_of tr ns = None;
  b_reg : forall ns s, reg tr ns = Some s -> bget rules ns = Some s;
  b_names : forall n o rs t, In (MProcessed n o rs t) tr -> ob_ns (objs o) = n /\ o < next;
  b_pending : forall t1 n o rs t t2, tr = t1 ++ MProcessed n o rs t :: t2 ->
    In (MEv (EvRefresh n o)) t2 \/ In o pend;
  b_trace : trace_ok tr }.

Definition adding_ok (rules : bmap nat) (tr : list mevent) (body : list nstep) : Prop :=
  body = [] \/ exists ns o, bget rules ns = Some o /\
    (reg tr ns = Some o /\ (body = [NWatch o] \/ body = [NUnwatch o] \/ body = [NRefresh o]) \/
     reg tr ns = None /\ (body = [NWatch o; NRegister o] \/ body = [NUnwatch o; NRegister o] \/
                          body = [NRefresh o; NRegister o] \/ body = [NRegister o])).

Definition sweeping_ok (rules : bmap nat) (objs : nat -> rs_obj) (tr : list mevent) (x : namespaces)
    (todo : list (bytes * nat)) (body : list nstep) : Prop :=
  (forall ns o, In (ns, o) todo -> bget rules ns = Some o) /\ NoDup (map fst todo) /\
  (body = [] \/ exists ns o e, ~ In ns (map fst todo) /\ ~ lists x ns /\ ob_ns (objs o) = ns /\
    (bget rules ns = Some o /\ reg tr ns = Some o /\ since_update tr x (rules_deleted ns) /\
       (body = [NCutover ns o e] /\ ob_matcher (objs o) <> None \/ body = [NUnregister ns o e] /\ since_update tr x (rules_older ns e)) \/
     bget rules ns = Some o /\ reg tr ns = None /\ since_update tr x (rules_deleted ns) /\
       since_update tr x (rules_older ns e) /\ body = [NForget ns o e] \/
     bget rules ns = None /\ body = [NUnwatch o])).

Definition thread_ok (rules : bmap nat) (objs : nat -> rs_obj) (tr : list mevent) (th : nthread) : Prop :=
  match th with
  | NIdle => True
  | NAdding body todo inc =>
      exists x, last_update tr = Some x /\ (forall ns, In ns inc <-> lists x ns) /\ adding_ok rules tr body
  | NSweeping body todo inc =>
      exists x, last_update tr = Some x /\ (forall ns, In ns inc <-> lists x ns) /\
        sweeping_ok rules objs tr x todo body
  end.

(** the namespace is about to be registered, or about to be forgotten *)
Definition in_flight (th : nthread) (ns : bytes) (o : nat) : Prop :=
  match th with
  | NIdle => False
  | NAdding body _ _ => In (NRegister o) body
  | NSweeping body _ _ => exists e, body = [NForget ns o e]
  end.

Record thr (rules : bmap nat) (objs : nat -> rs_obj) (next : nat) (th : nthread) (tr : list mevent) : Prop := mk_thr {
  t_ok : thread_ok rules objs tr th;
  t_reg : forall ns o, bget rules ns = Some o -> reg tr ns = Some o \/ reg tr ns = None /\ in_flight th ns o;
  t_watched : forall o, o < next -> ob_watched (objs o) = true ->
    bget rules (ob_ns (objs o)) = Some o \/
    bget rules (ob_ns (objs o)) = None /\ exists todo inc, th = NSweeping [NUnwatch o] todo inc }.

Definition refreshes (th : nthread) : list nat :=
  flat_map (fun x => match x with NRefresh o => [o] | _ => [] end)
    (match th with NIdle => [] | NAdding b _ _ => b | NSweeping b _ _ => b end).

Definition J (p : matcher_opts) (s : mstate) (tr : list mevent) : Prop :=
  base p (m_rules s) (m_objs s) (m_next s) (m_cache s) (m_refreshing s ++ refreshes (m_thread s)) tr /\
  thr (m_rules s) (m_objs s) (m_next s) (m_thread s) tr.

Lemma J_new p : J p new_matcher [].
Proof.
  split; constructor; cbn; try discriminate; try tauto; try lia.
  - exists []. reflexivity.
  - constructor.
  - intros t1 n o rs t t2 E. destruct t1; discriminate.
  - intros t1 e t2 E. destruct t1; discriminate.
Qed.

Lemma base_pend p rules objs next c pend pend' tr :
  (forall o, In o pend -> In o pend') -> base p rules objs next c pend tr -> base p rules objs next c pend' tr.
Proof.
  intros H []. constructor; auto. intros t1 n o rs t t2 E.
  destruct (b_pending0 t1 n o rs t t2 E); auto.
Qed.

(** ** Calls to the cache *)

Lemma cache_ns p rules objs next c pend tr ns :
  (0 <= co_capacity (mo_cache_opts p))%Z -> (0 <= co_evict_batch (mo_cache_opts p))%Z ->
  base p rules objs next c pend tr ->
  reg tr ns = match bget (c_ns c) ns with Some r => Some (r_source r) | None => None end.
Proof.
  intros H1 H2 []. destruct b_cache0 as [ys E].
  destruct (reachable_inv _ _ _ _ H1 H2 E) as ((q & g & I) & _).
  destruct I as [i_ref0 i_al0 i_dead0 i_reg0 i_none0 i_rd0 i_ord0].
  unfold reg. destruct (bget (c_ns c) ns) as [r|] eqn:Eg.
  - exact (proj1 (i_reg0 _ _ (bget_in _ _ _ Eg))).
  - apply i_none0. exact (bget_none _ _ Eg).
Qed.

Lemma cache_extends p rules objs next c pend tr x c' ev :
  base p rules objs next c pend tr -> cache_act (mo_cache_opts p) c x = Some (c', ev) ->
  exists ys, cache_run (mo_cache_opts p) new_cache ys = Some (c', cache_events (tr ++ map MEv ev)).
Proof.
  intros [] E. destruct b_cache0 as [ys R]. exists (ys ++ [x]).
  rewrite cache_events_app, cache_events_map. eapply cache_run_app; [exact R|].
  cbn [cache_run]. rewrite E, app_nil_r. reflexivity.
Qed.

(** events that leave the registrations alone *)
Definition quiet (ev : list event) : Prop := forall e, In e ev -> is_reg_event e = false.

Lemma reg_quiet tr ev ns : quiet ev -> reg (tr ++ map MEv ev) ns = reg tr ns.
Proof.
  intros Q. unfold reg. rewrite cache_events_app, cache_events_map, registered_app.
  generalize (registered (cache_events tr) ns). induction ev as [|e ev IH]; intros k; cbn; [reflexivity|].
  rewrite IH by (intros e' H; apply Q; right; exact H).
  specialize (Q e (or_introl eq_refl)). destruct e; try discriminate; reflexivity.
Qed.

(** what the actions of the cache emit *)
Lemma promote_events o c now st a c' ev : promote o c now st a = (c', ev) -> ev = [] \/ ev = [EvPromote a now].
Proof. unfold promote. destruct (should_promote _ _); intros E; injection E as <- <-; auto. Qed.

Lemma silent_events o c x c' ev :
  match x with
  | ARead _ _ _ _ _ | AWrite _ _ _ _ _ _ _ | ARegister _ _ | ARefresh _ _ | AUnregister _ => False
  | _ => True
  end ->
  cache_act o c x = Some (c', ev) -> ev = [] \/ exists a w, ev = [EvPromote a w].
Proof.
  intros F. destruct x; try tauto; cbn [cache_act].
  - destruct (stutter_ok o st); [|discriminate]. destruct (nth_error _ _) as [[a now]|]; [|discriminate].
    intros E. injection E as E. apply promote_events in E as [-> | ->]; [left; reflexivity|right; exists a, now; reflexivity].
  - destruct (unlocked c); [|discriminate]. intros E. injection E as <- <-. left. reflexivity.
  - destruct (c_evict c && _); [|discriminate]. intros E. injection E as <- <-. left. reflexivity.
  - destruct (unlocked c && _); [|discriminate]. destruct (do_evict _ _); [|discriminate].
    intros E. injection E as <- <-. left. reflexivity.
  - destruct (c_pending c); [|discriminate]. destruct (c_delete c && _); [|discriminate].
    intros E. injection E as <- <-. left. reflexivity.
  - destruct (unlocked c && _); [|discriminate]. intros E. injection E as <- <-. left. reflexivity.
  - destruct (nth_error _ _); [|discriminate]. intros E. injection E as <- <-. left. reflexivity.
Qed.

Definition no_source (ev : list event) : Prop := forall ns s id f t res, ~ In (EvSource ns s id f t res) ev.

Lemma read_events o c ns id from to now c' ev :
  cache_act o c (ARead ns id from to now) = Some (c', ev) -> quiet ev /\ no_source ev.
Proof.
  cbn [cache_act]. destruct (try_get c ns id to); intros E; injection E as <- <-;
    (split; [intros e H|intros ? ? ? ? ? ? H]); cbn in H; intuition (subst; try discriminate; auto).
Qed.

Lemma write_events o c ns id from to now st answer c' ev :
  cache_act o c (AWrite ns id from to now st answer) = Some (c', ev) ->
  quiet ev /\ (no_source ev \/
    exists r a, bget (c_ns c) ns = Some r /\
      ev = [EvSource ns (r_source r) id from to answer; EvPromote a now; EvServe ns id from to answer (Some a)]).
Proof.
  cbn [cache_act]. destruct (unlocked c && stutter_ok o st); [|discriminate].
  destruct (try_get c ns id to) as [|a res|r expired] eqn:T.
  - intros E. injection E as <- <-. split; [|left]; [intros e H|intros ? ? ? ? ? ? H]; cbn in H;
      intuition (subst; try discriminate; auto).
  - destruct (should_promote _ _).
    + destruct (promote o c now st a) as [c1 ev1] eqn:P. intros E. injection E as <- <-.
      apply promote_events in P as [-> | ->]; (split; [|left]; [intros e H|intros ? ? ? ? ? ? H]); cbn in H;
        intuition (subst; try discriminate; auto).
    + intros E. injection E as <- <-. split; [|left]; [intros e H|intros ? ? ? ? ? ? H]; cbn in H;
        intuition (subst; try discriminate; auto).
  - assert (G : bget (c_ns c) ns = Some r).
    { unfold try_get in T. destruct (bget (c_ns c) ns) as [r'|]; [|discriminate].
      destruct (bget (r_elems r') id) as [a|]; [|injection T as -> _; reflexivity].
      destruct (mr_has_expired _ _); [injection T as -> _; reflexivity|discriminate]. }
    intros E. injection E as E. unfold set_with_lock in E.
    assert (S1 : forall c1 r1, (if expired then invalidate_with_lock o c ns id r else (c, r)) = (c1, r1) ->
                 r_source r1 = r_source r).
    { intros c1 r1. destruct expired; [|intros X; injection X as <- <-; reflexivity].
      unfold invalidate_with_lock. destruct (co_invalidate_all o); intros X; injection X as <- <-; reflexivity. }
    destruct (if expired then _ else _) as [c1 r1]. specialize (S1 c1 r1 eq_refl).
    injection E as <- <-. split.
    + intros e H. cbn in H. intuition (subst; reflexivity).
    + right. exists r, (c_alloc c1). rewrite S1. split; [exact G|reflexivity].
Qed.

Lemma reg_action_events o c c' ev : forall x e,
  match x with
  | ARegister ns s => e = EvRegister ns s
  | ARefresh ns s => e = EvRefresh ns s
  | AUnregister ns => e = EvUnregister ns
  | _ => False
  end -> cache_act o c x = Some (c', ev) -> ev = [e].
Proof.
  intros x e F. destruct x; try tauto; subst e; cbn [cache_act]; (destruct (unlocked c); [|discriminate]);
    destruct (bget _ _) as [r|]; try (destruct (Nat.eqb _ _)); intros E; injection E as <- <-; reflexivity.
Qed.

Lemma in_pending_app {P : Prop} tr ev (t1 t2 : list mevent) n o rs t :
  tr ++ map MEv ev = t1 ++ MProcessed n o rs t :: t2 ->
  (forall k, tr = t1 ++ MProcessed n o rs t :: k -> t2 = k ++ map MEv ev -> P) -> P.
Proof.
  intros E H. symmetry in E. apply split_app in E as [(k & E1 & E2)|(k & E1 & E2)]; [exact (H k E1 E2)|].
  exfalso. assert (X : In (MProcessed n o rs t) (map MEv ev)) by (rewrite E1; apply in_elt).
  apply in_map_iff in X as (e & X & _). discriminate.
Qed.

(** any action of the cache that leaves the registrations alone *)
Lemma base_quiet p rules objs next c pend tr x c' ev :
  base p rules objs next c pend tr -> cache_act (mo_cache_opts p) c x = Some (c', ev) -> quiet ev ->
  (forall a e b, map MEv ev = a ++ e :: b -> event_ok (tr ++ a) e) ->
  base p rules objs next c' pend (tr ++ map MEv ev).
Proof.
  intros H E Q OK. pose proof (cache_extends _ _ _ _ _ _ _ _ _ _ H E) as C. destruct H. constructor; auto.
  - intros ns o G. destruct (b_known0 ns o G) as (A & k & K). split; [exact A|]. exists k. rewrite rules_of_cache. exact K.
  - intros ns G. rewrite rules_of_cache. auto.
  - intros ns s. rewrite (reg_quiet _ _ _ Q). apply b_reg0.
  - intros n o rs t I. apply in_app_iff in I as [I|I]; [exact (b_names0 n o rs t I)|].
    apply in_map_iff in I as (e & X & _). discriminate.
  - intros t1 n o rs t t2 I. refine (in_pending_app tr ev t1 t2 n o rs t I _). intros k E1 E2.
    destruct (b_pending0 t1 n o rs t k E1) as [X|X]; [|right; exact X].
    left. rewrite E2. apply in_app_iff. left. exact X.
  - apply trace_ok_app; assumption.
Qed.

Lemma thread_ok_keep rules objs tr th ev :
  no_update ev -> (forall ns, reg (tr ++ ev) ns = reg tr ns) ->
  thread_ok rules objs tr th -> thread_ok rules objs (tr ++ ev) th.
Proof.
  intros N R. destruct th as [|body todo inc|body todo inc]; cbn; [tauto| |].
  - intros (x & L & I & A). exists x. rewrite (last_update_keep _ _ N). split; [exact L|]. split; [exact I|].
    destruct A as [A|(ns & o & A)]; [left; exact A|]. right. exists ns, o. rewrite R. exact A.
  - intros (x & L & I & A1 & A2 & A). exists x. rewrite (last_update_keep _ _ N). split; [exact L|]. split; [exact I|].
    split; [exact A1|]. split; [exact A2|].
    destruct A as [A|(ns & o & e & B1 & B2 & B3 & A)]; [left; exact A|].
    right. exists ns, o, e. split; [exact B1|]. split; [exact B2|]. split; [exact B3|]. rewrite R.
    pose proof (fun P => since_update_keep tr x P ev N) as K.
    intuition auto.
Qed.

Lemma thr_quiet rules objs next th tr ev :
  no_update ev -> (forall ns, reg (tr ++ ev) ns = reg tr ns) ->
  thr rules objs next th tr -> thr rules objs next th (tr ++ ev).
Proof.
  intros N R []. constructor.
  - apply thread_ok_keep; assumption.
  - intros ns o. rewrite R. apply t_reg0.
  - exact t_watched0.
Qed.

Lemma J_quiet p s tr x c' ev :
  J p s tr -> cache_act (mo_cache_opts p) (m_cache s) x = Some (c', ev) -> quiet ev ->
  (forall a e b, map MEv ev = a ++ e :: b -> event_ok (tr ++ a) e) ->
  J p (with_cache s c') (tr ++ map MEv ev).
Proof.
  intros [B T] E Q OK. split; cbn.
  - exact (base_quiet _ _ _ _ _ _ _ _ _ _ B E Q OK).
  - apply thr_quiet; [apply no_update_cache|intros ns; apply reg_quiet; exact Q|exact T].
Qed.

Lemma ok_no_source tr ev : no_source ev -> forall a e b, map MEv ev = a ++ e :: b -> event_ok (tr ++ a) e.
Proof.
  intros N a e b E. assert (H : In e (map MEv ev)) by (rewrite E; apply in_elt).
  apply in_map_iff in H as (e' & <- & H). destruct e'; cbn; try exact I. exfalso. exact (N _ _ _ _ _ _ H).
Qed.

(** ** Refreshing *)

Lemma reg_refresh tr n o ns : reg (tr ++ [MEv (EvRefresh n o)]) ns = reg tr ns.
Proof. unfold reg. rewrite cache_events_app, registered_app. reflexivity. Qed.

Lemma base_refresh p rules objs next c pend pend' tr o c' ev :
  base p rules objs next c pend tr ->
  cache_act (mo_cache_opts p) c (ARefresh (ob_ns (objs o)) o) = Some (c', ev) ->
  (forall o', In o' pend -> o' = o \/ In o' pend') ->
  ev = [EvRefresh (ob_ns (objs o)) o] /\
  base p rules objs next c' pend' (tr ++ [MEv (EvRefresh (ob_ns (objs o)) o)]).
Proof.
  intros H E P. pose proof (reg_action_events _ _ _ _ (ARefresh (ob_ns (objs o)) o) (EvRefresh (ob_ns (objs o)) o) eq_refl E) as ->. split; [reflexivity|].
  pose proof (cache_extends _ _ _ _ _ _ _ _ _ _ H E) as C. cbn [map] in C. destruct H. constructor; auto.
  - intros ns o' G. destruct (b_known0 ns o' G) as (A & k & K). split; [exact A|]. exists k.
    rewrite rules_of_app. exact K.
  - intros ns G. rewrite rules_of_app. cbn. auto.
  - intros ns s. rewrite reg_refresh. apply b_reg0.
  - intros n o' rs t I. apply in_app_iff in I as [I|[I|[]]]; [exact (b_names0 n o' rs t I)|discriminate].
  - intros t1 n o' rs t t2 I.
    refine (in_pending_app tr [EvRefresh (ob_ns (objs o)) o] t1 t2 n o' rs t I _). intros k E1 E2.
    cbn [map] in E2. destruct (b_pending0 t1 n o' rs t k E1) as [X|X].
    + left. rewrite E2. apply in_app_iff. left. exact X.
    + destruct (P o' X) as [->|Y]; [|right; exact Y]. left. rewrite E2. apply in_app_iff. right. left.
      assert (Y : In (MProcessed n o rs t) tr) by (rewrite E1; apply in_elt).
      destruct (b_names0 n o rs t Y) as [-> _]. reflexivity.
  - apply trace_ok_one; [assumption|exact I].
Qed.

Lemma thr_refresh rules objs next th tr n o :
  thr rules objs next th tr -> thr rules objs next th (tr ++ [MEv (EvRefresh n o)]).
Proof.
  apply thr_quiet; [|intros ns; apply reg_refresh]. intros y [Y|[]]. discriminate.
Qed.

(** ** A rule set processes an update *)

Lemma reg_processed tr n o rs t ns : reg (tr ++ [MProcessed n o rs t]) ns = reg tr ns.
Proof. unfold reg. rewrite cache_events_app, app_nil_r. reflexivity. Qed.

Definition upd_obj (objs : nat -> rs_obj) (o : nat) (f : rs_obj -> rs_obj) : nat -> rs_obj :=
  fun x => if Nat.eqb x o then f (objs x) else objs x.

Lemma upd_ns objs o f x : (forall r, ob_ns (f r) = ob_ns r) -> ob_ns (upd_obj objs o f x) = ob_ns (objs x).
Proof. intros H. unfold upd_obj. destruct (Nat.eqb x o); auto. Qed.

Lemma base_process p rules objs next c pend tr o rs t :
  base p rules objs next c pend tr -> o < next ->
  (bget rules (ob_ns (objs o)) = Some o \/ bget rules (ob_ns (objs o)) = None) ->
  base p rules (upd_obj objs o (rs_process t rs)) next c (o :: pend) (tr ++ [MProcessed (ob_ns (objs o)) o rs t]).
Proof.
  intros [] L D. set (n := ob_ns (objs o)) in *.
  assert (NS : forall x, ob_ns (upd_obj objs o (rs_process t rs) x) = ob_ns (objs x)) by (intros x; apply upd_ns; reflexivity).
  constructor; auto.
  - destruct b_cache0 as [ys E]. exists ys. rewrite cache_events_app, app_nil_r. exact E.
  - intros ns o' G. destruct (b_known0 ns o' G) as (A & k & K1 & K2). rewrite NS. split; [exact A|].
    rewrite rules_of_app. cbn. destruct (beqb n ns) eqn:Eb.
    + apply beqb_eq in Eb. rewrite K1. exists (Some (rs, t)). split; [reflexivity|].
      rewrite Eb, G in D. destruct D as [D|D]; [|discriminate]. injection D as ->.
      unfold upd_obj. rewrite Nat.eqb_refl. repeat split.
    + exists k. split; [exact K1|]. unfold upd_obj. destruct (Nat.eqb_spec o' o) as [->|_]; [|exact K2].
      apply beqb_neq in Eb. exfalso; apply Eb; exact A.
  - intros ns G. rewrite rules_of_app. cbn. rewrite (b_unknown0 ns G). destruct (beqb n ns); reflexivity.
  - intros ns s. rewrite reg_processed. apply b_reg0.
  - intros n' o' rs' t' I. rewrite NS. apply in_app_iff in I as [I|[I|[]]]; [exact (b_names0 _ _ _ _ I)|].
    injection I as <- <- _ _. split; [reflexivity|exact L].
  - intros t1 n' o' rs' t' t2 E. symmetry in E. apply split_app in E as [(k & E1 & E2)|(k & E1 & E2)].
    + destruct (b_pending0 _ _ _ _ _ _ E1) as [X|X]; [left; rewrite E2; apply in_app_iff; left; exact X|right; right; exact X].
    + destruct k as [|y k]; cbn in E1; [|injection E1 as _ E1; destruct k; discriminate].
      injection E1 as _ -> _ _ _. right. left. reflexivity.
  - apply trace_ok_one; [assumption|]. intros s H. apply b_reg0 in H. destruct D as [D|D]; congruence.
Qed.

Lemma thread_ok_objs rules objs objs' tr th :
  (forall x, ob_ns (objs' x) = ob_ns (objs x)) ->
  (forall x, ob_matcher (objs x) <> None -> ob_matcher (objs' x) <> None) ->
  thread_ok rules objs tr th -> thread_ok rules objs' tr th.
Proof.
  intros NS NM H. destruct th as [|body todo inc|body todo inc]; try exact H. cbn in *.
  destruct H as (x & A & B & C & D & E). exists x. repeat (split; [assumption|]).
  destruct E as [E|(ns & o' & e & E1 & E2 & E3 & E4)]; [left; exact E|]. right. exists ns, o', e. rewrite NS.
  repeat (split; [assumption|]). specialize (NM o'). intuition auto.
Qed.

Lemma thr_process rules objs next th tr o rs t :
  thr rules objs next th tr ->
  thr rules (upd_obj objs o (rs_process t rs)) next th (tr ++ [MProcessed (ob_ns (objs o)) o rs t]).
Proof.
  intros [].
  assert (NS : forall x, ob_ns (upd_obj objs o (rs_process t rs) x) = ob_ns (objs x)) by (intros x; apply upd_ns; reflexivity).
  assert (NU : no_update [MProcessed (ob_ns (objs o)) o rs t]) by (intros y [Y|[]]; discriminate).
  constructor.
  - apply (thread_ok_keep rules objs tr th _ NU) in t_ok0; [|intros ns; apply reg_processed].
    apply (thread_ok_objs rules objs); [exact NS| |exact t_ok0].
    intros o' H. unfold upd_obj. destruct (Nat.eqb o' o); [discriminate|exact H].
  - intros ns o'. rewrite reg_processed. apply t_reg0.
  - intros o' L W. rewrite NS. apply t_watched0; [exact L|].
    unfold upd_obj in W. destruct (Nat.eqb o' o); exact W.
Qed.

(** ** Watching *)

Lemma base_watch p rules objs next c pend tr o b :
  base p rules objs next c pend tr -> base p rules (upd_obj objs o (with_watched b)) next c pend tr.
Proof.
  intros [].
  assert (NS : forall x, ob_ns (upd_obj objs o (with_watched b) x) = ob_ns (objs x)) by (intros x; apply upd_ns; reflexivity).
  constructor; auto.
  - intros ns o' G. destruct (b_known0 ns o' G) as (A & k & K1 & K2). rewrite NS. split; [exact A|].
    exists k. split; [exact K1|]. unfold upd_obj. destruct (Nat.eqb o' o); [apply shows_watched|]; exact K2.
  - intros n o' rs t I. rewrite NS. exact (b_names0 _ _ _ _ I).
Qed.

(** ** Updates *)

Lemma incoming_get : forall l m ns,
  bget (fold_left (fun m n => bset m (ns_name n) n) l m) ns = fold_left (mention_step ns) l (bget m ns).
Proof.
  induction l as [|n l IH]; intros m ns; cbn [fold_left]; [reflexivity|]. rewrite IH. f_equal.
  unfold mention_step. destruct (beqb (ns_name n) ns) eqn:E.
  - apply beqb_eq in E as <-. apply bget_set_same.
  - apply beqb_neq in E. apply bget_set_other. congruence.
Qed.

Lemma incoming_mention x ns : bget (incoming x) ns = mention x ns.
Proof. unfold incoming, mention. rewrite incoming_get. reflexivity. Qed.

Lemma incoming_names x : forall k n, In (k, n) (incoming x) -> k = ns_name n /\ In n (nsx_list x).
Proof.
  unfold incoming.
  assert (G : forall l m, (forall k n, In (k, n) m -> k = ns_name n /\ In n (nsx_list x)) -> (forall n, In n l -> In n (nsx_list x)) ->
    forall k n, In (k, n) (fold_left (fun m n => bset m (ns_name n) n) l m) -> k = ns_name n /\ In n (nsx_list x)).
  { induction l as [|a l IH]; intros m Hm Hl k n H; cbn in H; [auto|].
    refine (IH _ _ _ k n H).
    - clear IH H k n. intros k n H. apply bset_in in H as [[-> ->]|[H _]]; [|auto].
      split; [reflexivity|apply Hl; left; reflexivity].
    - intros n' H'. apply Hl. right. exact H'. }
  apply G; [intros k n []|auto].
Qed.

Lemma mention_some x ns : lists x ns -> mention x ns <> None.
Proof.
  unfold lists, mention. intros (n & H & E).
  assert (G : forall l cur, In n l \/ cur <> None -> fold_left (mention_step ns) l cur <> None).
  { induction l as [|a l IH]; intros cur H'; cbn; [destruct H' as [[]|H']; exact H'|].
    destruct H' as [[->|H0]|H'].
    - apply IH. right. unfold mention_step. rewrite E, beqb_refl. discriminate.
    - apply IH. left. exact H0.
    - apply IH. right. unfold mention_step. destruct (beqb _ _); [discriminate|exact H']. }
  apply G. left. exact H.
Qed.

Lemma incoming_lists x ns : In ns (map fst (incoming x)) <-> lists x ns.
Proof.
  split.
  - intros H. apply in_map_iff in H as ([k n] & E & H). cbn in E. subst k.
    apply incoming_names in H as [E H]. exists n. split; [exact H|congruence].
  - intros H. apply mention_some in H. rewrite <- incoming_mention in H.
    destruct (bget (incoming x) ns) as [n|] eqn:E; [|congruence].
    apply bget_in in E. apply in_map_iff. exists (ns, n). split; [reflexivity|exact E].
Qed.

(** ** One action *)

Lemma remove_nth_nodup {A} n (l : list A) : NoDup l -> NoDup (remove_nth n l).
Proof.
  revert n. induction l as [|x l IH]; intros [|n] H; cbn; try assumption.
  - apply NoDup_cons_iff in H. tauto.
  - apply NoDup_cons_iff in H as [H1 H2]. constructor; [|apply IH; exact H2].
    intros X. apply H1. eapply remove_nth_in. exact X.
Qed.

Lemma remove_nth_map {A B'} (f : A -> B') n l : map f (remove_nth n l) = remove_nth n (map f l).
Proof. revert n. induction l as [|x l IH]; intros [|n]; cbn; try reflexivity. f_equal. apply IH. Qed.

Lemma remove_nth_gone {A} n (l : list A) x : NoDup l -> nth_error l n = Some x -> ~ In x (remove_nth n l).
Proof.
  revert n. induction l as [|y l IH]; intros [|n] H E; cbn in *; try discriminate.
  - injection E as ->. apply NoDup_cons_iff in H. tauto.
  - apply NoDup_cons_iff in H as [H1 H2]. intros [->|X]; [|exact (IH n H2 E X)].
    apply H1. eapply nth_error_In. exact E.
Qed.

Lemma bdel_nodup {A} (m : bmap A) k : NoDup (map fst m) -> NoDup (map fst (bdel m k)).
Proof.
  unfold bdel. induction m as [|[j v] m IH]; cbn; intros H; [constructor|]. apply NoDup_cons_iff in H as [H1 H2].
  destruct (negb (beqb j k)); cbn; [|auto]. constructor; [|auto].
  intros X. apply H1. apply in_map_iff in X as (y & E & Y). apply filter_In in Y. apply in_map_iff. exists y. tauto.
Qed.

Lemma nodup_bget {A} (m : bmap A) k v : NoDup (map fst m) -> In (k, v) m -> bget m k = Some v.
Proof.
  induction m as [|[j w] m IH]; cbn; [tauto|]. intros H I. apply NoDup_cons_iff in H as [H1 H2].
  destruct I as [X|I].
  - injection X as -> ->. rewrite beqb_refl. reflexivity.
  - destruct (beqb j k) eqn:E; [|auto]. apply beqb_eq in E as ->. exfalso. apply H1.
    apply in_map_iff. exists (k, v). split; [reflexivity|exact I].
Qed.

(** registering and unregistering *)
Lemma reg_register tr n o ns : reg (tr ++ [MEv (EvRegister n o)]) ns = if beqb n ns then Some o else reg tr ns.
Proof. unfold reg. rewrite cache_events_app, registered_app. reflexivity. Qed.
Lemma reg_unregister tr n ns : reg (tr ++ [MEv (EvUnregister n)]) ns = if beqb n ns then None else reg tr ns.
Proof. unfold reg. rewrite cache_events_app, registered_app. reflexivity. Qed.

Lemma base_register p rules objs next c pend tr ns o c' ev :
  base p rules objs next c pend tr -> bget rules ns = Some o ->
  cache_act (mo_cache_opts p) c (ARegister ns o) = Some (c', ev) ->
  ev = [EvRegister ns o] /\ base p rules objs next c' pend (tr ++ [MEv (EvRegister ns o)]).
Proof.
  intros H G E. pose proof (reg_action_events _ _ _ _ (ARegister ns o) (EvRegister ns o) eq_refl E) as ->.
  split; [reflexivity|].
  pose proof (cache_extends _ _ _ _ _ _ _ _ _ _ H E) as C. cbn [map] in C. destruct H. constructor; auto.
  - intros ns' o' G'. destruct (b_known0 ns' o' G') as (A & k & K). split; [exact A|]. exists k. rewrite rules_of_app. exact K.
  - intros ns' G'. rewrite rules_of_app. cbn. auto.
  - intros ns' s. rewrite reg_register. destruct (beqb ns ns') eqn:Eb; [|apply b_reg0].
    apply beqb_eq in Eb as <-. congruence.
  - intros n o' rs t I. apply in_app_iff in I as [I|[I|[]]]; [exact (b_names0 n o' rs t I)|discriminate].
  - intros t1 n o' rs t t2 I.
    refine (in_pending_app tr [EvRegister ns o] t1 t2 n o' rs t I _). intros k E1 E2.
    destruct (b_pending0 t1 n o' rs t k E1) as [X|X]; [|right; exact X].
    left. rewrite E2. apply in_app_iff. left. exact X.
  - apply trace_ok_one; [assumption|exact I].
Qed.

Lemma base_unregister p rules objs next c pend tr ns c' ev :
  base p rules objs next c pend tr ->
  cache_act (mo_cache_opts p) c (AUnregister ns) = Some (c', ev) ->
  ev = [EvUnregister ns] /\ base p rules objs next c' pend (tr ++ [MEv (EvUnregister ns)]).
Proof.
  intros H E. pose proof (reg_action_events _ _ _ _ (AUnregister ns) (EvUnregister ns) eq_refl E) as ->.
  split; [reflexivity|].
  pose proof (cache_extends _ _ _ _ _ _ _ _ _ _ H E) as C. cbn [map] in C. destruct H. constructor; auto.
  - intros ns' o' G'. destruct (b_known0 ns' o' G') as (A & k & K). split; [exact A|]. exists k. rewrite rules_of_app. exact K.
  - intros ns' G'. rewrite rules_of_app. cbn. auto.
  - intros ns' s. rewrite reg_unregister. destruct (beqb ns ns'); [discriminate|apply b_reg0].
  - intros n o' rs t I. apply in_app_iff in I as [I|[I|[]]]; [exact (b_names0 n o' rs t I)|discriminate].
  - intros t1 n o' rs t t2 I.
    refine (in_pending_app tr [EvUnregister ns] t1 t2 n o' rs t I _). intros k E1 E2.
    destruct (b_pending0 t1 n o' rs t k E1) as [X|X]; [|right; exact X].
    left. rewrite E2. apply in_app_iff. left. exact X.
  - apply trace_ok_one; [assumption|exact I].
Qed.

(** an event of no consequence for what is known, registered or pending *)
Lemma base_event p rules objs next c pend tr e :
  base p rules objs next c pend tr ->
  (forall ns, rules_of (tr ++ [e]) ns = rules_of tr ns) -> cache_events [e] = [] ->
  (forall n o rs t, e <> MProcessed n o rs t) -> event_ok tr e ->
  base p rules objs next c pend (tr ++ [e]).
Proof.
  intros [] R CE NP OK. constructor; auto.
  - destruct b_cache0 as [ys E]. exists ys. rewrite cache_events_app, CE, app_nil_r. exact E.
  - intros ns o G. rewrite R. auto.
  - intros ns G. rewrite R. auto.
  - intros ns s. unfold reg. rewrite cache_events_app, CE, app_nil_r. apply b_reg0.
  - intros n o rs t I. apply in_app_iff in I as [I|[I|[]]]; [exact (b_names0 n o rs t I)|].
    exfalso. exact (NP _ _ _ _ I).
  - intros t1 n o rs t t2 E. symmetry in E. apply split_app in E as [(k & E1 & E2)|(k & E1 & E2)].
    + destruct (b_pending0 _ _ _ _ _ _ E1) as [X|X]; [left; rewrite E2; apply in_app_iff; left; exact X|right; exact X].
    + destruct k as [|y k]; cbn in E1; [|injection E1 as _ E1; destruct k; discriminate].
      injection E1 as X _. exfalso. exact (NP _ _ _ _ X).
  - apply trace_ok_one; assumption.
Qed.

Lemma base_add p rules objs next c pend tr ns :
  base p rules objs next c pend tr -> bget rules ns = None ->
  base p (bset rules ns next) (fun x => if Nat.eqb x next then new_rs_obj ns else objs x) (S next) c pend
    (tr ++ [MAdded ns next]).
Proof.
  intros [] G.
  assert (OLD : forall o, o < next -> (if Nat.eqb o next then new_rs_obj ns else objs o) = objs o).
  { intros o L. destruct (Nat.eqb_spec o next); [lia|reflexivity]. }
  constructor.
  - destruct b_cache0 as [ys E]. exists ys. rewrite cache_events_app, app_nil_r. exact E.
  - unfold bset. cbn. constructor; [|apply bdel_nodup; assumption].
    intros X. apply in_map_iff in X as ([k v] & E & X). cbn in E. subst k. apply bdel_in in X. tauto.
  - intros ns' o E. destruct (bytes_dec ns' ns) as [->|N].
    + rewrite bget_set_same in E. injection E as <-. lia.
    + rewrite bget_set_other in E by exact N. specialize (b_fresh0 _ _ E). lia.
  - intros ns' o E. rewrite rules_of_app. cbn. destruct (bytes_dec ns' ns) as [->|N].
    + rewrite bget_set_same in E. injection E as <-. rewrite Nat.eqb_refl, beqb_refl.
      split; [reflexivity|]. exists None. repeat split.
    + rewrite bget_set_other in E by exact N. rewrite (OLD o (b_fresh0 _ _ E)).
      destruct (beqb ns ns') eqn:Eb; [apply beqb_eq in Eb; congruence|]. auto.
  - intros ns' E. rewrite rules_of_app. cbn. destruct (bytes_dec ns' ns) as [->|N].
    + rewrite bget_set_same in E. discriminate.
    + rewrite bget_set_other in E by exact N. destruct (beqb ns ns') eqn:Eb; [apply beqb_eq in Eb; congruence|]. auto.
  - intros ns' s. unfold reg. rewrite cache_events_app, app_nil_r. intros E. apply b_reg0 in E.
    rewrite bget_set_other; [exact E|]. intros ->. congruence.
  - intros n o rs t I. apply in_app_iff in I as [I|[I|[]]]; [|discriminate].
    destruct (b_names0 n o rs t I) as [X L]. rewrite (OLD o L). split; [exact X|lia].
  - intros t1 n o rs t t2 E. symmetry in E. apply split_app in E as [(k & E1 & E2)|(k & E1 & E2)].
    + destruct (b_pending0 _ _ _ _ _ _ E1) as [X|X]; [left; rewrite E2; apply in_app_iff; left; exact X|right; exact X].
    + destruct k as [|y k]; cbn in E1; [|injection E1 as _ E1; destruct k; discriminate].
      discriminate.
  - apply trace_ok_one; [assumption|]. split; [|auto].
    destruct (reg tr ns) as [s|] eqn:E; [|reflexivity]. apply b_reg0 in E. congruence.
Qed.

Lemma base_forget p rules objs next c pend tr ns o e :
  base p rules objs next c pend tr -> reg tr ns = None -> removable tr ns e ->
  base p (bdel rules ns) objs next c pend (tr ++ [MRemoved ns o e]).
Proof.
  intros [] RN RM. constructor; auto.
  - destruct b_cache0 as [ys E]. exists ys. rewrite cache_events_app, app_nil_r. exact E.
  - apply bdel_nodup. assumption.
  - intros ns' o' E. destruct (bytes_dec ns' ns) as [->|N]; [rewrite bget_del_same in E; discriminate|].
    rewrite bget_del_other in E by exact N. eauto.
  - intros ns' o' E. destruct (bytes_dec ns' ns) as [->|N]; [rewrite bget_del_same in E; discriminate|].
    rewrite bget_del_other in E by exact N. rewrite rules_of_app. cbn.
    destruct (beqb ns ns') eqn:Eb; [apply beqb_eq in Eb; congruence|]. auto.
  - intros ns' E. rewrite rules_of_app. cbn. destruct (beqb ns ns') eqn:Eb; [reflexivity|].
    apply beqb_neq in Eb. rewrite bget_del_other in E by congruence. auto.
  - intros ns' s. unfold reg. rewrite cache_events_app, app_nil_r. intros E.
    destruct (bytes_dec ns' ns) as [->|N]; [unfold reg in RN; congruence|].
    rewrite bget_del_other by exact N. auto.
  - intros n o' rs t I. apply in_app_iff in I as [I|[I|[]]]; [exact (b_names0 _ _ _ _ I)|discriminate].
  - intros t1 n o' rs t t2 E. symmetry in E. apply split_app in E as [(k & E1 & E2)|(k & E1 & E2)].
    + destruct (b_pending0 _ _ _ _ _ _ E1) as [X|X]; [left; rewrite E2; apply in_app_iff; left; exact X|right; exact X].
    + destruct k as [|y k]; cbn in E1; [|injection E1 as _ E1; destruct k; discriminate].
      discriminate.
  - apply trace_ok_one; [assumption|]. split; assumption.
Qed.

(** ** The thread that processes updates of the namespaces *)

Ltac splitJ := split; cbn [m_rules m_objs m_next m_cache m_thread m_refreshing with_thread with_obj with_cache
  with_rules with_refreshing map].

Definition tail_ok (tr : list mevent) (ns : bytes) (o : nat) (body : list nstep) : Prop :=
  reg tr ns = Some o /\ body = [] \/ reg tr ns = None /\ body = [NRegister o].

Lemma adding_head rules tr x body : adding_ok rules tr (x :: body) ->
  exists ns o, bget rules ns = Some o /\
    ((x = NWatch o \/ x = NUnwatch o \/ x = NRefresh o) /\ tail_ok tr ns o body \/
     x = NRegister o /\ body = [] /\ reg tr ns = None).
Proof.
  intros [X|(ns & o & G & H)]; [discriminate|]. exists ns, o. split; [exact G|]. unfold tail_ok.
  destruct H as [[R H]|[R H]].
  - destruct H as [H|[H|H]]; injection H as -> ->; left; (split; [tauto|]); left; split; auto.
  - destruct H as [H|[H|[H|H]]]; injection H as -> ->; [left|left|left|right; auto];
      (split; [tauto|]); right; split; auto.
Qed.

Lemma adding_tail rules tr ns o body : bget rules ns = Some o -> tail_ok tr ns o body -> adding_ok rules tr body.
Proof. intros G [[R ->]|[R ->]]; [left; reflexivity|]. right. exists ns, o. split; [exact G|]. right. split; auto. Qed.

Lemma adding_first rules tr ns o body x : bget rules ns = Some o -> tail_ok tr ns o body ->
  x = NWatch o \/ x = NUnwatch o \/ x = NRefresh o -> adding_ok rules tr (x :: body).
Proof.
  intros G T X. right. exists ns, o. split; [exact G|].
  destruct T as [[R ->]|[R ->]]; [left|right]; (split; [exact R|]); destruct X as [->|[->| ->]]; auto.
Qed.

Lemma tail_ok_reg tr tr' ns o body : reg tr' ns = reg tr ns -> tail_ok tr ns o body -> tail_ok tr' ns o body.
Proof. unfold tail_ok. intros ->. auto. Qed.

(** replacing the steps left in the first loop *)
Lemma thr_adding rules objs objs' next b todo inc b' todo' tr :
  thr rules objs next (NAdding b todo inc) tr -> adding_ok rules tr b' ->
  (forall o, In (NRegister o) b -> In (NRegister o) b') ->
  (forall o, ob_ns (objs' o) = ob_ns (objs o)) ->
  (forall o, ob_watched (objs' o) = true -> ob_watched (objs o) = true \/ exists ns, ob_ns (objs o) = ns /\ bget rules ns = Some o) ->
  thr rules objs' next (NAdding b' todo' inc) tr.
Proof.
  intros [] A I NS W. constructor.
  - destruct t_ok0 as (x & L & In_ & _). exists x. split; [exact L|]. split; [exact In_|exact A].
  - intros ns o G. destruct (t_reg0 ns o G) as [X|[X Y]]; [left; exact X|right]. split; [exact X|].
    cbn in *. auto.
  - intros o L H. rewrite NS. destruct (W o H) as [H'|(ns & E & G)].
    + destruct (t_watched0 o L H') as [X|[_ (? & ? & X)]]; [left; exact X|discriminate].
    + left. rewrite E. exact G.
Qed.

Lemma refreshes_in th o : In o (refreshes th) <->
  In (NRefresh o) (match th with NIdle => [] | NAdding b _ _ => b | NSweeping b _ _ => b end).
Proof.
  unfold refreshes. generalize (match th with NIdle => [] | NAdding b _ _ => b | NSweeping b _ _ => b end) as l.
  intros l. rewrite in_flat_map. split.
  - intros (x & H & X). destruct x; cbn in X; try tauto. destruct X as [->|[]]. exact H.
  - intros H. exists (NRefresh o). split; [exact H|left; reflexivity].
Qed.

Lemma upd_watched_inv objs o b x :
  ob_watched (upd_obj objs o (with_watched b) x) = true -> ob_watched (objs x) = true \/ x = o /\ b = true.
Proof. unfold upd_obj. destruct (Nat.eqb_spec x o) as [->|_]; cbn; intros H; auto. Qed.

Lemma J_adding_step p s tr x body todo inc now init s1 more ev :
  J p s tr -> m_thread s = NAdding (x :: body) todo inc ->
  do_nstep p s x now init = Some (s1, more, ev) ->
  J p (with_thread s1 (NAdding (more ++ body) todo inc)) (tr ++ ev).
Proof.
  intros [Bs T] Th E. rewrite Th in Bs, T. pose proof T as [t_ok0 t_reg0 t_watched0].
  destruct t_ok0 as (x0 & Lu & Inc & A). apply adding_head in A as (ns & o & G & H).
  pose proof (proj1 (b_known _ _ _ _ _ _ _ Bs ns o G)) as Ens.
  pose proof (b_fresh _ _ _ _ _ _ _ Bs ns o G) as Lo.
  destruct H as [[X TL]|(-> & -> & R)].
  - assert (PEND : forall o', In o' (m_refreshing s ++ refreshes (NAdding (x :: body) todo inc)) ->
      x = NRefresh o' \/ In o' (m_refreshing s ++ refreshes (NAdding body todo inc))).
    { intros o' H. apply in_app_iff in H as [H|H]; [right; apply in_app_iff; left; exact H|].
      apply refreshes_in in H as [H|H]; [left; exact H|]. right. apply in_app_iff. right. apply refreshes_in. exact H. }
    destruct X as [->|[->| ->]]; cbn [do_nstep] in E.
    + (* watch *)
      assert (P0 : forall o', In o' (m_refreshing s ++ refreshes (NAdding (NWatch o :: body) todo inc)) ->
        In o' (m_refreshing s ++ refreshes (NAdding body todo inc))) by (intros o' H; destruct (PEND o' H); [discriminate|assumption]).
      destruct (ob_watched (m_objs s o)) eqn:W.
      { injection E as <- <- <-. rewrite app_nil_r. splitJ.
        - eapply base_pend; [exact P0|exact Bs].
        - apply (thr_adding _ (m_objs s) _ _ (NWatch o :: body) todo inc body todo tr T).
          + exact (adding_tail _ _ _ _ _ G TL).
          + intros o' [X|X]; [discriminate|exact X].
          + reflexivity.
          + auto. }
      pose proof (base_watch _ _ _ _ _ _ _ o true Bs) as Bw.
      assert (Tw : forall b', (forall o', In (NRegister o') (NWatch o :: body) -> In (NRegister o') b') -> adding_ok (m_rules s) tr b' ->
         thr (m_rules s) (upd_obj (m_objs s) o (with_watched true)) (m_next s) (NAdding b' todo inc) tr).
      { intros b' I A. apply (thr_adding _ (m_objs s) _ _ (NWatch o :: body) todo inc b' todo tr T A I).
        - intros o'. apply upd_ns. reflexivity.
        - intros o' H. apply upd_watched_inv in H as [H|[-> _]]; [left; exact H|right; exists ns; split; assumption]. }
      assert (NOINIT : J p (with_thread (with_obj s o (with_watched true)) (NAdding body todo inc)) (tr ++ [])).
      { rewrite app_nil_r. splitJ.
        - eapply base_pend; [exact P0|exact Bw].
        - apply Tw; [intros o' [X|X]; [discriminate|exact X]|exact (adding_tail _ _ _ _ _ G TL)]. }
      destruct init as [[v pb]|]; [|injection E as <- <- <-; exact NOINIT].
      unfold deliver in E. destruct (rule_set_from_proto _ _ _) as [rs|]; [|injection E as <- <- <-; exact NOINIT].
      injection E as <- <- <-. cbn [app]. clear NOINIT.
      set (t := (now - mo_match_range_past p)%Z).
      change (m_objs (with_obj s o (with_watched true))) with (upd_obj (m_objs s) o (with_watched true)).
      set (objs1 := upd_obj (m_objs s) o (with_watched true)) in *.
      assert (E1 : ob_ns (objs1 o) = ns) by (unfold objs1; rewrite upd_ns; [exact Ens|reflexivity]).
      splitJ.
      * change (base p (m_rules s) (upd_obj objs1 o (rs_process t rs)) (m_next s) (m_cache s)
          (m_refreshing s ++ refreshes (NAdding (NRefresh o :: body) todo inc)) (tr ++ [MProcessed (ob_ns (objs1 o)) o rs t])).
        eapply base_pend; [|apply base_process; [exact Bw|exact Lo|left; rewrite E1; exact G]].
        intros o' [<-|H].
        -- apply in_app_iff. right. apply refreshes_in. left. reflexivity.
        -- apply P0 in H. apply in_app_iff in H as [H|H]; apply in_app_iff; [left; exact H|right].
           apply refreshes_in. right. apply refreshes_in in H. exact H.
      * change (thr (m_rules s) (upd_obj objs1 o (rs_process t rs)) (m_next s)
          (NAdding (NRefresh o :: body) todo inc) (tr ++ [MProcessed (ob_ns (objs1 o)) o rs t])).
        apply thr_process. apply Tw.
        -- intros o' [X|X]; [discriminate|right; exact X].
        -- apply (adding_first _ _ ns o); auto.
    + (* unwatch *)
      injection E as <- <- <-. rewrite app_nil_r. splitJ.
      * eapply base_pend; [|apply base_watch; exact Bs]. intros o' H. destruct (PEND o' H); [discriminate|assumption].
      * apply (thr_adding _ (m_objs s) _ _ (NUnwatch o :: body) todo inc body todo tr T).
        -- exact (adding_tail _ _ _ _ _ G TL).
        -- intros o' [X|X]; [discriminate|exact X].
        -- intros o'. apply (upd_ns (m_objs s) o (with_watched false)). reflexivity.
        -- intros o' H. apply (upd_watched_inv (m_objs s) o false) in H as [H|[_ H]]; [left; exact H|discriminate].
    + (* refresh *)
      unfold call_cache in E. destruct (cache_act _ _ _) as [[c' ev0]|] eqn:C; [|discriminate].
      injection E as <- <- <-.
      destruct (base_refresh _ _ _ _ _ _ (m_refreshing s ++ refreshes (NAdding body todo inc)) _ _ _ _ Bs C) as [-> Bs'].
      { intros o' H. destruct (PEND o' H) as [X|X]; [injection X as ->; left; reflexivity|right; exact X]. }
      splitJ; [exact Bs'|].
      apply thr_refresh.
      apply (thr_adding _ (m_objs s) _ _ (NRefresh o :: body) todo inc body todo tr T).
      * exact (adding_tail _ _ _ _ _ G TL).
      * intros o' [X|X]; [discriminate|exact X].
      * reflexivity.
      * auto.
  - (* register *)
    cbn [do_nstep] in E. unfold call_cache in E. destruct (cache_act _ _ _) as [[c' ev0]|] eqn:C; [|discriminate].
    injection E as <- <- <-. rewrite Ens in C.
    destruct (base_register _ _ _ _ _ _ _ _ _ _ _ Bs G C) as [-> Bs']. splitJ.
    + eapply base_pend; [|exact Bs']. intros o' H. apply in_app_iff in H as [H|H]; apply in_app_iff; [left; exact H|right].
      apply refreshes_in in H as [H|[]]. discriminate.
    + constructor.
      * exists x0. rewrite last_update_keep by (intros y [Y|[]]; discriminate).
        split; [exact Lu|]. split; [exact Inc|left; reflexivity].
      * intros ns' o' G'. rewrite reg_register. destruct (beqb ns ns') eqn:Eb.
        -- left. apply beqb_eq in Eb as <-. congruence.
        -- destruct (t_reg0 ns' o' G') as [X|[X Y]]; [left; exact X|]. exfalso.
           destruct Y as [Y|[]]. injection Y as <-. apply beqb_neq in Eb. apply Eb.
           rewrite <- Ens. apply (b_known _ _ _ _ _ _ _ Bs ns' o G').
      * intros o' L W. destruct (t_watched0 o' L W) as [X|[_ (? & ? & X)]]; [left; exact X|discriminate].
Qed.

Lemma sweeping_pend (A : list nat) x more todo inc :
  (forall o, x <> NRefresh o) -> forall o', In o' (A ++ refreshes (NSweeping [x] todo inc)) ->
    In o' (A ++ refreshes (NSweeping more todo inc)).
Proof.
  intros N o' H. apply in_app_iff in H as [H|H]; apply in_app_iff; [left; exact H|].
  apply refreshes_in in H as [H|[]]. exfalso. exact (N _ H).
Qed.

Lemma J_sweeping_step p s tr x body todo inc now init s1 more ev :
  J p s tr -> m_thread s = NSweeping (x :: body) todo inc ->
  do_nstep p s x now init = Some (s1, more, ev) ->
  J p (with_thread s1 (NSweeping (more ++ body) todo inc)) (tr ++ ev).
Proof.
  intros [Bs T] Th E. rewrite Th in Bs, T. pose proof T as [t_ok0 t_reg0 t_watched0].
  destruct t_ok0 as (x0 & Lu & Inc & A1 & A2 & A). destruct A as [A|(ns & o & e & N1 & N2 & Ens & A)]; [discriminate|].
  destruct A as [(G & R & D & [[H HM]|[H O]])|[(G & R & D & O & H)|[G H]]]; injection H as -> ->; cbn [do_nstep] in E.
  - (* cutover *)
    injection E as <- <- <-. rewrite !app_nil_r. splitJ.
    + eapply base_pend; [|exact Bs]. apply sweeping_pend. discriminate.
    + constructor.
      * exists x0. split; [exact Lu|]. split; [exact Inc|]. split; [exact A1|]. split; [exact A2|].
        destruct (ob_cutover (m_objs s o) <=? e)%Z eqn:Le; [right|left; reflexivity].
        exists ns, o, e. split; [exact N1|]. split; [exact N2|]. split; [exact Ens|]. left.
        split; [exact G|]. split; [exact R|]. split; [exact D|]. right. split; [reflexivity|].
        apply since_update_now; [exact Lu|].
        destruct (b_known _ _ _ _ _ _ _ Bs ns o G) as (_ & k & K1 & K2).
        destruct k as [[rs t]|]; [|destruct K2 as (_ & _ & _ & K2); congruence].
        exists rs, t. split; [exact K1|]. destruct K2 as (_ & K2 & _). rewrite <- K2. apply Z.leb_le. exact Le.
      * intros ns' o' G'. destruct (t_reg0 ns' o' G') as [X|[X [e' Y]]]; [left; exact X|discriminate].
      * intros o' L W. destruct (t_watched0 o' L W) as [X|[_ (? & ? & X)]]; [left; exact X|discriminate].
  - (* unregister *)
    unfold call_cache in E. destruct (cache_act _ _ _) as [[c' ev0]|] eqn:C; [|discriminate].
    injection E as <- <- <-. rewrite Ens in C.
    destruct (base_unregister _ _ _ _ _ _ _ _ _ _ Bs C) as [-> Bs'].
    assert (NU : no_update [MEv (EvUnregister ns)]) by (intros y [Y|[]]; discriminate).
    splitJ.
    + eapply base_pend; [|exact Bs']. apply sweeping_pend. discriminate.
    + constructor.
      * exists x0. rewrite last_update_keep by exact NU. split; [exact Lu|]. split; [exact Inc|].
        split; [exact A1|]. split; [exact A2|]. right. exists ns, o, e.
        split; [exact N1|]. split; [exact N2|]. split; [exact Ens|]. right. left.
        split; [exact G|]. split; [rewrite reg_unregister, beqb_refl; reflexivity|].
        split; [apply since_update_keep; assumption|]. split; [apply since_update_keep; assumption|reflexivity].
      * intros ns' o' G'. rewrite reg_unregister. destruct (beqb ns ns') eqn:Eb.
        -- right. split; [reflexivity|]. apply beqb_eq in Eb as <-. rewrite G in G'. injection G' as <-.
           exists e. reflexivity.
        -- destruct (t_reg0 ns' o' G') as [X|[X [e' Y]]]; [left; exact X|discriminate].
      * intros o' L W. destruct (t_watched0 o' L W) as [X|[_ (? & ? & X)]]; [left; exact X|discriminate].
  - (* forget *)
    injection E as <- <- <-.
    assert (NU : no_update [MRemoved ns o e]) by (intros y [Y|[]]; discriminate).
    assert (RE : forall ns', reg (tr ++ [MRemoved ns o e]) ns' = reg tr ns')
      by (intros ns'; unfold reg; rewrite cache_events_app, app_nil_r; reflexivity).
    splitJ.
    + eapply base_pend; [|apply (base_forget _ _ _ _ _ _ _ ns o e Bs R)].
      * apply sweeping_pend. discriminate.
      * exists x0. repeat split; assumption.
    + constructor.
      * exists x0. rewrite last_update_keep by exact NU. split; [exact Lu|]. split; [exact Inc|].
        split.
        { intros ns' o' I. rewrite bget_del_other; [exact (A1 _ _ I)|]. intros ->. apply N1.
          apply in_map_iff. exists (ns, o'). split; [reflexivity|exact I]. }
        split; [exact A2|]. right. exists ns, o, e.
        split; [exact N1|]. split; [exact N2|]. split; [exact Ens|]. right. right.
        split; [apply bget_del_same|reflexivity].
      * intros ns' o' G'. rewrite RE. destruct (bytes_dec ns' ns) as [->|N]; [rewrite bget_del_same in G'; discriminate|].
        rewrite bget_del_other in G' by exact N. destruct (t_reg0 ns' o' G') as [X|[X [e' Y]]]; [left; exact X|].
        injection Y as Y _ _. congruence.
      * intros o' L W. destruct (t_watched0 o' L W) as [X|[_ (? & ? & X)]]; [|discriminate].
        destruct (bytes_dec (ob_ns (m_objs s o')) ns) as [E|N].
        -- right. rewrite E in X. rewrite G in X. injection X as <-. rewrite E. split; [apply bget_del_same|].
           exists todo, inc. reflexivity.
        -- left. rewrite bget_del_other by exact N. exact X.
  - (* unwatch *)
    injection E as <- <- <-. rewrite !app_nil_r. splitJ.
    + eapply base_pend; [|apply base_watch; exact Bs]. apply sweeping_pend. discriminate.
    + constructor.
      * apply (thread_ok_objs _ (m_objs s)).
        -- intros y. apply (upd_ns (m_objs s) o (with_watched false)). reflexivity.
        -- intros y Y. destruct (Nat.eqb y o); exact Y.
        -- exists x0. split; [exact Lu|]. split; [exact Inc|]. split; [exact A1|]. split; [exact A2|]. left. reflexivity.
      * intros ns' o' G'. destruct (t_reg0 ns' o' G') as [X|[X [e' Y]]]; [left; exact X|discriminate].
      * intros o' L W. change (ob_watched (upd_obj (m_objs s) o (with_watched false) o') = true) in W.
        rewrite (upd_ns (m_objs s) o (with_watched false) o' (fun _ => eq_refl) : ob_ns (if Nat.eqb o' o then _ else _) = _).
        apply (upd_watched_inv (m_objs s) o false) in W as W'. destruct W' as [W'|[_ W']]; [|discriminate].
        destruct (t_watched0 o' L W') as [X|[X (? & ? & Y)]]; [left; exact X|]. exfalso.
        injection Y as Y _ _. subst o'. unfold upd_obj in W. rewrite Nat.eqb_refl in W. discriminate W.
Qed.

Lemma J_enter p s tr todo inc i n s1 body ev :
  J p s tr -> m_thread s = NAdding [] todo inc -> enter s n = (s1, body, ev) ->
  J p (with_thread s1 (NAdding body (remove_nth i todo) inc)) (tr ++ ev).
Proof.
  intros [Bs T] Th E. rewrite Th in Bs, T. pose proof T as [t_ok0 t_reg0 t_watched0].
  destruct t_ok0 as (x0 & Lu & Inc & _). unfold enter in E.
  assert (PEND : forall b t', (forall o, ~ In (NRefresh o) b) -> forall o', In o' (m_refreshing s ++ refreshes (NAdding [] todo inc)) ->
     In o' (m_refreshing s ++ refreshes (NAdding b t' inc))).
  { intros b t' N o' H. apply in_app_iff in H as [H|[]]. apply in_app_iff. left. exact H. }
  destruct (bget (m_rules s) (ns_name n)) as [o|] eqn:G.
  - injection E as <- <- <-. rewrite app_nil_r. splitJ.
    + eapply base_pend; [|exact Bs]. apply PEND.
      intros o' [H|[]]. destruct (match last_opt _ with Some _ => _ | None => _ end); discriminate.
    + apply (thr_adding _ (m_objs s) _ _ [] todo inc _ _ tr T); auto.
      * right. exists (ns_name n), o. split; [exact G|]. left.
        destruct (t_reg0 _ _ G) as [X|[X []]]. split; [exact X|].
        destruct (match last_opt _ with Some _ => _ | None => _ end); auto.
      * intros o' [].
  - injection E as <- <- <-.
    assert (NU : no_update [MAdded (ns_name n) (m_next s)]) by (intros y [Y|[]]; discriminate).
    assert (RE : forall ns', reg (tr ++ [MAdded (ns_name n) (m_next s)]) ns' = reg tr ns')
      by (intros ns'; unfold reg; rewrite cache_events_app, app_nil_r; reflexivity).
    assert (RN : reg tr (ns_name n) = None).
    { destruct (reg tr (ns_name n)) as [s'|] eqn:Er; [|reflexivity].
      apply (b_reg _ _ _ _ _ _ _ Bs) in Er. congruence. }
    splitJ.
    + eapply base_pend; [|apply base_add; [exact Bs|exact G]]. apply PEND.
      intros o' [H|[H|[]]]; [|discriminate]. destruct (match last_opt _ with Some _ => _ | None => _ end); discriminate.
    + constructor.
      * exists x0. rewrite last_update_keep by exact NU. split; [exact Lu|]. split; [exact Inc|].
        right. exists (ns_name n), (m_next s). split; [apply bget_set_same|]. right. rewrite RE. split; [exact RN|].
        destruct (match last_opt _ with Some _ => _ | None => _ end); auto.
      * intros ns' o' G'. rewrite RE. destruct (bytes_dec ns' (ns_name n)) as [->|N].
        -- rewrite bget_set_same in G'. injection G' as <-. right. split; [exact RN|]. right. left. reflexivity.
        -- rewrite bget_set_other in G' by exact N. destruct (t_reg0 ns' o' G') as [X|[X []]]. left. exact X.
      * intros o' L W. destruct (Nat.eqb_spec o' (m_next s)) as [->|N]; [discriminate W|].
        left. destruct (t_watched0 o' ltac:(lia) W) as [X|[_ (? & ? & X)]]; [|discriminate].
        rewrite bget_set_other; [exact X|]. intros E. congruence.
Qed.

Lemma J_process_step p s tr i now init s' ev :
  J p s tr -> process_step p s i now init = Some (s', ev) -> J p s' (tr ++ ev).
Proof.
  intros H E. unfold process_step in E. destruct (m_thread s) as [|body todo inc|body todo inc] eqn:Th; [discriminate| |].
  - destruct body as [|x body].
    + destruct todo as [|n0 todo].
      * injection E as <- <-. rewrite app_nil_r. destruct H as [Bs T]. rewrite Th in Bs, T.
        pose proof T as [t_ok0 t_reg0 t_watched0]. destruct t_ok0 as (x0 & Lu & Inc & _).
        splitJ; [exact Bs|]. constructor.
        -- exists x0. split; [exact Lu|]. split; [exact Inc|]. split; [|split; [|left; reflexivity]].
           ++ intros ns o I. apply nodup_bget; [apply Bs|exact I].
           ++ apply Bs.
        -- intros ns o G. destruct (t_reg0 ns o G) as [X|[X []]]. left. exact X.
        -- intros o L W. destruct (t_watched0 o L W) as [X|[_ (? & ? & X)]]; [left; exact X|discriminate].
      * destruct (nth_error (n0 :: todo) i) as [n|]; [|discriminate].
        destruct (enter s n) as [[s1 body] ev1] eqn:En. injection E as <- <-.
        exact (J_enter _ _ _ _ _ _ _ _ _ _ H Th En).
    + destruct (do_nstep p s x now init) as [[[s1 more] ev1]|] eqn:D; [|discriminate]. injection E as <- <-.
      exact (J_adding_step _ _ _ _ _ _ _ _ _ _ _ _ H Th D).
  - destruct body as [|x body].
    + destruct H as [Bs T]. rewrite Th in Bs, T. pose proof T as [t_ok0 t_reg0 t_watched0].
      destruct t_ok0 as (x0 & Lu & Inc & A1 & A2 & _).
      assert (W0 : forall th' o, o < m_next s -> ob_watched (m_objs s o) = true ->
        bget (m_rules s) (ob_ns (m_objs s o)) = Some o \/
        bget (m_rules s) (ob_ns (m_objs s o)) = None /\ exists todo' inc', th' = NSweeping [NUnwatch o] todo' inc').
      { intros th' o L W. destruct (t_watched0 o L W) as [X|[_ (? & ? & X)]]; [left; exact X|discriminate]. }
      assert (R0 : forall th' ns o, bget (m_rules s) ns = Some o -> reg tr ns = Some o \/ reg tr ns = None /\ in_flight th' ns o).
      { intros th' ns o G. destruct (t_reg0 ns o G) as [X|[X [e Y]]]; [left; exact X|discriminate]. }
      destruct todo as [|e0 todo].
      * injection E as <- <-. rewrite app_nil_r. splitJ; [exact Bs|]. constructor; [exact I|apply R0|apply W0].
      * destruct (nth_error (e0 :: todo) i) as [[ns o]|] eqn:Nt; [|discriminate]. injection E as <- <-.
        rewrite app_nil_r.
        assert (I0 : In (ns, o) (e0 :: todo)) by (eapply nth_error_In; exact Nt).
        assert (G : bget (m_rules s) ns = Some o) by (apply A1; exact I0).
        pose proof (b_known _ _ _ _ _ _ _ Bs ns o G) as (Ens & k & K1 & K2).
        splitJ.
        -- eapply base_pend; [|exact Bs]. intros o' H. apply in_app_iff in H as [H|[]]. apply in_app_iff. left. exact H.
        -- constructor; [|apply R0|apply W0].
           exists x0. split; [exact Lu|]. split; [exact Inc|].
           split; [intros ns' o' I'; apply A1; eapply remove_nth_in; exact I'|].
           split; [rewrite remove_nth_map; apply remove_nth_nodup; exact A2|].
           unfold sweep. destruct (existsb (beqb ns) inc) eqn:Ex; [left; reflexivity|].
           destruct (ob_tomb (m_objs s o)) eqn:Tb; [right|left; reflexivity].
           exists ns, o, (now - mo_match_range_past p)%Z. split; [|split; [|split; [exact Ens|left]]].
           ++ rewrite remove_nth_map. apply remove_nth_gone; [exact A2|].
              rewrite nth_error_map, Nt. reflexivity.
           ++ intros X. apply Inc in X. assert (Y : existsb (beqb ns) inc = true).
              { apply existsb_exists. exists ns. split; [exact X|apply beqb_refl]. }
              congruence.
           ++ destruct k as [[rs t]|]; [|destruct K2 as (_ & _ & K2 & _); congruence].
              destruct K2 as (_ & _ & K2 & K3).
              destruct (t_reg0 ns o G) as [X|[X [e Y]]]; [|discriminate].
              split; [exact G|]. split; [exact X|]. split.
              ** apply since_update_now; [exact Lu|]. exists rs, t. split; [exact K1|congruence].
              ** left. split; [reflexivity|congruence].
    + destruct (do_nstep p s x now init) as [[[s1 more] ev1]|] eqn:D; [|discriminate]. injection E as <- <-.
      exact (J_sweeping_step _ _ _ _ _ _ _ _ _ _ _ _ H Th D).
Qed.

(** ** Every action, every run *)

Lemma nth_in_refreshing (A : list nat) i o b :
  nth_error A i = Some o -> forall o', In o' (A ++ b) -> o' = o \/ In o' (remove_nth i A ++ b).
Proof.
  intros E o' H. apply in_app_iff in H as [H|H]; [|right; apply in_app_iff; right; exact H].
  revert i E. induction A as [|y A IH]; intros [|i] E; cbn in *; try discriminate; try tauto.
  - injection E as ->. destruct H as [->|H]; [left; reflexivity|right; apply in_app_iff; left; exact H].
  - destruct H as [->|H]; [right; left; reflexivity|]. destruct (IH H i E) as [X|X]; [left; exact X|right; right; exact X].
Qed.

Lemma J_act p s tr x s' ev :
  (0 <= co_capacity (mo_cache_opts p))%Z -> (0 <= co_evict_batch (mo_cache_opts p))%Z ->
  J p s tr -> matcher_act p s x = Some (s', ev) -> J p s' (tr ++ ev).
Proof.
  intros Hc Hb H E. destruct x; cbn [matcher_act] in E.
  - destruct (m_thread s) eqn:Th; try discriminate. destruct (new_namespaces version (Some pb)) as [x|]; [|discriminate].
    injection E as <- <-. destruct H as [Bs T]. rewrite Th in Bs, T. destruct T as [_ t_reg0 t_watched0].
    assert (RE : forall ns', reg (tr ++ [MUpdate x]) ns' = reg tr ns')
      by (intros ns'; unfold reg; rewrite cache_events_app, app_nil_r; reflexivity).
    splitJ.
    + apply base_event; [exact Bs| |reflexivity|discriminate|exact I].
      intros ns. rewrite rules_of_app. reflexivity.
    + constructor.
      * exists x. rewrite last_update_app. split; [reflexivity|]. split; [apply incoming_lists|left; reflexivity].
      * intros ns o G. rewrite RE. destruct (t_reg0 ns o G) as [X|[_ []]]. left. exact X.
      * intros o L W. destruct (t_watched0 o L W) as [X|[_ (? & ? & X)]]; [left; exact X|discriminate].
  - exact (J_process_step _ _ _ _ _ _ _ _ H E).
  - destruct ((o <? m_next s) && ob_watched (m_objs s o)) eqn:C; [|discriminate].
    apply andb_true_iff in C as [C1 C2]. apply Nat.ltb_lt in C1.
    unfold deliver in E. destruct (rule_set_from_proto _ _ _) as [rs|]; [|discriminate]. injection E as <- <-.
    destruct H as [Bs T].
    assert (D : bget (m_rules s) (ob_ns (m_objs s o)) = Some o \/ bget (m_rules s) (ob_ns (m_objs s o)) = None).
    { destruct T as [_ _ t_watched0]. destruct (t_watched0 o C1 C2) as [X|[X _]]; auto. }
    splitJ.
    + apply (base_process _ _ _ _ _ _ _ o rs (now - mo_match_range_past p)%Z Bs C1 D).
    + apply thr_process. exact T.
  - destruct (nth_error (m_refreshing s) i) as [o|] eqn:Nt; [|discriminate]. unfold call_cache in E.
    destruct (cache_act _ _ _) as [[c' ev0]|] eqn:C; [|discriminate]. injection E as <- <-.
    destruct H as [Bs T].
    destruct (base_refresh _ _ _ _ _ _ (remove_nth i (m_refreshing s) ++ refreshes (m_thread s)) _ _ _ _ Bs C) as [-> Bs'].
    { apply nth_in_refreshing. exact Nt. }
    splitJ; [exact Bs'|]. apply thr_refresh. exact T.
  - unfold call_cache in E. destruct (cache_act _ _ _) as [[c' ev0]|] eqn:C; [|discriminate]. injection E as <- <-.
    destruct (read_events _ _ _ _ _ _ _ _ _ C) as [Q N]. apply (J_quiet _ _ _ _ _ _ H C Q). apply ok_no_source. exact N.
  - unfold call_cache in E. destruct (cache_act _ _ _) as [[c' ev0]|] eqn:C; [|discriminate]. injection E as <- <-.
    destruct (write_events _ _ _ _ _ _ _ _ _ _ _ C) as [Q N]. apply (J_quiet _ _ _ _ _ _ H C Q).
    destruct N as [N|(r & a & G & ->)]; [apply ok_no_source; exact N|].
    intros t1 e t2 Ee. destruct H as [Bs T].
    pose proof (cache_ns _ _ _ _ _ _ _ (namespace_of p id) Hc Hb Bs) as Rg. rewrite G in Rg.
    apply (b_reg _ _ _ _ _ _ _ Bs) in Rg. destruct (b_known _ _ _ _ _ _ _ Bs _ _ Rg) as (_ & k & K1 & K2).
    destruct t1 as [|y1 [|y2 [|y3 t1]]]; injection Ee as Ee.
    + subst e. rewrite app_nil_r. cbn. unfold source_answer. rewrite G, K1. apply shows_forward. exact K2.
    + subst e. exact I.
    + subst e. exact I.
    + destruct t1; discriminate.
  - assert (S : match x with ARead _ _ _ _ _ | AWrite _ _ _ _ _ _ _ | ARegister _ _ | ARefresh _ _ | AUnregister _ => False | _ => True end
      /\ call_cache p s x = Some (s', ev)) by (destruct x; try discriminate; split; auto).
    clear E. destruct S as [S E]. unfold call_cache in E.
    destruct (cache_act _ _ _) as [[c' ev0]|] eqn:C; [|discriminate]. injection E as <- <-.
    destruct (silent_events _ _ _ _ _ S C) as [->|(a & w & ->)]; apply (J_quiet _ _ _ _ _ _ H C).
    + intros e [].
    + apply ok_no_source. intros ? ? ? ? ? ? [].
    + intros e [<-|[]]. reflexivity.
    + apply ok_no_source. intros ? ? ? ? ? ? [X|[]]. discriminate.
  - injection E as <- <-. rewrite app_nil_r. destruct H as [Bs T]. splitJ.
    + destruct Bs. constructor; auto.
    + destruct T. constructor.
      * apply (thread_ok_objs _ (m_objs s)); [reflexivity|auto|assumption].
      * exact t_reg0.
      * intros o L W. discriminate W.
Qed.

Lemma J_run p xs :
  (0 <= co_capacity (mo_cache_opts p))%Z -> (0 <= co_evict_batch (mo_cache_opts p))%Z ->
  forall s tr s' ev, J p s tr -> matcher_run p s xs = Some (s', ev) -> J p s' (tr ++ ev).
Proof.
  intros Hc Hb. induction xs as [|x xs IH]; intros s tr s' ev H E; cbn [matcher_run] in E.
  - injection E as <- <-. rewrite app_nil_r. exact H.
  - destruct (matcher_act p s x) as [[s1 e1]|] eqn:E1; [|discriminate].
    destruct (matcher_run p s1 xs) as [[s2 e2]|] eqn:E2; [|discriminate]. injection E as <- <-.
    rewrite app_assoc. apply (IH s1 _ s2 e2); [|exact E2]. exact (J_act _ _ _ _ _ _ Hc Hb H E1).
Qed.

Lemma reachable_J p xs s tr :
  (0 <= co_capacity (mo_cache_opts p))%Z -> (0 <= co_evict_batch (mo_cache_opts p))%Z ->
  matcher_run p new_matcher xs = Some (s, tr) -> J p s tr.
Proof. intros Hc Hb E. exact (J_run p xs Hc Hb new_matcher [] s tr (J_new p) E). Qed.
