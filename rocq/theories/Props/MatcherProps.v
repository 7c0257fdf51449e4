(** C47, C64: the matcher. *)
From Coq Require Import Ascii String Arith ZArith Bool List.
From Verif Require Import Proof.MatcherProof Proof.MatcherServeProof Proof.MatcherLiveProof Proof.ServedProof.
From Verif.Model Require Import AggType Policy Transformation Pipeline Metadata Filter MetricID Rules RuleSet RuleSetProto
  Namespace CacheList Cache Matcher.
From Verif.Base Require Import Bytes BMap.
From Verif.Spec Require Import EditSpec CacheSpec MatcherSpec.
From Verif.Props Require Import RulesProps EditProps RuleSetProtoProps.
Import ListNotations.
Open Scope Z_scope.

(** ** C47 *)

(** At any point of any interleaving the namespaces answer every query with the
    rule set last processed for the namespace since it was added. *)
Theorem C47_latest : forall p xs s tr ns,
  0 <= co_capacity (mo_cache_opts p) -> 0 <= co_evict_batch (mo_cache_opts p) ->
  matcher_run p new_matcher xs = Some (s, tr) ->
  ns_version s ns = version_of (rules_of tr ns) /\
  (forall id from to, ns_forward_match s ns id from to = matched_by (rules_of tr ns) id from to) /\
  (forall id from to mt at_ multi topts, ns_reverse_match s ns id from to mt at_ multi topts =
     reverse_matched_by (rules_of tr ns) id from to mt at_ multi topts).
Proof. exact queries. Qed.
Print Assumptions C47_latest.

(** A namespace is removed only if the last update does not list it, and since
    that update its rules were deleted, and old enough. *)
Theorem C47_removed_only_if : forall p xs s tr u ns o e v,
  0 <= co_capacity (mo_cache_opts p) -> 0 <= co_evict_batch (mo_cache_opts p) ->
  matcher_run p new_matcher xs = Some (s, tr) -> tr = u ++ MRemoved ns o e :: v ->
  exists x, last_update u = Some x /\ ~ lists x ns /\
    since_update u x (rules_deleted ns) /\ since_update u x (rules_older ns e).
Proof. exact removed_only_if. Qed.
Print Assumptions C47_removed_only_if.

(** Once an update has been processed, whatever happened meanwhile: the
    namespaces it lists are known; *)
Theorem C47_added : forall p xs0 s0 tr0 version pb x s1 xs s2 ev ns,
  0 <= co_capacity (mo_cache_opts p) -> 0 <= co_evict_batch (mo_cache_opts p) ->
  matcher_run p new_matcher xs0 = Some (s0, tr0) ->
  matcher_act p s0 (MNamespaces version pb) = Some (s1, [MUpdate x]) ->
  matcher_run p s1 xs = Some (s2, ev) -> (forall y, ~ In (MUpdate y) ev) -> m_thread s2 = NIdle ->
  lists x ns -> rules_of (tr0 ++ MUpdate x :: ev) ns <> None.
Proof.
  intros p xs0 s0 tr0 version pb x s1 xs s2 ev ns Hc Hb R0 U R N Id.
  exact (processed_listed p x Hc Hb xs0 s0 tr0 version pb s1 xs s2 ev R0 U R N Id ns).
Qed.
Print Assumptions C47_added.

(** those it does not list that were not known still are not; *)
Theorem C47_not_added : forall p xs0 s0 tr0 version pb x s1 xs s2 ev ns,
  0 <= co_capacity (mo_cache_opts p) -> 0 <= co_evict_batch (mo_cache_opts p) ->
  matcher_run p new_matcher xs0 = Some (s0, tr0) ->
  matcher_act p s0 (MNamespaces version pb) = Some (s1, [MUpdate x]) ->
  matcher_run p s1 xs = Some (s2, ev) -> (forall y, ~ In (MUpdate y) ev) ->
  ~ lists x ns -> rules_of tr0 ns = None -> rules_of (tr0 ++ MUpdate x :: ev) ns = None.
Proof.
  intros p xs0 s0 tr0 version pb x s1 xs s2 ev ns Hc Hb R0 U R N.
  exact (processed_unknown p x Hc Hb xs0 s0 tr0 version pb s1 xs s2 ev R0 U R N ns).
Qed.
Print Assumptions C47_not_added.

(** those it does not list whose rules are deleted, and old enough all along,
    are removed; *)
Theorem C47_removed : forall p xs0 s0 tr0 version pb x s1 xs s2 ev ns rs t c,
  0 <= co_capacity (mo_cache_opts p) -> 0 <= co_evict_batch (mo_cache_opts p) ->
  matcher_run p new_matcher xs0 = Some (s0, tr0) ->
  matcher_act p s0 (MNamespaces version pb) = Some (s1, [MUpdate x]) ->
  matcher_run p s1 xs = Some (s2, ev) -> (forall y, ~ In (MUpdate y) ev) -> m_thread s2 = NIdle ->
  ~ lists x ns -> rules_of tr0 ns = Some (Some (rs, t)) -> rs_tomb rs = true -> rs_cutover rs <= c ->
  Forall (late p c) xs -> Forall (deletes ns c) ev ->
  rules_of (tr0 ++ MUpdate x :: ev) ns = None.
Proof.
  intros p xs0 s0 tr0 version pb x s1 xs s2 ev ns rs t c Hc Hb R0 U R N Id.
  exact (processed_deleted p x Hc Hb xs0 s0 tr0 version pb s1 xs s2 ev R0 U R N Id ns rs t c).
Qed.
Print Assumptions C47_removed.

(** and every namespace whose rules are not deleted, or not old enough yet, is
    kept as it is, until a rule set is processed for it. *)
Theorem C47_kept : forall p xs0 s0 tr0 version pb x s1 xs s2 ev ns k c,
  0 <= co_capacity (mo_cache_opts p) -> 0 <= co_evict_batch (mo_cache_opts p) ->
  matcher_run p new_matcher xs0 = Some (s0, tr0) ->
  matcher_act p s0 (MNamespaces version pb) = Some (s1, [MUpdate x]) ->
  matcher_run p s1 xs = Some (s2, ev) -> (forall y, ~ In (MUpdate y) ev) ->
  rules_of tr0 ns = Some k ->
  match k with Some (rs, _) => rs_tomb rs = false \/ c < rs_cutover rs | None => True end ->
  Forall (early p c) xs -> Forall (untouched ns) ev ->
  rules_of (tr0 ++ MUpdate x :: ev) ns = Some k.
Proof.
  intros p xs0 s0 tr0 version pb x s1 xs s2 ev ns k c Hc Hb R0 U R N.
  exact (processed_kept p x Hc Hb xs0 s0 tr0 version pb s1 xs s2 ev R0 U R N ns k c).
Qed.
Print Assumptions C47_kept.

(** A namespace the update lists is then watched unless the update marks it as
    deleted as of the very version of the rules that was processed last. *)
Theorem C47_watched : forall p xs0 s0 tr0 version pb x s1 xs s2 ev ns n,
  0 <= co_capacity (mo_cache_opts p) -> 0 <= co_evict_batch (mo_cache_opts p) ->
  matcher_run p new_matcher xs0 = Some (s0, tr0) ->
  matcher_act p s0 (MNamespaces version pb) = Some (s1, [MUpdate x]) ->
  matcher_run p s1 xs = Some (s2, ev) -> (forall y, ~ In (MUpdate y) ev) -> m_thread s2 = NIdle ->
  mention x ns = Some n -> Forall alone xs ->
  watched_ns s2 ns = negb (deleted_as_of n (version_of (rules_of tr0 ns))).
Proof.
  intros p xs0 s0 tr0 version pb x s1 xs s2 ev ns n Hc Hb R0 U R N Id.
  exact (processed_watched p x Hc Hb xs0 s0 tr0 version pb s1 xs s2 ev R0 U R N Id ns n).
Qed.
Print Assumptions C47_watched.

(** An update can always be processed to its end while no read of the cache is
    under way. *)
Theorem C47_finishes : forall p xs s tr now,
  0 <= co_capacity (mo_cache_opts p) -> 0 <= co_evict_batch (mo_cache_opts p) ->
  matcher_run p new_matcher xs = Some (s, tr) -> c_readers (m_cache s) = [] ->
  exists n s' ev, matcher_run p s (repeat (MStep 0 now None) n) = Some (s', ev) /\ m_thread s' = NIdle /\
    forall y, ~ In (MUpdate y) ev.
Proof. exact processing_finishes. Qed.
Print Assumptions C47_finishes.

(** ** C64 *)

(** In every interleaving: what the matcher serves for a metric of a registered
    namespace, the cache having been told about the rule sets processed for it,
    is a match of that metric against the rules processed last, either in the
    window asked for or not expired at its end.  For a namespace that is not
    registered it serves the empty result. *)
Theorem C64_served : forall p xs s tr u ns id from to res a v,
  0 <= co_capacity (mo_cache_opts p) -> 0 <= co_evict_batch (mo_cache_opts p) ->
  matcher_run p new_matcher xs = Some (s, tr) ->
  tr = u ++ MEv (EvServe ns id from to res a) :: v -> ~ updating u ns ->
  match registered (cache_events u) ns with
  | None => res = empty_match_result
  | Some _ => exists from' to', res = matched_by (rules_of u ns) id from' to' /\
      (from' = from /\ to' = to \/ to < mr_expire res)
  end.
Proof. exact matcher_serves. Qed.
Print Assumptions C64_served.

(** When no update is being processed, the registered namespaces are those
    known, and everything served is a match against the latest rules. *)
Theorem C64_at_rest : forall p xs s tr,
  0 <= co_capacity (mo_cache_opts p) -> 0 <= co_evict_batch (mo_cache_opts p) ->
  matcher_run p new_matcher xs = Some (s, tr) -> m_thread s = NIdle -> m_refreshing s = [] ->
  forall ns, ~ updating tr ns /\ (registered (cache_events tr) ns = None <-> rules_of tr ns = None).
Proof. exact at_rest. Qed.
Print Assumptions C64_at_rest.

Theorem C64_match_at_rest : forall p xs s tr x s' ev ns id from to res a,
  0 <= co_capacity (mo_cache_opts p) -> 0 <= co_evict_batch (mo_cache_opts p) ->
  matcher_run p new_matcher xs = Some (s, tr) -> m_thread s = NIdle -> m_refreshing s = [] ->
  matcher_act p s x = Some (s', ev) -> In (MEv (EvServe ns id from to res a)) ev ->
  exists from' to', res = matched_by (rules_of tr ns) id from' to' /\
      (from' = from /\ to' = to \/ to < mr_expire res).
Proof. exact match_at_rest. Qed.
Print Assumptions C64_match_at_rest.

(** ** A concrete run *)

Definition c47_opts : matcher_opts := mk_mo (B "namespace") (B "dflt") 10 ropts (mk_co 5 0 0 1 true).
Definition c47_empty_pb : rule_set_pb := mk_rsetp [] [] 0 0 false 0 [] [] [].
(** the rules of the namespace: those of the session of edits, deleted later *)
Definition c47_pb : rule_set_pb :=
  match rule_set_proto after_session with Some pb => pb | None => c47_empty_pb end.
Definition c47_deleted_pb : rule_set_pb :=
  match rule_set_proto (run_edits after_session [(DeleteSet, at_time 50)]) with Some pb => pb | None => c47_empty_pb end.

Definition c47_ns (name : bytes) (l : list ns_snapshot_pb) : option namespace_pb := Some (mk_nsp name (map Some l)).
Definition c47_live : ns_snapshot_pb := mk_nssp 1 false 0 [].
Definition c47_dead : ns_snapshot_pb := mk_nssp 2 true 0 [].

Definition c47_id : bytes := B "m3+cpu+env=prod,namespace=a".
Definition c47_step (now : Z) : maction := MStep 0 now None.

(** the first update lists "a" and "b"; "a" is delivered rules while it starts
    being watched, and new rules later; a metric of "a" is matched before and
    after; then "a" is deleted, in two updates *)
Definition c47_first : list maction :=
  [MNamespaces 1 [c47_ns (B "a") [c47_live]; c47_ns (B "b") [c47_live]]] ++
  [c47_step 100; c47_step 100; c47_step 100; c47_step 100; MStep 0 100 (Some (1, c47_pb));
   c47_step 100; c47_step 100] ++ repeat (c47_step 100) 4.
Definition c47_second : list maction :=
  [MRead c47_id 100 101 100; MWrite c47_id 100 101 100 0; MRuleSet 1 2 c47_deleted_pb 100;
   MRead c47_id 100 101 101; MCache (APromote 0 0); MRefresh 0; MWrite c47_id 100 101 102 0].

Definition c47_third : list maction :=
  MNamespaces 2 [c47_ns (B "a") [c47_live; c47_dead]; c47_ns (B "b") [c47_live]] :: repeat (c47_step 103) 8.
Definition c47_fourth (now : Z) : list maction :=
  MNamespaces 3 [c47_ns (B "b") [c47_live]] :: repeat (c47_step now) (if now <? 70 then 7 else 10).

Definition c47_versions (tr : list mevent) : list Z :=
  flat_map (fun e => match e with MEv (EvServe _ _ _ _ r _) => [mr_version r] | _ => [] end) tr.
Definition c47_summary (r : option (mstate * list mevent)) :=
  match r with
  | Some (s, tr) =>
      Some (match m_thread s with NIdle => true | _ => false end, m_refreshing s,
            map (fun n => (n, ns_version s n, watched_ns s n)) (map fst (m_rules s)),
            c47_versions tr)
  | None => None
  end.

(** additions, an initial value, an update and its refresh, hits and misses of
    the cache; "a" is not watched once the namespaces say it is deleted as of the
    version processed; it is kept while its deletion, at 60, is later than 10
    before the clock, and removed then *)
Example C47_nonvacuous :
  map (fun xs => c47_summary (matcher_run c47_opts new_matcher xs))
    [ c47_first; c47_first ++ c47_second; c47_first ++ c47_second ++ c47_third;
      c47_first ++ c47_second ++ c47_third ++ c47_fourth 69;
      c47_first ++ c47_second ++ c47_third ++ c47_fourth 70 ++ [MRead c47_id 100 101 104] ] =
  [ Some (true, [], [(B "a", 1, true); (B "b", 0, true)], []);
    Some (true, [], [(B "a", 2, true); (B "b", 0, true)], [1; 1; 2]);
    Some (true, [], [(B "a", 2, false); (B "b", 0, true)], [1; 1; 2]);
    Some (true, [], [(B "a", 2, false); (B "b", 0, true)], [1; 1; 2]);
    Some (true, [], [(B "b", 0, true)], [1; 1; 2; 0]) ].
Proof. vm_compute. reflexivity. Qed.

(** What is served answers a match that was asked for, with the rules of the namespace that the metric's own ID
    names. *)
Theorem C64_namespace : forall p s xs s' tr ns id from to res a,
  matcher_run p s xs = Some (s', tr) -> In (MEv (EvServe ns id from to res a)) tr ->
  (exists x, In x xs /\ asks_matcher x id from to) /\
  belongs_to (mo_namespace_tag p) (mo_default_namespace p) id ns.
Proof. intros p s xs s' tr ns id from to res a. exact (matcher_run_serves p xs s s' tr ns id from to res a). Qed.
Print Assumptions C64_namespace.

(** the hypotheses of C64 hold of the matches of that run: the second, a hit, is
    served after a new rule set was processed and before the cache was told;
    the third after it was told *)
Example C64_nonvacuous :
  match matcher_run c47_opts new_matcher (c47_first ++ c47_second) with
  | Some (_, tr) =>
      map (fun e => match e with
        | MProcessed _ _ rs _ => (1, rs_version rs) | MEv (EvRefresh _ _) => (2, 0)
        | MEv (EvServe _ _ _ _ r _) => (3, mr_version r) | MEv (EvRegister _ _) => (4, 0)
        | MEv (EvSource _ _ _ _ _ r) => (5, mr_version r) | _ => (0, 0) end) tr
      = [(0, 0); (0, 0); (4, 0); (0, 0); (1, 1); (2, 0); (4, 0); (5, 1); (0, 0); (3, 1);
         (1, 2); (3, 1); (0, 0); (2, 0); (5, 2); (0, 0); (3, 2)]
  | None => False
  end.
Proof. vm_compute. reflexivity. Qed.
