(** C67: the rule store and a matcher that follows it. *)
From Coq Require Import Ascii String Arith ZArith Bool Lia List.
From Verif Require Import Proof.StoreEditProof Proof.SystemProof Proof.ServedProof.
From Verif.Model Require Import AggType Policy Transformation Pipeline Metadata Filter MetricID Rules RuleSet RuleSetProto
  Namespace Store CacheList Cache Matcher System.
From Verif.Base Require Import Bytes BMap.
From Verif.Spec Require Import RulesSpec EditSpec RuleSetProtoSpec StoreSpec CacheSpec MatcherSpec SystemSpec.
From Verif.Props Require Import RulesProps EditProps RuleSetProtoProps StoreProps MatcherProps.
Import ListNotations.
Open Scope Z_scope.

(** Whatever is written, however late and in whatever order it is delivered: the
    matcher processes only rules that the store held for that very namespace, of
    a version that is not beyond the store's; and if it is the store's, the
    rules are those in the store. *)
Theorem C67_processed : forall o p d xs s tr ns ob rs t,
  system_run o p (new_system d) xs = Some (s, tr) -> In (MProcessed ns ob rs t) tr ->
  (exists a b, xs = a ++ b /\ stored_rules o p (store_after o d a) ns = ROk rs) /\
  rs_version rs <= stored_version o (store_after o d xs) ns /\
  (rs_version rs = stored_version o (store_after o d xs) ns -> stored_rules o p (store_after o d xs) ns = ROk rs).
Proof.
  intros o p d xs s tr ns ob rs t R I. split; [exact (processed_held _ _ _ _ _ _ _ _ _ _ R I)|].
  rewrite <- (fo_now _ _ _ _ _ _ (follows_run _ _ _ _ _ _ R)). exact (processed_older _ _ _ _ _ _ _ _ _ _ R I).
Qed.
Print Assumptions C67_processed.

(** In every interleaving: what is served for a metric of a registered namespace,
    the cache having been told of the rules processed for it, is a match against
    the complete rules that the store held for the namespace at some moment (the
    matcher cuts down the rules when it processes them, and may return a result
    found earlier), from a time that was asked for, to the end of the window
    asked for or later. *)
Theorem C67_served : forall o p d xs s tr u ns id from to res a v ob rs t,
  0 <= co_capacity (mo_cache_opts p) -> 0 <= co_evict_batch (mo_cache_opts p) ->
  system_run o p (new_system d) xs = Some (s, tr) -> within_range p xs ->
  tr = u ++ MEv (EvServe ns id from to res a) :: v -> ~ updating u ns ->
  registered (cache_events u) ns = Some ob -> rules_of u ns = Some (Some (rs, t)) -> histories_ascend rs ->
  (exists before after, xs = before ++ after /\ stored_rules o p (store_after o d before) ns = ROk rs) /\
  exists from' T, asked_from xs id from' /\ to <= T /\ res = full_match rs id from' T.
Proof.
  intros o p d xs s tr u ns id from to res a v ob rs t Hc Hb R W E NU G K As. split.
  - destruct (rules_of_processed u ns rs t K) as [ob' I]. apply (processed_held o p d xs s tr ns ob' rs t R).
    rewrite E. apply in_or_app. left. exact I.
  - destruct (served_full o p d xs s tr u ns id from to res a v ob rs t Hc Hb R W E NU G K As) as (f' & T & L & Q & x & t' & I & X).
    exists f', T. split; [exists x, t'; auto|auto].
Qed.
Print Assumptions C67_served.

(** At rest, and with the version of the store: a match of a namespace that the
    store does not have is empty, and any other is one against the rules in the
    store. *)
Theorem C67_served_at_rest : forall o p d xs s tr x s' ev ns id from to res a,
  0 <= co_capacity (mo_cache_opts p) -> 0 <= co_evict_batch (mo_cache_opts p) -> versions_positive d ->
  system_run o p (new_system d) xs = Some (s, tr) -> resting (sy_matcher s) ->
  ns_version (sy_matcher s) ns = stored_version o (sy_kv s) ns ->
  system_act o p s x = Some (s', ev) -> In (MEv (EvServe ns id from to res a)) ev -> within_range p (xs ++ [x]) ->
  (stored_rules o p (sy_kv s) ns = RNotFound /\ res = empty_match_result) \/
  exists rs, stored_rules o p (sy_kv s) ns = ROk rs /\ (histories_ascend rs ->
    exists from' T, asked_from (xs ++ [x]) id from' /\ to <= T /\ res = full_match rs id from' T).
Proof. exact served_at_rest. Qed.
Print Assumptions C67_served_at_rest.

(** From the writer's side: rules that were written are what metrics are matched
    against, once the matcher is at the version that the write produced and as
    long as the namespace is not written again. *)
Theorem C67_written : forall o p d a w rs b s tr x s' ev id from to res adm,
  0 <= co_capacity (mo_cache_opts p) -> 0 <= co_evict_batch (mo_cache_opts p) -> versions_positive d -> keys_distinct o ->
  storable (mo_rule_opts p) rs -> histories_ascend rs ->
  writes_rules w = Some rs -> snd (run_write o (store_after o d a) w) = WOk ->
  Forall (fun w' => forall rs', writes_rules w' = Some rs' -> rs_namespace rs' <> rs_namespace rs) (writes_of b) ->
  let xs := a ++ SWrite w :: b in
  system_run o p (new_system d) xs = Some (s, tr) -> resting (sy_matcher s) ->
  ns_version (sy_matcher s) (rs_namespace rs) = rs_version rs + 1 ->
  system_act o p s x = Some (s', ev) -> In (MEv (EvServe (rs_namespace rs) id from to res adm)) ev -> within_range p (xs ++ [x]) ->
  exists rs' from' T, read_back (rs_version rs + 1) (mo_rule_opts p) rs rs' /\ asked_from (xs ++ [x]) id from' /\ to <= T /\
    res = full_match rs' id from' T.
Proof. exact written_served. Qed.
Print Assumptions C67_written.

(** From the side of whoever uses the result, within the limits of C29: for a
    time in the window the result gives the pipelines that a match at that very
    time against the rules in the store gives. *)
Theorem C67_in_effect : forall o p d xs s tr x s' ev ns id from to res a rs t,
  0 <= co_capacity (mo_cache_opts p) -> 0 <= co_evict_batch (mo_cache_opts p) -> versions_positive d ->
  system_run o p (new_system d) xs = Some (s, tr) -> resting (sy_matcher s) ->
  ns_version (sy_matcher s) ns = stored_version o (sy_kv s) ns ->
  system_act o p s x = Some (s', ev) -> In (MEv (EvServe ns id from to res a)) ev -> within_range p (xs ++ [x]) ->
  (forall f, asked_from (xs ++ [x]) id f -> 0 <= f <= from) -> from <= t < to ->
  stored_rules o p (sy_kv s) ns = ROk rs -> histories_ascend rs ->
  (forall r, In r (rs_mapping rs) -> steady id r) -> (forall r, In r (rs_rollup rs) -> steady id r) ->
  tfo_name_and_tags (rs_opts rs) id <> None ->
  (forall r s, In r (rs_rollup rs) -> In s (ru_snapshots r) -> accepts s id -> sn_tomb s = false /\ sn_body s <> []) ->
  exists st rest, mr_existing_at res t = st :: rest /\
    map sm_pipelines (mr_existing (full_match rs id t t)) = [sm_pipelines st] /\ sm_tombstoned st = false /\ sm_cutover st <= t.
Proof. exact served_stage. Qed.
Print Assumptions C67_in_effect.

(** The matcher never gets stuck behind the store: from every state it can reach
    in which nothing is under way, for a namespace that the store lists and that
    is not deleted as of the version the matcher has, the delivery of the values
    in the store takes the matcher to the version in the store. *)
Theorem C67_catches_up : forall o p d xs s tr ns x n rs now,
  0 <= co_capacity (mo_cache_opts p) -> 0 <= co_evict_batch (mo_cache_opts p) ->
  system_run o p (new_system d) xs = Some (s, tr) -> resting (sy_matcher s) -> c_readers (m_cache (sy_matcher s)) = [] ->
  read_namespaces o (sy_kv s) = ROk x -> mention x ns = Some n -> deleted_as_of n (ns_version (sy_matcher s) ns) = false ->
  stored_rules o p (sy_kv s) ns = ROk rs ->
  exists k ob s' ev,
    system_run o p s ([SNamespaces 0] ++ repeat (SStep 0 now None) k ++ [SRuleSet ob 0 now; SMatcher (MRefresh 0)]) = Some (s', ev) /\
    resting (sy_matcher s') /\ sy_kv s' = sy_kv s /\ ns_version (sy_matcher s') ns = stored_version o (sy_kv s) ns.
Proof. exact catches_up. Qed.
Print Assumptions C67_catches_up.

(** If it is watched already, the rule set alone is enough. *)
Theorem C67_catches_up_watched : forall o p d xs s tr ns rs now,
  0 <= co_capacity (mo_cache_opts p) -> 0 <= co_evict_batch (mo_cache_opts p) ->
  system_run o p (new_system d) xs = Some (s, tr) -> resting (sy_matcher s) -> c_readers (m_cache (sy_matcher s)) = [] ->
  watched_ns (sy_matcher s) ns = true -> stored_rules o p (sy_kv s) ns = ROk rs ->
  exists ob s' ev, system_run o p s [SRuleSet ob 0 now; SMatcher (MRefresh 0)] = Some (s', ev) /\
    resting (sy_matcher s') /\ sy_kv s' = sy_kv s /\ ns_version (sy_matcher s') ns = stored_version o (sy_kv s) ns.
Proof. exact catches_up_watched. Qed.
Print Assumptions C67_catches_up_watched.

(** The namespace in the above is the one that the metric's own ID names. *)
Theorem C67_namespace : forall o p s xs s' tr ns id from to res a,
  system_run o p s xs = Some (s', tr) -> In (MEv (EvServe ns id from to res a)) tr ->
  (exists x, In x xs /\ asks x id from to) /\
  belongs_to (mo_namespace_tag p) (mo_default_namespace p) id ns.
Proof. intros o p s xs s' tr ns id from to res a. exact (system_run_serves o p xs s s' tr ns id from to res a). Qed.
Print Assumptions C67_namespace.

(** ** A concrete run *)

Definition c67_opts : store_opts := mk_so (B "namespaces") (B "rules/") [] None ropts.
(** The rules of the session of edits, for the namespace "a". *)
Definition c67_rules (v : Z) (rs : rule_set) : rule_set :=
  mk_rs (rs_uuid rs) v (B "a") (rs_created_at rs) (rs_updated_at rs) (rs_updated_by rs) (rs_tomb rs) (rs_cutover rs)
    (rs_mapping rs) (rs_rollup rs) (rs_opts rs) (rs_new_id rs) (rs_is_rollup rs).
Definition c67_rules1 : rule_set := c67_rules 0 after_session.
Definition c67_rules2 : rule_set := c67_rules 1 (run_edits after_session [(DeleteMapping (B "u2"), at_time 40)]).
Definition c67_names : namespaces := mk_nsx 0 [mk_ns (B "a") [mk_nss 1 false 0 []]].

Definition c67_write1 : store_write := WriteBoth (Some c67_names) (Some c67_rules1) Served.
Definition c67_write2 : store_write := WriteRules (Some c67_rules2) Served.
Definition c67_match : saction := SMatcher (MRead c47_id 100 101 100).
Definition c67_fill : saction := SMatcher (MWrite c47_id 100 101 100 0).
(** Written, then followed; written again, and matched before the second version
    is delivered; the first version is delivered once more, then the second. *)
Definition c67_early : list saction :=
  [SWrite c67_write1; SNamespaces 0; SStep 0 100 None; SStep 0 100 (Some 0%nat)] ++ repeat (SStep 0 100 None) 5.
Definition c67_late : list saction :=
  [c67_match; c67_fill; SRuleSet 0 1 100; SMatcher (MRefresh 0); c67_match; c67_fill; SRuleSet 0 0 100; SMatcher (MRefresh 0)].
Definition c67_all : list saction := c67_early ++ SWrite c67_write2 :: c67_late.

Definition c67_summary (r : option (system * list mevent)) :=
  match r with
  | Some (s, tr) =>
      Some (match m_thread (sy_matcher s) with NIdle => true | _ => false end, m_refreshing (sy_matcher s),
            stored_version c67_opts (sy_kv s) (B "a"), ns_version (sy_matcher s) (B "a"), watched_ns (sy_matcher s) (B "a"),
            c47_versions tr)
  | None => None
  end.

Definition c67_versions (xs : list saction) := c67_summary (system_run c67_opts c47_opts (new_system (fun _ => None)) xs).

(** The versions in the store and in the matcher, and of the results served: the
    first match is served with the first rules, since those written meanwhile
    have not arrived; the last with the second. *)
Example C67_nonvacuous :
  map c67_versions [c67_early; c67_all; c67_all ++ [c67_match; c67_fill]] =
  [Some (true, [], 1, 1, true, []); Some (true, [], 2, 2, true, [1; 1]); Some (true, [], 2, 2, true, [1; 1; 2])].
Proof. vm_compute. reflexivity. Qed.

(** The hypotheses of the theorems above hold of that run. *)
Definition c67_end : list saction := c67_late ++ [c67_match].
Definition c67_steady {P} (r : rule P) : bool :=
  forallb (fun s => forallb (fun s' => Bool.eqb (snapshot_matches s c47_id) (snapshot_matches s' c47_id)) (ru_snapshots r)) (ru_snapshots r).
Definition c67_live (r : rule (list target)) : bool :=
  forallb (fun s => negb (snapshot_matches s c47_id) || (negb (sn_tomb s) && match sn_body s with [] => false | _ => true end)) (ru_snapshots r).
Definition c67_ascend {P} (r : rule P) : bool :=
  (fix go (l : list (snapshot P)) := match l with
   | [] => true | s :: l' => forallb (fun s' => sn_cutover s <=? sn_cutover s') l' && go l' end) (ru_snapshots r).

Example C67_hypotheses :
  0 <= co_capacity (mo_cache_opts c47_opts) /\ 0 <= co_evict_batch (mo_cache_opts c47_opts) /\
  versions_positive (fun _ => None) /\ keys_distinct c67_opts /\
  storable (mo_rule_opts c47_opts) c67_rules2 /\ histories_ascend c67_rules2 /\
  writes_rules c67_write2 = Some c67_rules2 /\ snd (run_write c67_opts (store_after c67_opts (fun _ => None) c67_early) c67_write2) = WOk /\
  writes_of c67_end = [] /\
  within_range c47_opts (c67_early ++ SWrite c67_write2 :: c67_end ++ [c67_fill]) /\
  (forall f, asked_from (c67_early ++ SWrite c67_write2 :: c67_end ++ [c67_fill]) c47_id f -> 0 <= f <= 100) /\
  match system_run c67_opts c47_opts (new_system (fun _ => None)) (c67_early ++ SWrite c67_write2 :: c67_end) with
  | Some (s, _) =>
      (* nothing under way, the same version *)
      match m_thread (sy_matcher s) with NIdle => true | _ => false end = true /\ m_refreshing (sy_matcher s) = [] /\
      ns_version (sy_matcher s) (B "a") = 2 /\ stored_version c67_opts (sy_kv s) (B "a") = 2 /\
      (* the rules in the store *)
      match stored_rules c67_opts c47_opts (sy_kv s) (B "a") with
      | ROk rs => forallb c67_steady (rs_mapping rs) && forallb c67_steady (rs_rollup rs) && forallb c67_live (rs_rollup rs) &&
          match tfo_name_and_tags (rs_opts rs) c47_id with Some _ => true | None => false end
      | _ => false
      end = true /\
      (* what is served: stages, new metrics *)
      match system_act c67_opts c47_opts s c67_fill with
      | Some (_, ev) => flat_map (fun e => match e with
          | MEv (EvServe ns id from to res _) => [(ns, id, from, to, length (mr_existing res), length (mr_news res))] | _ => [] end) ev
      | None => []
      end = [(B "a", c47_id, 100, 101, 1%nat, 0%nat)]
  | None => False
  end.
Proof.
  assert (S : storable (mo_rule_opts c47_opts) c67_rules2).
  { destruct C36_nonvacuous as (S0 & C0 & _).
    assert (S1 : storable ropts (run_edits after_session [(DeleteMapping (B "u2"), at_time 40)])).
    { apply run_edits_storable; [constructor; [exact I|constructor]|]. unfold after_session. now apply run_edits_storable. }
    exact S1. }
  assert (H : Forall (fun x => (forall now, processes_at x now -> now = 100) /\ (forall id from to, asks x id from to -> from = 100))
    (c67_early ++ SWrite c67_write2 :: c67_end ++ [c67_fill])).
  { unfold c67_early, c67_end, c67_late. cbn [app repeat]. unfold c67_match, c67_fill.
    repeat (apply Forall_cons; [split; [intros now X; cbn [processes_at] in X; first [contradiction|congruence]
                                       |intros id from to X; cbn [asks] in X; first [contradiction|destruct X as (_ & X & _); congruence]]|]).
    constructor. }
  rewrite Forall_forall in H.
  split; [cbn; lia|]. split; [cbn; lia|]. split; [intros k v x E; discriminate|]. split; [intros ns E; discriminate|].
  split; [exact S|]. split.
  { assert (A : forall P (r : rule P), c67_ascend r = true -> ascending (ru_snapshots r)).
    { intros P r. unfold c67_ascend, ascending. induction (ru_snapshots r) as [|x l IH]; intros E; constructor; apply andb_prop in E as [E1 E2].
      - exact (IH E2).
      - rewrite forallb_forall in E1. apply Forall_forall. intros y Y. apply Z.leb_le. exact (E1 y Y). }
    split; apply Forall_forall; intros r Hr; apply A.
    - revert r Hr. apply forallb_forall. vm_compute. reflexivity.
    - revert r Hr. apply forallb_forall. vm_compute. reflexivity. }
  split; [reflexivity|]. split; [vm_compute; reflexivity|]. split; [reflexivity|].
  split.
  { intros a x b y c now id from to E X Y. rewrite (proj1 (H x ltac:(rewrite E; apply in_or_app; right; left; reflexivity)) now X).
    rewrite (proj2 (H y ltac:(rewrite E; apply in_or_app; right; right; apply in_or_app; right; left; reflexivity)) id from to Y).
    cbn [mo_match_range_past c47_opts]. lia. }
  split. { intros f (x & t & I & A). rewrite (proj2 (H x I) _ _ _ A). lia. }
  vm_compute. repeat split.
Qed.
