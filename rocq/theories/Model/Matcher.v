(** Model of the matcher: matcher/namespaces.go, matcher/ruleset.go and
    matcher/match.go, on top of the cache (Model.Cache).  Definitions only.

    The state machine's actions are the critical sections of the program, so a
    list of actions is an interleaving of: the goroutine that processes updates
    of the namespaces, the goroutines that process updates of each rule set,
    any number of calls to [ForwardMatch], and the goroutines of the cache.
    [namespaces.process] holds [n.Lock] all along; the map [n.rules] is not
    read by others than [Version], [ForwardMatch] and [ReverseMatch] of
    [Namespaces], which the model reads between actions.

    The runtime values come from m3cluster and are not modelled beyond this:
    [Watch] on a value that is not watched starts watching it and may deliver a
    value to it before returning; while a value is watched any value can be
    delivered to it, one at a time; [Unwatch] ends that.  A value that cannot be
    read ([toNamespaces], [toRuleSet] fail) is not processed.  This includes
    [Watch] failing or timing out, which [process] ignores.

    Simplifications: the generated hash maps (see C46) are ideal finite maps,
    iterated in any order; objects are identified by numbers in order of
    creation; metric identifiers are m3 identifiers; times and durations are
    unbounded integers; metrics and logs are left out. *)
From Coq Require Import Arith ZArith Bool List.
From Verif Require Import Base.Bytes Base.BMap Model.AggType Model.MetricID Model.Rules Model.RuleSet
  Model.RuleSetProto Model.Namespace Model.CacheList Model.Cache.
Import ListNotations.
Open Scope Z_scope.

(** matcher/options.go 67-130: the options used.  The callbacks are the ones
    set by [NewMatcher] (matcher/match.go 53-61). *)
Record matcher_opts := mk_mo {
  mo_namespace_tag : bytes; mo_default_namespace : bytes; mo_match_range_past : Z;
  mo_rule_opts : rule_opts; mo_cache_opts : cache_opts }.

(** matcher/ruleset.go 73-92 [ruleSet]; [ob_watched] is the state of the
    embedded runtime value *)
Record rs_obj := mk_obj {
  ob_ns : bytes; ob_version : Z; ob_cutover : Z; ob_tomb : bool;
  ob_matcher : option active_ruleset; ob_watched : bool }.

(** matcher/ruleset.go 94-121 [newRuleSet]; kv.UninitializedVersion is 0 *)
Definition new_rs_obj (ns : bytes) : rs_obj := mk_obj ns 0 0 false None false.

(** Whether the value is watched: matcher/namespaces.go:242-325. *)
Definition with_watched (b : bool) (r : rs_obj) : rs_obj :=
  mk_obj (ob_ns r) (ob_version r) (ob_cutover r) (ob_tomb r) (ob_matcher r) b.

(** matcher/ruleset.go 202-208 [process], the part under the lock; [t] is the
    earliest time eligible for matching, now minus the match range *)
Definition rs_process (t : Z) (rs : rule_set) (r : rs_obj) : rs_obj :=
  mk_obj (ob_ns r) (rs_version rs) (rs_cutover rs) (rs_tomb rs) (Some (active_set rs t)) (ob_watched r).

(** matcher/ruleset.go 151-163 [ForwardMatch], 165-184 [ReverseMatch] *)
Definition rs_forward_match (r : rs_obj) (id : bytes) (from to : Z) : match_result :=
  match ob_matcher r with
  | None => empty_match_result
  | Some a => forward_match a id from to
  end.
(** matcher/ruleset.go:165-184 [ruleSet.ReverseMatch] *)
Definition rs_reverse_match (r : rs_obj) (id : bytes) (from to : Z) (mt : metric_type)
    (at_ : agg_type) (multi : bool) (topts : types_options) : match_result :=
  match ob_matcher r with
  | None => empty_match_result
  | Some a => reverse_match a id from to mt at_ multi topts
  end.

(** What [namespaces.process] has still to do for the entry at hand.
    (matcher/namespaces.go:242-325 [namespaces.process]) *)
Inductive nstep :=
| NWatch (o : nat) | NUnwatch (o : nat) | NRefresh (o : nat) | NRegister (o : nat)
| NCutover (ns : bytes) (o : nat) (earliest : Z)
| NUnregister (ns : bytes) (o : nat) (earliest : Z)
| NForget (ns : bytes) (o : nat) (earliest : Z).

(** The loop it is in, 258-304 or 306-322, with the entries still to visit and
    the names in the update. *)
Inductive nthread :=
| NIdle
| NAdding (body : list nstep) (todo : list namespace) (inc : list bytes)
| NSweeping (body : list nstep) (todo : list (bytes * nat)) (inc : list bytes).

(** matcher/namespaces.go 100-118 [namespaces] with its objects, and
    matcher/match.go 39-46 [matcher].  [m_refreshing] are the rule sets that
    have processed an update and not yet called [onRuleSetUpdatedFn]. *)
Record mstate := mk_m {
  m_rules : bmap nat; m_objs : nat -> rs_obj; m_next : nat; m_cache : cache;
  m_thread : nthread; m_refreshing : list nat }.

(** matcher/match.go 49-76 [NewMatcher], matcher/namespaces.go 120-145 [NewNamespaces] *)
Definition new_matcher : mstate := mk_m [] (fun _ => new_rs_obj []) 0%nat new_cache NIdle [].

(** Assignment to [rules], matcher/namespaces.go:101-118 [namespaces]. *)
Definition with_rules (s : mstate) (m : bmap nat) : mstate :=
  mk_m m (m_objs s) (m_next s) (m_cache s) (m_thread s) (m_refreshing s).
(** The cache of matcher/match.go:39-46 [matcher] after a call. *)
Definition with_cache (s : mstate) (c : cache) : mstate :=
  mk_m (m_rules s) (m_objs s) (m_next s) c (m_thread s) (m_refreshing s).
(** Where matcher/namespaces.go:242-325 [namespaces.process] is. *)
Definition with_thread (s : mstate) (t : nthread) : mstate :=
  mk_m (m_rules s) (m_objs s) (m_next s) (m_cache s) t (m_refreshing s).
(** The rule sets between unlocking and refreshing: matcher/ruleset.go:201-217
    [ruleSet.process]. *)
Definition with_refreshing (s : mstate) (l : list nat) : mstate :=
  mk_m (m_rules s) (m_objs s) (m_next s) (m_cache s) (m_thread s) l.
(** Writing the fields of one rule set: matcher/ruleset.go:73-92 [ruleSet]. *)
Definition with_obj (s : mstate) (o : nat) (f : rs_obj -> rs_obj) : mstate :=
  mk_m (m_rules s) (fun x => if Nat.eqb x o then f (m_objs s x) else m_objs s x) (m_next s)
    (m_cache s) (m_thread s) (m_refreshing s).

(** What can be observed: the events of the cache; the updates of the
    namespaces, and of the rule set of a namespace with the earliest time it
    is used for; the namespaces added and removed.
    (matcher/match.go:78-84, matcher/namespaces.go:242-325, matcher/ruleset.go:201-217) *)
Inductive mevent :=
| MEv (e : event)
| MUpdate (x : namespaces)
| MProcessed (ns : bytes) (o : nat) (rs : rule_set) (t : Z)
| MAdded (ns : bytes) (o : nat)
| MRemoved (ns : bytes) (o : nat) (earliest : Z).

(** a call to the cache
    (matcher/match.go:83, matcher/namespaces.go:242-325, matcher/ruleset.go:201-217) *)
Definition call_cache (p : matcher_opts) (s : mstate) (x : action) : option (mstate * list mevent) :=
  match cache_act (mo_cache_opts p) (m_cache s) x with
  | None => None
  | Some (c, ev) => Some (with_cache s c, map MEv ev)
  end.

(** matcher/ruleset.go 186-198 [toRuleSet] and 202-208 [process], the part under the lock *)
Definition deliver (p : matcher_opts) (s : mstate) (o : nat) (version : Z) (pb : rule_set_pb) (now : Z)
  : option (mstate * list mevent) :=
  match rule_set_from_proto version (Some pb) (mo_rule_opts p) with
  | None => None
  | Some rs =>
      let t := now - mo_match_range_past p in
      Some (with_obj s o (rs_process t rs), [MProcessed (ob_ns (m_objs s o)) o rs t])
  end.

(** matcher/namespaces.go 242-253: the map of the names in the update *)
Definition incoming (x : namespaces) : bmap namespace :=
  fold_left (fun m n => bset m (ns_name n) n) (nsx_list x) [].

(** matcher/namespaces.go 259-270 and 272-286, an entry of the update: finding
    or creating its rule set, deciding whether to watch it *)
Definition enter (s : mstate) (n : namespace) : mstate * list nstep * list mevent :=
  let '(s1, o, fresh) :=
    match bget (m_rules s) (ns_name n) with
    | Some o => (s, o, false)
    | None =>
        let o := m_next s in
        (mk_m (bset (m_rules s) (ns_name n) o)
           (fun x => if Nat.eqb x o then new_rs_obj (ns_name n) else m_objs s x)
           (S o) (m_cache s) (m_thread s) (m_refreshing s), o, true)
    end in
  let should_watch :=
    match last_opt (ns_snapshots n) with
    | None => true
    | Some l => negb (nss_tomb l && Z.eqb (nss_version l) (ob_version (m_objs s1 o)))
    end in
  (s1, (if should_watch then NWatch o else NUnwatch o) :: (if fresh then [NRegister o] else []),
   if fresh then [MAdded (ns_name n) o] else []).

(** matcher/namespaces.go 307-314, an entry of [n.rules]: absent from the
    update and tombstoned? *)
Definition sweep (p : matcher_opts) (s : mstate) (ns : bytes) (o : nat) (inc : list bytes) (now : Z) : list nstep :=
  if existsb (beqb ns) inc then []
  else if ob_tomb (m_objs s o) then [NCutover ns o (now - mo_match_range_past p)] else [].

(** one step for the entry at hand: what it does and what it adds to the steps
    left.  [init] is a value delivered by [Watch] before it returns.
    (matcher/namespaces.go:242-325 [namespaces.process]) *)
Definition do_nstep (p : matcher_opts) (s : mstate) (x : nstep) (now : Z)
    (init : option (Z * rule_set_pb)) : option (mstate * list nstep * list mevent) :=
  match x with
  (** 290-299 *)
  | NWatch o =>
      if ob_watched (m_objs s o) then Some (s, [], [])
      else
        let s1 := with_obj s o (with_watched true) in
        match init with
        | None => Some (s1, [], [])
        | Some (v, pb) =>
            match deliver p s1 o v pb now with
            | None => Some (s1, [], [])
            | Some (s2, ev) => Some (s2, [NRefresh o], ev)
            end
        end
  (** 287-289 and 319 *)
  | NUnwatch o => Some (with_obj s o (with_watched false), [], [])
  (** matcher/ruleset.go 212-214 [process], the callback *)
  | NRefresh o =>
      match call_cache p s (ARefresh (ob_ns (m_objs s o)) o) with
      | None => None
      | Some (s1, ev) => Some (s1, [], ev)
      end
  (** 301-303 *)
  | NRegister o =>
      match call_cache p s (ARegister (ob_ns (m_objs s o)) o) with
      | None => None
      | Some (s1, ev) => Some (s1, [], ev)
      end
  (** 314 *)
  | NCutover ns o earliest =>
      Some (s, if ob_cutover (m_objs s o) <=? earliest then [NUnregister ns o earliest] else [], [])
  (** 315-317 *)
  | NUnregister ns o earliest =>
      match call_cache p s (AUnregister (ob_ns (m_objs s o))) with
      | None => None
      | Some (s1, ev) => Some (s1, [NForget ns o earliest], ev)
      end
  (** 318 *)
  | NForget ns o earliest =>
      Some (with_rules s (bdel (m_rules s) ns), [NUnwatch o], [MRemoved ns o earliest])
  end.

(** One step of [namespaces.process] 242-325; [i] is the entry a map iteration
    comes to next. *)
Definition process_step (p : matcher_opts) (s : mstate) (i : nat) (now : Z)
    (init : option (Z * rule_set_pb)) : option (mstate * list mevent) :=
  match m_thread s with
  | NIdle => None
  | NAdding (x :: body) todo inc =>
      match do_nstep p s x now init with
      | None => None
      | Some (s1, more, ev) => Some (with_thread s1 (NAdding (more ++ body) todo inc), ev)
      end
  | NAdding [] [] inc => Some (with_thread s (NSweeping [] (m_rules s) inc), [])
  | NAdding [] todo inc =>
      match nth_error todo i with
      | None => None
      | Some n =>
          let '(s1, body, ev) := enter s n in
          Some (with_thread s1 (NAdding body (remove_nth i todo) inc), ev)
      end
  | NSweeping (x :: body) todo inc =>
      match do_nstep p s x now init with
      | None => None
      | Some (s1, more, ev) => Some (with_thread s1 (NSweeping (more ++ body) todo inc), ev)
      end
  | NSweeping [] [] inc => Some (with_thread s NIdle, [])
  | NSweeping [] todo inc =>
      match nth_error todo i with
      | None => None
      | Some (ns, o) =>
          Some (with_thread s (NSweeping (sweep p s ns o inc now) (remove_nth i todo) inc), [])
      end
  end.

(** matcher/match.go 78-84 [ForwardMatch]: the namespace of a metric *)
Definition namespace_of (p : matcher_opts) (id : bytes) : bytes :=
  match tag_value id (mo_namespace_tag p) with
  | Some ns => ns
  | None => mo_default_namespace p
  end.

(** what the source the cache has for a namespace answers; matcher/cache/cache.go 320 calls
    it with the cache locked *)
Definition source_answer (s : mstate) (ns id : bytes) (from to : Z) : match_result :=
  match bget (c_ns (m_cache s)) ns with
  | None => empty_match_result
  | Some r => rs_forward_match (m_objs s (r_source r)) id from to
  end.

(** The steps of matcher/match.go:78-89, matcher/namespaces.go:242-325,
    matcher/ruleset.go:201-217. *)
Inductive maction :=
| MNamespaces (version : Z) (pb : namespaces_pb)
| MStep (i : nat) (now : Z) (init : option (Z * rule_set_pb))
| MRuleSet (o : nat) (version : Z) (pb : rule_set_pb) (now : Z)
| MRefresh (i : nat)
| MRead (id : bytes) (from to now : Z)
| MWrite (id : bytes) (from to now st : Z)
| MCache (x : action)
| MClose.

(** One such step: matcher/match.go:78-89, matcher/namespaces.go:242-325,
    matcher/ruleset.go:201-217. *)
Definition matcher_act (p : matcher_opts) (s : mstate) (x : maction) : option (mstate * list mevent) :=
  match x with
  (** a value is delivered for the namespaces: matcher/namespaces.go 228-240 [toNamespaces], 242-253 *)
  | MNamespaces version pb =>
      match m_thread s, new_namespaces version (Some pb) with
      | NIdle, Some x =>
          Some (with_thread s (NAdding [] (map snd (incoming x)) (map fst (incoming x))), [MUpdate x])
      | _, _ => None
      end
  | MStep i now init => process_step p s i now init
  (** a value is delivered for a rule set: matcher/ruleset.go 202-208 *)
  | MRuleSet o version pb now =>
      if (o <? m_next s)%nat && ob_watched (m_objs s o) then
        match deliver p s o version pb now with
        | None => None
        | Some (s1, ev) => Some (with_refreshing s1 (o :: m_refreshing s1), ev)
        end
      else None
  (** matcher/ruleset.go 212-214, the callback *)
  | MRefresh i =>
      match nth_error (m_refreshing s) i with
      | None => None
      | Some o =>
          call_cache p (with_refreshing s (remove_nth i (m_refreshing s))) (ARefresh (ob_ns (m_objs s o)) o)
      end
  (** matcher/match.go 78-84 [ForwardMatch], with the two halves of the cache's *)
  | MRead id from to now => call_cache p s (ARead (namespace_of p id) id from to now)
  | MWrite id from to now st =>
      call_cache p s (AWrite (namespace_of p id) id from to now st (source_answer s (namespace_of p id) id from to))
  (** what the cache does by itself, and matcher/match.go 86-89 [Close], second half *)
  | MCache x =>
      match x with
      | ARead _ _ _ _ _ | AWrite _ _ _ _ _ _ _ | ARegister _ _ | ARefresh _ _ | AUnregister _ => None
      | _ => call_cache p s x
      end
  (** matcher/match.go 86-89 [Close], first half, matcher/namespaces.go 213-226 [Close] *)
  | MClose =>
      Some (mk_m (m_rules s) (fun o => with_watched false (m_objs s o)) (m_next s) (m_cache s)
              (m_thread s) (m_refreshing s), [])
  end.

Fixpoint matcher_run (p : matcher_opts) (s : mstate) (xs : list maction) : option (mstate * list mevent) :=
  match xs with
  | [] => Some (s, [])
  | x :: xs' =>
      match matcher_act p s x with
      | None => None
      | Some (s1, e1) =>
          match matcher_run p s1 xs' with
          | None => None
          | Some (s2, e2) => Some (s2, e1 ++ e2)
          end
      end
  end.

(** matcher/namespaces.go 170-178 [Version], 180-186 [ForwardMatch], 188-201 [ReverseMatch] *)
Definition ns_version (s : mstate) (ns : bytes) : Z :=
  match bget (m_rules s) ns with
  | None => 0
  | Some o => ob_version (m_objs s o)
  end.
(** matcher/namespaces.go:180-186 [namespaces.ForwardMatch] *)
Definition ns_forward_match (s : mstate) (ns id : bytes) (from to : Z) : match_result :=
  match bget (m_rules s) ns with
  | None => empty_match_result
  | Some o => rs_forward_match (m_objs s o) id from to
  end.
(** matcher/namespaces.go:188-201 [namespaces.ReverseMatch] *)
Definition ns_reverse_match (s : mstate) (ns id : bytes) (from to : Z) (mt : metric_type)
    (at_ : agg_type) (multi : bool) (topts : types_options) : match_result :=
  match bget (m_rules s) ns with
  | None => empty_match_result
  | Some o => rs_reverse_match (m_objs s o) id from to mt at_ multi topts
  end.
