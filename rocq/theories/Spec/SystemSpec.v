(** What the writer of rules can rely on about a matcher that follows the store. *)
From Coq Require Import Arith ZArith Bool List.
From Verif Require Import Base.Bytes Base.BMap Model.Rules Model.RuleSet Model.RuleSetProto Model.Namespace Model.Store
  Model.CacheList Model.Cache Model.Matcher Model.System Spec.RulesSpec Spec.StoreSpec.
Import ListNotations.
Open Scope Z_scope.

(** The state of the store after the writes among the given actions. *)
Definition writes_of (xs : list saction) : list store_write :=
  flat_map (fun x => match x with SWrite w => [w] | _ => [] end) xs.
Definition store_after (o : store_opts) (s : kv) (xs : list saction) : kv := run_writes o s (writes_of xs).

(** The rules of a namespace in the store, read with the options of the matcher. *)
Definition with_rule_opts (o : store_opts) (r : rule_opts) : store_opts :=
  mk_so (so_names_key o) (so_prefix o) (so_suffix o) (so_validator o) r.
Definition stored_rules (o : store_opts) (p : matcher_opts) (s : kv) (ns : bytes) : read_result rule_set :=
  read_rule_set (with_rule_opts o (mo_rule_opts p)) s ns.
Definition stored_version (o : store_opts) (s : kv) (ns : bytes) : Z := kv_version s (rule_set_key o ns).

(** In a store the versions of what was written are positive. *)
Definition versions_positive (s : kv) : Prop := forall k v x, s k = Some (v, x) -> 0 < v.

(** The match of a metric against a complete rule set. *)
Definition full_match (rs : rule_set) (id : bytes) (from to : Z) : match_result :=
  forward_match (new_active_ruleset (rs_version rs) (rs_mapping rs) (rs_rollup rs) (rs_opts rs) (rs_new_id rs) (rs_is_rollup rs))
    id from to.

(** The clock of the matcher when it may process a rule set; the window of a match. *)
Definition processes_at (x : saction) (now : Z) : Prop :=
  match x with SStep _ n _ | SRuleSet _ _ n => n = now | _ => False end.
Definition asks (x : saction) (id : bytes) (from to : Z) : Prop :=
  match x with
  | SMatcher (MRead i f t _) | SMatcher (MWrite i f t _ _) => i = id /\ f = from /\ t = to
  | _ => False
  end.

(** Matches do not ask about times before the match range: whenever a match comes
    after a rule set was processed, it does not start before what the matcher's
    clock was then, less the range. *)
Definition within_range (p : matcher_opts) (xs : list saction) : Prop :=
  forall a x b y c now id from to, xs = a ++ x :: b ++ y :: c ->
    processes_at x now -> asks y id from to -> now - mo_match_range_past p <= from.

(** A match of the metric from the given time was asked for. *)
Definition asked_from (xs : list saction) (id : bytes) (from : Z) : Prop := exists x t, In x xs /\ asks x id from t.

(** Nothing is under way in the matcher. *)
Definition resting (m : mstate) : Prop := m_thread m = NIdle /\ m_refreshing m = [].

(** The snapshots of every rule are in the order of their cutover times. *)
Definition histories_ascend (rs : rule_set) : Prop :=
  Forall (fun r => ascending (ru_snapshots r)) (rs_mapping rs) /\ Forall (fun r => ascending (ru_snapshots r)) (rs_rollup rs).
