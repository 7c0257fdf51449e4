(** What users of the matcher can rely on, in terms of the trace of updates and calls. *)
From Coq Require Import Arith ZArith Bool List.
From Verif Require Import Base.Bytes Base.BMap Model.AggType Model.Rules Model.RuleSet Model.RuleSetProto Model.Namespace
  Model.CacheList Model.Cache Model.Matcher Spec.FilterSpec Spec.CacheSpec.
Import ListNotations.
Open Scope Z_scope.

(** What is known about a namespace after the given events: [None] if it was
    never added or was removed since; [Some None] if no rule set has been
    processed for it since it was added; otherwise the rule set last processed,
    and the earliest time it was prepared for. *)
Definition rules_step (ns : bytes) (cur : option (option (rule_set * Z))) (e : mevent)
  : option (option (rule_set * Z)) :=
  match e with
  | MAdded n _ => if beqb n ns then Some None else cur
  | MRemoved n _ _ => if beqb n ns then None else cur
  | MProcessed n _ rs t =>
      if beqb n ns then match cur with None => None | Some _ => Some (Some (rs, t)) end else cur
  | _ => cur
  end.
Definition rules_of (tr : list mevent) (ns : bytes) : option (option (rule_set * Z)) :=
  fold_left (rules_step ns) tr None.

(** the match result for a metric under what is known about its namespace *)
Definition matched_by (k : option (option (rule_set * Z))) (id : bytes) (from to : Z) : match_result :=
  match k with
  | Some (Some (rs, t)) => forward_match (active_set rs t) id from to
  | _ => empty_match_result
  end.
Definition reverse_matched_by (k : option (option (rule_set * Z))) (id : bytes) (from to : Z) (mt : metric_type)
    (at_ : agg_type) (multi : bool) (topts : types_options) : match_result :=
  match k with
  | Some (Some (rs, t)) => reverse_match (active_set rs t) id from to mt at_ multi topts
  | _ => empty_match_result
  end.
Definition version_of (k : option (option (rule_set * Z))) : Z :=
  match k with Some (Some (rs, _)) => rs_version rs | _ => 0 end.

(** the update of the namespaces last received *)
Definition update_step (cur : option namespaces) (e : mevent) : option namespaces :=
  match e with MUpdate x => Some x | _ => cur end.
Definition last_update (tr : list mevent) : option namespaces := fold_left update_step tr None.

Definition lists (x : namespaces) (ns : bytes) : Prop := exists n, In n (nsx_list x) /\ ns_name n = ns.

(** what an update says about a namespace, the last mention if there are several *)
Definition mention_step (ns : bytes) (cur : option namespace) (n : namespace) : option namespace :=
  if beqb (ns_name n) ns then Some n else cur.
Definition mention (x : namespaces) (ns : bytes) : option namespace :=
  fold_left (mention_step ns) (nsx_list x) None.

(** the namespace is marked as deleted as of the given version of its rules *)
Definition deleted_as_of (n : namespace) (version : Z) : bool :=
  match last_opt (ns_snapshots n) with
  | None => false
  | Some l => nss_tomb l && Z.eqb (nss_version l) version
  end.

(** [since_update tr x P]: [P] held at some moment since the update [x], the
    last one received *)
Definition since_update (tr : list mevent) (x : namespaces) (P : list mevent -> Prop) : Prop :=
  exists u v, tr = u ++ v /\ last_update u = Some x /\ (forall y, ~ In (MUpdate y) v) /\ P u.

Definition rules_deleted (ns : bytes) (u : list mevent) : Prop :=
  exists rs t, rules_of u ns = Some (Some (rs, t)) /\ rs_tomb rs = true.
Definition rules_older (ns : bytes) (earliest : Z) (u : list mevent) : Prop :=
  exists rs t, rules_of u ns = Some (Some (rs, t)) /\ rs_cutover rs <= earliest.

(** the events of the cache *)
Definition cache_events (tr : list mevent) : list event :=
  flat_map (fun e => match e with MEv e => [e] | _ => [] end) tr.

(** a rule set of the namespace was processed and the cache was not told yet *)
Definition updating (tr : list mevent) (ns : bytes) : Prop :=
  exists t1 o rs t t2, tr = t1 ++ MProcessed ns o rs t :: t2 /\ ~ In (MEv (EvRefresh ns o)) t2.

(** [late p c x], [early p c x]: if [x] is a step of the thread that processes
    updates, then [c] is at or before, or at or after, the earliest time its
    clock makes eligible for matching *)
Definition late (p : matcher_opts) (c : Z) (x : maction) : Prop :=
  match x with MStep _ now _ => c <= now - mo_match_range_past p | _ => True end.
Definition early (p : matcher_opts) (c : Z) (x : maction) : Prop :=
  match x with MStep _ now _ => now - mo_match_range_past p <= c | _ => True end.

(** if the event processes a rule set of the namespace, it is deleted and not
    newer than [c]; the event does not process a rule set of the namespace *)
Definition deletes (ns : bytes) (c : Z) (e : mevent) : Prop :=
  match e with MProcessed n _ rs _ => n = ns -> rs_tomb rs = true /\ rs_cutover rs <= c | _ => True end.
Definition untouched (ns : bytes) (e : mevent) : Prop :=
  match e with MProcessed n _ _ _ => n <> ns | _ => True end.

(** the namespace is known and updates of its rule set are followed *)
Definition watched_ns (s : mstate) (ns : bytes) : bool :=
  match bget (m_rules s) ns with None => false | Some o => ob_watched (m_objs s o) end.

(** the action neither delivers a rule set nor closes the matcher *)
Definition alone (x : maction) : Prop :=
  match x with MRuleSet _ _ _ _ | MClose => False | _ => True end.

(** The namespace of a metric: the value of the first tag of the given name in its ID ("...m3+name+tags"), the
    default namespace if there is none. *)
Definition belongs_to (tag default id ns : bytes) : Prop :=
  (exists before name section ps malformed, name_ok before /\ name_ok name /\ id = id_text before name section /\
     tag_section ps malformed section /\ first_value tag ps ns) \/
  (ns = default /\ forall before name section ps malformed v, name_ok before -> name_ok name ->
     id = id_text before name section -> tag_section ps malformed section -> ~ first_value tag ps v).

(** The action is a match of the metric in the given window. *)
Definition asks_matcher (x : maction) (id : bytes) (from to : Z) : Prop :=
  match x with
  | MRead i f t _ | MWrite i f t _ _ => i = id /\ f = from /\ t = to
  | _ => False
  end.
