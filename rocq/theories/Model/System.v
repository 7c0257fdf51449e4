(** Model of the rule store and a matcher at work together: rules are written
    through rules/store/kv/store.go (Model.Store) and followed by a matcher
    (Model.Matcher) that was configured, by matcher/config.go 83-149
    [NewOptions], with the key of the namespaces and the format of the rule set
    keys that the store uses.  Definitions only.

    The watches of m3cluster are modelled as follows: what is delivered for a
    key is a value that the store holds for it, or held at some earlier moment.
    So values can arrive late, be skipped, and even be repeated or arrive out
    of order.  As in Model.Store values are protobuf messages (see C65 for their
    bytes). *)
From Coq Require Import Arith ZArith Bool List.
From Verif Require Import Base.Bytes Base.BMap Model.Rules Model.RuleSet Model.RuleSetProto Model.Namespace Model.Store
  Model.CacheList Model.Cache Model.Matcher.
Import ListNotations.
Open Scope Z_scope.

(** The states the store went through, the present one first, and the matcher.
    (rules/store/kv/store.go:38-41, matcher/match.go:39-46) *)
Record system := mk_sys { sy_kv : kv; sy_past : list kv; sy_matcher : mstate }.

(** rules/store/kv/store.go:44-46 [NewStore] and matcher/match.go:49-76 [NewMatcher] *)
Definition new_system (s : kv) : system := mk_sys s [] new_matcher.

(** the value that a key had the given number of writes ago
    (a watch of m3cluster/kv may deliver late; matcher/ruleset.go:186-198, matcher/namespaces.go:228-240) *)
Definition value_ago (s : system) (ago : nat) (k : bytes) : option (Z * value) :=
  match nth_error (sy_kv s :: sy_past s) ago with
  | None => None
  | Some d => d k
  end.

(** matcher/ruleset.go 186-198 [toRuleSet], the unmarshalling: the message
    delivered for the rule set of an object; matcher/config.go 127-129, the key *)
Definition rules_ago (o : store_opts) (s : system) (ago : nat) (ob : nat) : option (Z * rule_set_pb) :=
  match value_ago s ago (rule_set_key o (ob_ns (m_objs (sy_matcher s) ob))) with
  | Some (v, VRules pb) => Some (v, pb)
  | _ => None
  end.

(** the object that the next step of [namespaces.process] starts watching
    (matcher/namespaces.go:242-325 [namespaces.process]) *)
Definition starts_watching (s : mstate) : option nat :=
  match m_thread s with
  | NAdding (NWatch o :: _) _ _ | NSweeping (NWatch o :: _) _ _ => Some o
  | _ => None
  end.

(** Writes by rules/store/kv/store.go:87-128, deliveries to
    matcher/namespaces.go:228-240 and matcher/ruleset.go:186-198, and the matcher's own
    steps. *)
Inductive saction :=
(** a user of the store writes *)
| SWrite (w : store_write)
(** a value is delivered for the namespaces; a step in processing it, in which
    [Watch] may deliver a rule set; a value is delivered for a rule set *)
| SNamespaces (ago : nat)
| SStep (i : nat) (now : Z) (init : option nat)
| SRuleSet (ob : nat) (ago : nat) (now : Z)
(** anything else that the matcher does *)
| SMatcher (x : maction).

(** matcher/namespaces.go 228-240 [toNamespaces], the unmarshalling, and the
    actions of the matcher *)
Definition matcher_action (o : store_opts) (s : system) (x : saction) : option maction :=
  match x with
  | SWrite _ => None
  | SNamespaces ago =>
      match value_ago s ago (so_names_key o) with
      | Some (v, VNames pb) => Some (MNamespaces v pb)
      | _ => None
      end
  | SStep i now None => Some (MStep i now None)
  | SStep i now (Some ago) =>
      match starts_watching (sy_matcher s) with
      | None => None
      | Some ob => Some (MStep i now (rules_ago o s ago ob))
      end
  | SRuleSet ob ago now =>
      match rules_ago o s ago ob with
      | None => None
      | Some (v, pb) => Some (MRuleSet ob v pb now)
      end
  | SMatcher x =>
      match x with
      | MNamespaces _ _ | MStep _ _ _ | MRuleSet _ _ _ _ => None
      | _ => Some x
      end
  end.

(** One of these: rules/store/kv/store.go:87-128, matcher/namespaces.go:228-325,
    matcher/ruleset.go:186-217. *)
Definition system_act (o : store_opts) (p : matcher_opts) (s : system) (x : saction) : option (system * list mevent) :=
  match x with
  | SWrite w => Some (mk_sys (fst (run_write o (sy_kv s) w)) (sy_kv s :: sy_past s) (sy_matcher s), [])
  | _ =>
      match matcher_action o s x with
      | None => None
      | Some y =>
          match matcher_act p (sy_matcher s) y with
          | None => None
          | Some (m, ev) => Some (mk_sys (sy_kv s) (sy_past s) m, ev)
          end
      end
  end.

(** A sequence of them: rules/store/kv/store.go:87-128, matcher/namespaces.go:228-325,
    matcher/ruleset.go:186-217. *)
Fixpoint system_run (o : store_opts) (p : matcher_opts) (s : system) (xs : list saction) : option (system * list mevent) :=
  match xs with
  | [] => Some (s, [])
  | x :: xs' =>
      match system_act o p s x with
      | None => None
      | Some (s1, e1) =>
          match system_run o p s1 xs' with
          | None => None
          | Some (s2, e2) => Some (s2, e1 ++ e2)
          end
      end
  end.
