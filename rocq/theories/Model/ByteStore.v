(** Model of rules/store/kv/store.go and of a matcher that follows it, with a key-value store that holds bytes.
    In Model.Store and Model.System the values are protobuf messages with their type; here they are what
    m3cluster's stores keep, the bytes that the messages are marshalled to, and every reader unmarshals them as
    a message of the type it expects.  Definitions only. *)
From Coq Require Import Ascii String ZArith Bool List.
From Verif.Base Require Import Bytes.
From Verif.Model Require Import Rules RuleSetProto Namespace ProtoWire RuleWire Store Cache Matcher System.
Import ListNotations.
Open Scope Z_scope.

(** The key-value store (rules/store/kv/store.go:39 [kvStore]): versions and bytes. *)
Notation bkv := (bytes -> option (Z * bytes)).

(** A key that was never set has version 0, as in [kv_version].
    (rules/store/kv/store.go:141-178, the expected versions) *)
Definition bkv_version (d : bkv) (k : bytes) : Z := match d k with None => 0 | Some (v, _) => v end.
(** Setting a key stores the bytes as the next version.
    (rules/store/kv/store.go:141-178) *)
Definition bkv_set (d : bkv) (k : bytes) (b : bytes) : bkv :=
  fun k' => if beqb k' k then Some (bkv_version d k + 1, b) else d k'.

(** proto.Marshal of the message of a transaction (kv.NewSetOp at rules/store/kv/store.go:157,176; the messages
    are marshalled in [Commit], which is external). *)
Definition value_bytes (x : value) : res bytes :=
  match x with VRules pb => marshal_rule_set pb | VNames pb => marshal_namespaces pb | VOther => Err end.

(** the values of all the sets of a transaction (rules/store/kv/store.go:98,126) *)
Fixpoint sets_bytes (sets : list (bytes * value)) : res (list (bytes * bytes)) :=
  match sets with
  | [] => Ok []
  | (k, x) :: sets' =>
      match value_bytes x with
      | Ok b => match sets_bytes sets' with Ok bs => Ok ((k, b) :: bs) | Err => Err | Panic => Panic end
      | Err => Err
      | Panic => Panic
      end
  end.

(** rules/store/kv/store.go:97-99, 125-127: the commit and [wrapWriteError].  The messages are marshalled before
    the request is made. *)
Definition bcommit (d : bkv) (conds : list (bytes * Z)) (sets : list (bytes * value)) (f : fate) : bkv * write_result :=
  match sets_bytes sets with
  | Panic => (d, WPanic)
  | Err => (d, WFailed)
  | Ok bs =>
      let holds := forallb (fun c => bkv_version d (fst c) =? snd c) conds in
      let d' := if holds then fold_left (fun d x => bkv_set d (fst x) (snd x)) bs d else d in
      match f with
      | Unreachable => (d, WFailed)
      | Served => (d', if holds then WOk else WStale)
      | ReplyLost => (d', WFailed)
      end
  end.

(** rules/store/kv/store.go 48-65 [ReadNamespaces]; [Panic] if unmarshalling panics *)
Definition bread_namespaces (o : store_opts) (d : bkv) : res (read_result namespaces) :=
  match d (so_names_key o) with
  | None => Ok RNotFound
  | Some (v, b) =>
      match unmarshal_namespaces b with
      | Ok pb => Ok (match new_namespaces v (Some pb) with None => RErr | Some x => ROk x end)
      | Err => Ok RErr
      | Panic => Panic
      end
  end.

(** rules/store/kv/store.go 67-85 [ReadRuleSet] *)
Definition bread_rule_set (o : store_opts) (d : bkv) (ns : bytes) : res (read_result rule_set) :=
  match d (rule_set_key o ns) with
  | None => Ok RNotFound
  | Some (v, b) =>
      match unmarshal_rule_set b with
      | Ok pb => Ok (match rule_set_from_proto v (Some pb) (so_rule o) with None => RErr | Some x => ROk x end)
      | Err => Ok RErr
      | Panic => Panic
      end
  end.

(** rules/store/kv/store.go 87-100 [WriteRuleSet] and 102-128 [WriteAll] *)
Definition brun_write (o : store_opts) (d : bkv) (w : store_write) : bkv * write_result :=
  match w with
  | WriteRules rs f =>
      match store_validate o rs with
      | Some e => (d, e)
      | None =>
          match rule_set_transaction o rs with
          | inr e => (d, e)
          | inl (cond, set) => bcommit d [cond] [set] f
          end
      end
  | WriteBoth x rs f =>
      match store_validate o rs with
      | Some e => (d, e)
      | None =>
          match rule_set_transaction o rs with
          | inr e => (d, e)
          | inl (cond1, set1) =>
              match namespaces_transaction o x with
              | inr e => (d, e)
              | inl (cond2, set2) => bcommit d [cond1; cond2] [set1; set2] f
              end
          end
      end
  end.

(** The states the store went through, the present one first, and the matcher.
    (rules/store/kv/store.go:38-41, matcher/match.go:39-46) *)
Record bsystem := mk_bsys { bs_kv : bkv; bs_past : list bkv; bs_matcher : mstate }.
(** rules/store/kv/store.go:44-46 [NewStore] and matcher/match.go:49-76 [NewMatcher] *)
Definition new_bsystem (d : bkv) : bsystem := mk_bsys d [] new_matcher.

(** the bytes that a key had the given number of writes ago
    (a watch of m3cluster/kv may deliver late; matcher/ruleset.go:186-198, matcher/namespaces.go:228-240) *)
Definition bytes_ago (s : bsystem) (ago : nat) (k : bytes) : option (Z * bytes) :=
  match nth_error (bs_kv s :: bs_past s) ago with
  | None => None
  | Some d => d k
  end.

(** matcher/ruleset.go 186-198 [toRuleSet], the unmarshalling *)
Definition brules_ago (o : store_opts) (s : bsystem) (ago : nat) (ob : nat) : option (Z * rule_set_pb) :=
  match bytes_ago s ago (rule_set_key o (ob_ns (m_objs (bs_matcher s) ob))) with
  | Some (v, b) => match unmarshal_rule_set b with Ok pb => Some (v, pb) | _ => None end
  | None => None
  end.

(** matcher/namespaces.go 228-240 [toNamespaces], the unmarshalling, and the
    actions of the matcher, as in [matcher_action] *)
Definition bmatcher_action (o : store_opts) (s : bsystem) (x : saction) : option maction :=
  match x with
  | SWrite _ => None
  | SNamespaces ago =>
      match bytes_ago s ago (so_names_key o) with
      | Some (v, b) => match unmarshal_namespaces b with Ok pb => Some (MNamespaces v pb) | _ => None end
      | None => None
      end
  | SStep i now None => Some (MStep i now None)
  | SStep i now (Some ago) =>
      match starts_watching (bs_matcher s) with
      | None => None
      | Some ob => Some (MStep i now (brules_ago o s ago ob))
      end
  | SRuleSet ob ago now =>
      match brules_ago o s ago ob with
      | None => None
      | Some (v, pb) => Some (MRuleSet ob v pb now)
      end
  | SMatcher x =>
      match x with
      | MNamespaces _ _ | MStep _ _ _ | MRuleSet _ _ _ _ => None
      | _ => Some x
      end
  end.

(** One of these: rules/store/kv/store.go:87-128, matcher/namespaces.go:228-325,
    matcher/ruleset.go:186-217. *)
Definition bsystem_act (o : store_opts) (p : matcher_opts) (s : bsystem) (x : saction) : option (bsystem * list mevent) :=
  match x with
  | SWrite w => Some (mk_bsys (fst (brun_write o (bs_kv s) w)) (bs_kv s :: bs_past s) (bs_matcher s), [])
  | _ =>
      match bmatcher_action o s x with
      | None => None
      | Some y =>
          match matcher_act p (bs_matcher s) y with
          | None => None
          | Some (m, ev) => Some (mk_bsys (bs_kv s) (bs_past s) m, ev)
          end
      end
  end.

(** A sequence of them: rules/store/kv/store.go:87-128, matcher/namespaces.go:228-325,
    matcher/ruleset.go:186-217. *)
Fixpoint bsystem_run (o : store_opts) (p : matcher_opts) (s : bsystem) (xs : list saction) : option (bsystem * list mevent) :=
  match xs with
  | [] => Some (s, [])
  | x :: xs' =>
      match bsystem_act o p s x with
      | None => None
      | Some (s1, e1) =>
          match bsystem_run o p s1 xs' with
          | None => None
          | Some (s2, e2) => Some (s2, e1 ++ e2)
          end
      end
  end.
