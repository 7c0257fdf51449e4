(** Model of rules/store/kv/store.go: rule sets and namespaces kept in a versioned key-value store.
    Definitions only. *)
From Coq Require Import Ascii String ZArith Bool List.
From Verif.Base Require Import Bytes.
From Verif.Model Require Import Rules RuleSetProto Namespace.
Import ListNotations.
Open Scope Z_scope.

(** The key-value store (m3cluster kv.TxnStore, not part of the repository): each key that was ever set holds
    a version and a value.  Values are the protobuf messages themselves, with their type; [VOther] is anything
    that does not unmarshal.  Simplification: unmarshalling a message of the other type is an error.
    Used by rules/store/kv/store.go:48-178. *)
Inductive value := VRules (pb : rule_set_pb) | VNames (pb : namespaces_pb) | VOther.
(** The key-value store itself (rules/store/kv/store.go:39 [kvStore]). *)
Notation kv := (bytes -> option (Z * value)).

(** A key that was never set has version 0 (kv.UninitializedVersion).
    (rules/store/kv/store.go:141-178, the expected versions) *)
Definition kv_version (s : kv) (k : bytes) : Z := match s k with None => 0 | Some (v, _) => v end.
(** Setting a key stores the value as the next version.
    (rules/store/kv/store.go:141-178) *)
Definition kv_set (s : kv) (k : bytes) (x : value) : kv :=
  fun k' => if beqb k' k then Some (kv_version s k + 1, x) else s k'.

(** What can happen to a request to the store: it is served, it never arrives, or its reply is lost.
    (rules/store/kv/store.go:98,126, the commit) *)
Inductive fate := Served | Unreachable | ReplyLost.
(** What the commit at rules/store/kv/store.go:98,126 returns. *)
Inductive commit_result := COk | CStale | CErr.

(** kv.TxnStore.Commit: if every key has the expected version, all the sets are made, otherwise none.
    (called at rules/store/kv/store.go:98,126) *)
Definition kv_commit (s : kv) (conds : list (bytes * Z)) (sets : list (bytes * value)) (f : fate) : kv * commit_result :=
  let holds := forallb (fun c => kv_version s (fst c) =? snd c) conds in
  let s' := if holds then fold_left (fun s x => kv_set s (fst x) (snd x)) sets s else s in
  match f with
  | Unreachable => (s, CErr)
  | Served => (s', if holds then COk else CStale)
  | ReplyLost => (s', CErr)
  end.

(** rules/store/kv/options.go 28-32 [StoreOptions].  The format of the rule set keys is a text with one %s in it.
    [so_rule] are the options that rule sets are read with (rules.NewOptions()). *)
Record store_opts := mk_so {
  so_names_key : bytes; so_prefix : bytes; so_suffix : bytes; so_validator : option (rule_set -> bool); so_rule : rule_opts }.

(** rules/store/kv/store.go 137-139 [ruleSetKey] *)
Definition rule_set_key (o : store_opts) (ns : bytes) : bytes := so_prefix o ++ ns ++ so_suffix o.

(** Outcome of a read: rules/store/kv/store.go 190-199 [wrapReadError] turns kv.ErrNotFound into a NotFoundError. *)
Inductive read_result (A : Type) := ROk (x : A) | RNotFound | RErr.
Arguments ROk {A} x.
Arguments RNotFound {A}.
Arguments RErr {A}.

(** rules/store/kv/store.go 48-65 [ReadNamespaces] on a store that answers *)
Definition read_namespaces (o : store_opts) (s : kv) : read_result namespaces :=
  match s (so_names_key o) with
  | None => RNotFound
  | Some (v, VNames pb) => match new_namespaces v (Some pb) with None => RErr | Some x => ROk x end
  | Some (_, _) => RErr
  end.

(** rules/store/kv/store.go 67-85 [ReadRuleSet] *)
Definition read_rule_set (o : store_opts) (s : kv) (ns : bytes) : read_result rule_set :=
  match s (rule_set_key o ns) with
  | None => RNotFound
  | Some (v, VRules pb) => match rule_set_from_proto v (Some pb) (so_rule o) with None => RErr | Some x => ROk x end
  | Some (_, _) => RErr
  end.

(** Outcome of a write: rules/store/kv/store.go 180-188 [wrapWriteError] turns kv.ErrConditionCheckFailed into
    a StaleDataError; [WFailed] is any other error of the key-value store; [WPanic] is a validator called
    without a rule set. *)
Inductive write_result := WOk | WInvalid | WNil | WProto | WStale | WFailed | WPanic.
(** rules/store/kv/store.go:180-188 [wrapWriteError] *)
Definition wrap_write (c : commit_result) : write_result :=
  match c with COk => WOk | CStale => WStale | CErr => WFailed end.

(** rules/store/kv/store.go 141-159 [ruleSetTransaction]: the condition and the set, or an error *)
Definition rule_set_transaction (o : store_opts) (rs : option rule_set)
  : ((bytes * Z) * (bytes * value)) + write_result :=
  match rs with
  | None => inr WNil
  | Some rs =>
      match rule_set_proto rs with
      | None => inr WProto
      | Some pb => inl ((rule_set_key o (rs_namespace rs), rs_version rs), (rule_set_key o (rs_namespace rs), VRules pb))
      end
  end.

(** rules/store/kv/store.go 161-178 [namespacesTransaction] *)
Definition namespaces_transaction (o : store_opts) (x : option namespaces)
  : ((bytes * Z) * (bytes * value)) + write_result :=
  match x with
  | None => inr WNil
  | Some x => inl ((so_names_key o, nsx_version x), (so_names_key o, VNames (namespaces_proto x)))
  end.

(** rules/store/kv/store.go 88-92, 103-107: the validator, if there is one *)
Definition store_validate (o : store_opts) (rs : option rule_set) : option write_result :=
  match so_validator o with
  | None => None
  | Some valid => match rs with None => Some WPanic | Some rs => if valid rs then None else Some WInvalid end
  end.

(** rules/store/kv/store.go 87-100 [WriteRuleSet] *)
Definition write_rule_set (o : store_opts) (s : kv) (rs : option rule_set) (f : fate) : kv * write_result :=
  match store_validate o rs with
  | Some e => (s, e)
  | None =>
      match rule_set_transaction o rs with
      | inr e => (s, e)
      | inl (cond, set) => let '(s', c) := kv_commit s [cond] [set] f in (s', wrap_write c)
      end
  end.

(** rules/store/kv/store.go 102-128 [WriteAll] *)
Definition write_all (o : store_opts) (s : kv) (x : option namespaces) (rs : option rule_set) (f : fate) : kv * write_result :=
  match store_validate o rs with
  | Some e => (s, e)
  | None =>
      match rule_set_transaction o rs with
      | inr e => (s, e)
      | inl (cond1, set1) =>
          match namespaces_transaction o x with
          | inr e => (s, e)
          | inl (cond2, set2) => let '(s', c) := kv_commit s [cond1; cond2] [set1; set2] f in (s', wrap_write c)
          end
      end
  end.

(** One call of the store by one of its users; writes run to completion before the next one starts, because
    the only shared state is the key-value store and [Commit] is atomic.
    (rules/store/kv/store.go:87-100 [store.WriteRuleSet], rules/store/kv/store.go:102-128 [store.WriteAll]) *)
Inductive store_write :=
| WriteRules (rs : option rule_set) (f : fate)
| WriteBoth (x : option namespaces) (rs : option rule_set) (f : fate).
(** rules/store/kv/store.go:87-100 [store.WriteRuleSet] or
    rules/store/kv/store.go:102-128 [store.WriteAll] *)
Definition run_write (o : store_opts) (s : kv) (w : store_write) : kv * write_result :=
  match w with
  | WriteRules rs f => write_rule_set o s rs f
  | WriteBoth x rs f => write_all o s x rs f
  end.
