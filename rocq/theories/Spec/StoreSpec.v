(** Specification vocabulary for the rule store. *)
From Coq Require Import Ascii String ZArith Bool List.
From Verif.Base Require Import Bytes.
From Verif.Model Require Import Rules RuleSetProto Namespace Store.
Import ListNotations.
Open Scope Z_scope.

(** The key for the namespaces is not the key of any rule set. *)
Definition keys_distinct (o : store_opts) : Prop := forall ns, rule_set_key o ns <> so_names_key o.
(** The rule set is good enough for the validator, if there is one. *)
Definition accepted (o : store_opts) (rs : rule_set) : Prop := forall valid, so_validator o = Some valid -> valid rs = true.

(** [s'] is [s] with key [k] set to the next version. *)
Definition key_set (s s' : kv) (k : bytes) (x : value) : Prop :=
  s' k = Some (kv_version s k + 1, x) /\ forall k', k' <> k -> s' k' = s k'.
Definition keys_set (s s' : kv) (k1 : bytes) (x1 : value) (k2 : bytes) (x2 : value) : Prop :=
  s' k1 = Some (kv_version s k1 + 1, x1) /\ s' k2 = Some (kv_version s k2 + 1, x2) /\
  forall k', k' <> k1 -> k' <> k2 -> s' k' = s k'.

(** Many writes one after the other, with their outcomes. *)
Definition run_writes (o : store_opts) (s : kv) (ws : list store_write) : kv :=
  fold_left (fun s w => fst (run_write o s w)) ws s.
(** The write concerns the namespace; with which version of its rule set; and of the namespaces. *)
Definition writes_rules (w : store_write) : option rule_set := match w with WriteRules rs _ | WriteBoth _ rs _ => rs end.
Definition writes_names (w : store_write) : option namespaces := match w with WriteRules _ _ => None | WriteBoth x _ _ => x end.

(** ** Clients that read, change what they have read, and write.

    A client keeps what it read last.  A write event carries the function by which the client makes what it
    writes out of what it has read ([None]: it does not write). *)
Inductive event :=
| ReadRules (c : nat) (ns : bytes) (up : bool)
| ReadNames (c : nat) (up : bool)
| ChangeRules (c : nat) (ns : bytes) (f : read_result rule_set -> option rule_set) (fa : fate)
| ChangeBoth (c : nat) (ns : bytes) (f : read_result rule_set -> option rule_set)
    (g : read_result namespaces -> option namespaces) (fa : fate).

Record world := mk_world {
  w_kv : kv; w_rules : nat -> bytes -> read_result rule_set; w_names : nat -> read_result namespaces }.
(** In the beginning nobody has read anything. *)
Definition start (s : kv) : world := mk_world s (fun _ _ => RErr) (fun _ => RErr).

Definition step (o : store_opts) (w : world) (e : event) : world * option write_result :=
  match e with
  | ReadRules c ns up =>
      let r := if up then read_rule_set o (w_kv w) ns else RErr in
      (mk_world (w_kv w) (fun c' ns' => if Nat.eqb c' c && beqb ns' ns then r else w_rules w c' ns') (w_names w), None)
  | ReadNames c up =>
      let r := if up then read_namespaces o (w_kv w) else RErr in
      (mk_world (w_kv w) (w_rules w) (fun c' => if Nat.eqb c' c then r else w_names w c'), None)
  | ChangeRules c ns f fa =>
      match f (w_rules w c ns) with
      | None => (w, None)
      | Some rs => let '(s', r) := write_rule_set o (w_kv w) (Some rs) fa in (mk_world s' (w_rules w) (w_names w), Some r)
      end
  | ChangeBoth c ns f g fa =>
      match f (w_rules w c ns), g (w_names w c) with
      | Some rs, Some x => let '(s', r) := write_all o (w_kv w) (Some x) (Some rs) fa in (mk_world s' (w_rules w) (w_names w), Some r)
      | _, _ => (w, None)
      end
  end.
Fixpoint steps (o : store_opts) (w : world) (es : list event) : world * list (option write_result) :=
  match es with
  | [] => (w, [])
  | e :: es => let '(w1, r) := step o w e in let '(w2, rs) := steps o w1 es in (w2, r :: rs)
  end.

(** The client keeps the namespace and the version of what it read, uses version 0 for what it found missing,
    and writes nothing if it could not read. *)
Definition keeps_rules (ns : bytes) (f : read_result rule_set -> option rule_set) : Prop :=
  forall r rs, f r = Some rs -> rs_namespace rs = ns /\
    match r with ROk x => rs_version rs = rs_version x | RNotFound => rs_version rs = 0 | RErr => False end.
Definition keeps_names (g : read_result namespaces -> option namespaces) : Prop :=
  forall r x, g r = Some x ->
    match r with ROk y => nsx_version x = nsx_version y | RNotFound => nsx_version x = 0 | RErr => False end.
Definition keeps (e : event) : Prop :=
  match e with
  | ReadRules _ _ _ | ReadNames _ _ => True
  | ChangeRules _ ns f _ => keeps_rules ns f
  | ChangeBoth _ ns f g _ => keeps_rules ns f /\ keeps_names g
  end.

(** The same change made alone, without anything happening between its read and its write. *)
Definition alone (o : store_opts) (s : kv) (e : event) : kv :=
  match e with
  | ReadRules _ _ _ | ReadNames _ _ => s
  | ChangeRules _ ns f _ =>
      match f (read_rule_set o s ns) with
      | None => s
      | Some rs => match rule_set_proto rs with None => s | Some pb => kv_set s (rule_set_key o ns) (VRules pb) end
      end
  | ChangeBoth _ ns f g _ =>
      match f (read_rule_set o s ns), g (read_namespaces o s) with
      | Some rs, Some x =>
          match rule_set_proto rs with
          | None => s
          | Some pb => kv_set (kv_set s (rule_set_key o ns) (VRules pb)) (so_names_key o) (VNames (namespaces_proto x))
          end
      | _, _ => s
      end
  end.

(** Whether a change took effect, going by what its client was told: success means it did, a failure of the
    store (a lost reply, perhaps) leaves it open, anything else means it did not. *)
Definition consistent (r : option write_result) (took : bool) : Prop :=
  match r with
  | Some WOk => took = true
  | Some WFailed => True
  | _ => took = false
  end.
Fixpoint taken (es : list event) (took : list bool) : list event :=
  match es, took with
  | e :: es, b :: took => if b then e :: taken es took else taken es took
  | _, _ => []
  end.
