(** Specification vocabulary for a rule store that holds bytes. *)
From Coq Require Import Ascii String ZArith Bool List.
From Verif.Base Require Import Bytes.
From Verif.Model Require Import Rules RuleSetProto Namespace ProtoWire RuleWire Store System ByteStore.
From Verif.Spec Require Import RuleWireSpec StoreSpec SystemSpec.
Import ListNotations.
Open Scope Z_scope.

(** What the bytes under a key mean to those who read the key: the namespaces under their key, a rule set under
    any other, or nothing readable. *)
Inductive means (o : store_opts) (k b : bytes) : value -> Prop :=
| m_names pb : k = so_names_key o -> unmarshal_namespaces b = Ok pb -> means o k b (VNames pb)
| m_bad_names : k = so_names_key o -> unmarshal_namespaces b = Err -> means o k b VOther
| m_rules pb : k <> so_names_key o -> unmarshal_rule_set b = Ok pb -> means o k b (VRules pb)
| m_bad_rules : k <> so_names_key o -> unmarshal_rule_set b = Err -> means o k b VOther.

(** The store of bytes [d] stands for the store of messages [s]: the same keys, with the same versions, and
    bytes that mean the messages. *)
Definition stands_for (o : store_opts) (d : bkv) (s : kv) : Prop :=
  forall k, match d k, s k with
            | None, None => True
            | Some (v, b), Some (w, x) => v = w /\ means o k b x
            | _, _ => False
            end.

(** Nobody who reads the store panics. *)
Definition readable (o : store_opts) (d : bkv) : Prop :=
  forall k v b, d k = Some (v, b) ->
    (k = so_names_key o -> unmarshal_namespaces b <> Panic) /\ (k <> so_names_key o -> unmarshal_rule_set b <> Panic).

(** What is written has numbers of its Go types, and is not of 2^63 bytes or more. *)
Definition rules_fit (rs : rule_set) : Prop :=
  numbers_fit rs /\ forall pb b, rule_set_proto rs = Some pb -> marshal_rule_set pb = Ok b -> zlen b < 2 ^ 63.
Definition names_fit (x : namespaces) : Prop :=
  ns_times_fit x /\ forall b, marshal_namespaces (namespaces_proto x) = Ok b -> zlen b < 2 ^ 63.
Definition write_fits (w : store_write) : Prop :=
  (forall rs, writes_rules w = Some rs -> rules_fit rs) /\ (forall x, writes_names w = Some x -> names_fit x).

(** Many writes one after the other: the store, and what the writers are told. *)
Fixpoint bwrites (o : store_opts) (d : bkv) (ws : list store_write) : bkv * list write_result :=
  match ws with
  | [] => (d, [])
  | w :: ws => let '(d1, r) := brun_write o d w in let '(d2, rs) := bwrites o d1 ws in (d2, r :: rs)
  end.
Fixpoint writes (o : store_opts) (s : kv) (ws : list store_write) : kv * list write_result :=
  match ws with
  | [] => (s, [])
  | w :: ws => let '(s1, r) := run_write o s w in let '(s2, rs) := writes o s1 ws in (s2, r :: rs)
  end.

(** The system of a store of bytes and a matcher stands for one of a store of messages and the same matcher. *)
Definition system_stands_for (o : store_opts) (b : bsystem) (s : system) : Prop :=
  stands_for o (bs_kv b) (sy_kv s) /\ Forall2 (stands_for o) (bs_past b) (sy_past s) /\ bs_matcher b = sy_matcher s.
