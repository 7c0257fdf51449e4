(** Model of the generated byte-keyed hash maps: matcher/cache/elem_map_gen.go
    (lines cited below), and, identical up to the type of the values,
    matcher/cache/namespace_results_map_gen.go,
    matcher/namespace_rule_sets_map_gen.go and matcher/rule_namespaces_map_gen.go.

    A map is a native Go map from 64-bit hashes to entries.  The native map is
    an association list without repeated hashes.  The hash function is an
    arbitrary argument (xxhash.Sum64 in the *_new_map_gen.go files).
    Left out: copying and pooling of keys (a key is a value here), so
    [SetUnsafe] is [Set]; the initial size, which has no effect. *)
From Coq Require Import Ascii NArith Bool List.
From Verif Require Import Base.Bytes.
Import ListNotations.
Open Scope N_scope.

(** matcher/cache/elem_map_gen.go 33, hashes are uint64: [hash++] (151) wraps *)
Definition hash_range : N := 2 ^ 64.
(** [hash++] on uint64: matcher/cache/elem_map_gen.go:151. *)
Definition next_hash (s : N) : N := (s + 1) mod hash_range.

(** matcher/cache/elem_map_gen.go 64-72 [lookup], 92-104 [elemMapEntry] *)
Notation hmap V := (list (N * (list ascii * V))).

(** the native map's operations used: indexing 146, [delete] 137, assignment 190 and 200
    (matcher/cache/elem_map_gen.go:146) *)
Fixpoint slot_get {V} (m : hmap V) (s : N) : option (bytes * V) :=
  match m with
  | [] => None
  | (s', e) :: m' => if N.eqb s' s then Some e else slot_get m' s
  end.
(** matcher/cache/elem_map_gen.go:137, the builtin [delete]. *)
Definition slot_del {V} (m : hmap V) (s : N) : hmap V :=
  filter (fun e => negb (N.eqb (fst e) s)) m.
(** matcher/cache/elem_map_gen.go:190,200, assignment to a slot. *)
Definition slot_set {V} (m : hmap V) (s : N) (e : bytes * V) : hmap V := (s, e) :: slot_del m s.

(** the loop shared by [Get] 144-155, [set] 186-204 and [Delete] 226-236: the
    slot at which it stops, and the value found if the key is there.  [None]
    when it goes round for more steps than there are entries. *)
Fixpoint probe {V} (fuel : nat) (m : hmap V) (k : bytes) (s : N) : option (N * option V) :=
  match slot_get m s with
  | None => Some (s, None)
  | Some (k', v) =>
      if beqb k' k then Some (s, Some v)
      else match fuel with
           | O => None
           | S fuel' => probe fuel' m k (next_hash s)
           end
  end.

(** matcher/cache/elem_map_gen.go:144-155,186-204,226-236: the loop started at the hash
    of the key. *)
Definition find {V} (hash : bytes -> N) (m : hmap V) (k : bytes) : option (N * option V) :=
  probe (length m) m k (hash k mod hash_range).

(** matcher/cache/elem_map_gen.go 144-155 [Get]; the outer [None] is an endless loop *)
Definition hm_get {V} (hash : bytes -> N) (m : hmap V) (k : bytes) : option (option V) :=
  match find hash m k with
  | None => None
  | Some (_, v) => Some v
  end.

(** matcher/cache/elem_map_gen.go 158-163 [Set], 186-204 [set]: an entry found keeps its key *)
Definition hm_set {V} (hash : bytes -> N) (m : hmap V) (k : bytes) (v : V) : option (hmap V) :=
  match find hash m k with
  | None => None
  | Some (s, _) => Some (slot_set m s (k, v))
  end.

(** matcher/cache/elem_map_gen.go 226-236 [Delete], 136-141 [removeMapKey] *)
Definition hm_delete {V} (hash : bytes -> N) (m : hmap V) (k : bytes) : option (hmap V) :=
  match find hash m k with
  | None => None
  | Some (s, Some _) => Some (slot_del m s)
  | Some (_, None) => Some m
  end.

(** matcher/cache/elem_map_gen.go 240-244 [Reset], 249-255 [Reallocate] *)
Definition hm_reset {V} (m : hmap V) : hmap V := [].

(** matcher/cache/elem_map_gen.go 209-216 [Iter], [Len], 220-223 [Contains] *)
Definition hm_entries {V} (m : hmap V) : list (bytes * V) := map snd m.
(** matcher/cache/elem_map_gen.go:214-216 [elemMap.Len] *)
Definition hm_len {V} (m : hmap V) : nat := length m.
(** matcher/cache/elem_map_gen.go:220-223 [elemMap.Contains] *)
Definition hm_contains {V} (hash : bytes -> N) (m : hmap V) (k : bytes) : option bool :=
  match hm_get hash m k with
  | None => None
  | Some v => Some (match v with Some _ => true | None => false end)
  end.

(** The updates: matcher/cache/elem_map_gen.go:158-163, 226-244. *)
Inductive hm_op (V : Type) := HSet (k : bytes) (v : V) | HDelete (k : bytes) | HReset.
Arguments HSet {V}. Arguments HDelete {V}. Arguments HReset {V}.

(** One update: matcher/cache/elem_map_gen.go:158-163, 226-244. *)
Definition hm_step {V} (hash : bytes -> N) (m : hmap V) (x : hm_op V) : option (hmap V) :=
  match x with
  | HSet k v => hm_set hash m k v
  | HDelete k => hm_delete hash m k
  | HReset => Some (hm_reset m)
  end.

(** A sequence of updates: matcher/cache/elem_map_gen.go:158-163, 226-244. *)
Fixpoint hm_run {V} (hash : bytes -> N) (m : hmap V) (xs : list (hm_op V)) : option (hmap V) :=
  match xs with
  | [] => Some m
  | x :: xs' => match hm_step hash m x with None => None | Some m' => hm_run hash m' xs' end
  end.
