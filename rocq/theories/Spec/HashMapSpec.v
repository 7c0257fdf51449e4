(** What a map is: for each key the value last set and not deleted. *)
From Coq Require Import Ascii NArith Bool List.
From Verif Require Import Base.Bytes Model.HashMap.
Import ListNotations.

(** the value a history leaves for a key *)
Definition last_step {V} (k : bytes) (cur : option V) (x : hm_op V) : option V :=
  match x with
  | HSet k' v => if beqb k' k then Some v else cur
  | HDelete k' => if beqb k' k then None else cur
  | HReset => None
  end.
Definition last_set {V} (xs : list (hm_op V)) (k : bytes) : option V := fold_left (last_step k) xs None.

(** [m] is a map with the contents described by [f]: looking up returns them, asking whether a key is there
    says so, iterating visits each exactly once, and the length counts them *)
Definition is_map {V} (hash : bytes -> N) (m : hmap V) (f : bytes -> option V) : Prop :=
  (forall k, hm_get hash m k = Some (f k)) /\
  (forall k, exists b, hm_contains hash m k = Some b /\ (b = true <-> f k <> None)) /\
  (forall k v, In (k, v) (hm_entries m) <-> f k = Some v) /\
  NoDup (map fst (hm_entries m)) /\
  hm_len m = length (map fst (hm_entries m)).

(** the keys a history uses *)
Definition op_keys {V} (x : hm_op V) : list bytes :=
  match x with HSet k _ => [k] | HDelete k => [k] | HReset => [] end.
Definition keys_used {V} (xs : list (hm_op V)) : list bytes := flat_map op_keys xs.

(** keys that share a hash are the same *)
Definition no_collision (hash : bytes -> N) (ks : list bytes) : Prop :=
  forall k k', In k ks -> In k' ks ->
    (hash k mod hash_range = hash k' mod hash_range)%N -> k = k'.

Definition never_deletes {V} (xs : list (hm_op V)) : Prop := forall k, ~ In (HDelete k) xs.

(** the slot [s] is on the way from the home of [k'] to where [k'] is stored *)
Definition on_the_way (hash : bytes -> N) (s : N) (k' : bytes) (s' : N) : Prop :=
  exists d i : N, (i < d /\ d < hash_range /\
    s' = (hash k' + d) mod hash_range /\ s = (hash k' + i) mod hash_range)%N.

(** deleting [k] frees no slot another key was stored beyond *)
Definition harmless {V} (hash : bytes -> N) (m : hmap V) (k : bytes) : Prop :=
  forall s v s' k' v', In (s, (k, v)) m -> In (s', (k', v')) m -> k' <> k ->
    ~ on_the_way hash s k' s'.

(** every deletion of the history is harmless when it happens *)
Definition deletes_harmlessly {V} (hash : bytes -> N) (xs : list (hm_op V)) : Prop :=
  forall ys k zs m, xs = ys ++ HDelete k :: zs -> hm_run hash [] ys = Some m -> harmless hash m k.
