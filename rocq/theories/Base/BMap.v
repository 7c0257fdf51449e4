(** Finite maps keyed by byte strings, as association lists.
    [map[string]T], as at rules/validator/validator.go:113 and kept by matcher/ruleset.go *)
From Coq Require Import Ascii Bool List.
From Verif Require Import Base.Bytes.
Import ListNotations.

Notation bmap A := (list (list ascii * A)).

(** [m[k]], as at rules/validator/validator.go:113-120 *)
Fixpoint bget {A} (m : bmap A) (k : bytes) : option A :=
  match m with
  | [] => None
  | (k', v) :: m' => if beqb k' k then Some v else bget m' k
  end.

(** [delete(m, k)], as at matcher/cache/cache.go [Unregister] *)
Definition bdel {A} (m : bmap A) (k : bytes) : bmap A :=
  filter (fun e => negb (beqb (fst e) k)) m.

(** [m[k] = v], as at rules/validator/validator.go:113-120 *)
Definition bset {A} (m : bmap A) (k : bytes) (v : A) : bmap A := (k, v) :: bdel m k.
