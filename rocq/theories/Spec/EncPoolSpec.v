(** Vocabulary for C88: who has which encoder, and what they have written to it. *)
From Coq Require Import Ascii Arith Bool List.
From Verif.Base Require Import Bytes.
From Verif.Model Require Import EncPool.
Import ListNotations.

(** The books that the users of encoders keep: the encoders they have, each with what has been written to it since it was made or reset
    ([None]: taken from the pool and not reset since), and those that have been closed and not been handed out since. *)
Record books := mk_books { mine : list (nat * option bytes); returned : list nat }.
Definition no_books : books := mk_books [] [].

Definition entry (b : books) (e : nat) : option (option bytes) :=
  match find (fun x => Nat.eqb (fst x) e) (mine b) with Some (_, c) => Some c | None => None end.
Definition others (b : books) (e : nat) : list (nat * option bytes) := filter (fun x => negb (Nat.eqb (fst x) e)) (mine b).

(** What users may do: anything with an encoder they have, until they close it or give it to the pool; and close once more one that
    they closed and that nobody has taken since. *)
Definition allowed (b : books) (o : op) : Prop :=
  match o with
  | New _ _ | Get _ _ => True
  | Reset e | Write e _ _ | Look e | Give e _ => exists c, entry b e = Some c
  | Close e _ => (exists c, entry b e = Some c) \/ In e (returned b)
  end.

(** How the books are kept.  An encoder that [Get] has just made is empty, but its user cannot know. *)
Definition note (b : books) (o : op) (a : answer) : books :=
  match o, a with
  | New _ _, AnEncoder e => mk_books ((e, Some []) :: mine b) (returned b)
  | Get _ _, AnEncoder e => mk_books ((e, None) :: mine b) (filter (fun x => negb (Nat.eqb x e)) (returned b))
  | Reset e, _ => mk_books ((e, Some []) :: others b e) (returned b)
  | Write e p _, _ => mk_books ((e, match entry b e with Some (Some c) => Some (c ++ p) | _ => None end) :: others b e) (returned b)
  | Close e _, _ => mk_books (others b e) (e :: returned b)
  | Give e _, _ => mk_books (others b e) (returned b)
  | _, _ => b
  end.

(** Everything that users may do, one operation after the other, from a state on. *)
Inductive does (max : nat) : world -> books -> list op -> world -> books -> Prop :=
| does_nothing w b : does max w b [] w b
| does_more w b o w1 a os w2 b2 :
    allowed b o -> step max w o = (w1, a) -> does max w1 (note b o a) os w2 b2 -> does max w b (o :: os) w2 b2.

(** A new pool, no encoders, and what users may do. *)
Definition history (max : nat) (os : list op) (w : world) (b : books) : Prop := does max empty_world no_books os w b.

(** The operation resets or closes the encoder, or gives it to the pool. *)
Definition ends (e : nat) (o : op) : bool :=
  match o with Reset x | Close x _ | Give x _ => Nat.eqb x e | _ => false end.
