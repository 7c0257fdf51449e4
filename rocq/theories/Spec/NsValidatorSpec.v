(** What is said of the validator of namespaces, apart from how it works. *)
From Coq Require Import Ascii String NArith ZArith Bool List.
From Verif.Base Require Import Bytes.
From Verif.Model Require Import NsValidator.
Import ListNotations.

(** The values the key has had, the latest last. *)
Definition values (v0 : kv_value) (tr : list vaction) : list kv_value :=
  v0 :: flat_map (fun a => match a with Write v => [v] | _ => [] end) tr.

Definition latest (v0 : kv_value) (tr : list vaction) : kv_value := last (values v0 tr) v0.

(** What a value of the key means: the namespaces listed, the default ones if there is no value, nothing if the value
    is not a list of strings. *)
Inductive means (dflt : list bytes) : kv_value -> list bytes -> Prop :=
| means_absent : means dflt Absent dflt
| means_strings : forall l, means dflt (Strings l) l.

(** The steps the program takes by itself, once it is called: those of the goroutine and those of calls of [Close]. *)
Definition own_step (a : vaction) : Prop :=
  match a with
  | Receive | Timeout | Quit | Read | Process | Store | StepClose _ => True
  | _ => False
  end.

(** The validator has nothing left to do but wait. *)
Definition at_rest (dflt : list bytes) (s : vstate) : Prop :=
  forall a, own_step a -> vstep dflt s a = None.

Definition close_returned (s : vstate) (i : nat) : Prop := nth_error (vs_closers s) i = Some Returned.
Definition close_called (s : vstate) (i : nat) : Prop := i < length (vs_closers s).
