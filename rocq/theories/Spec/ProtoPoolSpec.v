(** Vocabulary for C89: what the calls of an iterator return, and what they would return if it were alone. *)
From Coq Require Import Ascii String NArith ZArith Bool List.
From Verif.Base Require Import Bytes Slice.
From Verif.Model Require Import Metadata ProtoWire Messages ProtoStream ProtoPool.
From Verif.Spec Require Import ProtoStreamSpec.
Import ListNotations.
Open Scope Z_scope.

(** Anything that can happen, step by step, with what is returned. *)
Inductive steps : world -> list (xop * choice * answer) -> world -> Prop :=
| steps_nil x : steps x [] x
| steps_cons x o c a x1 l x2 : step x o c = Some (x1, a) -> steps x1 l x2 -> steps x ((o, c, a) :: l) x2.

(** Encoders have limits below 16 GB, as for C48. *)
Definition fine (o : xop) : Prop := match o with On o => op_ok o | _ => True end.
Definition all_fine (l : list (xop * choice * answer)) : Prop := Forall (fun y => fine (fst (fst y))) l.
Definition xreachable (x : world) : Prop := exists l, steps empty_world l x /\ all_fine l.

(** The calls of an iterator that have returned: [Next], with what it shows if it returned true, and [Close]. *)
Inductive call := NextTrue (m : option message) | NextFalse | Closed.
Definition call_of (k : nat) (y : xop * choice * answer) : list call :=
  match y with
  | (IterStart j, _, Yes u) | (IterFinish j, _, Yes u) => if Nat.eqb j k then [NextTrue (selected (union_content u))] else []
  | (IterStart j, _, No) | (IterFinish j, _, No) => if Nat.eqb j k then [NextFalse] else []
  | (IterClose j, _, HasClosed) => if Nat.eqb j k then [Closed] else []
  | _ => []
  end.
Definition calls (k : nat) (l : list (xop * choice * answer)) : list call := flat_map (call_of k) l.

(** The calls of an iterator that has its buffer for itself, as in ProtoStream. *)
Inductive alone_calls : iter -> list call -> iter -> Prop :=
| alone_none it : alone_calls it [] it
| alone_true it it' cs it'' : next it = More it' -> alone_calls it' cs it'' -> alone_calls it (NextTrue (current it') :: cs) it''
| alone_false it it' cs it'' : next it = Stop it' -> alone_calls it' cs it'' -> alone_calls it (NextFalse :: cs) it''
| alone_closed it cs it'' : alone_calls (close_iter it) cs it'' -> alone_calls it (Closed :: cs) it''.

(** The messages that have been shown. *)
Definition shown (cs : list call) : list (option message) := flat_map (fun c => match c with NextTrue m => [m] | _ => [] end) cs.
