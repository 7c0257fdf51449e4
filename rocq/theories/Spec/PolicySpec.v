(** Specification vocabulary for policies. *)
From Coq Require Import Ascii String NArith ZArith Bool List Sorting Permutation.
From Verif.Base Require Import Bytes Dec.
From Verif.Model Require Import AggType Policy.
Import ListNotations.
Open Scope Z_scope.

(** Precisions are the eight time units, numbered 1 to 8. *)
Definition valid_precision (u : Z) : Prop := 1 <= u <= 8.

(** The documented contract of [sort.Sort] for a "less" relation. *)
Definition sorts {A} (less : A -> A -> bool) (sort : list A -> list A) : Prop :=
  forall l, Permutation l (sort l) /\ StronglySorted (fun a b => less b a = false) (sort l).

(** What the textual round trip needs of the duration functions: printing is
    inverted by parsing, units print to something that parses as one unit, and no
    separator occurs in the printed forms. *)
Record duration_text_ok (dt : duration_text) : Prop := {
  dt_print_parse : forall d, dt_parse dt (dt_print dt d) = Some d;
  dt_unit_parse : forall u, valid_precision u -> dt_parse dt (B "1" ++ dt_unit_string dt u) = unit_value u;
  dt_print_seps : forall d c, In c (dt_print dt d) -> c <> at_sep /\ c <> colon_sep /\ c <> bar_sep;
  dt_unit_seps : forall u c, valid_precision u -> In c (dt_unit_string dt u) -> c <> colon_sep /\ c <> bar_sep;
}.

(** A simple instance, to show the requirements can be met: durations are printed
    in nanoseconds ("90ns"), any number of any unit can be parsed. *)
Definition simple_unit_string (u : Z) : bytes :=
  match u with
  | 1 => B "s" | 2 => B "ms" | 3 => B "us" | 4 => B "ns" | 5 => B "m" | 6 => B "h" | 7 => B "d" | 8 => B "y"
  | _ => B "?"
  end.

Fixpoint take_digits (s : bytes) : bytes * bytes :=
  match s with
  | c :: s' => if is_digit c then let '(a, b) := take_digits s' in (c :: a, b) else ([], s)
  | [] => ([], [])
  end.

Definition simple_parse_pos (s : bytes) : option Z :=
  let '(ds, u) := take_digits s in
  match undec ds, find (fun k => beqb (simple_unit_string k) u) [1; 2; 3; 4; 5; 6; 7; 8] with
  | Some n, Some k => option_map (Z.mul (Z.of_N n)) (unit_value k)
  | _, _ => None
  end.

Definition simple_duration_text : duration_text :=
  {| dt_print := fun d => (if d <? 0 then B "-" else []) ++ dec (Z.to_N (Z.abs d)) ++ B "ns";
     dt_parse := fun s => match s with
                          | "-"%char :: s' => option_map Z.opp (simple_parse_pos s')
                          | _ => simple_parse_pos s
                          end;
     dt_max_unit := fun d => if d mod 60000000000 =? 0 then 5 else if d mod 1000000000 =? 0 then 1 else 4;
     dt_unit_string := simple_unit_string |}.
