(** Decimal printing and parsing of natural numbers, as [strconv.Itoa] and
    [strconv.ParseInt] do for non-negative numbers.  Definitions only.
    A digit (under [fmt] and strconv, called at policy/resolution.go [String] and policy/retention.go [String]). *)
From Coq Require Import Ascii NArith ZArith Bool List.
From Verif.Base Require Import Bytes.
Import ListNotations.
Open Scope N_scope.

Definition digit_char (d : N) : ascii := ascii_of_N (48 + d).

(** Least significant digit first.
    (under the callers of [dec] below: policy/resolution.go, policy/retention.go, aggregation/type.go) *)
Fixpoint dec_rev (fuel : nat) (n : N) : bytes :=
  match fuel with
  | O => []
  | S f => digit_char (n mod 10) :: (if n / 10 =? 0 then [] else dec_rev f (n / 10))
  end.

(** Decimal representation without leading zeros ("0" for zero).
    (policy/resolution.go [String], policy/retention.go [String], under time.Duration's [String]) *)
Definition dec (n : N) : bytes := rev (dec_rev (S (N.size_nat n)) n).

(** (under [ParseExtendedDuration], called at policy/resolution.go and
    policy/retention.go [Parse…]) *)
Definition is_digit (c : ascii) : bool :=
  (48 <=? N_of_ascii c) && (N_of_ascii c <=? 57).

(** (under [ParseExtendedDuration], called at policy/resolution.go and
    policy/retention.go) *)
Definition digit_val (c : ascii) : N := N_of_ascii c - 48.

(** Value of a string of decimal digits, [None] when it has another character
    or is empty.
    (under [ParseExtendedDuration], called at policy/resolution.go and policy/retention.go) *)
Fixpoint undec_acc (acc : N) (s : bytes) : option N :=
  match s with
  | [] => Some acc
  | c :: s' => if is_digit c then undec_acc (10 * acc + digit_val c) s' else None
  end.

(** The whole string (under [ParseExtendedDuration], called at policy/resolution.go and
    policy/retention.go). *)
Definition undec (s : bytes) : option N :=
  match s with [] => None | _ => undec_acc 0 s end.
