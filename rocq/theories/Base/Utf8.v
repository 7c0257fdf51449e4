(** The parts of Go's unicode/utf8 and of ranging over a string that the code uses. *)
From Coq Require Import Ascii NArith Bool List.
From Verif.Base Require Import Bytes.
Import ListNotations.

(** unicode/utf8 [DecodeRune]: the length of the well-formed sequence at the start
    A byte in a range (under encoding/json on the strings of rules/view/mapping.go:29-40). *)
Definition between (lo hi : N) (c : ascii) : bool := ((lo <=? N_of_ascii c) && (N_of_ascii c <=? hi))%N.
(** A continuation byte (under encoding/json on the strings of
    rules/view/mapping.go:29-40). *)
Definition continues (c : ascii) : bool := between 128 191 c.
(** The length (under encoding/json on the strings of rules/view/mapping.go:29-40). *)
Definition utf8_head (s : bytes) : option nat :=
  match s with
  | [] => None
  | a :: t =>
      if between 0 127 a then Some 1%nat
      else match t with
      | [] => None
      | b :: t =>
          if between 194 223 a then if continues b then Some 2%nat else None
          else match t with
          | [] => None
          | c :: t =>
              if (between 224 224 a && between 160 191 b || between 225 236 a && continues b
                  || between 237 237 a && between 128 159 b || between 238 239 a && continues b) then
                if continues c then Some 3%nat else None
              else match t with
              | [] => None
              | d :: _ =>
                  if (between 240 240 a && between 144 191 b || between 241 243 a && continues b
                      || between 244 244 a && between 128 143 b) then
                    if continues c && continues d then Some 4%nat else None
                  else None
              end
          end
      end
  end.

(** unicode/utf8 [DecodeRune]: the code point at the start and how many bytes it takes; U+FFFD and one byte
    if there is none
    (under rules/validator/options.go:356 and rules/validator/config.go:186) *)
Definition decode_rune (s : bytes) : N * nat :=
  let low (c : ascii) := (N_of_ascii c mod 64)%N in
  match utf8_head s, s with
  | Some 1%nat, a :: _ => (N_of_ascii a, 1%nat)
  | Some 2%nat, a :: b :: _ => ((N_of_ascii a mod 32) * 64 + low b, 2%nat)%N
  | Some 3%nat, a :: b :: c :: _ => ((N_of_ascii a mod 16) * 4096 + low b * 64 + low c, 3%nat)%N
  | Some 4%nat, a :: b :: c :: d :: _ => ((N_of_ascii a mod 8) * 262144 + low b * 4096 + low c * 64 + low d, 4%nat)%N
  | _, _ => (65533%N, 1%nat)
  end.

(** "for _, c := range s": the code points of a string; [skip] bytes of the current one are left
    (rules/validator/options.go:356, rules/validator/config.go:186) *)
Fixpoint runes_from (skip : nat) (s : bytes) : list N :=
  match s with
  | [] => []
  | _ :: s' =>
      match skip with
      | S n => runes_from n s'
      | O => let (r, n) := decode_rune s in r :: runes_from (n - 1) s'
      end
  end.
(** All of them (rules/validator/options.go:356, rules/validator/config.go:186). *)
Definition runes (s : bytes) : list N := runes_from 0 s.
