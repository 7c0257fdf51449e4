(** Unicode text. *)
From Coq Require Import Ascii NArith List.
From Verif.Base Require Import Bytes.
Import ListNotations.

(** The UTF-8 encoding of a code point (RFC 3629). *)
Definition utf8_encode (c : N) : bytes :=
  map ascii_of_N
    (if c <? 128 then [c]
     else if c <? 2048 then [192 + c / 64; 128 + c mod 64]
     else if c <? 65536 then [224 + c / 4096; 128 + c / 64 mod 64; 128 + c mod 64]
     else [240 + c / 262144; 128 + c / 4096 mod 64; 128 + c / 64 mod 64; 128 + c mod 64])%N.
(** Code points that are not surrogates. *)
Definition scalar_value (c : N) : Prop := (c < 55296 \/ 57344 <= c < 1114112)%N.
Definition is_text (s : bytes) : Prop := exists cs, Forall scalar_value cs /\ s = flat_map utf8_encode cs.

(** The characters that bytes show when read from the left: each encoding of a code point is that code point,
    and every byte that does not start one is U+FFFD. *)
Inductive shows : bytes -> list N -> Prop :=
| Sh_nil : shows [] []
| Sh_char c s cs : scalar_value c -> shows s cs -> shows (utf8_encode c ++ s) (c :: cs)
| Sh_bad b s cs : (forall c r, scalar_value c -> b :: s <> utf8_encode c ++ r) -> shows s cs -> shows (b :: s) (0xFFFD%N :: cs).
