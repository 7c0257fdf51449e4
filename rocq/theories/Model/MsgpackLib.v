(** The part of gopkg.in/vmihailenco/msgpack.v2 that encoding/msgpack uses.  The library is not in the repository: these
    definitions are written from the MessagePack format and from the library's documented choice of encodings, and are
    part of the trusted base.  Numbers are unbounded and truncated where Go truncates; float64 values are their bits.
    Simplification: [DecodeFloat64] of anything but a float64 is an error here; the library also converts float32 values
    and integers. *)
From Coq Require Import Ascii String NArith ZArith Bool List.
From Verif.Base Require Import Bytes.
From Verif.Model Require Import Transformation ProtoWire.
Import ListNotations.
Open Scope Z_scope.

(** Errors: [io.EOF] (nothing left to read), [io.ErrUnexpectedEOF] (something but not enough left), any other.
    (what encoding/msgpack/base_iterator.go:71 [setErr] records) *)
Inductive merr := EndOfInput | ShortInput | Malformed.

(** * Writing.  The buffer is a [bytes.Buffer], whose writes do not fail. *)

(** [k] bytes of [v], most significant first: the writes of 1, 2, 4 and 8 bytes.
    (external vmihailenco/msgpack, called at encoding/msgpack/base_encoder.go:170-217) *)
Fixpoint put_be (k : nat) (v : Z) : bytes :=
  match k with O => [] | S k => zb (v / 256 ^ Z.of_nat k mod 256) :: put_be k v end.

(** [EncodeInt64]: the shortest form, unsigned if not negative.
    (external vmihailenco/msgpack, called at encoding/msgpack/base_encoder.go:174) *)
Definition mp_int (v : Z) : bytes :=
  if 0 <=? v then
    if v <? 128 then [zb v]
    else if v <? 256 then zb 204 :: put_be 1 v
    else if v <? 65536 then zb 205 :: put_be 2 v
    else if v <? 4294967296 then zb 206 :: put_be 4 v
    else zb 207 :: put_be 8 v
  else if -32 <=? v then [zb (v + 256)]
  else if -128 <=? v then zb 208 :: put_be 1 v
  else if -32768 <=? v then zb 209 :: put_be 2 v
  else if -2147483648 <=? v then zb 210 :: put_be 4 v
  else zb 211 :: put_be 8 v.

(** [EncodeArrayLen]; a length of 2^32 or more is truncated.
    (external vmihailenco/msgpack, called at encoding/msgpack/base_encoder.go:209) *)
Definition mp_array_len (n : Z) : bytes :=
  if n <? 16 then [zb (144 + n)]
  else if n <? 65536 then zb 220 :: put_be 2 n
  else zb 221 :: put_be 4 n.

(** [EncodeBytesLen]
    (external vmihailenco/msgpack, called at encoding/msgpack/base_encoder.go:202) *)
Definition mp_bytes_len (n : Z) : bytes :=
  if n <? 256 then zb 196 :: put_be 1 n
  else if n <? 65536 then zb 197 :: put_be 2 n
  else zb 198 :: put_be 4 n.

(** [EncodeBytes] of a slice, [None] being the nil slice.
    (external vmihailenco/msgpack, called at encoding/msgpack/base_encoder.go:195) *)
Definition mp_bytes (v : option bytes) : bytes :=
  match v with None => [zb 192] | Some v => mp_bytes_len (zlen v) ++ v end.

(** [EncodeBool], [EncodeFloat64]
    (external vmihailenco/msgpack, called at encoding/msgpack/base_encoder.go:181,188) *)
Definition mp_bool (v : bool) : bytes := [zb (if v then 195 else 194)].
(** [EncodeFloat64] (external vmihailenco/msgpack, called at
    encoding/msgpack/base_encoder.go:188) *)
Definition mp_float64 (v : Z) : bytes := zb 203 :: put_be 8 v.

(** * Reading *)

(** The number a sequence of bytes stands for, most significant first.
    (external vmihailenco/msgpack, called at encoding/msgpack/base_iterator.go:236-288) *)
Fixpoint get_be (acc : Z) (d : bytes) : Z :=
  match d with [] => acc | b :: d => get_be (256 * acc + bz b) d end.

(** [io.ReadFull] of [n] bytes.
    (external, called by vmihailenco/msgpack under encoding/msgpack/base_iterator.go:236-288) *)
Definition take (n : Z) (d : bytes) : (bytes * bytes) + merr :=
  if n <=? zlen d then inl (firstn (Z.to_nat n) d, skipn (Z.to_nat n) d)
  else match d with [] => inr EndOfInput | _ => inr ShortInput end.

(** [n] bytes as an unsigned number.
    (external vmihailenco/msgpack, called at encoding/msgpack/base_iterator.go:236-288) *)
Definition read_uint (n : Z) (d : bytes) : (Z * bytes) + merr :=
  match take n d with inl (b, d) => inl (get_be 0 b, d) | inr e => inr e end.

(** [n] bytes as a signed number.
    (external vmihailenco/msgpack, called at encoding/msgpack/base_iterator.go:236-288) *)
Definition read_sint (n : Z) (d : bytes) : (Z * bytes) + merr :=
  match read_uint n d with
  | inl (v, d) => inl ((if 2 ^ (8 * n - 1) <=? v then v - 2 ^ (8 * n) else v), d)
  | inr e => inr e
  end.

(** [DecodeInt64]: any integer form; nil is 0.
    (external vmihailenco/msgpack, called at encoding/msgpack/base_iterator.go:240) *)
Definition read_int (d : bytes) : (Z * bytes) + merr :=
  match d with
  | [] => inr EndOfInput
  | b :: d =>
      let c := bz b in
      if c <? 128 then inl (c, d)
      else if 224 <=? c then inl (c - 256, d)
      else if c =? 192 then inl (0, d)
      else if c =? 204 then read_uint 1 d
      else if c =? 205 then read_uint 2 d
      else if c =? 206 then read_uint 4 d
      else if c =? 207 then read_sint 8 d
      else if c =? 208 then read_sint 1 d
      else if c =? 209 then read_sint 2 d
      else if c =? 210 then read_sint 4 d
      else if c =? 211 then read_sint 8 d
      else inr Malformed
  end.

(** [DecodeArrayLen]: nil is -1.
    (external vmihailenco/msgpack, called at encoding/msgpack/base_iterator.go:285) *)
Definition read_array_len (d : bytes) : (Z * bytes) + merr :=
  match d with
  | [] => inr EndOfInput
  | b :: d =>
      let c := bz b in
      if c =? 192 then inl (-1, d)
      else if (144 <=? c) && (c <? 160) then inl (c - 144, d)
      else if c =? 220 then read_uint 2 d
      else if c =? 221 then read_uint 4 d
      else inr Malformed
  end.

(** [DecodeBytesLen]: nil is -1; strings are accepted as bytes.
    (external vmihailenco/msgpack, called at encoding/msgpack/base_iterator.go:276) *)
Definition read_bytes_len (d : bytes) : (Z * bytes) + merr :=
  match d with
  | [] => inr EndOfInput
  | b :: d =>
      let c := bz b in
      if c =? 192 then inl (-1, d)
      else if (160 <=? c) && (c <? 192) then inl (c - 160, d)
      else if (c =? 196) || (c =? 217) then read_uint 1 d
      else if (c =? 197) || (c =? 218) then read_uint 2 d
      else if (c =? 198) || (c =? 219) then read_uint 4 d
      else inr Malformed
  end.

(** [DecodeBytes], into a new slice.
    (external vmihailenco/msgpack, called at encoding/msgpack/base_iterator.go:267) *)
Definition read_bytes (d : bytes) : (bytes * bytes) + merr :=
  match read_bytes_len d with
  | inr e => inr e
  | inl (n, d) => if n =? -1 then inl ([], d) else take n d
  end.

(** [DecodeBool], [DecodeFloat64]
    (external vmihailenco/msgpack, called at encoding/msgpack/base_iterator.go:249) *)
Definition read_bool (d : bytes) : (bool * bytes) + merr :=
  match d with
  | [] => inr EndOfInput
  | b :: d => if bz b =? 194 then inl (false, d) else if bz b =? 195 then inl (true, d) else inr Malformed
  end.
(** [DecodeFloat64] (external vmihailenco/msgpack, called at
    encoding/msgpack/base_iterator.go:258) *)
Definition read_float64 (d : bytes) : (Z * bytes) + merr :=
  match d with
  | [] => inr EndOfInput
  | b :: d => if bz b =? 203 then read_uint 8 d else inr Malformed
  end.

(** [Skip] of one value, up to the elements of an array or map: how many values remain to be skipped because of it, and
    what follows.
    (external vmihailenco/msgpack, called at encoding/msgpack/base_iterator.go:290-305) *)
Definition skip_n (n : Z) (d : bytes) : (Z * bytes) + merr :=
  match take n d with inl (_, d) => inl (0, d) | inr e => inr e end.
(** A value with its length before it: part of [Skip],
    encoding/msgpack/base_iterator.go:290-305. *)
Definition skip_len (k extra : Z) (d : bytes) : (Z * bytes) + merr :=
  match read_uint k d with inl (n, d) => skip_n (n + extra) d | inr e => inr e end.
(** An array or map, the number of elements first: part of [Skip],
    encoding/msgpack/base_iterator.go:290-305. *)
Definition skip_count (k per : Z) (d : bytes) : (Z * bytes) + merr :=
  match read_uint k d with inl (n, d) => inl (per * n, d) | inr e => inr e end.
(** [Skip] by the first byte (external vmihailenco/msgpack, called at
    encoding/msgpack/base_iterator.go:290-305). *)
Definition skip_head (d : bytes) : (Z * bytes) + merr :=
  match d with
  | [] => inr EndOfInput
  | b :: d =>
      let c := bz b in
      if c <? 128 then inl (0, d)
      else if 224 <=? c then inl (0, d)
      else if c <? 144 then inl (2 * (c - 128), d)
      else if c <? 160 then inl (c - 144, d)
      else if c <? 192 then skip_n (c - 160) d
      else if (c =? 192) || (c =? 194) || (c =? 195) then inl (0, d)
      else if (c =? 204) || (c =? 208) then skip_n 1 d
      else if (c =? 205) || (c =? 209) then skip_n 2 d
      else if (c =? 206) || (c =? 210) || (c =? 202) then skip_n 4 d
      else if (c =? 207) || (c =? 211) || (c =? 203) then skip_n 8 d
      else if (c =? 196) || (c =? 217) then skip_len 1 0 d
      else if (c =? 197) || (c =? 218) then skip_len 2 0 d
      else if (c =? 198) || (c =? 219) then skip_len 4 0 d
      else if c =? 220 then skip_count 2 1 d
      else if c =? 221 then skip_count 4 1 d
      else if c =? 222 then skip_count 2 2 d
      else if c =? 223 then skip_count 4 2 d
      else if c =? 212 then skip_n 2 d
      else if c =? 213 then skip_n 3 d
      else if c =? 214 then skip_n 5 d
      else if c =? 215 then skip_n 9 d
      else if c =? 216 then skip_n 17 d
      else if c =? 199 then skip_len 1 1 d
      else if c =? 200 then skip_len 2 1 d
      else if c =? 201 then skip_len 4 1 d
      else inr Malformed
  end.

(** [n] calls of [Skip].  The library recurses into arrays and maps; here the values left to skip are counted.  Every
    value takes a byte at least, so the fuel, one more than the number of bytes, suffices.
    (encoding/msgpack/base_iterator.go:290-305) *)
Fixpoint skip_loop (fuel : nat) (n : Z) (d : bytes) : bytes + merr :=
  if n <=? 0 then inl d
  else
    match fuel with
    | O => inr EndOfInput
    | S fuel =>
        match skip_head d with
        | inr e => inr e
        | inl (k, d) => skip_loop fuel (n - 1 + k) d
        end
    end.
(** encoding/msgpack/base_iterator.go:290-305 [baseIterator.skip] *)
Definition skip_values (n : Z) (d : bytes) : bytes + merr := skip_loop (S (length d)) n d.
