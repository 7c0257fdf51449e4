(** Model of the buffered encoders of encoding/msgpack/buffered_encoder.go and of their pool,
    encoding/msgpack/buffered_encoder_pool.go, with their memory.  Definitions only.

    An encoder's buffer is a [bytes.Buffer] that is only written, cut to nothing and looked at, so it is an array and how
    much of it is in use.  The objects of the pool are handed out and dropped as the pool of m3x likes: which one [Get] hands out,
    whether it makes a new one and whether [Put] keeps one are parameters of the operations and can be anything. *)
From Coq Require Import Ascii Arith Bool List.
From Verif.Base Require Import Bytes.
Import ListNotations.

(** encoding/msgpack/buffered_encoder.go:29-35 [bufferedEncoder]: the array of [buf], its length in use, [closed], and whether there
    is a pool.  The embedded msgpack encoder writes to [buf] and is not modelled otherwise. *)
Record encoder := mk_encoder { e_array : nat; e_len : nat; e_closed : bool; e_pooled : bool }.

(** The memory: arrays and encoders, those from [w_arrays] and [w_encoders] on are not in use; and the objects in the pool
    (encoding/msgpack/buffered_encoder_pool.go:25-28).  The length of an array is its capacity. *)
Record world := mk_world {
  w_array : nat -> bytes; w_arrays : nat; w_encoder : nat -> encoder; w_encoders : nat; w_pool : list nat }.

(** Changing one entry (assignment, e.g. encoding/msgpack/buffered_encoder.go:62). *)
Definition put {A} (f : nat -> A) (i : nat) (x : A) : nat -> A := fun j => if Nat.eqb j i then x else f j.

(** Before anything is made (encoding/msgpack/buffered_encoder_pool.go:31-39) *)
Definition empty_world : world := mk_world (fun _ => []) 0 (fun _ => mk_encoder 0 0 true false) 0 [].

(** The operations.  [New]: 49-55 with an initial size, with the pool or without; [Get i n]: 47-49 of the pool, which hands out its [i]th object, or, if there is none,
    a new one of size [n] (41-45); [Reset], [Write], [Look] and [Close]: buffered_encoder.go:61-64, a write to the buffer (57, and by the
    msgpack encoder, 52) with [room] spare bytes if it has to grow, 59 and 66-74, where [keep] says whether the pool has room; [Give]: 51-56 of the pool, called by a user.
    (encoding/msgpack/buffered_encoder.go:37-74, encoding/msgpack/buffered_encoder_pool.go:41-56) *)
Inductive op :=
| New (size : nat) (pooled : bool)
| Get (i size : nat)
| Reset (e : nat)
| Write (e : nat) (p : bytes) (room : nat)
| Look (e : nat)
| Close (e : nat) (keep : bool)
| Give (e : nat) (keep : bool).

(** What an operation gives: an encoder, a slice (its array and length), or nothing. (encoding/msgpack/types.go:41-66) *)
Inductive answer := AnEncoder (e : nat) | ASlice (a n : nat) | Nothing.

(** encoding/msgpack/buffered_encoder.go:49-55 [NewPooledBufferedEncoderSize] *)
Definition new_encoder (w : world) (size : nat) (pooled : bool) : world * answer :=
  (mk_world (put (w_array w) (w_arrays w) (repeat Ascii.zero size)) (S (w_arrays w))
     (put (w_encoder w) (w_encoders w) (mk_encoder (w_arrays w) 0 false pooled)) (S (w_encoders w)) (w_pool w),
   AnEncoder (w_encoders w)).

(** [append(l[:i], l[i+1:]...)]: what is left of the pool's objects (encoding/msgpack/buffered_encoder_pool.go:47-49) *)
Definition drop_nth {A} (i : nat) (l : list A) : list A := firstn i l ++ skipn (S i) l.

(** encoding/msgpack/buffered_encoder_pool.go:47-49 [Get] *)
Definition get_encoder (w : world) (i size : nat) : world * answer :=
  match nth_error (w_pool w) i with
  | Some e => (mk_world (w_array w) (w_arrays w) (w_encoder w) (w_encoders w) (drop_nth i (w_pool w)), AnEncoder e)
  | None => new_encoder w size true
  end.

(** encoding/msgpack/buffered_encoder.go:61-64 [Reset] *)
Definition reset_encoder (w : world) (e : nat) : world * answer :=
  let x := w_encoder w e in
  (mk_world (w_array w) (w_arrays w) (put (w_encoder w) e (mk_encoder (e_array x) 0 false (e_pooled x))) (w_encoders w) (w_pool w),
   Nothing).

(** [bytes.Buffer.Write] by the msgpack encoder (encoding/msgpack/buffered_encoder.go:52): in place if there is room, otherwise in a
    new array with what was there. *)
Definition write_encoder (w : world) (e : nat) (p : bytes) (room : nat) : world * answer :=
  let x := w_encoder w e in
  let old := w_array w (e_array x) in
  let n := e_len x + length p in
  if n <=? length old then
    (mk_world (put (w_array w) (e_array x) (firstn (e_len x) old ++ p ++ skipn n old)) (w_arrays w)
       (put (w_encoder w) e (mk_encoder (e_array x) n (e_closed x) (e_pooled x))) (w_encoders w) (w_pool w), Nothing)
  else
    (mk_world (put (w_array w) (w_arrays w) (firstn (e_len x) old ++ p ++ repeat Ascii.zero room)) (S (w_arrays w))
       (put (w_encoder w) e (mk_encoder (w_arrays w) n (e_closed x) (e_pooled x))) (w_encoders w) (w_pool w), Nothing).

(** encoding/msgpack/buffered_encoder_pool.go:51-56 [Put] *)
Definition put_pool (max : nat) (w : world) (e : nat) (keep : bool) : list nat :=
  if max <? length (w_array w (e_array (w_encoder w e))) then w_pool w
  else if keep then w_pool w ++ [e] else w_pool w.

(** encoding/msgpack/buffered_encoder.go:66-74 [Close] *)
Definition close_encoder (max : nat) (w : world) (e : nat) (keep : bool) : world * answer :=
  let x := w_encoder w e in
  if e_closed x then (w, Nothing)
  else
    (mk_world (w_array w) (w_arrays w) (put (w_encoder w) e (mk_encoder (e_array x) (e_len x) true (e_pooled x))) (w_encoders w)
       (if e_pooled x then put_pool max w e keep else w_pool w), Nothing).

(** An operation; [max] is the pool's maximum capacity  (encoding/msgpack/buffered_encoder.go:37-74, encoding/msgpack/buffered_encoder_pool.go:41-56) *)
Definition step (max : nat) (w : world) (o : op) : world * answer :=
  match o with
  | New size pooled => new_encoder w size pooled
  | Get i size => get_encoder w i size
  | Reset e => reset_encoder w e
  | Write e p room => write_encoder w e p room
  | Look e => (w, ASlice (e_array (w_encoder w e)) (e_len (w_encoder w e)))
  | Close e keep => close_encoder max w e keep
  | Give e keep =>
      (mk_world (w_array w) (w_arrays w) (w_encoder w) (w_encoders w) (put_pool max w e keep), Nothing)
  end.

(** What a slice shows now  (encoding/msgpack/buffered_encoder.go:59 [Bytes]) *)
Definition shows (w : world) (a n : nat) : bytes := firstn n (w_array w a).
