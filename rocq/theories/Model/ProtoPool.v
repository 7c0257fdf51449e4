(** Model of the protobuf iterators of encoding/protobuf/unaggregated_iterator.go with the buffer they read messages into, which they
    take from a pool of byte slices shared with encoders, relinquished buffers, other iterators and anybody else.  Definitions only.

    Between reading a message into its buffer and unmarshalling it another goroutine may run, so that [Next] is two steps here.  Unmarshalling copies what
    it keeps (generated code: [append(m.Id[:0], dAtA[iNdEx:postIndex]...)]), so that a message is a value as in ProtoStream. *)
From Coq Require Import Ascii String NArith ZArith Bool Arith List.
From Verif.Base Require Import Bytes Slice.
From Verif.Model Require Import AggType Policy Transformation Pipeline Metadata ProtoWire Messages ProtoStream.
Import ListNotations.
Open Scope Z_scope.

(** encoding/protobuf/unaggregated_iterator.go:48-58: [p_it] is all but the buffer and the pool, as it was before the call of [Next] that
    is going on, if there is one; then [p_todo] is the size of the message and what the reader has left behind it. *)
Record piter := mk_piter { p_it : iter; p_buf : option nat; p_pool : bool; p_todo : option (Z * bytes) }.

(** encoding/protobuf/unaggregated_iterator.go:61-72 [NewUnaggregatedIterator] over a reader of the bytes [d] *)
Definition iter_new (pool : bool) (init : Z) (d : bytes) (max : Z) (c : choice) (h : heap) : piter * heap :=
  let '(a, h) := allocate pool init c h in
  (mk_piter (new_iter d max) (Some a) pool None, h).

(** encoding/protobuf/buffer.go:71-91 [ensureBufferSize] with [dontCopyData],
    called at encoding/protobuf/unaggregated_iterator.go:121-123 *)
Definition ensure_uncopied (buf : option nat) (pool : bool) (target : Z) (c : choice) (h : heap) : option nat * heap :=
  let n := buf_len h buf in
  if target <=? n then (buf, h)
  else
    let '(a, h) := allocate pool (Z.max target (n * 2)) c h in
    (Some a, put_buf pool buf h).

(** What the buffer holds: [buf[:size]], encoding/protobuf/unaggregated_iterator.go:131 *)
Definition buf_prefix (h : heap) (buf : option nat) (size : Z) : bytes :=
  match buf with None => [] | Some a => firstn (Z.to_nat size) (h_data h a) end.

(** What a step of [Next] comes to: [Next] returns true or false; it goes on; or it panics.
    (encoding/protobuf/unaggregated_iterator.go:93-110) *)
Inductive stepped := Returned (more : bool) (p : piter) (h : heap) | GoesOn (p : piter) (h : heap) | Panics.

(** [it.err = err; return false], encoding/protobuf/unaggregated_iterator.go:112-131 *)
Definition stopped (it : iter) (e : decode_error) : iter :=
  mk_iter (i_in it) (i_max it) (i_closed it) (i_pb it) (i_msg it) (Some e).

(** encoding/protobuf/unaggregated_iterator.go:93-110 [Next] up to and with the reading into the buffer, 125-129: [io.ReadFull] writes what there is *)
Definition iter_start (c : choice) (p : piter) (h : heap) : stepped :=
  let it := p_it p in
  match i_err it, i_closed it with
  | None, false =>
      match read_varint (i_in it) with
      | inr e => Returned false (mk_piter (stopped it e) (p_buf p) (p_pool p) None) h
      | inl (size, rest) =>
          let it1 := mk_iter rest (i_max it) (i_closed it) (i_pb it) (i_msg it) (i_err it) in
          if i_max it <? size then Returned false (mk_piter (stopped it1 TooLarge) (p_buf p) (p_pool p) None) h
          else
            let '(buf, h) := ensure_uncopied (p_buf p) (p_pool p) size c h in
            if size <? 0 then Panics
            else
              let h := match buf with Some a => h_write a 0 (firstn (Z.to_nat size) rest) h | None => h end in
              match read_full size rest with
              | inr e => Returned false (mk_piter (stopped it1 e) buf (p_pool p) None) h
              | inl (_, rest) => GoesOn (mk_piter it buf (p_pool p) (Some (size, rest))) h
              end
      end
  | _, _ => Returned false p h
  end.

(** The rest of it, encoding/protobuf/unaggregated_iterator.go:130-156: unmarshalling from the buffer and conversion *)
Definition iter_finish (p : piter) (h : heap) : stepped :=
  match p_todo p with
  | None => GoesOn p h
  | Some (size, rest) =>
      let it := p_it p in
      let it1 := mk_iter rest (i_max it) (i_closed it) (reset_mm (i_pb it)) (i_msg it) (i_err it) in
      let done it := mk_piter it (p_buf p) (p_pool p) None in
      match unmarshal mm_fields (buf_prefix h (p_buf p) size) (i_pb it1) with
      | Panic => Panics
      | Err => Returned false (done (stopped it1 BadWire)) h
      | Ok pb =>
          match from_mm pb (i_msg it1) with
          | inr e => Returned false (done (stopped it1 e)) h
          | inl u => Returned true (done (mk_iter rest (i_max it) (i_closed it) pb u None)) h
          end
      end
  end.

(** encoding/protobuf/unaggregated_iterator.go:74-88 [Close] *)
Definition iter_close (p : piter) (h : heap) : piter * heap :=
  if i_closed (p_it p) then (p, h)
  else (mk_piter (close_iter (p_it p)) None false None, put_buf (p_pool p) (p_buf p) h).

(** Everybody who uses the pool: the encoders, relinquished buffers and others of ProtoStream, and iterators.
    (encoding/protobuf/unaggregated_encoder.go, encoding/protobuf/buffer.go, encoding/protobuf/unaggregated_iterator.go) *)
Record world := mk_world { x_sys : system; x_iters : list piter }.
(** Before anything is made (encoding/protobuf/unaggregated_options.go:56-60) *)
Definition empty_world : world := mk_world empty_system [].

(** The operations: those of ProtoStream, and those of iterators, with [Next] in two steps.
    (encoding/protobuf/unaggregated_iterator.go:34-46) *)
Inductive xop :=
| On (o : op)
| IterNew (pool : bool) (init : Z) (d : bytes) (max : Z)
| IterStart (k : nat)
| IterFinish (k : nat)
| IterClose (k : nat).

(** What is returned: by an operation on encoders or buffers; by [Next], with what [Current] shows; and that an iterator has been closed.
    (encoding/protobuf/unaggregated_iterator.go:34-46) *)
Inductive answer := Did (ok : bool) | Yes (u : union_of slice) | No | HasClosed | Nothing.

(** One iterator and the memory change (encoding/protobuf/unaggregated_iterator.go:48-58). *)
Definition set_iter (x : world) (k : nat) (p : piter) (h : heap) : world :=
  mk_world (mk_sys h (s_encs (x_sys x)) (s_bufs (x_sys x)) (s_held (x_sys x))) (set_nth (x_iters x) k p).

(** What a step of [Next] means for everything (encoding/protobuf/unaggregated_iterator.go:93-110) *)
Definition after_step (x : world) (k : nat) (r : stepped) : option (world * answer) :=
  match r with
  | Returned more p h => Some (set_iter x k p h, if more then Yes (i_msg (p_it p)) else No)
  | GoesOn p h => Some (set_iter x k p h, Nothing)
  | Panics => None
  end.

(** [None] is a panic.  An iterator is used by one goroutine, so that [Next] and [Close] are not called while a call of [Next] is going on: then nothing happens
    here.  (encoding/protobuf/unaggregated_iterator.go:61-156) *)
Definition step (x : world) (o : xop) (c : choice) : option (world * answer) :=
  match o with
  | On o =>
      match run_op (x_sys x) o c with
      | Some (s, ok) => Some (mk_world s (x_iters x), Did ok)
      | None => None
      end
  | IterNew pool init d max =>
      let '(p, h) := iter_new pool init d max c (s_heap (x_sys x)) in
      Some (mk_world (mk_sys h (s_encs (x_sys x)) (s_bufs (x_sys x)) (s_held (x_sys x))) (x_iters x ++ [p]), Nothing)
  | IterStart k =>
      match nth_error (x_iters x) k with
      | Some p => match p_todo p with None => after_step x k (iter_start c p (s_heap (x_sys x))) | Some _ => Some (x, Nothing) end
      | None => Some (x, Nothing)
      end
  | IterFinish k =>
      match nth_error (x_iters x) k with
      | Some p => after_step x k (iter_finish p (s_heap (x_sys x)))
      | None => Some (x, Nothing)
      end
  | IterClose k =>
      match nth_error (x_iters x) k with
      | Some p =>
          match p_todo p with
          | None => let '(p, h) := iter_close p (s_heap (x_sys x)) in Some (set_iter x k p h, HasClosed)
          | Some _ => Some (x, Nothing)
          end
      | None => Some (x, Nothing)
      end
  end.
