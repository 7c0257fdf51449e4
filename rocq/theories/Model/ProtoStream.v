(** Model of encoding/protobuf: the stream encoder with its pooled buffers, and the stream
    iterator.  [int] is 64 bits wide; sizes are converted through float64 by [math.Max], which is
    exact below 2^53. *)
From Coq Require Import Ascii String NArith ZArith Bool Arith List.
From Verif.Base Require Import Bytes Slice.
From Verif.Model Require Import AggType Policy Transformation Pipeline Metadata ProtoWire Messages.
Import ListNotations.
Open Scope Z_scope.

(** * Memory: byte arrays and the bytes pool

    An array has an address and as many bytes as its capacity.  [h_free] holds the arrays given to
    the pool (m3x/pool, external: a [Get] returns an array of sufficient capacity that is new or
    was given back before and not handed out since; which one is the caller's oracle [choice]).
    Used by encoding/protobuf/buffer.go:71-99. *)
Record heap := mk_heap { h_data : nat -> bytes; h_next : nat; h_free : list nat }.
(** The memory at the start (encoding/protobuf/buffer.go:71-99). *)
Definition empty_heap : heap := mk_heap (fun _ => []) 0 [].

(** Which array [pool.BytesPool.Get] hands out (external, called at
    encoding/protobuf/buffer.go:93-99). *)
Inductive choice := Fresh (junk : bytes) | Reuse (k : nat).

(** A new array: [make] at encoding/protobuf/buffer.go:93-99. *)
Definition h_new (d : bytes) (h : heap) : nat * heap :=
  (h_next h, mk_heap (fun a => if Nat.eqb a (h_next h) then d else h_data h a) (S (h_next h)) (h_free h)).
(** The content of an array from [make] at encoding/protobuf/buffer.go:93-99. *)
Definition zeros (n : Z) : bytes := repeat zero (Z.to_nat n).

(** [pool.BytesPool.Get]  (external, called at encoding/protobuf/buffer.go:93-99) *)
Definition h_get (target : Z) (c : choice) (h : heap) : nat * heap :=
  match c with
  | Fresh junk => if target <=? zlen junk then h_new junk h else h_new (zeros target) h
  | Reuse k =>
      match nth_error (h_free h) k with
      | None => h_new (zeros target) h
      | Some a =>
          if target <=? zlen (h_data h a)
          then (a, mk_heap (h_data h) (h_next h) (firstn k (h_free h) ++ skipn (S k) (h_free h)))
          else h_new (zeros target) h
      end
  end.
(** [pool.BytesPool.Put]
    (external, called at encoding/protobuf/buffer.go:48-58,71-91 and encoding/protobuf/unaggregated_encoder.go:95) *)
Definition h_put (a : nat) (h : heap) : heap := mk_heap (h_data h) (h_next h) (a :: h_free h).

(** Writing [d] at offset [off]; the caller checks that it fits.
    ([copy] and the writes at encoding/protobuf/unaggregated_encoder.go:99,206-218) *)
Definition splice (old : bytes) (off : nat) (d : bytes) : bytes :=
  firstn off old ++ d ++ skipn (off + length d) old.
(** The same in memory (encoding/protobuf/unaggregated_encoder.go:99,206-218). *)
Definition h_write (a : nat) (off : Z) (d : bytes) (h : heap) : heap :=
  mk_heap (fun x => if Nat.eqb x a then splice (h_data h a) (Z.to_nat off) d else h_data h x)
    (h_next h) (h_free h).

(** encoding/protobuf/buffer.go:93-99 [allocate] *)
Definition allocate (pool : bool) (target : Z) (c : choice) (h : heap) : nat * heap :=
  if pool then h_get target c h else h_new (zeros target) h.

(** The length of a buffer that is always a whole array, or nil.
    ([len(buf)] at encoding/protobuf/buffer.go:71-91) *)
Definition buf_len (h : heap) (buf : option nat) : Z :=
  match buf with None => 0 | Some a => zlen (h_data h a) end.
(** Giving a buffer back if there is one and a pool:
    encoding/protobuf/unaggregated_encoder.go:94-96. *)
Definition put_buf (pool : bool) (buf : option nat) (h : heap) : heap :=
  match buf with Some a => if pool then h_put a h else h | None => h end.

(** encoding/protobuf/buffer.go:71-91 [ensureBufferSize] with [copyData] *)
Definition ensure_buffer (buf : option nat) (pool : bool) (target : Z) (c : choice) (h : heap)
  : option nat * heap :=
  let n := buf_len h buf in
  if target <=? n then (buf, h)
  else
    let '(a, h1) := allocate pool (Z.max target (n * 2)) c h in
    let old := match buf with None => [] | Some b => h_data h1 b end in
    let h2 := h_write a 0 old h1 in
    (Some a, put_buf pool buf h2).

(** * The encoder: encoding/protobuf/unaggregated_encoder.go *)

(** 62-77 *)
Record encoder := mk_enc {
  e_pool : bool; e_init : Z; e_max : Z;
  e_cm : cm_pb_of slice; e_bm : bm_pb_of slice; e_gm : gm_pb_of slice;
  e_fm : fwm_pb_of slice; e_tm : tdm_pb;
  e_buf : option nat; e_used : Z }.

(** Assignment to [buf] and [used], encoding/protobuf/unaggregated_encoder.go:71-72. *)
Definition with_buf (e : encoder) (b : option nat) (u : Z) : encoder :=
  mk_enc (e_pool e) (e_init e) (e_max e) (e_cm e) (e_bm e) (e_gm e) (e_fm e) (e_tm e) b u.

(** 93-101 [Reset]; the initial data is copied. *)
Definition enc_reset (d : bytes) (c : choice) (e : encoder) (h : heap) : encoder * heap :=
  let h := put_buf (e_pool e) (e_buf e) h in
  let '(a, h) := allocate (e_pool e) (Z.max (e_init e) (zlen d)) c h in
  (with_buf e (Some a) (zlen d), h_write a 0 d h).

(** 79-90 [NewUnaggregatedEncoder] *)
Definition zero_fm_pb_s : fm_pb_of slice := mk_fm_pb 0%N empty_sp_pb nil_slice 0 0.
(** encoding/protobuf/unaggregated_encoder.go:80-84: the encoder before its first
    [Reset]. *)
Definition blank_encoder (pool : bool) (init max : Z) : encoder :=
  mk_enc pool init max
    (mk_cm_pb zero_counter_pb nil_slice) (mk_bm_pb zero_timer_pb nil_slice) (mk_gm_pb zero_gauge_pb nil_slice)
    (mk_fwm_pb zero_forwarded_pb zero_fm_pb_s) zero_tdm_pb None 0.
(** encoding/protobuf/unaggregated_encoder.go:79-89 [NewUnaggregatedEncoder] *)
Definition new_encoder (pool : bool) (init max : Z) (c : choice) (h : heap) : encoder * heap :=
  enc_reset [] c (blank_encoder pool init max) h.

(** 103-109 [Truncate]: new state and whether it succeeded *)
Definition enc_truncate (n : Z) (e : encoder) : encoder * bool :=
  if (n <? 0) || (e_used e <? n) then (e, false) else (with_buf e (e_buf e) n, true).

(** encoding/protobuf/buffer.go:29-39 [Buffer], [NewBuffer] *)
Record buffer := mk_buffer { b_arr : option nat; b_len : Z; b_pool : bool; b_closed : bool }.

(** 111-116 [Relinquish] *)
Definition enc_relinquish (e : encoder) : buffer * encoder :=
  (mk_buffer (e_buf e) (e_used e) (e_pool e) false, with_buf e None 0).

(** encoding/binary (standard library) [PutVarint]: zigzag, then base 128.
    Called at encoding/protobuf/unaggregated_encoder.go:206-209. *)
Definition zigzag (n : Z) : Z := if n <? 0 then -2 * n - 1 else 2 * n.

(** 36 [maxMessageSizeInBytes]  (encoding/protobuf/unaggregated_encoder.go:37) *)
Definition max_size_bytes : Z := 5.

(** What an operation of the encoder comes to.
    (encoding/protobuf/unaggregated_encoder.go:118-133 [unaggregatedEncoder.EncodeMessage]) *)
Inductive enc_result := EncOk (e : encoder) (h : heap) | EncErr (e : encoder) (h : heap) | EncPanic.

(** encoding/protobuf/unaggregated_encoder.go:190-199 [encodeMetricWithMetadatas], 206-209 [encodeMessageSize], 211-218 [encodeMessage]: writing beyond the
    end of the buffer panics. *)
Definition enc_mm (pb : mm_pb) (c : choice) (e : encoder) (h : heap) : enc_result :=
  let sz := size mm_fields pb in
  if e_max e <? sz then EncErr e h
  else
    let '(buf, h) := ensure_buffer (e_buf e) (e_pool e) (e_used e + (max_size_bytes + sz)) c h in
    match buf with
    | None => EncPanic
    | Some a =>
        let prefix := enc_varint (zigzag sz) in
        if zlen (h_data h a) <? e_used e + zlen prefix then EncPanic
        else
          let h := h_write a (e_used e) prefix h in
          let body := marshal mm_fields pb in
          let used := e_used e + zlen prefix in
          if zlen (h_data h a) <? used + zlen body then EncPanic
          else EncOk (with_buf e buf (used + zlen body)) (h_write a used body h)
    end.

(** 135-188: conversion into the reused message of the encoder.  A failed conversion leaves that message half
    written; here it is left as it was, and no later result depends on what it holds. *)
Definition enc_counter (x : counter) (ms : staged_metadatas) (c : choice) (e : encoder) (h : heap) : enc_result :=
  match cm_to_proto x ms (e_cm e) with
  | None => EncErr e h
  | Some p =>
      enc_mm (mk_mm 1 (Some (cm_pb_content p)) None None None None) c
        (mk_enc (e_pool e) (e_init e) (e_max e) p (e_bm e) (e_gm e) (e_fm e) (e_tm e) (e_buf e) (e_used e)) h
  end.
(** encoding/protobuf/unaggregated_encoder.go:146-155
    [unaggregatedEncoder.encodeBatchTimerWithMetadatas] *)
Definition enc_timer (x : batch_timer) (ms : staged_metadatas) (c : choice) (e : encoder) (h : heap) : enc_result :=
  match bm_to_proto x ms (e_bm e) with
  | None => EncErr e h
  | Some p =>
      enc_mm (mk_mm 2 None (Some (bm_pb_content p)) None None None) c
        (mk_enc (e_pool e) (e_init e) (e_max e) (e_cm e) p (e_gm e) (e_fm e) (e_tm e) (e_buf e) (e_used e)) h
  end.
(** encoding/protobuf/unaggregated_encoder.go:157-166
    [unaggregatedEncoder.encodeGaugeWithMetadatas] *)
Definition enc_gauge (x : gauge) (ms : staged_metadatas) (c : choice) (e : encoder) (h : heap) : enc_result :=
  match gm_to_proto x ms (e_gm e) with
  | None => EncErr e h
  | Some p =>
      enc_mm (mk_mm 3 None None (Some (gm_pb_content p)) None None) c
        (mk_enc (e_pool e) (e_init e) (e_max e) (e_cm e) (e_bm e) p (e_fm e) (e_tm e) (e_buf e) (e_used e)) h
  end.
(** encoding/protobuf/unaggregated_encoder.go:168-177
    [unaggregatedEncoder.encodeForwardedMetricWithMetadata] *)
Definition enc_forwarded (x : forwarded) (m : forward_metadata) (c : choice) (e : encoder) (h : heap) : enc_result :=
  match fwm_to_proto x m (e_fm e) with
  | None => EncErr e h
  | Some p =>
      enc_mm (mk_mm 4 None None None (Some (fwm_pb_content p)) None) c
        (mk_enc (e_pool e) (e_init e) (e_max e) (e_cm e) (e_bm e) (e_gm e) p (e_tm e) (e_buf e) (e_used e)) h
  end.
(** encoding/protobuf/unaggregated_encoder.go:179-188
    [unaggregatedEncoder.encodeTimedMetricWithMetadata] *)
Definition enc_timed (x : timed) (m : timed_metadata) (c : choice) (e : encoder) (h : heap) : enc_result :=
  match tdm_to_proto x m (e_tm e) with
  | None => EncErr e h
  | Some p =>
      enc_mm (mk_mm 5 None None None None (Some p)) c
        (mk_enc (e_pool e) (e_init e) (e_max e) (e_cm e) (e_bm e) (e_gm e) (e_fm e) p (e_buf e) (e_used e)) h
  end.

(** 118-133 [EncodeMessage] *)
Definition enc_message (u : union_of list) (c : choice) (e : encoder) (h : heap) : enc_result :=
  if u_type u =? 1 then enc_counter (u_counter u) (u_counter_metas u) c e h
  else if u_type u =? 2 then enc_timer (u_timer u) (u_timer_metas u) c e h
  else if u_type u =? 3 then enc_gauge (u_gauge u) (u_gauge_metas u) c e h
  else if u_type u =? 4 then enc_forwarded (u_forwarded u) (u_forward_meta u) c e h
  else if u_type u =? 5 then enc_timed (u_timed u) (u_timed_meta u) c e h
  else EncErr e h.

(** What the encoder has accumulated: [buf[:used]].
    (encoding/protobuf/unaggregated_encoder.go:71-72) *)
Definition enc_bytes (h : heap) (e : encoder) : bytes :=
  match e_buf e with None => [] | Some a => firstn (Z.to_nat (e_used e)) (h_data h a) end.

(** encoding/protobuf/buffer.go:42 [Bytes]; 45 [Truncate], which panics beyond the capacity ([None]); 48-58
    [Close] *)
Definition buf_bytes (h : heap) (b : buffer) : bytes :=
  match b_arr b with None => [] | Some a => firstn (Z.to_nat (b_len b)) (h_data h a) end.
(** encoding/protobuf/buffer.go:45 [Buffer.Truncate] *)
Definition buf_truncate (n : Z) (h : heap) (b : buffer) : option buffer :=
  if (n <? 0) || (buf_len h (b_arr b) <? n) then None
  else Some (mk_buffer (b_arr b) n (b_pool b) (b_closed b)).
(** encoding/protobuf/buffer.go:48-58 [Buffer.Close] *)
Definition buf_close (b : buffer) (h : heap) : buffer * heap :=
  if b_closed b then (b, h) else (mk_buffer None 0 false true, put_buf (b_pool b) (b_arr b) h).

(** * The iterator: encoding/protobuf/unaggregated_iterator.go

    The reader is the bytes it has left; at their end it returns [io.EOF].  The iterator's own
    buffer is filled completely before it is read, so its previous content does not matter. *)
Inductive decode_error := EOF | UnexpectedEOF | VarintOverflow | TooLarge | BadWire | BadType | BadMessage.

(** encoding/binary (standard library, Go 1.9 and 1.10) [ReadUvarint]: an error of the reader is returned as it
    is; the length is checked at the last byte only.
    Called under encoding/protobuf/unaggregated_iterator.go [decodeSize]. *)
Fixpoint read_uvarint (i : Z) (w acc : Z) (d : bytes) : (Z * bytes) + decode_error :=
  match d with
  | [] => inr EOF
  | b :: d =>
      if bz b <? 128 then
        if (9 <? i) || ((i =? 9) && (1 <? bz b)) then inr VarintOverflow
        else inl (acc + bz b * w, d)
      else read_uvarint (i + 1) (w * 128) (acc + (bz b mod 128) * w) d
  end.
(** [ReadVarint]  (called under encoding/protobuf/unaggregated_iterator.go [decodeSize]) *)
Definition unzigzag (u : Z) : Z := if Z.even u then u / 2 else - (u / 2) - 1.
(** [binary.ReadVarint], called at encoding/protobuf/unaggregated_iterator.go
    [decodeSize]. *)
Definition read_varint (d : bytes) : (Z * bytes) + decode_error :=
  match read_uvarint 0 1 0 d with
  | inl (u, r) => inl (unzigzag u, r)
  | inr e => inr e
  end.

(** [io.ReadFull] of [n] bytes
    (called at encoding/protobuf/unaggregated_iterator.go [decodeMessage]) *)
Definition read_full (n : Z) (d : bytes) : (bytes * bytes) + decode_error :=
  if n <=? zlen d then inl (firstn (Z.to_nat n) d, skipn (Z.to_nat n) d)
  else match d with [] => inr EOF | _ => inr UnexpectedEOF end.

(** 48-58 *)
Record iter := mk_iter {
  i_in : bytes; i_max : Z; i_closed : bool; i_pb : mm_pb; i_msg : union_of slice; i_err : option decode_error }.

(** What [Next] comes to: true, false, or a panic.
    (encoding/protobuf/unaggregated_iterator.go:93-110 [unaggregatedIterator.Next]) *)
Inductive next_result := More (it : iter) | Stop (it : iter) | Crash.

(** [it.err = err; return false/err] in encoding/protobuf/unaggregated_iterator.go. *)
Definition stop_with (it : iter) (e : decode_error) : next_result :=
  Stop (mk_iter (i_in it) (i_max it) (i_closed it) (i_pb it) (i_msg it) (Some e)).

(** 136-155: conversion of the message just read into the reused union.  A failed conversion leaves the union
    half written; here it is left as it was, as iteration has ended. *)
Definition from_mm (pb : mm_pb) (u : union_of slice) : (union_of slice) + decode_error :=
  let ok o := match o with Some u => inl u | None => inr BadMessage end in
  if mm_type pb =? 1 then ok (cm_from_proto (mm_counter pb) u)
  else if mm_type pb =? 2 then ok (bm_from_proto (mm_timer pb) u)
  else if mm_type pb =? 3 then ok (gm_from_proto (mm_gauge pb) u)
  else if mm_type pb =? 4 then ok (fwm_from_proto (mm_forwarded pb) u)
  else if mm_type pb =? 5 then ok (tdm_from_proto (mm_timed pb) u)
  else inr BadType.

(** 125-156 [decodeMessage]; [buf[:size]] panics for a negative size. *)
Definition decode_message (size : Z) (it : iter) : next_result :=
  if size <? 0 then Crash
  else
    match read_full size (i_in it) with
    | inr e => stop_with it e
    | inl (d, rest) =>
        let it := mk_iter rest (i_max it) (i_closed it) (reset_mm (i_pb it)) (i_msg it) (i_err it) in
        match unmarshal mm_fields d (i_pb it) with
        | Panic => Crash
        | Err => stop_with it BadWire
        | Ok pb =>
            match from_mm pb (i_msg it) with
            | inr e => stop_with it e
            | inl u => More (mk_iter rest (i_max it) (i_closed it) pb u None)
            end
        end
    end.

(** 93-110 [Next] *)
Definition next (it : iter) : next_result :=
  match i_err it, i_closed it with
  | None, false =>
      match read_varint (i_in it) with
      | inr e => stop_with it e
      | inl (size, rest) =>
          let it := mk_iter rest (i_max it) (i_closed it) (i_pb it) (i_msg it) (i_err it) in
          if i_max it <? size then stop_with it TooLarge
          else decode_message size it
      end
  | _, _ => Stop it
  end.

(** 60-72 [NewUnaggregatedIterator]; 74-88 [Close] *)
Definition zero_union : union_of slice :=
  mk_union 0 (mk_counter [] 0) nil_slice (mk_timer [] []) nil_slice (mk_gauge [] 0) nil_slice
    (mk_forwarded 0 [] 0 []) (mk_fm 0%N empty_storage_policy nil_slice 0 0) (mk_timed 0 [] 0 0)
    {| tm_agg := 0%N; tm_sp := empty_storage_policy |}.
(** encoding/protobuf/unaggregated_iterator.go:61-72 [NewUnaggregatedIterator] *)
Definition new_iter (d : bytes) (max : Z) : iter := mk_iter d max false zero_mm zero_union None.
(** encoding/protobuf/unaggregated_iterator.go:74-88 [unaggregatedIterator.Close] *)
Definition close_iter (it : iter) : iter :=
  if i_closed it then it else mk_iter [] (i_max it) true zero_mm zero_union None.

(** * A program using several encoders and relinquished buffers over one pool

    [s_held] are arrays held by other users of the pool (iterators, for instance), who may write
    to what they hold.  The results of the operations are what the API returns.
    (encoding/protobuf/unaggregated_encoder.go, encoding/protobuf/buffer.go) *)
Record system := mk_sys { s_heap : heap; s_encs : list encoder; s_bufs : list buffer; s_held : list nat }.
(** No encoders yet (encoding/protobuf/unaggregated_encoder.go). *)
Definition empty_system : system := mk_sys empty_heap [] [] [].

(** The methods of encoding/protobuf/unaggregated_encoder.go:41-59
    [UnaggregatedEncoder] and encoding/protobuf/buffer.go:30-34 [Buffer]. *)
Inductive op :=
| New (pool : bool) (init max : Z)
| Reset (i : nat) (d : bytes)
| Encode (i : nat) (u : union_of list)
| Truncate (i : nat) (n : Z)
| Relinquish (i : nat)
| BufTruncate (j : nat) (n : Z)
| BufClose (j : nat)
| OtherGet (n : Z)
| OtherWrite (k : nat) (d : bytes)
| OtherPut (k : nat).

(** One encoder or buffer of several changes
    (encoding/protobuf/unaggregated_encoder.go:61-76). *)
Definition set_nth {A} (l : list A) (i : nat) (a : A) : list A := firstn i l ++ a :: skipn (S i) l.
(** One encoder and the memory change (encoding/protobuf/unaggregated_encoder.go:61-76). *)
Definition set_enc (s : system) (i : nat) (e : encoder) (h : heap) : system :=
  mk_sys h (set_nth (s_encs s) i e) (s_bufs s) (s_held s).

(** [None] is a panic; the boolean is false when an error is returned.
    (encoding/protobuf/unaggregated_encoder.go:91-218, encoding/protobuf/buffer.go:42-58) *)
Definition run_op (s : system) (o : op) (c : choice) : option (system * bool) :=
  match o with
  | New pool init max =>
      let '(e, h) := new_encoder pool init max c (s_heap s) in
      Some (mk_sys h (s_encs s ++ [e]) (s_bufs s) (s_held s), true)
  | Reset i d =>
      match nth_error (s_encs s) i with
      | None => Some (s, false)
      | Some e => let '(e, h) := enc_reset d c e (s_heap s) in Some (set_enc s i e h, true)
      end
  | Encode i u =>
      match nth_error (s_encs s) i with
      | None => Some (s, false)
      | Some e =>
          match enc_message u c e (s_heap s) with
          | EncOk e h => Some (set_enc s i e h, true)
          | EncErr e h => Some (set_enc s i e h, false)
          | EncPanic => None
          end
      end
  | Truncate i n =>
      match nth_error (s_encs s) i with
      | None => Some (s, false)
      | Some e => let '(e, ok) := enc_truncate n e in Some (set_enc s i e (s_heap s), ok)
      end
  | Relinquish i =>
      match nth_error (s_encs s) i with
      | None => Some (s, false)
      | Some e =>
          let '(b, e) := enc_relinquish e in
          Some (mk_sys (s_heap s) (set_nth (s_encs s) i e) (s_bufs s ++ [b]) (s_held s), true)
      end
  | BufTruncate j n =>
      match nth_error (s_bufs s) j with
      | None => Some (s, false)
      | Some b =>
          match buf_truncate n (s_heap s) b with
          | None => None
          | Some b => Some (mk_sys (s_heap s) (s_encs s) (set_nth (s_bufs s) j b) (s_held s), true)
          end
      end
  | BufClose j =>
      match nth_error (s_bufs s) j with
      | None => Some (s, false)
      | Some b =>
          let '(b, h) := buf_close b (s_heap s) in
          Some (mk_sys h (s_encs s) (set_nth (s_bufs s) j b) (s_held s), true)
      end
  | OtherGet n =>
      let '(a, h) := h_get n c (s_heap s) in
      Some (mk_sys h (s_encs s) (s_bufs s) (s_held s ++ [a]), true)
  | OtherWrite k d =>
      match nth_error (s_held s) k with
      | None => Some (s, false)
      | Some a =>
          if zlen (h_data (s_heap s) a) <? zlen d then Some (s, false)
          else Some (mk_sys (h_write a 0 d (s_heap s)) (s_encs s) (s_bufs s) (s_held s), true)
      end
  | OtherPut k =>
      match nth_error (s_held s) k with
      | None => Some (s, false)
      | Some a =>
          Some (mk_sys (h_put a (s_heap s)) (s_encs s) (s_bufs s)
                  (firstn k (s_held s) ++ skipn (S k) (s_held s)), true)
      end
  end.
