(** Model of the code gogoprotobuf generates for a message, as it stands in
    generated/proto/*/*pb.go: every [MarshalTo], [Size] and [Unmarshal] there is a sequence of
    the field patterns below.  Bytes are [list ascii]; numbers are unbounded integers truncated
    where Go truncates; [int] is 64 bits wide.  The line numbers cited are those of
    generated/proto/metricpb/metric.pb.go (or generated/proto/metricpb/metadata.pb.go, generated/proto/metricpb/composite.pb.go where said); the
    other generated files repeat them with other names. *)
From Coq Require Import Ascii String NArith ZArith Bool List.
From Verif.Base Require Import Bytes.
From Verif.Model Require Import Transformation.
Import ListNotations.
Open Scope Z_scope.

(** The value of a Go call: normal result, error, or a run-time panic that unwinds the caller.
    (generated/proto/metricpb/metric.pb.go, every [Unmarshal]) *)
Inductive res (A : Type) := Ok (a : A) | Err | Panic.
Arguments Ok {A} _.
Arguments Err {A}.
Arguments Panic {A}.

(** [if err != nil] after a call (generated/proto/metricpb/metric.pb.go). *)
Definition bind {A C} (r : res A) (f : A -> res C) : res C :=
  match r with Ok a => f a | Err => Err | Panic => Panic end.

(** A byte as a number (generated/proto/metricpb/metric.pb.go). *)
Definition bz (a : ascii) : Z := Z.of_N (N_of_ascii a).
(** A number as a byte, [uint8(v)] (generated/proto/metricpb/metric.pb.go:403-411). *)
Definition zb (z : Z) : ascii := ascii_of_N (Z.to_N z).
(** [len] (generated/proto/metricpb/metric.pb.go). *)
Definition zlen {A} (l : list A) : Z := Z.of_nat (length l).

(** Conversions to the Go types the decoders accumulate into.
    (generated/proto/metricpb/metric.pb.go:502-601) *)
Definition u64 (z : Z) : Z := z mod 2 ^ 64.
(** Conversion to uint32, e.g. generated/proto/metricpb/metadata.pb.go [SourceId]. *)
Definition u32 (z : Z) : Z := z mod 2 ^ 32.

(** * Variable length integers *)

(** 403-411 [encodeVarintMetric], for a uint64 [v]; ten bytes always suffice. *)
Fixpoint put_varint (k : nat) (v : Z) : bytes :=
  match k with
  | O => []
  | S k => if v <? 128 then [zb v] else zb (v mod 128 + 128) :: put_varint k (v / 128)
  end.
(** generated/proto/metricpb/metric.pb.go:403-411 [encodeVarintMetric] *)
Definition enc_varint (v : Z) : bytes := put_varint 10 v.

(** 489-498 [sovMetric] *)
Fixpoint sov_loop (k : nat) (x : Z) : Z :=
  match k with
  | O => 0
  | S k => 1 + (if x / 128 =? 0 then 0 else sov_loop k (x / 128))
  end.
(** generated/proto/metricpb/metric.pb.go:489-498 [sovMetric] *)
Definition sov (x : Z) : Z := sov_loop 10 x.

(** 509-522, the loop reading a varint: at most ten bytes, the value accumulated seven bits at a
    time.  The sum is returned untruncated; each use truncates it to the type of its variable,
    which is what shifting into that variable does. *)
Fixpoint get_varint (k : nat) (w acc : Z) (d : bytes) : res (Z * bytes) :=
  match k with
  | O => Err
  | S k =>
      match d with
      | [] => Err
      | b :: d =>
          let acc := acc + (bz b mod 128) * w in
          if bz b <? 128 then Ok (acc, d) else get_varint k (w * 128) acc d
      end
  end.
(** The loops reading a varint, as at generated/proto/metricpb/metric.pb.go:509-522. *)
Definition dec_varint (d : bytes) : res (Z * bytes) := get_varint 10 1 0 d.

(** [binary.LittleEndian.PutUint64] and [Uint64] (309-313, 772-778) *)
Fixpoint put_le (k : nat) (v : Z) : bytes :=
  match k with O => [] | S k => zb (v mod 256) :: put_le k (v / 256) end.
(** [binary.LittleEndian.Uint64], as at generated/proto/metricpb/metric.pb.go:772-778. *)
Fixpoint get_le (k : nat) (d : bytes) : option (Z * bytes) :=
  match k with
  | O => Some (0, d)
  | S k => match d with
           | [] => None
           | b :: d => match get_le k d with
                       | None => None
                       | Some (v, d) => Some (bz b + 256 * v, d)
                       end
           end
  end.

(** * Skipping a field nobody knows: 1116-1214 [skipMetric]

    The result is the number of bytes of the field, which may exceed what is there and wraps
    around as a 64 bit [int].  Running out of [fuel] would mean a loop that makes no progress and
    is reported as a panic; no input makes it happen. *)
Fixpoint skip_field (fuel : nat) (d : bytes) : res Z :=
  match fuel with
  | O => Panic
  | S fuel =>
      if zlen d =? 0 then Panic else
      bind (dec_varint d) (fun '(wire, rest) =>
      let wt := wire mod 8 in
      let idx := zlen d - zlen rest in
      if wt =? 0 then bind (dec_varint rest) (fun '(_, rest) => Ok (zlen d - zlen rest))
      else if wt =? 1 then Ok (idx + 8)
      else if wt =? 2 then
        bind (dec_varint rest) (fun '(v, rest) =>
        let len := to_int64 v in
        if len <? 0 then Err else Ok (to_int64 (zlen d - zlen rest + len)))
      else if wt =? 3 then
        (fix group (g : nat) (i : Z) : res Z :=
           match g with
           | O => Panic
           | S g =>
               if zlen d <=? i then Err
               else if i <? 0 then Panic
               else
                 let inner := skipn (Z.to_nat i) d in
                 bind (dec_varint inner) (fun '(wire, rest) =>
                 if wire mod 8 =? 4 then Ok (zlen d - zlen rest)
                 else bind (skip_field fuel inner) (fun n => group g (to_int64 (i + n))))
           end) (S (length d)) idx
      else if wt =? 4 then Ok idx
      else if wt =? 5 then Ok (idx + 4)
      else Err)
  end.

(** * Fields *)

(** One field of a message type [M]: its number, what it adds to [Size], what [MarshalTo] writes
    for it, and what its case in [Unmarshal] does given the length of the whole input, the wire
    type read and the bytes after the tag.
    (generated/proto/metricpb/metric.pb.go:236-263,412-424,502-601 for [Counter]) *)
Record field (M : Type) := mk_field {
  f_num : Z;
  f_size : M -> Z;
  f_enc : M -> bytes;
  f_dec : Z -> Z -> bytes -> M -> res (M * bytes) }.
Arguments mk_field {M} _ _ _ _.
Arguments f_num {M} _.
Arguments f_size {M} _ _.
Arguments f_enc {M} _ _.
Arguments f_dec {M} _ _ _ _ _.

(** A field's tag: all field numbers are below 16, so one byte.
    ([dAtA[i] = 0xa] and the like, generated/proto/metricpb/metric.pb.go:236-263) *)
Definition tag (num wt : Z) : bytes := [zb (num * 8 + wt)].

(** 236-253 [Counter.MarshalTo] *)
Definition marshal {M} (fs : list (field M)) (m : M) : bytes := concat (map (fun f => f_enc f m) fs).

(** 412-424 [Counter.Size] *)
Definition size {M} (fs : list (field M)) (m : M) : Z := fold_right (fun f n => f_size f m + n) 0 fs.

(** [switch fieldNum] in generated/proto/metricpb/metric.pb.go:502-601
    [Counter.Unmarshal] *)
Definition find_field {M} (fs : list (field M)) (n : Z) : option (field M) :=
  find (fun f => f_num f =? n) fs.

(** 502-601 [Counter.Unmarshal] of an input of length [l] of which [d] is left.  The message is
    updated in place; after an error it is not used. *)
Fixpoint unmarshal_loop {M} (fs : list (field M)) (l : Z) (fuel : nat) (d : bytes) (m : M) : res M :=
  match d with
  | [] => Ok m
  | _ =>
      match fuel with
      | O => Panic
      | S fuel =>
          bind (dec_varint d) (fun '(wire, rest) =>
          let num := to_int32 (u64 wire / 8) in
          let wt := wire mod 8 in
          if wt =? 4 then Err
          else if num <=? 0 then Err
          else
            match find_field fs num with
            | Some f => bind (f_dec f l wt rest m) (fun '(m, rest) => unmarshal_loop fs l fuel rest m)
            | None =>
                bind (skip_field (S (length d)) d) (fun n =>
                if n <? 0 then Err
                else
                  let i := to_int64 (l - zlen d + n) in
                  if l <? i then Err
                  else if i <? 0 then Panic
                  else unmarshal_loop fs l fuel (skipn (Z.to_nat n) d) m)
            end)
      end
  end.
(** generated/proto/metricpb/metric.pb.go:502-601 [Counter.Unmarshal]: the loop on the
    whole input. *)
Definition unmarshal {M} (fs : list (field M)) (d : bytes) (m : M) : res M :=
  unmarshal_loop fs (zlen d) (length d) d m.

(** 530-556, a length prefix followed by that many bytes; [postIndex] wraps around, and slicing
    with a negative bound panics. *)
Definition dec_bytes (l : Z) (d : bytes) : res (bytes * bytes) :=
  bind (dec_varint d) (fun '(v, rest) =>
  let len := to_int64 v in
  if len <? 0 then Err
  else
    let post := to_int64 (l - zlen rest + len) in
    if l <? post then Err
    else if post <? 0 then Panic
    else Ok (firstn (Z.to_nat len) rest, skipn (Z.to_nat len) rest)).

(** 248-252, 420-422, 561-580: integers, enums and (generated/proto/metricpb/metadata.pb.go:326-335, 508-510, 864-882)
    booleans, omitted when zero; [conv] truncates to the field's type. *)
Definition varint_field {M} (num : Z) (conv : Z -> Z) (get : M -> Z) (set : Z -> M -> M) : field M :=
  mk_field num
    (fun m => if get m =? 0 then 0 else 1 + sov (u64 (get m)))
    (fun m => if get m =? 0 then [] else tag num 0 ++ enc_varint (u64 (get m)))
    (fun l wt d m =>
       if negb (wt =? 0) then Err
       else bind (dec_varint d) (fun '(v, rest) => Ok (set (conv v) m, rest))).

(** 241-247, 415-418, 526-557: bytes, omitted when empty *)
Definition bytes_field {M} (num : Z) (get : M -> bytes) (set : bytes -> M -> M) : field M :=
  mk_field num
    (fun m => match get m with [] => 0 | b => 1 + zlen b + sov (zlen b) end)
    (fun m => match get m with [] => [] | b => tag num 2 ++ enc_varint (zlen b) ++ b end)
    (fun l wt d m =>
       if negb (wt =? 2) then Err
       else bind (dec_bytes l d) (fun '(b, rest) => Ok (set b m, rest))).

(** A float64 is its 64 bits ([math.Float64bits]); [m.Value != 0] is false of both zeros.
    (generated/proto/metricpb/metric.pb.go:299-318 [Gauge.MarshalTo]) *)
Definition double_is_zero (v : Z) : bool := (v =? 0) || (v =? 2 ^ 63).

(** 310-315, 444-446, 768-778: a double, omitted when it compares equal to zero *)
Definition double_field {M} (num : Z) (get : M -> Z) (set : Z -> M -> M) : field M :=
  mk_field num
    (fun m => if double_is_zero (get m) then 0 else 9)
    (fun m => if double_is_zero (get m) then [] else tag num 1 ++ put_le 8 (get m))
    (fun l wt d m =>
       if negb (wt =? 1) then Err
       else match get_le 8 d with None => Err | Some (v, rest) => Ok (set v m, rest) end).

(** 691-701, the loop over a packed list: [n] is [postIndex - iNdEx]. *)
Fixpoint dec_packed (fuel : nat) (n : Z) (d : bytes) (acc : list Z) : res (list Z * bytes) :=
  if n <=? 0 then Ok (acc, d)
  else
    match fuel with
    | O => Panic
    | S fuel =>
        match get_le 8 d with
        | None => Err
        | Some (v, rest) => dec_packed fuel (n - 8) rest (acc ++ [v])
        end
    end.

(** 276-286, 432-434, 658-704: a packed list of doubles, also accepted unpacked; elements are
    appended to those already there. *)
Definition doubles_field {M} (num : Z) (get : M -> list Z) (set : list Z -> M -> M) : field M :=
  mk_field num
    (fun m => match get m with [] => 0 | vs => 1 + sov (zlen vs * 8) + zlen vs * 8 end)
    (fun m => match get m with
              | [] => []
              | vs => tag num 2 ++ enc_varint (zlen vs * 8) ++ concat (map (put_le 8) vs)
              end)
    (fun l wt d m =>
       if wt =? 1 then
         match get_le 8 d with None => Err | Some (v, rest) => Ok (set (get m ++ [v]) m, rest) end
       else if wt =? 2 then
         bind (dec_varint d) (fun '(v, rest) =>
         let len := to_int64 v in
         if len <? 0 then Err
         else
           let post := to_int64 (l - zlen rest + len) in
           if l <? post then Err
           else bind (dec_packed (S (length rest)) (post - (l - zlen rest)) rest (get m))
                  (fun '(vs, rest) => Ok (set vs m, rest)))
       else Err).

(** An embedded message of known fields.
    (generated/proto/metricpb/composite.pb.go:309-332) *)
Definition enc_msg {S} (num : Z) (fs : list (field S)) (s : S) : bytes :=
  tag num 2 ++ enc_varint (size fs s) ++ marshal fs s.
(** Its size, as at generated/proto/metricpb/composite.pb.go:551-560. *)
Definition size_msg {S} (fs : list (field S)) (s : S) : Z := 1 + size fs s + sov (size fs s).
(** Reading it, as at generated/proto/metricpb/composite.pb.go:643-752. *)
Definition dec_msg {S} (fs : list (field S)) (l wt : Z) (d : bytes) (s : S) : res (S * bytes) :=
  if negb (wt =? 2) then Err
  else bind (dec_bytes l d) (fun '(b, rest) => bind (unmarshal fs b s) (fun s => Ok (s, rest))).

(** generated/proto/metricpb/metadata.pb.go:240-247, 475-476, 600-629: a message held by value, always written; reading
    merges into what is there. *)
Definition msg_field {M S} (num : Z) (fs : list (field S)) (get : M -> S) (set : S -> M -> M)
  : field M :=
  mk_field num
    (fun m => size_msg fs (get m))
    (fun m => enc_msg num fs (get m))
    (fun l wt d m => bind (dec_msg fs l wt d (get m)) (fun '(s, rest) => Ok (set s m, rest))).

(** generated/proto/metricpb/composite.pb.go:489-498, 607-610, 1240-1272: a message held by pointer, written unless nil;
    reading merges into the message pointed to, a fresh [zero] if nil. *)
Definition ptr_field {M S} (num : Z) (fs : list (field S)) (zero : S)
  (get : M -> option S) (set : option S -> M -> M) : field M :=
  mk_field num
    (fun m => match get m with None => 0 | Some s => size_msg fs s end)
    (fun m => match get m with None => [] | Some s => enc_msg num fs s end)
    (fun l wt d m =>
       bind (dec_msg fs l wt d (match get m with None => zero | Some s => s end))
         (fun '(s, rest) => Ok (set (Some s) m, rest))).

(** generated/proto/metricpb/metadata.pb.go:248-259, 477-482, 630-660: a list of messages; reading appends a [zero] message
    and reads into it. *)
Definition msgs_field {M S} (num : Z) (fs : list (field S)) (zero : S)
  (get : M -> list S) (set : list S -> M -> M) : field M :=
  mk_field num
    (fun m => fold_right (fun s n => size_msg fs s + n) 0 (get m))
    (fun m => concat (map (enc_msg num fs) (get m)))
    (fun l wt d m =>
       bind (dec_msg fs l wt d zero) (fun '(s, rest) => Ok (set (get m ++ [s]) m, rest))).
