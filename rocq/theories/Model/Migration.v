(** Model of encoding/migration: the iterator over streams that mix msgpack and protobuf messages.  The two inner iterators
    share one reader, whose remaining bytes are [q_in]; what each inner iterator remembers of its input is replaced before
    it is used.  The msgpack library is taken to read from a reader that is an [io.ByteScanner] without buffering.  Reading
    a byte and putting it back fails only at the end of the input. *)
From Coq Require Import Ascii String NArith ZArith Bool List.
From Verif.Base Require Import Bytes Slice.
From Verif.Model Require Import AggType Policy Pipeline Metadata LegacyConvert ProtoWire Messages ProtoStream MsgpackLib Msgpack.
Import ListNotations.
Open Scope Z_scope.

(** encoding/migration/convert.go:33-67 [toUnaggregatedMessageUnion]; [None] is the error of an unknown type. *)
Definition no_counter : counter := mk_counter [] 0.
(** The zero [BatchTimerWithMetadatas] of the unions at
    encoding/migration/convert.go:40-62. *)
Definition no_timer : batch_timer := mk_timer [] [].
(** The zero [GaugeWithMetadatas] of the unions at encoding/migration/convert.go:40-62. *)
Definition no_gauge : gauge := mk_gauge [] 0.
(** The zero [ForwardedMetric] of the unions at encoding/migration/convert.go:40-62. *)
Definition no_forwarded : forwarded := mk_forwarded 0 [] 0 [].
(** The zero [ForwardMetadata] of the unions at encoding/migration/convert.go:40-62. *)
Definition no_forward_meta : fm_of list := mk_fm 0%N empty_storage_policy [] 0 0.
(** The zero timed [Metric] of the unions at encoding/migration/convert.go:40-62. *)
Definition no_timed : timed := mk_timed 0 [] 0 0.
(** The zero [TimedMetadata] of the unions at encoding/migration/convert.go:40-62. *)
Definition no_timed_meta : timed_metadata := {| tm_agg := 0%N; tm_sp := empty_storage_policy |}.
(** encoding/migration/convert.go:33-66 [toUnaggregatedMessageUnion] *)
Definition to_message_union (m : munion) (l : list staged_policies) : option (union_of list) :=
  let ms := to_staged_metadatas l in
  if mu_type m =? 1 then
    Some (mk_union 1 (mk_counter (mu_id m) (mu_counter m)) ms no_timer [] no_gauge [] no_forwarded no_forward_meta no_timed
            no_timed_meta)
  else if mu_type m =? 2 then
    Some (mk_union 2 no_counter [] (mk_timer (mu_id m) (mu_timer m)) ms no_gauge [] no_forwarded no_forward_meta no_timed
            no_timed_meta)
  else if mu_type m =? 3 then
    Some (mk_union 3 no_counter [] no_timer [] (mk_gauge (mu_id m) (mu_gauge m)) ms no_forwarded no_forward_meta no_timed
            no_timed_meta)
  else None.

(** What [Err] may return: the reader's error (the end of the input), the error of the conversion, or that of an inner
    iterator.
    (encoding/migration/unaggregated_iterator.go:107-115 [unaggregatedIterator.Err]) *)
Inductive mig_error := ReaderEnd | UnknownMetric | OfMsgpack (e : merr) | OfProtobuf (e : decode_error).

(** encoding/migration/unaggregated_iterator.go:46-54; the union shown is a copy of what an inner iterator holds: its slices
    are those of that iterator, overwritten when the next message is decoded; here it is the content at the time of
    [Next]. *)
Record mig := mk_mig {
  q_in : bytes; q_mp : mit; q_pb : iter; q_msg : union_of list; q_closed : bool; q_err : option mig_error }.

(** The inner iterators at the reader's current position.
    (encoding/migration/unaggregated_iterator.go:62, the shared reader) *)
Definition mp_at (d : bytes) (it : mit) : mit :=
  mk_mit (mk_st d (d_err (x_st it))) (x_ignore it) (x_closed it) (x_metric it) (x_policies it).
(** The protobuf iterator at the reader's position
    (encoding/migration/unaggregated_iterator.go:63). *)
Definition pb_at (d : bytes) (it : iter) : iter :=
  mk_iter d (i_max it) (i_closed it) (i_pb it) (i_msg it) (i_err it).

(** The zero message before the first [Next]
    (encoding/migration/unaggregated_iterator.go:51). *)
Definition zero_message : union_of list :=
  mk_union 0 no_counter [] no_timer [] no_gauge [] no_forwarded no_forward_meta no_timed no_timed_meta.

(** 57-69 [NewUnaggregatedIterator] *)
Definition new_mig (d : bytes) (ignore : bool) (max : Z) : mig :=
  mk_mig d (new_mit d ignore) (new_iter d max) zero_message false None.

(** 107-115 [Err] *)
Definition mig_err (it : mig) : option mig_error :=
  match q_err it with
  | Some e => Some e
  | None =>
      match d_err (x_st (q_mp it)) with
      | Some e => Some (OfMsgpack e)
      | None => option_map OfProtobuf (i_err (q_pb it))
      end
  end.

(** 130-155 [decodeProtocolType]: the lowest bit of the next byte, which stays unread. *)
Definition first_is_odd (b : ascii) : bool := Z.odd (bz b).

(** The content of the protobuf iterator's reused union, as copied by [it.msg = it.protobufIt.Current()] *)
Definition copied (u : union_of slice) : union_of list :=
  mk_union (u_type u) (u_counter u) (map sm_content (s_elems (u_counter_metas u)))
    (u_timer u) (map sm_content (s_elems (u_timer_metas u)))
    (u_gauge u) (map sm_content (s_elems (u_gauge_metas u)))
    (u_forwarded u) (fm_content (u_forward_meta u)) (u_timed u) (u_timed_meta u).

(** 71-103 [Next]: true, false, or a panic of the protobuf decoder. *)
Inductive mig_result := QMore (it : mig) | QStop (it : mig) | QCrash.
(** encoding/migration/unaggregated_iterator.go:71-103 [unaggregatedIterator.Next] *)
Definition mig_next (it : mig) : mig_result :=
  if q_closed it then QStop it
  else
    match mig_err it with
    | Some _ => QStop it
    | None =>
        match q_in it with
        | [] => QStop (mk_mig [] (q_mp it) (q_pb it) (q_msg it) false (Some ReaderEnd))
        | b :: _ =>
            if first_is_odd b then
              let '(ok, mp) := mnext (mp_at (q_in it) (q_mp it)) in
              let d := d_in (x_st mp) in
              if ok then
                match to_message_union (x_metric mp) (x_policies mp) with
                | Some u => QMore (mk_mig d mp (q_pb it) u false (q_err it))
                | None => QStop (mk_mig d mp (q_pb it) (q_msg it) false (Some UnknownMetric))
                end
              else QStop (mk_mig d mp (q_pb it) (q_msg it) false (q_err it))
            else
              match next (pb_at (q_in it) (q_pb it)) with
              | More pb => QMore (mk_mig (i_in pb) (q_mp it) pb (copied (i_msg pb)) false (q_err it))
              | Stop pb => QStop (mk_mig (i_in pb) (q_mp it) pb (q_msg it) false (q_err it))
              | Crash => QCrash
              end
        end
    end.

(** 117-128 [Close]; the inner iterators become nil, so that calling [Err] later panics, which is not modelled. *)
Definition close_mig (it : mig) : mig :=
  if q_closed it then it
  else mk_mig (q_in it) (close_mit (q_mp it)) (close_iter (q_pb it)) zero_message true None.
