(** What the bytes of a stream of metrics mean: frames, each a size and a message in the protobuf encoding (see
    [WireMeaningSpec]); which metric, with which metadatas, such a message is; where a stream ends and why. *)
From Coq Require Import Ascii String NArith ZArith Bool List.
From Verif.Base Require Import Bytes.
From Verif.Spec Require Import WireSpec WireMeaningSpec.
From Verif.Model Require Import ProtoStream.
From Verif.Model Require Import Policy Transformation Pipeline Metadata Messages.
From Verif.Spec Require Import ProtoStreamSpec.
Import ListNotations.
Open Scope Z_scope.

(** * Messages *)

(** The units of precision and how many nanoseconds they are: second, millisecond, microsecond, nanosecond, minute,
    hour, day, year. *)
Definition precisions : list (Z * Z) :=
  [(1, 10 ^ 9); (2, 10 ^ 6); (3, 10 ^ 3); (4, 1); (5, 60 * 10 ^ 9); (6, 3600 * 10 ^ 9); (7, 24 * 3600 * 10 ^ 9);
   (8, 365 * 24 * 3600 * 10 ^ 9)].

(** A storage policy has a resolution, of a known precision, and a retention. *)
Definition sp_says (pb : sp_pb) (p : storage_policy) : Prop :=
  exists r t, spp_resolution pb = Some r /\ spp_retention pb = Some t /\
    In (r_precision (sp_resolution p), rp_precision r) precisions /\
    r_window (sp_resolution p) = rp_window r /\ sp_retention p = t.

(** An operation of an applied pipeline: a transformation (absolute 1, per second 2) or a rollup. *)
Definition applied_says (pb : applied_op_pb) (a : applied_op) : Prop :=
  (aop_type pb = 1 /\ exists t, aop_tf pb = Some t /\ (t = 1 \/ t = 2) /\
     a = {| ao_kind := TransformationOp; ao_tf := t; ao_rollup := {| ar_id := []; ar_agg := 0%N |} |}) \/
  (aop_type pb = 2 /\ exists id agg, aop_rollup pb = Some (id, agg) /\
     a = {| ao_kind := RollupOp; ao_tf := 0; ao_rollup := {| ar_id := id; ar_agg := agg |} |}).

(** A drop policy is an int32 that becomes an unsigned number of 64 bits. *)
Definition pm_says (pb : pm_pb_of list) (m : pipeline_metadata) : Prop :=
  pm_agg m = pmp_agg pb /\ Forall2 sp_says (pmp_sps pb) (pm_sps m) /\
  Forall2 applied_says (pmp_pipeline pb) (pm_pipeline m) /\ pm_drop m = pmp_drop pb mod 2 ^ 64.
Definition sm_says (pb : sm_pb_of list) (m : staged_metadata) : Prop :=
  sm_cutover m = smp_cutover pb /\ sm_tombstoned m = smp_tombstoned pb /\
  Forall2 pm_says (smp_pipelines pb) (sm_pipelines m).
Definition fm_says (pb : fm_pb_of list) (m : forward_metadata) : Prop :=
  fm_agg m = fmp_agg pb /\ sp_says (fmp_sp pb) (fm_sp m) /\ Forall2 applied_says (fmp_pipeline pb) (fm_pipeline m) /\
  fm_source m = fmp_source pb /\ fm_times m = fmp_times pb.
Definition tm_says (pb : tm_pb) (m : timed_metadata) : Prop :=
  tm_agg m = tmp_agg pb /\ sp_says (tmp_sp pb) (tm_sp m).

(** The type of a message (1 counter, 2 batch timer, 3 gauge, 4 forwarded, 5 timed) says which member counts; it must be
    there.  Forwarded and timed metrics are counters (1), timers (2) or gauges (3). *)
Inductive says (pb : mm_pb) : message -> Prop :=
| says_counter c ms : mm_type pb = 1 -> mm_counter pb = Some c -> Forall2 sm_says (cmp_metas c) ms ->
    says pb (MCounter (mk_counter (cp_id (cmp_counter c)) (cp_value (cmp_counter c))) ms)
| says_timer c ms : mm_type pb = 2 -> mm_timer pb = Some c -> Forall2 sm_says (bmp_metas c) ms ->
    says pb (MTimer (mk_timer (tip_id (bmp_timer c)) (tip_values (bmp_timer c))) ms)
| says_gauge c ms : mm_type pb = 3 -> mm_gauge pb = Some c -> Forall2 sm_says (gmp_metas c) ms ->
    says pb (MGauge (mk_gauge (gp_id (gmp_gauge c)) (gp_value (gmp_gauge c))) ms)
| says_forwarded c m : mm_type pb = 4 -> mm_forwarded pb = Some c -> 1 <= fwp_type (fwmp_metric c) <= 3 ->
    fm_says (fwmp_meta c) m ->
    says pb (MForwarded (mk_forwarded (fwp_type (fwmp_metric c)) (fwp_id (fwmp_metric c)) (fwp_time (fwmp_metric c))
      (fwp_values (fwmp_metric c))) m)
| says_timed c m : mm_type pb = 5 -> mm_timed pb = Some c -> 1 <= tdp_type (tdmp_metric c) <= 3 ->
    tm_says (tdmp_meta c) m ->
    says pb (MTimed (mk_timed (tdp_type (tdmp_metric c)) (tdp_id (tdmp_metric c)) (tdp_time (tdmp_metric c))
      (tdp_value (tdmp_metric c))) m).

(** A member that is missing is taken to be there, and empty, if an earlier message of the stream had it (the iterator
    uses one message again and again). *)
Record members := mk_members { had_counter : bool; had_timer : bool; had_gauge : bool; had_forwarded : bool; had_timed : bool }.
Definition nothing_yet : members := mk_members false false false false false.
Definition is_there {A} (o : option A) : bool := match o with Some _ => true | None => false end.
Definition also (h : members) (m : mm_pb) : members :=
  mk_members (had_counter h || is_there (mm_counter m)) (had_timer h || is_there (mm_timer m))
    (had_gauge h || is_there (mm_gauge m)) (had_forwarded h || is_there (mm_forwarded m)) (had_timed h || is_there (mm_timed m)).
Definition or_empty {A} (zero : A) (had : bool) (o : option A) : option A :=
  match o with Some _ => o | None => if had then Some zero else None end.
Definition completed (h : members) (m : mm_pb) : mm_pb :=
  mk_mm (mm_type m)
    (or_empty (mk_cm_pb (mk_counter_pb [] 0) []) (had_counter h) (mm_counter m))
    (or_empty (mk_bm_pb (mk_timer_pb [] []) []) (had_timer h) (mm_timer m))
    (or_empty (mk_gm_pb (mk_gauge_pb [] 0) []) (had_gauge h) (mm_gauge m))
    (or_empty (mk_fwm_pb (mk_forwarded_pb 0 [] 0 []) (mk_fm_pb 0%N {| spp_resolution := None; spp_retention := None |} [] 0 0))
       (had_forwarded h) (mm_forwarded m))
    (or_empty (mk_tdm_pb (mk_timed_pb 0 [] 0 0) {| tmp_agg := 0%N; tmp_sp := {| spp_resolution := None; spp_retention := None |} |})
       (had_timed h) (mm_timed m)).

(** * Frames *)

(** A size: a number of at most 64 bits in base 128, in at most ten bytes; even numbers stand for 0, 1, 2, ..., odd ones
    for -1, -2, -3, ... *)
Definition is_size (p : bytes) (n : Z) : Prop :=
  exists v, varint p v /\ v < 2 ^ 64 /\ (v = 2 * n \/ v = - 2 * n - 1).
(** A number that is too long or too large. *)
Definition oversized (p : bytes) : Prop := exists v, base128 p v /\ ((10 < length p)%nat \/ 2 ^ 64 <= v).
(** A number whose last byte is missing. *)
Definition unfinished (d : bytes) : Prop := Forall (fun b => 128 <= byte_value b) d.

(** * Streams *)

(** Reading ends with an error ([EOF] at the end of the bytes), or panics. *)
Inductive outcome := Ends (e : decode_error) | Panics.

(** [stream max h d ms o]: bytes [d], of a stream of which the members [h] were seen, hold the metrics [ms]; then reading
    comes to [o]. *)
Inductive stream (max : Z) : members -> bytes -> list message -> outcome -> Prop :=
| stream_end h d : unfinished d -> stream max h d [] (Ends EOF)
| stream_oversized h p r : oversized p -> stream max h (p ++ r) [] (Ends VarintOverflow)
| stream_too_large h p n r : is_size p n -> max < n -> stream max h (p ++ r) [] (Ends TooLarge)
| stream_negative h p n r : is_size p n -> n <= max -> n < 0 -> stream max h (p ++ r) [] Panics
| stream_cut h p n r : is_size p n -> n <= max -> Z.of_nat (length r) < n ->
    stream max h (p ++ r) [] (Ends (match r with [] => EOF | _ => UnexpectedEOF end))
| stream_malformed h p b r : is_size p (Z.of_nat (length b)) -> Z.of_nat (length b) <= max ->
    (forall m, ~ reads MetricWithMetadatas_ b m) -> stream max h (p ++ b ++ r) [] (Ends BadWire)
| stream_unknown h p b r m : is_size p (Z.of_nat (length b)) -> Z.of_nat (length b) <= max ->
    reads MetricWithMetadatas_ b m -> ~ 1 <= mm_type m <= 5 -> stream max h (p ++ b ++ r) [] (Ends BadType)
| stream_invalid h p b r m : is_size p (Z.of_nat (length b)) -> Z.of_nat (length b) <= max ->
    reads MetricWithMetadatas_ b m -> 1 <= mm_type m <= 5 -> (forall x, ~ says (completed h m) x) ->
    stream max h (p ++ b ++ r) [] (Ends BadMessage)
| stream_metric h p b r m x ms o : is_size p (Z.of_nat (length b)) -> Z.of_nat (length b) <= max ->
    reads MetricWithMetadatas_ b m -> says (completed h m) x -> stream max (also h m) r ms o ->
    stream max h (p ++ b ++ r) (x :: ms) o.

(** * Reading *)

(** [Next] yields these metrics and then panics. *)
Inductive panics_after : iter -> list message -> Prop :=
| panics_at_once it : next it = Crash -> panics_after it []
| panics_later_on it it' m ms :
    next it = More it' -> current it' = Some m -> panics_after it' ms -> panics_after it (m :: ms).
