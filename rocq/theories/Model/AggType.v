(** Model of package [aggregation]: types, compressed IDs, type options. *)
From Coq Require Import Ascii String NArith ZArith Bool List.
From Verif.Base Require Import Bytes Dec.
Import ListNotations.
Open Scope Z_scope.

(** aggregation/type.go:108 [type Type int].  Simplified: unbounded integers. *)
Definition agg_type := Z.

(** aggregation/type.go:33-56, the constants. *)
Definition UnknownType : agg_type := 0.
(** aggregation/type.go:35 [Last] *)
Definition Last : agg_type := 1.
(** aggregation/type.go:36 [Min] *)
Definition Min : agg_type := 2.
(** aggregation/type.go:37 [Max] *)
Definition Max : agg_type := 3.
(** aggregation/type.go:38 [Mean] *)
Definition Mean : agg_type := 4.
(** aggregation/type.go:39 [Median] *)
Definition Median : agg_type := 5.
(** aggregation/type.go:40 [Count] *)
Definition Count : agg_type := 6.
(** aggregation/type.go:41 [Sum] *)
Definition Sum : agg_type := 7.
(** aggregation/type.go:42 [SumSq] *)
Definition SumSq : agg_type := 8.
(** aggregation/type.go:43 [Stdev] *)
Definition Stdev : agg_type := 9.
(** aggregation/type.go:44 [P10] *)
Definition P10 : agg_type := 10.
(** aggregation/type.go:45 [P20] *)
Definition P20 : agg_type := 11.
(** aggregation/type.go:46 [P30] *)
Definition P30 : agg_type := 12.
(** aggregation/type.go:47 [P40] *)
Definition P40 : agg_type := 13.
(** aggregation/type.go:48 [P50] *)
Definition P50 : agg_type := 14.
(** aggregation/type.go:49 [P60] *)
Definition P60 : agg_type := 15.
(** aggregation/type.go:50 [P70] *)
Definition P70 : agg_type := 16.
(** aggregation/type.go:51 [P80] *)
Definition P80 : agg_type := 17.
(** aggregation/type.go:52 [P90] *)
Definition P90 : agg_type := 18.
(** aggregation/type.go:53 [P95] *)
Definition P95 : agg_type := 19.
(** aggregation/type.go:54 [P99] *)
Definition P99 : agg_type := 20.
(** aggregation/type.go:55 [P999] *)
Definition P999 : agg_type := 21.
(** aggregation/type.go:56 [P9999] *)
Definition P9999 : agg_type := 22.

(** aggregation/type.go:67 *)
Definition maxTypeID : Z := 22.

(** aggregation/type.go:79-102 [ValidTypes], a map; only membership and the set
    of keys are used. *)
Definition valid_types : list agg_type :=
  [Last; Min; Max; Mean; Median; Count; Sum; SumSq; Stdev; P10; P20; P30; P40;
   P50; P60; P70; P80; P90; P95; P99; P999; P9999].

(** aggregation/type.go:276-283 [Types.Contains] *)
Fixpoint types_contains (ts : list agg_type) (t : agg_type) : bool :=
  match ts with
  | [] => false
  | a :: ts' => if a =? t then true else types_contains ts' t
  end.

(** aggregation/type.go:125-128 [Type.IsValid] *)
Definition is_valid (t : agg_type) : bool := types_contains valid_types t.

(** aggregation/type.go:131-138 *)
Definition is_valid_for_gauge (t : agg_type) : bool :=
  types_contains [Last; Min; Max; Mean; Count; Sum; SumSq; Stdev] t.

(** aggregation/type.go:141-148 *)
Definition is_valid_for_counter (t : agg_type) : bool :=
  types_contains [Min; Max; Mean; Count; Sum; SumSq; Stdev] t.

(** aggregation/type.go:151-158 *)
Definition is_valid_for_timer (t : agg_type) : bool := negb (t =? Last).

(** aggregation/type.go:304-331 [Types.IsValidForGauge/Counter/Timer] *)
Definition types_valid_for_gauge (ts : list agg_type) : bool := forallb is_valid_for_gauge ts.
(** aggregation/type.go:314-321 [Types.IsValidForCounter] *)
Definition types_valid_for_counter (ts : list agg_type) : bool := forallb is_valid_for_counter ts.
(** aggregation/type.go:324-331 [Types.IsValidForTimer] *)
Definition types_valid_for_timer (ts : list agg_type) : bool := forallb is_valid_for_timer ts.

(** aggregation/type.go:161-192 [Type.Quantile].  Simplified: the float64 constant
    is represented by its exact decimal value in ten-thousandths. *)
Definition quantile (t : agg_type) : option Z :=
  if t =? P10 then Some 1000
  else if t =? P20 then Some 2000
  else if t =? P30 then Some 3000
  else if t =? P40 then Some 4000
  else if (t =? P50) || (t =? Median) then Some 5000
  else if t =? P60 then Some 6000
  else if t =? P70 then Some 7000
  else if t =? P80 then Some 8000
  else if t =? P90 then Some 9000
  else if t =? P95 then Some 9500
  else if t =? P99 then Some 9900
  else if t =? P999 then Some 9990
  else if t =? P9999 then Some 9999
  else None.

(** aggregation/type.go:338-369 [Types.PooledQuantiles], the returned slice.
    Simplified: the float pool is not modelled (the slice taken from it has
    length 0).  [added] is the local [medianAdded]. *)
Fixpoint quantiles_loop (added : bool) (ts : list agg_type) : list Z :=
  match ts with
  | [] => []
  | t :: ts' =>
      match quantile t with
      | None => quantiles_loop added ts'
      | Some q =>
          if (t =? P50) || (t =? Median) then
            if added then quantiles_loop added ts'
            else q :: quantiles_loop true ts'
          else q :: quantiles_loop added ts'
      end
  end.
(** aggregation/type.go:338-369 [Types.PooledQuantiles]: the loop started with
    [medianAdded] false. *)
Definition quantiles (ts : list agg_type) : list Z := quantiles_loop false ts.

(** aggregation/type_string.go: [Type.String], generated by stringer. *)
Definition type_names : list (agg_type * bytes) :=
  [ (UnknownType, B "UnknownType"); (Last, B "Last"); (Min, B "Min"); (Max, B "Max");
    (Mean, B "Mean"); (Median, B "Median"); (Count, B "Count"); (Sum, B "Sum");
    (SumSq, B "SumSq"); (Stdev, B "Stdev"); (P10, B "P10"); (P20, B "P20");
    (P30, B "P30"); (P40, B "P40"); (P50, B "P50"); (P60, B "P60"); (P70, B "P70");
    (P80, B "P80"); (P90, B "P90"); (P95, B "P95"); (P99, B "P99"); (P999, B "P999");
    (P9999, B "P9999") ].

(** Decimal text of an integer, as fmt prints it at aggregation/type_string.go:33. *)
Definition dec_Z (z : Z) : bytes :=
  if z <? 0 then "-"%char :: dec (Z.to_N (- z)) else dec (Z.to_N z).

(** aggregation/type_string.go:27-36 [Type.String]: the name, or Type(n) outside the
    table. *)
Definition type_string (t : agg_type) : bytes :=
  match find (fun p => fst p =? t) type_names with
  | Some p => snd p
  | None => B "Type(" ++ dec_Z t ++ B ")"
  end.

(** aggregation/type.go:405-410 [init]: the parse table maps the string of each
    valid type to the type (Go map keyed by string). *)
Definition type_string_map : list (bytes * agg_type) :=
  map (fun t => (type_string t, t)) valid_types.

(** aggregation/type.go:251-257 [ParseType] *)
Definition parse_type (s : bytes) : option agg_type :=
  option_map snd (find (fun p => beqb (fst p) s) type_string_map).

(** aggregation/type.go:69 *)
Definition types_separator : ascii := ","%char.

(** aggregation/type.go:291-301 [Types.String] *)
Definition types_string (ts : list agg_type) : bytes :=
  join_with types_separator (map type_string ts).

(** aggregation/type.go:392-403 [ParseTypes] *)
Definition parse_types (s : bytes) : option (list agg_type) :=
  map_opt parse_type (split_on types_separator s).

(** aggregation/type.go:195-201 and 242-248 [Type.Proto]: conversion to the int32
    enum, then membership in the enum's name table, which holds 0..22. *)
Definition type_proto (t : agg_type) : option Z :=
  let s := to_int32 t in
  if (0 <=? s) && (s <=? 22) then Some s else None.

(** aggregation/type.go:111-117 [NewTypeFromProto] *)
Definition type_from_proto (z : Z) : option agg_type :=
  if is_valid z then Some z else None.

(** aggregation/type.go:372-389 [Types.Proto] (nil and empty are identified) *)
Definition types_proto (ts : list agg_type) : option (list Z) := map_opt type_proto ts.

(** aggregation/type.go:263-273 [NewTypesFromProto] *)
Definition types_from_proto (zs : list Z) : option (list agg_type) := map_opt type_from_proto zs.

(** aggregation/id.go:46 [type ID [1]uint64]: one 64-bit word. *)
Definition agg_id := N.
(** aggregation/id.go:42 [DefaultID] *)
Definition default_id : agg_id := 0%N.
(** The word is below 2^64.  (aggregation/id.go:46) *)
Definition is_word (w : N) : Prop := (w < 2 ^ 64)%N.

(** aggregation/id.go:65-67 *)
Definition id_is_default (id : agg_id) : bool := (id =? default_id)%N.

(** aggregation/id.go:75-82 [ID.Contains]: [1 << offset] in uint64 arithmetic;
    the word index is 0 because the type is at most 22. *)
Definition id_contains (id : agg_id) (t : agg_type) : bool :=
  if negb (is_valid t) then false
  else
    let offset := N.land (Z.to_N t) 63 in
    (0 <? N.land id (N.shiftl 1 offset))%N.

(** aggregation/id_compress.go:62-79 [idCompressor.Compress].  The compressor's
    bitset is one word [bs]; the result is the new state of the bitset, the ID and
    whether an error was returned.  The bitset library is modelled by its
    word: [ClearAll] zeroes it, [Set] sets a bit. *)
Fixpoint compress_loop (bs : N) (ts : list agg_type) : N * bool :=
  match ts with
  | [] => (bs, false)
  | t :: ts' =>
      if negb (is_valid t) then (bs, true)
      else compress_loop (N.setbit bs (Z.to_N t)) ts'
  end.

(** aggregation/id_compress.go:62-79 [idCompressor.Compress]: clear the bitset, then
    the loop. *)
Definition compressor_compress (bs : N) (ts : list agg_type) : N * (agg_id * bool) :=
  let '(bs', err) := compress_loop 0%N ts in
  (bs', if err then (default_id, true) else (bs', false)).

(** aggregation/id.go:154-156 [CompressTypes]: with a fresh compressor. *)
Definition compress_types (ts : list agg_type) : agg_id * bool :=
  snd (compressor_compress 0%N ts).

(** bitset [NextSet(i)]: first set bit at or after [i] among the [n] next ones.
    External library, modelled from its documentation.
    Used at aggregation/id_compress.go:127. *)
Fixpoint next_set (n : nat) (w : N) (i : N) : option N :=
  match n with
  | O => None
  | S n' => if N.testbit w i then Some i else next_set n' w (N.succ i)
  end.

(** aggregation/id_compress.go:127-134, the loop; [res] is reversed.  [fuel]
    bounds the number of iterations: one per set bit, so 65 is enough. *)
Fixpoint decompress_loop (fuel : nat) (w : N) (i : N) (res : list agg_type)
  : list agg_type * bool :=
  match fuel with
  | O => (rev res, false)
  | S f =>
      match next_set (N.to_nat (64 - i)) w i with
      | None => (rev res, false)
      | Some k =>
          let t := Z.of_N k in
          if negb (is_valid t) then ([], true)
          else decompress_loop f w (N.succ k) (t :: res)
      end
  end.

(** aggregation/id_compress.go:110-137 [Decompress]; result and error flag.
    Simplified: the optional types pool is not modelled. *)
Definition decompress (id : agg_id) : list agg_type * bool :=
  if id_is_default id then ([], false)
  else decompress_loop 65 id 0%N [].

(** aggregation/id.go:49-62 [NewIDFromProto] *)
Definition id_from_proto_types (zs : list Z) : agg_id * bool :=
  match types_from_proto zs with
  | None => (default_id, true)
  | Some ts => compress_types ts
  end.

(** aggregation/id.go:90-96 [ID.String], for IDs that decompress. *)
Definition id_string (id : agg_id) : option bytes :=
  let '(ts, err) := decompress id in
  if err then None else Some (types_string ts).

(** * Type options: aggregation/types_options.go *)

(** aggregation/types_options.go:144-154 [defaultTypeStringsMap] *)
Definition default_type_strings : list (agg_type * bytes) :=
  [ (Last, B "last"); (Sum, B "sum"); (SumSq, B "sum_sq"); (Mean, B "mean");
    (Min, B "lower"); (Max, B "upper"); (Count, B "count"); (Stdev, B "stdev");
    (Median, B "median") ].

(** aggregation/types_options.go:157-172 [options]: fields and derived fields.
    Simplified: pools are not modelled. *)
Record types_options := {
  o_counter_types : list agg_type;
  o_timer_types : list agg_type;
  o_gauge_types : list agg_type;
  o_quantile_fn : Z -> bytes;
  o_counter_fn : bytes -> bytes;
  o_timer_fn : bytes -> bytes;
  o_gauge_fn : bytes -> bytes;
  o_counter_strings : list bytes;
  o_timer_strings : list bytes;
  o_gauge_strings : list bytes;
  o_quantiles : list Z;
}.

(** aggregation/types_options.go:361-377 [computeTypeStrings], the string of one valid type. *)
Definition untransformed_type_string (qfn : Z -> bytes) (t : agg_type) : bytes :=
  match find (fun p => fst p =? t) default_type_strings with
  | Some p => snd p
  | None => match quantile t with Some q => qfn q | None => [] end
  end.

(** aggregation/types_options.go:361-377: a slice of [maxTypeID+1] entries; index 0 stays nil. *)
Definition compute_type_strings (qfn : Z -> bytes) (fn : bytes -> bytes) : list bytes :=
  map (fun i => if is_valid (Z.of_nat i)
                then fn (untransformed_type_string qfn (Z.of_nat i)) else [])
      (seq 0 23).

(** aggregation/types_options.go:338-359 [computeAllDerived] *)
Definition compute_all_derived (o : types_options) : types_options :=
  {| o_counter_types := o_counter_types o; o_timer_types := o_timer_types o;
     o_gauge_types := o_gauge_types o; o_quantile_fn := o_quantile_fn o;
     o_counter_fn := o_counter_fn o; o_timer_fn := o_timer_fn o; o_gauge_fn := o_gauge_fn o;
     o_counter_strings := compute_type_strings (o_quantile_fn o) (o_counter_fn o);
     o_timer_strings := compute_type_strings (o_quantile_fn o) (o_timer_fn o);
     o_gauge_strings := compute_type_strings (o_quantile_fn o) (o_gauge_fn o);
     o_quantiles := quantiles (o_timer_types o) |}.

(** aggregation/types_options.go:392-399 [defaultQuantileTypeStringFn] on ten-thousandths: the
    percentage printed without trailing zeros and without the decimal point. *)
Definition default_quantile_string (q : Z) : bytes :=
  let whole := Z.to_N (q / 100) in
  let frac := Z.to_N (q mod 100) in
  B "p" ++ dec whole ++
  (if (frac =? 0)%N then []
   else if (frac mod 10 =? 0)%N then dec (frac / 10)
   else if (frac <? 10)%N then B "0" ++ dec frac else dec frac).

(** aggregation/types_options.go:402-409 *)
Definition no_op_transform (b : bytes) : bytes := b.
(** aggregation/types_options.go:405 [EmptyTransform] *)
Definition empty_transform (b : bytes) : bytes := [].
(** aggregation/types_options.go:409 [SuffixTransform] *)
Definition suffix_transform (b : bytes) : bytes := B "." ++ b.

(** aggregation/types_options.go:124-143 and 175-188 [NewTypesOptions] *)
Definition new_types_options : types_options :=
  compute_all_derived
  {| o_counter_types := [Sum];
     o_timer_types := [Sum; SumSq; Mean; Min; Max; Count; Stdev; Median; P50; P95; P99];
     o_gauge_types := [Last];
     o_quantile_fn := default_quantile_string;
     o_counter_fn := no_op_transform; o_timer_fn := no_op_transform; o_gauge_fn := no_op_transform;
     o_counter_strings := []; o_timer_strings := []; o_gauge_strings := []; o_quantiles := [] |}.

(** aggregation/types_options.go:200-275, the seven setters. *)
Inductive options_set :=
| SetDefaultCounterTypes (ts : list agg_type)
| SetDefaultTimerTypes (ts : list agg_type)
| SetDefaultGaugeTypes (ts : list agg_type)
| SetQuantileFn (f : Z -> bytes)
| SetCounterFn (f : bytes -> bytes)
| SetTimerFn (f : bytes -> bytes)
| SetGaugeFn (f : bytes -> bytes).

(** aggregation/types_options.go:200-275, one setter applied: the field is replaced and
    what derives from it recomputed. *)
Definition apply_options_set (o : types_options) (s : options_set) : types_options :=
  compute_all_derived
  {| o_counter_types := match s with SetDefaultCounterTypes ts => ts | _ => o_counter_types o end;
     o_timer_types := match s with SetDefaultTimerTypes ts => ts | _ => o_timer_types o end;
     o_gauge_types := match s with SetDefaultGaugeTypes ts => ts | _ => o_gauge_types o end;
     o_quantile_fn := match s with SetQuantileFn f => f | _ => o_quantile_fn o end;
     o_counter_fn := match s with SetCounterFn f => f | _ => o_counter_fn o end;
     o_timer_fn := match s with SetTimerFn f => f | _ => o_timer_fn o end;
     o_gauge_fn := match s with SetGaugeFn f => f | _ => o_gauge_fn o end;
     o_counter_strings := o_counter_strings o; o_timer_strings := o_timer_strings o;
     o_gauge_strings := o_gauge_strings o; o_quantiles := o_quantiles o |}.

(** metric/types.go:29-39 [metric.Type] *)
Inductive metric_type := UnknownMetric | CounterMetric | TimerMetric | GaugeMetric.

(** aggregation/types_options.go:297-307 [TypeStringFor...]: slice indexing, [None] is an
    out-of-range panic. *)
Definition strings_of (o : types_options) (m : metric_type) : list bytes :=
  match m with
  | CounterMetric => o_counter_strings o
  | TimerMetric => o_timer_strings o
  | GaugeMetric => o_gauge_strings o
  | UnknownMetric => []
  end.

(** aggregation/types_options.go:297-307 [TypeStringForCounter/Timer/Gauge] for a
    metric type. *)
Definition type_string_for (o : types_options) (m : metric_type) (t : agg_type) : option bytes :=
  if t <? 0 then None else nth_error (strings_of o m) (Z.to_nat t).

(** aggregation/types_options.go:379-389 [typeFor]; [id] counts from the start of the slice. *)
Fixpoint type_for_loop (value : bytes) (id : Z) (strs : list bytes) : agg_type :=
  match strs with
  | [] => UnknownType
  | s :: strs' =>
      if negb (beqb value s) then type_for_loop value (id + 1) strs'
      else if is_valid id then id
      else type_for_loop value (id + 1) strs'
  end.

(** aggregation/types_options.go:309-319 [TypeFor...] *)
Definition type_for (o : types_options) (m : metric_type) (value : bytes) : agg_type :=
  type_for_loop value 0 (strings_of o m).

(** aggregation/types_options.go:325-336 *)
Definition is_contained_in_default (o : types_options) (t : agg_type) (m : metric_type) : bool :=
  let ts := match m with
            | CounterMetric => o_counter_types o
            | GaugeMetric => o_gauge_types o
            | TimerMetric => o_timer_types o
            | UnknownMetric => []
            end in
  types_contains ts t.
