(** Model of encoding/msgpack: the encoders, the iterators and the raw metric.

    Encoders write to a [bytes.Buffer], whose writes do not fail, so the sticky [encodeErr] of encoding/msgpack/base_encoder.go is always
    nil and an encoder is the function from a message to the bytes it appends.  Aggregation IDs are one word
    ([aggregation.IDLen] is 1). *)
From Coq Require Import Ascii String NArith ZArith Bool List.
From Verif.Base Require Import Bytes.
From Verif.Model Require Import AggType Policy Transformation ProtoWire MsgpackLib.
Import ListNotations.
Open Scope Z_scope.

(** encoding/msgpack/schema.go:25-33: the versions written. *)
Definition unaggregated_version : Z := 1.
(** encoding/msgpack/schema.go:30 [aggregatedVersion] *)
Definition aggregated_version : Z := 1.
(** encoding/msgpack/schema.go:33 [metricVersion] *)
Definition metric_version : Z := 1.

(** encoding/msgpack/schema.go:36-71 [objectType] *)
Definition unknown_type : Z := 0.
(** encoding/msgpack/schema.go:41 [rootObjectType] *)
Definition root_type : Z := 1.
(** encoding/msgpack/schema.go:44 [counterWithPoliciesListType] *)
Definition counter_pl_type : Z := 2.
(** encoding/msgpack/schema.go:45 [batchTimerWithPoliciesListType] *)
Definition timer_pl_type : Z := 3.
(** encoding/msgpack/schema.go:46 [gaugeWithPoliciesListType] *)
Definition gauge_pl_type : Z := 4.
(** encoding/msgpack/schema.go:47 [rawMetricWithStoragePolicyType] *)
Definition raw_sp_type : Z := 5.
(** encoding/msgpack/schema.go:50 [counterType] *)
Definition counter_type : Z := 6.
(** encoding/msgpack/schema.go:51 [timerType] *)
Definition timer_type : Z := 7.
(** encoding/msgpack/schema.go:52 [gaugeType] *)
Definition gauge_type : Z := 8.
(** encoding/msgpack/schema.go:53 [metricType] *)
Definition metric_obj_type : Z := 9.
(** encoding/msgpack/schema.go:54 [defaultPoliciesListType] *)
Definition default_pl_type : Z := 10.
(** encoding/msgpack/schema.go:55 [customPoliciesListType] *)
Definition custom_pl_type : Z := 11.
(** encoding/msgpack/schema.go:56 [stagedPoliciesType] *)
Definition staged_type : Z := 12.
(** encoding/msgpack/schema.go:57 [storagePolicyType] *)
Definition storage_policy_type : Z := 13.
(** encoding/msgpack/schema.go:58 [knownResolutionType] *)
Definition known_res_type : Z := 14.
(** encoding/msgpack/schema.go:59 [unknownResolutionType] *)
Definition unknown_res_type : Z := 15.
(** encoding/msgpack/schema.go:60 [knownRetentionType] *)
Definition known_ret_type : Z := 16.
(** encoding/msgpack/schema.go:61 [unknownRetentionType] *)
Definition unknown_ret_type : Z := 17.
(** encoding/msgpack/schema.go:62 [defaultAggregationID] *)
Definition default_agg_type : Z := 18.
(** encoding/msgpack/schema.go:63 [shortAggregationID] *)
Definition short_agg_type : Z := 19.
(** encoding/msgpack/schema.go:64 [longAggregationID] *)
Definition long_agg_type : Z := 20.
(** encoding/msgpack/schema.go:65 [policyType] *)
Definition policy_type : Z := 21.
(** encoding/msgpack/schema.go:68 [rawMetricWithStoragePolicyAndEncodeTimeType] *)
Definition raw_sp_time_type : Z := 22.
(** encoding/msgpack/schema.go:71 [numObjectTypes] *)
Definition num_object_types : Z := 22.

(** encoding/msgpack/schema.go:98-100 [isValid] *)
Definition type_valid (t : Z) : bool := (unknown_type <? t) && (t <=? num_object_types).

(** encoding/msgpack/schema.go:73-95, 105-107 and 113-138: [numFieldsForType], by type from 1 on; outside it would panic, but no caller gets
    there (checkExpectedNumFieldsForType is only reached with a valid type). *)
Definition num_fields_table : list Z := [2; 2; 2; 2; 2; 2; 2; 2; 3; 1; 2; 3; 2; 2; 3; 2; 2; 1; 2; 2; 2; 3].
(** encoding/msgpack/schema.go:105-107 [numFieldsForType] *)
Definition num_fields (t : Z) : Z := nth (Z.to_nat (t - 1)) num_fields_table 0.

(** * Encoders *)

(** encoding/msgpack/base_encoder.go:71-74 *)
Definition enc_version (v : Z) : bytes := mp_int v.
(** encoding/msgpack/base_encoder.go:71 [baseEncoder.encodeObjectType] *)
Definition enc_type (t : Z) : bytes := mp_int t.
(** encoding/msgpack/base_encoder.go:72 [baseEncoder.encodeNumObjectFields] *)
Definition enc_fields (t : Z) : bytes := mp_array_len (num_fields t).

(** encoding/msgpack/base_encoder.go:88-93 [encodeChunkedID] *)
Definition enc_chunked_id (prefix data suffix : bytes) : bytes :=
  mp_bytes_len (zlen prefix + zlen data + zlen suffix) ++ prefix ++ data ++ suffix.

(** encoding/msgpack/base_encoder.go:130-147 [encodeResolution] *)
Definition enc_resolution (r : resolution) : bytes :=
  match value_of_resolution r with
  | Some v => enc_fields known_res_type ++ enc_type known_res_type ++ mp_int v
  | None => enc_fields unknown_res_type ++ enc_type unknown_res_type ++ mp_int (r_window r) ++ mp_int (r_precision r)
  end.

(** encoding/msgpack/base_encoder.go:149-165 [encodeRetention] *)
Definition enc_retention (t : Z) : bytes :=
  match value_of_retention t with
  | Some v => enc_fields known_ret_type ++ enc_type known_ret_type ++ mp_int v
  | None => enc_fields unknown_ret_type ++ enc_type unknown_ret_type ++ mp_int t
  end.

(** encoding/msgpack/base_encoder.go:124-128 [encodeStoragePolicyInternal] *)
Definition enc_storage_policy (p : storage_policy) : bytes :=
  enc_fields storage_policy_type ++ enc_resolution (sp_resolution p) ++ enc_retention (sp_retention p).

(** encoding/msgpack/base_encoder.go:101-122 [encodeCompressedAggregationTypes], with [IDLen] = 1: the ID is written as an int64. *)
Definition enc_agg (id : agg_id) : bytes :=
  if id_is_default id then enc_fields default_agg_type ++ enc_type default_agg_type
  else enc_fields short_agg_type ++ enc_type short_agg_type ++ mp_int (to_int64 (Z.of_N id)).

(** encoding/msgpack/base_encoder.go:95-99 [encodePolicyInternal] *)
Definition enc_policy (p : policy) : bytes :=
  enc_fields policy_type ++ enc_storage_policy (p_storage p) ++ enc_agg (p_agg p).

(** encoding/msgpack/unaggregated_encoder.go:186-195 [encodeStagedPolicies] *)
Definition enc_staged (s : staged_policies) : bytes :=
  enc_fields staged_type ++ mp_int (stp_cutover s) ++ mp_bool (stp_tombstoned s) ++
  mp_array_len (zlen (stp_policies s)) ++ concat (map enc_policy (stp_policies s)).

(** encoding/msgpack/unaggregated_encoder.go:171-184 [encodePoliciesList] *)
Definition enc_policies_list (l : list staged_policies) : bytes :=
  if policies_list_is_default l then enc_fields default_pl_type ++ enc_type default_pl_type
  else enc_fields custom_pl_type ++ enc_type custom_pl_type ++ mp_array_len (zlen l) ++ concat (map enc_staged l).

(** metric/unaggregated/types.go: [Counter], [BatchTimer], [Gauge] as handed to the encoder; an ID may be a nil slice. *)
Inductive metric :=
| Counter (id : option bytes) (v : Z)
| BatchTimer (id : option bytes) (vs : list Z)
| Gauge (id : option bytes) (v : Z).

(** encoding/msgpack/unaggregated_encoder.go:150-169 [encodeCounter], [encodeBatchTimer], [encodeGauge]; encoding/msgpack/base_encoder.go:75 [encodeRawID] *)
Definition enc_metric (m : metric) : bytes :=
  match m with
  | Counter id v => enc_fields counter_type ++ mp_bytes id ++ mp_int v
  | BatchTimer id vs => enc_fields timer_type ++ mp_bytes id ++ mp_array_len (zlen vs) ++ concat (map mp_float64 vs)
  | Gauge id v => enc_fields gauge_type ++ mp_bytes id ++ mp_float64 v
  end.

(** encoding/msgpack/unaggregated_encoder.go:126-130 [encodeRootObject]; encoding/msgpack/aggregated_encoder.go:120-124 *)
Definition enc_root (t : Z) : bytes := enc_version unaggregated_version ++ enc_fields root_type ++ enc_type t.
(** encoding/msgpack/aggregated_encoder.go:120-124 [aggregatedEncoder.encodeRootObject] *)
Definition enc_agg_root (t : Z) : bytes := enc_version aggregated_version ++ enc_fields root_type ++ enc_type t.

(** encoding/msgpack/unaggregated_encoder.go:72-97 [EncodeCounter], [EncodeBatchTimer], [EncodeGauge] *)
Definition encode_plain (m : metric) : bytes :=
  match m with
  | Counter _ _ => enc_root counter_type ++ enc_metric m
  | BatchTimer _ _ => enc_root timer_type ++ enc_metric m
  | Gauge _ _ => enc_root gauge_type ++ enc_metric m
  end.

(** encoding/msgpack/unaggregated_encoder.go:99-124, 132-148 [EncodeCounterWithPoliciesList] and its siblings *)
Definition encode_with_policies (m : metric) (pl : list staged_policies) : bytes :=
  match m with
  | Counter _ _ => enc_root counter_pl_type ++ enc_fields counter_pl_type ++ enc_metric m ++ enc_policies_list pl
  | BatchTimer _ _ => enc_root timer_pl_type ++ enc_fields timer_pl_type ++ enc_metric m ++ enc_policies_list pl
  | Gauge _ _ => enc_root gauge_pl_type ++ enc_fields gauge_pl_type ++ enc_metric m ++ enc_policies_list pl
  end.

(** metric/aggregated/types.go: the ID of an aggregated metric, whole or in chunks (metric/id/id.go) *)
Inductive metric_id := Raw (id : option bytes) | Chunked (prefix data suffix : bytes).
(** encoding/msgpack/base_encoder.go:73 [baseEncoder.encodeRawID] or
    encoding/msgpack/base_encoder.go:88-93 [baseEncoder.encodeChunkedID] *)
Definition enc_id (i : metric_id) : bytes :=
  match i with Raw id => mp_bytes id | Chunked p d s => enc_chunked_id p d s end.

(** encoding/msgpack/aggregated_encoder.go:126-147 [encodeMetricAsRaw], [encodeChunkedMetricAsRaw], [encodeMetricProlog]: in a buffer of its
    own, emptied first. *)
Definition enc_raw_metric (id : metric_id) (time value : Z) : bytes :=
  enc_version metric_version ++ enc_fields metric_obj_type ++ enc_id id ++ mp_int time ++ mp_float64 value.

(** encoding/msgpack/aggregated_encoder.go:70-118 and 149-171: [EncodeMetricWithStoragePolicy], its chunked sibling, and with
    [at_nanos = Some t] the two variants with an encoding time. *)
Definition encode_aggregated (id : metric_id) (time value : Z) (sp : storage_policy) (at_nanos : option Z) : bytes :=
  let data := enc_raw_metric id time value in
  match at_nanos with
  | None => enc_agg_root raw_sp_type ++ enc_fields raw_sp_type ++ mp_bytes (Some data) ++ enc_storage_policy sp
  | Some t => enc_agg_root raw_sp_time_type ++ enc_fields raw_sp_time_type ++ mp_bytes (Some data) ++
              enc_storage_policy sp ++ mp_int t
  end.

(** * The base iterator *)

(** encoding/msgpack/base_iterator.go:43-48 [baseIterator]: what is left to read, and [decodeErr].  When a read fails the position in the
    input is left as it was: nothing is read after an error. *)
Record st := mk_st { d_in : bytes; d_err : option merr }.
(** Code that reads from the decoder and may set [decodeErr]:
    encoding/msgpack/base_iterator.go:43-48 [baseIterator]. *)
Definition D (A : Type) := st -> A * st.
(** Reading nothing (encoding/msgpack/base_iterator.go:43-48). *)
Definition ret {A} (a : A) : D A := fun s => (a, s).
(** Statements one after the other (encoding/msgpack/base_iterator.go:43-48). *)
Definition bindD {A C} (x : D A) (f : A -> D C) : D C := fun s => let '(a, s) := x s in f a s.
Notation "'do' x '<-' a ';' b" := (bindD a (fun x => b)) (at level 60, x name, a at level 59, b at level 60).
(** encoding/msgpack/base_iterator.go:70 [baseIterator.err] *)
Definition get_err : D (option merr) := fun s => (d_err s, s).
(** encoding/msgpack/base_iterator.go:71 [baseIterator.setErr] *)
Definition set_err (e : option merr) : D unit := fun s => (tt, mk_st (d_in s) e).

(** encoding/msgpack/base_iterator.go:236-288: [decodeVarint], [decodeBool], [decodeFloat64], [decodeBytes], [decodeBytesLen],
    [decodeArrayLen]: nothing is read after an error. *)
Definition prim {A} (zero : A) (read : bytes -> (A * bytes) + merr) : D A := fun s =>
  match d_err s with
  | Some _ => (zero, s)
  | None => match read (d_in s) with inl (a, d) => (a, mk_st d None) | inr e => (zero, mk_st (d_in s) (Some e)) end
  end.
(** encoding/msgpack/base_iterator.go:236-243 [baseIterator.decodeVarint] *)
Definition dec_varint64 : D Z := prim 0 read_int.
(** encoding/msgpack/base_iterator.go:245-252 [baseIterator.decodeBool] *)
Definition dec_bool : D bool := prim false read_bool.
(** encoding/msgpack/base_iterator.go:254-261 [baseIterator.decodeFloat64] *)
Definition dec_float64 : D Z := prim 0 read_float64.
(** encoding/msgpack/base_iterator.go:263-270 [baseIterator.decodeBytes] *)
Definition dec_bytes : D bytes := prim [] read_bytes.
(** encoding/msgpack/base_iterator.go:272-279 [baseIterator.decodeBytesLen] *)
Definition dec_bytes_len : D Z := prim 0 read_bytes_len.
(** encoding/msgpack/base_iterator.go:281-288 [baseIterator.decodeArrayLen] *)
Definition dec_array_len : D Z := prim 0 read_array_len.

(** encoding/msgpack/base_iterator.go:290-305 [skip] *)
Definition dec_skip (n : Z) : D unit := fun s =>
  match d_err s with
  | Some _ => (tt, s)
  | None =>
      if n <? 0 then (tt, mk_st (d_in s) (Some Malformed))
      else match skip_values n (d_in s) with
           | inl d => (tt, mk_st d None)
           | inr e => (tt, mk_st (d_in s) (Some e))
           end
  end.

(** encoding/msgpack/base_iterator.go:212-222 [decodeObjectType] *)
Definition dec_type : D Z :=
  do t <- dec_varint64;
  do e <- get_err;
  match e with
  | Some _ => ret unknown_type
  | None => if type_valid t then ret t else do _ <- set_err (Some Malformed); ret unknown_type
  end.

(** encoding/msgpack/base_iterator.go:313-326 [checkExpectedNumFieldsForType] and 307-311 [checkNumFieldsForType]: how many fields are to be
    skipped at the end, if all is well. *)
Definition check_expected (t actual : Z) : D (option Z) :=
  do e <- get_err;
  match e with
  | Some _ => ret None
  | None => if actual <? num_fields t then do _ <- set_err (Some Malformed); ret None
            else ret (Some (actual - num_fields t))
  end.
(** encoding/msgpack/base_iterator.go:307-311 [baseIterator.checkNumFieldsForType] *)
Definition check_fields (t : Z) : D (option Z) := do n <- dec_array_len; check_expected t n.

(** encoding/msgpack/base_iterator.go:132-172 [decodeResolution]; m3x/time [Unit] is a byte, and valid if in the table. *)
Definition dec_resolution : D resolution :=
  do n <- dec_array_len;
  do t <- dec_type;
  do ok <- check_expected t n;
  match ok with
  | None => ret empty_resolution
  | Some extra =>
      if t =? known_res_type then
        do v <- dec_varint64;
        match resolution_of_value v with
        | None => do _ <- set_err (Some Malformed); ret empty_resolution
        | Some r => do _ <- dec_skip extra;
                    do e <- get_err;
                    match e with Some _ => ret empty_resolution | None => ret r end
        end
      else if t =? unknown_res_type then
        do w <- dec_varint64;
        do p <- dec_varint64;
        do e <- get_err;
        match e with
        | Some _ => ret empty_resolution
        | None =>
            match unit_value (p mod 256) with
            | None => do _ <- set_err (Some Malformed); ret empty_resolution
            | Some _ => do _ <- dec_skip extra; ret {| r_window := w; r_precision := p mod 256 |}
            end
        end
      else do _ <- set_err (Some Malformed); ret empty_resolution
  end.

(** encoding/msgpack/base_iterator.go:174-206 [decodeRetention] *)
Definition dec_retention : D Z :=
  do n <- dec_array_len;
  do t <- dec_type;
  do ok <- check_expected t n;
  match ok with
  | None => ret 0
  | Some extra =>
      if t =? known_ret_type then
        do v <- dec_varint64;
        match retention_of_value v with
        | None => do _ <- set_err (Some Malformed); ret 0
        | Some r => do _ <- dec_skip extra;
                    do e <- get_err;
                    match e with Some _ => ret 0 | None => ret r end
        end
      else if t =? unknown_ret_type then do r <- dec_varint64; do _ <- dec_skip extra; ret r
      else do _ <- set_err (Some Malformed); ret 0
  end.

(** encoding/msgpack/base_iterator.go:120-130 [decodeStoragePolicy] *)
Definition dec_storage_policy : D storage_policy :=
  do ok <- check_fields storage_policy_type;
  match ok with
  | None => ret empty_storage_policy
  | Some extra =>
      do r <- dec_resolution;
      do t <- dec_retention;
      do _ <- dec_skip extra;
      ret {| sp_resolution := r; sp_retention := t |}
  end.

(** encoding/msgpack/base_iterator.go:85-118 [decodeCompressedAggregationTypes], with [IDLen] = 1 *)
Definition dec_agg : D agg_id :=
  do n <- dec_array_len;
  do t <- dec_type;
  do ok <- check_expected t n;
  match ok with
  | None => ret default_id
  | Some extra =>
      if t =? default_agg_type then do _ <- dec_skip extra; ret default_id
      else if t =? short_agg_type then
        do v <- dec_varint64; do _ <- dec_skip extra; ret (Z.to_N (u64 v))
      else if t =? long_agg_type then
        do k <- dec_array_len;
        if 1 <? k then do _ <- set_err (Some Malformed); ret default_id
        else if k =? 1 then do v <- dec_varint64; do _ <- dec_skip extra; ret (Z.to_N (u64 v))
        else do _ <- dec_skip extra; ret default_id
      else do _ <- set_err (Some Malformed); ret default_id
  end.

(** encoding/msgpack/base_iterator.go:74-83 [decodePolicy]; policy.DefaultPolicy on failure *)
Definition dec_policy : D policy :=
  do ok <- check_fields policy_type;
  match ok with
  | None => ret {| p_storage := empty_storage_policy; p_agg := default_id |}
  | Some extra =>
      do sp <- dec_storage_policy;
      do a <- dec_agg;
      do _ <- dec_skip extra;
      ret {| p_storage := sp; p_agg := a |}
  end.

(** A loop [for i := 0; i < n; i++] appending what it decodes.
    (encoding/msgpack/unaggregated_iterator.go, e.g. the policies of [decodePoliciesList]) *)
Fixpoint dec_loop {A} (x : D A) (n : nat) : D (list A) :=
  match n with
  | O => ret []
  | S n => do a <- x; do l <- dec_loop x n; ret (a :: l)
  end.
(** The same for a length that was decoded (encoding/msgpack/unaggregated_iterator.go);
    none if negative. *)
Definition dec_list {A} (x : D A) (n : Z) : D (list A) := dec_loop x (Z.to_nat n).

(** encoding/msgpack/unaggregated_iterator.go:285-304 [decodeStagedPolicies].  The policies are put in a slice kept for this position in the
    list, emptied first. *)
Definition dec_staged : D staged_policies :=
  do ok <- check_fields staged_type;
  match ok with
  | None => ret default_staged_policies
  | Some extra =>
      do c <- dec_varint64;
      do b <- dec_bool;
      do n <- dec_array_len;
      do ps <- dec_list dec_policy n;
      do _ <- dec_skip extra;
      ret {| stp_cutover := c; stp_tombstoned := b; stp_policies := ps |}
  end.

(** encoding/msgpack/unaggregated_iterator.go:306-326 [decodeID]: into a buffer of the iterator, overwritten each time; nil is empty. *)
Definition dec_id : D bytes :=
  do n <- dec_bytes_len;
  do e <- get_err;
  match e with
  | Some _ => ret []
  | None => if n =? -1 then ret [] else prim [] (take n)
  end.

(** * The unaggregated iterator *)

(** metric/unaggregated/types.go: [MetricUnion], reused for every metric; metric/types.go:37-40 for the types. *)
Record munion := mk_mu { mu_type : Z; mu_id : bytes; mu_counter : Z; mu_timer : list Z; mu_gauge : Z }.
(** The zero [MetricUnion] (metric/unaggregated/types.go). *)
Definition empty_mu : munion := mk_mu 0 [] 0 [] 0.

(** encoding/msgpack/unaggregated_iterator.go:41-56.  The slices kept for reuse are not shown: whatever is decoded into them overwrites what
    can be seen of them. *)
Record mit := mk_mit {
  x_st : st; x_ignore : bool; x_closed : bool; x_metric : munion; x_policies : list staged_policies }.

(** 187-196 [decodeCounter] *)
Definition dec_counter (m : munion) : D munion :=
  do ok <- check_fields counter_type;
  match ok with
  | None => ret m
  | Some extra =>
      do id <- dec_id;
      do v <- dec_varint64;
      do _ <- dec_skip extra;
      ret (mk_mu 1 id v (mu_timer m) (mu_gauge m))
  end.

(** 198-232 [decodeBatchTimer]: the values are appended to an emptied slice, the iterator's or one of the pool *)
Definition dec_timer (m : munion) : D munion :=
  do ok <- check_fields timer_type;
  match ok with
  | None => ret m
  | Some extra =>
      do id <- dec_id;
      do n <- dec_array_len;
      do vs <- dec_list dec_float64 n;
      do _ <- dec_skip extra;
      ret (mk_mu 2 id (mu_counter m) vs (mu_gauge m))
  end.

(** 234-243 [decodeGauge] *)
Definition dec_gauge (m : munion) : D munion :=
  do ok <- check_fields gauge_type;
  match ok with
  | None => ret m
  | Some extra =>
      do id <- dec_id;
      do v <- dec_float64;
      do _ <- dec_skip extra;
      ret (mk_mu 3 id (mu_counter m) (mu_timer m) v)
  end.

(** 245-280 [decodePoliciesList]: the new list, or the old one on failure. *)
Definition dec_policies_list (old : list staged_policies) : D (list staged_policies) :=
  do n <- dec_array_len;
  do t <- dec_type;
  do ok <- check_expected t n;
  match ok with
  | None => ret old
  | Some extra =>
      if t =? default_pl_type then do _ <- dec_skip extra; ret default_policies_list
      else if t =? custom_pl_type then
        do k <- dec_array_len;
        do l <- dec_list dec_staged k;
        do _ <- dec_skip extra;
        ret l
      else do _ <- set_err (Some Malformed); do _ <- dec_skip extra; ret old
  end.

(** 154-185 [decodeMetric] and [decodeMetricWithPoliciesList] *)
Definition dec_body (t : Z) (m : munion) : D munion :=
  if (t =? counter_type) || (t =? counter_pl_type) then dec_counter m
  else if (t =? timer_type) || (t =? timer_pl_type) then dec_timer m
  else dec_gauge m.
(** encoding/msgpack/unaggregated_iterator.go:154-165 [unaggregatedIterator.decodeMetric] *)
Definition dec_plain (t : Z) (m : munion) (pl : list staged_policies) : D (munion * list staged_policies) :=
  do m <- dec_body t m; ret (m, pl).
(** encoding/msgpack/unaggregated_iterator.go:167-185
    [unaggregatedIterator.decodeMetricWithPoliciesList] *)
Definition dec_with_policies (t : Z) (m : munion) (pl : list staged_policies) : D (munion * list staged_policies) :=
  do ok <- check_fields t;
  match ok with
  | None => ret (m, pl)
  | Some extra =>
      do m <- dec_body t m;
      do pl <- dec_policies_list pl;
      do _ <- dec_skip extra;
      ret (m, pl)
  end.

(** 133-149: [decodeRootObject] past the version *)
Definition dec_object (m : munion) (pl : list staged_policies) : D (munion * list staged_policies) :=
  do ok <- check_fields root_type;
  match ok with
  | None => ret (m, pl)
  | Some extra =>
      do t <- dec_type;
      do e <- get_err;
      match e with
      | Some _ => ret (m, pl)
      | None =>
          if (t =? counter_type) || (t =? timer_type) || (t =? gauge_type) then
            do r <- dec_plain t m pl; do _ <- dec_skip extra; ret r
          else if (t =? counter_pl_type) || (t =? timer_pl_type) || (t =? gauge_pl_type) then
            do r <- dec_with_policies t m pl; do _ <- dec_skip extra; ret r
          else do _ <- set_err (Some Malformed); do _ <- dec_skip extra; ret (m, pl)
      end
  end.

(** 117-152 [decodeRootObject] and 90-100 [Next], which call each other when a message of a higher version is skipped.
    Each round reads a byte at least, so the fuel, one more than the number of bytes, suffices. *)
Fixpoint next_loop (fuel : nat) (it : mit) : bool * mit :=
  match d_err (x_st it), x_closed it, fuel with
  | None, false, S fuel =>
      let m := mk_mu (mu_type (x_metric it)) (mu_id (x_metric it)) (mu_counter (x_metric it)) [] (mu_gauge (x_metric it)) in
      let '(version, s) := dec_varint64 (x_st it) in
      match d_err s with
      | Some _ => (false, mk_mit s (x_ignore it) false m (x_policies it))
      | None =>
          if unaggregated_version <? version then
            if x_ignore it then
              let '(n, s) := dec_array_len s in
              let '(_, s) := dec_skip n s in
              next_loop fuel (mk_mit s true false m (x_policies it))
            else (false, mk_mit (mk_st (d_in s) (Some Malformed)) false false m (x_policies it))
          else
            let '((m, pl), s) := dec_object m (x_policies it) s in
            (match d_err s with None => true | Some _ => false end, mk_mit s (x_ignore it) false m pl)
      end
  | _, _, _ => (false, it)
  end.
(** encoding/msgpack/unaggregated_iterator.go:90-100 [unaggregatedIterator.Next] *)
Definition mnext (it : mit) : bool * mit := next_loop (S (length (d_in (x_st it)))) it.

(** 59-72 [NewUnaggregatedIterator]; 76-80 [Reset]; 102-115 [Close].  [Reset] keeps the policies list, which is backed by
    a reused slice that a failed decoding may have overwritten: [stale] is whatever it shows. *)
Definition new_mit (d : bytes) (ignore : bool) : mit := mk_mit (mk_st d None) ignore false empty_mu [].
(** encoding/msgpack/unaggregated_iterator.go:76-80 [unaggregatedIterator.Reset] *)
Definition reset_mit (d : bytes) (stale : list staged_policies) (it : mit) : mit :=
  mk_mit (mk_st d None) (x_ignore it) false empty_mu stale.
(** encoding/msgpack/unaggregated_iterator.go:102-115 [unaggregatedIterator.Close] *)
Definition close_mit (it : mit) : mit :=
  if x_closed it then it else mk_mit (mk_st [] None) (x_ignore it) true empty_mu [].

(** * The raw metric *)

(** encoding/msgpack/raw_metric.go:39-47; metric/aggregated/types.go [Metric] *)
Record raw_metric := mk_raw {
  w_data : bytes; w_st : st; w_id : bytes; w_time : Z; w_value : Z;
  w_id_decoded : bool; w_time_decoded : bool; w_value_decoded : bool }.

(** encoding/msgpack/raw_metric.go:50-58 [NewRawMetric]; 101-109 [Reset] *)
Definition new_raw (d : bytes) : raw_metric := mk_raw d (mk_st d None) [] 0 0 false false false.

(** encoding/msgpack/raw_metric.go:178-192 [readBytes]: the part of the data found, and the state after the seek *)
Definition raw_read_bytes (data : bytes) (start n : Z) (s : st) : bytes * st :=
  if (n <? 0) || (start <? 0) || (zlen data <? start + n) then ([], mk_st (d_in s) (Some Malformed))
  else (firstn (Z.to_nat n) (skipn (Z.to_nat start) data), mk_st (skipn (Z.to_nat n) (d_in s)) (d_err s)).

(** encoding/msgpack/raw_metric.go:115-148 [decodeID] *)
Definition raw_decode_id (w : raw_metric) : raw_metric :=
  let with_st s := mk_raw (w_data w) s (w_id w) (w_time w) (w_value w) (w_id_decoded w) (w_time_decoded w)
                     (w_value_decoded w) in
  let with_id id s := mk_raw (w_data w) s id (w_time w) (w_value w) true (w_time_decoded w) (w_value_decoded w) in
  match d_err (w_st w), w_id_decoded w with
  | None, false =>
      let '(version, s) := dec_varint64 (w_st w) in
      match d_err s with
      | Some _ => with_st s
      | None =>
          if metric_version <? version then with_st (mk_st (d_in s) (Some Malformed))
          else
            let '(ok, s) := check_fields metric_obj_type s in
            match ok with
            | None => with_st s
            | Some _ =>
                let '(n, s) := dec_bytes_len s in
                match d_err s with
                | Some _ => with_st s
                | None =>
                    if n =? -1 then with_id [] s
                    else
                      let '(id, s) := raw_read_bytes (w_data w) (zlen (w_data w) - zlen (d_in s)) n s in
                      match d_err s with Some _ => with_st s | None => with_id id s end
                end
            end
      end
  | _, _ => w
  end.

(** encoding/msgpack/raw_metric.go:150-172 [decodeTime], [decodeValue] *)
Definition raw_decode_time (w : raw_metric) : raw_metric :=
  match d_err (w_st w), w_time_decoded w with
  | None, false =>
      let '(t, s) := dec_varint64 (w_st w) in
      match d_err s with
      | Some _ => mk_raw (w_data w) s (w_id w) (w_time w) (w_value w) (w_id_decoded w) false (w_value_decoded w)
      | None => mk_raw (w_data w) s (w_id w) t (w_value w) (w_id_decoded w) true (w_value_decoded w)
      end
  | _, _ => w
  end.
(** encoding/msgpack/raw_metric.go:162-172 [rawMetric.decodeValue] *)
Definition raw_decode_value (w : raw_metric) : raw_metric :=
  match d_err (w_st w), w_value_decoded w with
  | None, false =>
      let '(v, s) := dec_float64 (w_st w) in
      match d_err s with
      | Some _ => mk_raw (w_data w) s (w_id w) (w_time w) (w_value w) (w_id_decoded w) (w_time_decoded w) false
      | None => mk_raw (w_data w) s (w_id w) (w_time w) v (w_id_decoded w) (w_time_decoded w) true
      end
  | _, _ => w
  end.

(** encoding/msgpack/raw_metric.go:60-99: the accessors [ID], [TimeNanos], [Value], [Metric], [Bytes] *)
Inductive accessor := GetID | GetTime | GetValue | GetMetric | GetBytes.
(** The results of encoding/msgpack/raw_metric.go:60-99. *)
Inductive answer :=
| AnID (id : bytes) | ATime (t : Z) | AValue (v : Z) | AMetric (id : bytes) (t v : Z) | ABytes (d : bytes)
| AnError (e : merr).
(** The result, or the error if there is one: encoding/msgpack/raw_metric.go:60-99. *)
Definition answer_of (w : raw_metric) (a : answer) : answer :=
  match d_err (w_st w) with Some e => AnError e | None => a end.
(** encoding/msgpack/raw_metric.go:60-99: [ID], [TimeNanos], [Value], [Metric], [Bytes] *)
Definition access (a : accessor) (w : raw_metric) : answer * raw_metric :=
  match a with
  | GetID => let w := raw_decode_id w in (answer_of w (AnID (w_id w)), w)
  | GetTime => let w := raw_decode_time (raw_decode_id w) in (answer_of w (ATime (w_time w)), w)
  | GetValue => let w := raw_decode_value (raw_decode_time (raw_decode_id w)) in (answer_of w (AValue (w_value w)), w)
  | GetMetric => let w := raw_decode_value (raw_decode_time (raw_decode_id w)) in
                 (answer_of w (AMetric (w_id w) (w_time w) (w_value w)), w)
  | GetBytes => (ABytes (w_data w), w)
  end.

(** * The aggregated iterator *)

(** encoding/msgpack/aggregated_iterator.go:32-41 *)
Record ait := mk_ait {
  g_st : st; g_ignore : bool; g_closed : bool; g_metric : raw_metric; g_sp : storage_policy; g_at : Z }.

(** 124-148 [decodeRawMetricWithStoragePolicy] and the variant with an encoding time: data, policy, time *)
Definition dec_raw (t : Z) (old : raw_metric * storage_policy * Z) : D (raw_metric * storage_policy * Z) :=
  do ok <- check_fields t;
  match ok with
  | None => ret old
  | Some extra =>
      do d <- dec_bytes;
      do sp <- dec_storage_policy;
      if t =? raw_sp_type then do _ <- dec_skip extra; ret (new_raw d, sp, 0)
      else do at_nanos <- dec_varint64; do _ <- dec_skip extra; ret (new_raw d, sp, at_nanos)
  end.

(** 103-119: [decodeRootObject] past the version *)
Definition dec_agg_object (old : raw_metric * storage_policy * Z) : D (raw_metric * storage_policy * Z) :=
  do ok <- check_fields root_type;
  match ok with
  | None => ret old
  | Some extra =>
      do t <- dec_type;
      do e <- get_err;
      match e with
      | Some _ => ret old
      | None =>
          if (t =? raw_sp_type) || (t =? raw_sp_time_type) then do r <- dec_raw t old; do _ <- dec_skip extra; ret r
          else do _ <- set_err (Some Malformed); do _ <- dec_skip extra; ret old
      end
  end.

(** 68-73 [Next] and 87-122 [decodeRootObject] *)
Fixpoint anext_loop (fuel : nat) (it : ait) : bool * ait :=
  match d_err (g_st it), g_closed it, fuel with
  | None, false, S fuel =>
      let '(version, s) := dec_varint64 (g_st it) in
      match d_err s with
      | Some _ => (false, mk_ait s (g_ignore it) false (g_metric it) (g_sp it) (g_at it))
      | None =>
          if aggregated_version <? version then
            if g_ignore it then
              let '(n, s) := dec_array_len s in
              let '(_, s) := dec_skip n s in
              anext_loop fuel (mk_ait s true false (g_metric it) (g_sp it) (g_at it))
            else (false, mk_ait (mk_st (d_in s) (Some Malformed)) false false (g_metric it) (g_sp it) (g_at it))
          else
            let '((w, sp, at_nanos), s) := dec_agg_object (g_metric it, g_sp it, g_at it) s in
            (match d_err s with None => true | Some _ => false end, mk_ait s (g_ignore it) false w sp at_nanos)
      end
  | _, _, _ => (false, it)
  end.
(** encoding/msgpack/aggregated_iterator.go:68-73 [aggregatedIterator.Next] *)
Definition anext (it : ait) : bool * ait := anext_loop (S (length (d_in (g_st it)))) it.

(** 44-55 [NewAggregatedIterator]; 59-62 [Reset]; 75-85 [Close] *)
Definition new_ait (d : bytes) (ignore : bool) : ait :=
  mk_ait (mk_st d None) ignore false (new_raw []) empty_storage_policy 0.
(** encoding/msgpack/aggregated_iterator.go:59-62 [aggregatedIterator.Reset] *)
Definition reset_ait (d : bytes) (it : ait) : ait :=
  mk_ait (mk_st d None) (g_ignore it) false (g_metric it) (g_sp it) (g_at it).
(** encoding/msgpack/aggregated_iterator.go:75-85 [aggregatedIterator.Close] *)
Definition close_ait (it : ait) : ait :=
  if g_closed it then it else mk_ait (mk_st [] None) (g_ignore it) true (new_raw []) (g_sp it) (g_at it).
