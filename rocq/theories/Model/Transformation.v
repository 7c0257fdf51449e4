(** Model of package [transformation].  Values are IEEE 754 binary64 numbers,
    represented by the standard library's executable specification [spec_float]. *)
From Coq Require Import Ascii String NArith ZArith Bool SpecFloat List.
From Verif.Base Require Import Bytes.
Import ListNotations.
Open Scope Z_scope.

(** transformation/type.go:31-38 [Type]: a Go int. *)
Definition tf_type := Z.
(** transformation/type.go:35 [UnknownType] *)
Definition TfUnknown : tf_type := 0.
(** transformation/type.go:36 [Absolute] *)
Definition TfAbsolute : tf_type := 1.
(** transformation/type.go:37 [PerSecond] *)
Definition TfPerSecond : tf_type := 2.

(** transformation/type.go:41-55 and the tables at 172-177. *)
Definition tf_is_unary (t : tf_type) : bool := t =? TfAbsolute.
(** transformation/type.go:52-55 [IsBinaryTransform], table 175-177 *)
Definition tf_is_binary (t : tf_type) : bool := t =? TfPerSecond.
(** transformation/type.go:41-43 [IsValid] *)
Definition tf_is_valid (t : tf_type) : bool := tf_is_unary t || tf_is_binary t.

(** transformation/type.go:98-108 [ToProto]; transformationpb ABSOLUTE = 1, PERSECOND = 2 *)
Definition tf_to_proto (t : tf_type) : option Z :=
  if t =? TfAbsolute then Some 1 else if t =? TfPerSecond then Some 2 else None.

(** transformation/type.go:111-121 [FromProto] *)
Definition tf_from_proto (z : Z) : option tf_type :=
  if z =? 1 then Some TfAbsolute else if z =? 2 then Some TfPerSecond else None.

(** transformation/type_string.go:27-36 [String]; other values print as "Type(n)",
    which no parser accepts and is not modelled. *)
Definition tf_string (t : tf_type) : option bytes :=
  if t =? TfUnknown then Some (B "UnknownType")
  else if t =? TfAbsolute then Some (B "Absolute")
  else if t =? TfPerSecond then Some (B "PerSecond") else None.

(** transformation/type.go:163-169 [ParseType] with the map built at 181-189. *)
Definition tf_parse (s : bytes) : option tf_type :=
  if beqb s (B "Absolute") then Some TfAbsolute
  else if beqb s (B "PerSecond") then Some TfPerSecond else None.

(** Go [float64].  Type of [Datapoint.Value], transformation/func.go. *)
Definition float64 := spec_float.
(** Precision of float64 (IEEE binary64), for the operators in
    transformation/binary.go:41-45. *)
Definition prec64 : Z := 53.
(** Exponent bound of float64 (IEEE binary64), for the operators in
    transformation/binary.go:41-45. *)
Definition emax64 : Z := 1024.
(** Go float64 [-], as at transformation/binary.go:41. *)
Definition f_sub (x y : float64) : float64 := SFsub prec64 emax64 x y.
(** Go float64 [*], as at transformation/binary.go:45. *)
Definition f_mul (x y : float64) : float64 := SFmul prec64 emax64 x y.
(** Go float64 [/], as at transformation/binary.go:45. *)
Definition f_div (x y : float64) : float64 := SFdiv prec64 emax64 x y.
(** Conversion [float64(z)] of an integer, rounding to nearest even.
    (as at transformation/binary.go:45) *)
Definition f_of_int (z : Z) : float64 := binary_normalize prec64 emax64 z 0 false.
(** Go float64 [<], as at transformation/binary.go:42. *)
Definition f_lt (x y : float64) : bool := SFltb x y.
(** [math.IsNaN], as at transformation/binary.go:38. *)
Definition f_is_nan (x : float64) : bool := match x with S754_nan => true | _ => false end.
(** The float64 constant 0, as at transformation/binary.go:42. *)
Definition f_zero : float64 := S754_zero false.

(** Go [int64] subtraction wraps around.
    (curr.TimeNanos-prev.TimeNanos at transformation/binary.go:45) *)
Definition to_int64 (z : Z) : Z := (z + 2 ^ 63) mod 2 ^ 64 - 2 ^ 63.

(** transformation/func.go:31-34 [Datapoint] *)
Record datapoint := { dp_time : Z; dp_value : float64 }.

(** transformation/func.go:26 [emptyDatapoint] *)
Definition empty_datapoint : datapoint := {| dp_time := 0; dp_value := S754_nan |}.

(** transformation/func.go:37 [IsEmpty] *)
Definition dp_is_empty (d : datapoint) : bool := f_is_nan (dp_value d).

(** transformation/unary.go:25-30 [absolute] *)
Definition absolute (d : datapoint) : datapoint :=
  {| dp_time := dp_time d; dp_value := SFabs (dp_value d) |}.

(** transformation/binary.go:28-30 *)
Definition nanos_per_second : Z := 1000000000.

(** transformation/binary.go:37-47 [perSecond] *)
Definition per_second (prev curr : datapoint) : datapoint :=
  if (dp_time curr <=? dp_time prev) || f_is_nan (dp_value prev) || f_is_nan (dp_value curr)
  then empty_datapoint
  else
    let diff := f_sub (dp_value curr) (dp_value prev) in
    if f_lt diff f_zero then empty_datapoint
    else
      let rate := f_div (f_mul diff (f_of_int nanos_per_second))
                        (f_of_int (to_int64 (dp_time curr - dp_time prev))) in
      {| dp_time := dp_time curr; dp_value := rate |}.

(** Go [int] metric types (metric/types.go:34-39) and their protobuf codes
    (metricpb.MetricType UNKNOWN = 0, COUNTER = 1, TIMER = 2, GAUGE = 3). *)
Definition mt_counter : Z := 1.
(** metric/types.go:37 [TimerType] *)
Definition mt_timer : Z := 2.
(** metric/types.go:38 [GaugeType] *)
Definition mt_gauge : Z := 3.

(** metric/types.go:62-74 [ToProto] *)
Definition mt_to_proto (t : Z) : option Z :=
  if t =? mt_counter then Some 1 else if t =? mt_timer then Some 2
  else if t =? mt_gauge then Some 3 else None.

(** metric/types.go:77-89 [FromProto] *)
Definition mt_from_proto (z : Z) : option Z :=
  if z =? 1 then Some mt_counter else if z =? 2 then Some mt_timer
  else if z =? 3 then Some mt_gauge else None.

(** metric/types.go:48-59 [String] *)
Definition mt_string (t : Z) : bytes :=
  if t =? mt_counter then B "counter" else if t =? mt_timer then B "timer"
  else if t =? mt_gauge then B "gauge" else B "unknown".

(** metric/types.go:92-102 [ParseType]: scan of the valid types 41-45. *)
Definition mt_parse (s : bytes) : option Z :=
  find (fun t => beqb s (mt_string t)) [mt_counter; mt_timer; mt_gauge].
