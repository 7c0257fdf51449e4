(** What a configuration of aggregation types says, independent of the code that reads it. *)
From Coq Require Import Ascii String ZArith Bool List.
From Verif.Base Require Import Bytes.
From Verif.Model Require Import AggType AggConfig.
From Verif.Spec Require Import AggSpec.
Import ListNotations.
Open Scope Z_scope.

(** What is written in a document for a type of metrics *)
Definition written_types (y : types_yaml) (m : metric_type) : option (list bytes) :=
  match m with
  | CounterMetric => ty_counter_types y
  | TimerMetric => ty_timer_types y
  | GaugeMetric => ty_gauge_types y
  | UnknownMetric => None
  end.
Definition written_fn (y : types_yaml) (m : metric_type) : option bytes :=
  match m with
  | CounterMetric => ty_counter_fn y
  | TimerMetric => ty_timer_fn y
  | GaugeMetric => ty_gauge_fn y
  | UnknownMetric => None
  end.

(** The types a metric is aggregated by if nothing is configured *)
Definition documented_defaults (m : metric_type) : list Z :=
  match m with
  | CounterMetric => [7]                                      (* Sum *)
  | TimerMetric => [7; 8; 4; 2; 3; 6; 9; 5; 14; 19; 20]       (* Sum to P99 *)
  | GaugeMetric => [1]                                        (* Last *)
  | UnknownMetric => []
  end.

(** The three transformations of suffixes, by name *)
Definition documented_transforms : list (bytes * (bytes -> bytes)) :=
  [(B "noop", fun s => s); (B "empty", fun _ => []); (B "suffix", fun s => B "." ++ s)].

(** The suffixes before they are transformed *)
Definition documented_suffixes : list (Z * bytes) :=
  [ (1, B "last"); (2, B "lower"); (3, B "upper"); (4, B "mean"); (5, B "median"); (6, B "count");
    (7, B "sum"); (8, B "sum_sq"); (9, B "stdev"); (10, B "p10"); (11, B "p20"); (12, B "p30");
    (13, B "p40"); (14, B "p50"); (15, B "p60"); (16, B "p70"); (17, B "p80"); (18, B "p90");
    (19, B "p95"); (20, B "p99"); (21, B "p999"); (22, B "p9999") ].

(** A document without mistakes *)
Definition well_written (y : types_yaml) : Prop :=
  forall m,
    (forall names s, written_types y m = Some names -> In s names -> exists t, In (t, s) documented_names) /\
    (forall s, written_fn y m = Some s -> In s (map fst documented_transforms)).

(** The types [ts] are those written for [m], or the default *)
Definition types_meant (y : types_yaml) (m : metric_type) (ts : list Z) : Prop :=
  match written_types y m with
  | Some names => Forall2 (fun t s => In (t, s) documented_names) ts names
  | None => ts = documented_defaults m
  end.

(** The transformation is the one written for [m], or none *)
Definition fn_meant (y : types_yaml) (m : metric_type) (f : bytes -> bytes) : Prop :=
  match written_fn y m with
  | Some s => In (s, f) documented_transforms
  | None => f = fun s => s
  end.
