(** Model of the configuration of aggregation types: aggregation/type_config.go, and the YAML forms of
    the types in it.  Definitions only.

    A YAML document is what the yaml library (external) hands to [UnmarshalYAML]: for each key that is
    present, the strings written there.  Left out: the two pools, which hold no values. *)
From Coq Require Import Ascii String ZArith Bool List.
From Verif.Base Require Import Bytes.
From Verif.Model Require Import AggType Transformation.
Import ListNotations.
Open Scope Z_scope.

(** aggregation/type_config.go:31-55 [TypesConfiguration], the keys of the YAML document; an absent key
    leaves a nil pointer *)
Record types_yaml := mk_ty {
  ty_counter_types : option (list bytes);
  ty_timer_types : option (list bytes);
  ty_gauge_types : option (list bytes);
  ty_counter_fn : option bytes;
  ty_timer_fn : option bytes;
  ty_gauge_fn : option bytes }.

(** aggregation/type_config.go:31-55 [TypesConfiguration]; a [transformFnType] is a string *)
Record types_config := mk_tc {
  tc_counter_types : option (list agg_type);
  tc_timer_types : option (list agg_type);
  tc_gauge_types : option (list agg_type);
  tc_counter_fn : option bytes;
  tc_timer_fn : option bytes;
  tc_gauge_fn : option bytes }.

(** aggregation/type_config.go:116-124 [validTypes] *)
Definition valid_transform_types : list bytes := [B "noop"; B "empty"; B "suffix"].

(** aggregation/type_config.go:127-143 [transformFnType.UnmarshalYAML] *)
Definition read_transform_type (s : bytes) : option bytes := find (fun v => beqb v s) valid_transform_types.

(** aggregation/type_config.go:145-156 [transformFnType.TransformFn] *)
Definition transform_fn (t : bytes) : option (bytes -> bytes) :=
  if beqb t (B "noop") then Some no_op_transform
  else if beqb t (B "empty") then Some empty_transform
  else if beqb t (B "suffix") then Some suffix_transform
  else None.

(** A field that is present is read, an absent one stays nil: aggregation/type_config.go:31-55 *)
Definition read_field {A C} (f : A -> option C) (x : option A) : option (option C) :=
  match x with
  | None => Some None
  | Some a => option_map Some (f a)
  end.

(** What the yaml library does with aggregation/type_config.go:31-55, by aggregation/type.go:228-239
    [Type.UnmarshalYAML] for each name in a list and [read_transform_type]; [None] is an error *)
Definition read_types_yaml (y : types_yaml) : option types_config :=
  match read_field (map_opt parse_type) (ty_counter_types y), read_field (map_opt parse_type) (ty_timer_types y),
        read_field (map_opt parse_type) (ty_gauge_types y), read_field read_transform_type (ty_counter_fn y),
        read_field read_transform_type (ty_timer_fn y), read_field read_transform_type (ty_gauge_fn y) with
  | Some c, Some t, Some g, Some cf, Some tf, Some gf => Some (mk_tc c t g cf tf gf)
  | _, _, _, _, _, _ => None
  end.

(** One of the statements [if c.X != nil { opts = opts.SetX(…) }]: aggregation/type_config.go:60-68 *)
Definition set_if {A} (set : A -> options_set) (x : option A) (o : types_options) : types_options :=
  match x with
  | Some a => apply_options_set o (set a)
  | None => o
  end.

(** One of the statements at aggregation/type_config.go:69-89; [None] is the error returned *)
Definition set_fn_if (set : (bytes -> bytes) -> options_set) (x : option bytes) (o : types_options)
  : option types_options :=
  match x with
  | None => Some o
  | Some t => option_map (fun fn => apply_options_set o (set fn)) (transform_fn t)
  end.

(** aggregation/type_config.go:58-112 [NewOptions] *)
Definition config_options (c : types_config) : option types_options :=
  let o := new_types_options in
  let o := set_if SetDefaultCounterTypes (tc_counter_types c) o in
  let o := set_if SetDefaultGaugeTypes (tc_gauge_types c) o in
  let o := set_if SetDefaultTimerTypes (tc_timer_types c) o in
  match set_fn_if SetCounterFn (tc_counter_fn c) o with
  | None => None
  | Some o =>
      match set_fn_if SetTimerFn (tc_timer_fn c) o with
      | None => None
      | Some o => set_fn_if SetGaugeFn (tc_gauge_fn c) o
      end
  end.

(** aggregation/type.go:158-192 [Type.Quantile]: the constants as float64, of which the model elsewhere
    keeps the ten-thousandths; the literal of the source is the float64 nearest to the quotient *)
Definition quantile_float (q : Z) : float64 := f_div (f_of_int q) (f_of_int 10000).

(** aggregation/types_options.go:393, the argument of [FormatFloat] *)
Definition percentage_float (q : Z) : float64 := f_mul (quantile_float q) (f_of_int 100).
