(** Model of the YAML form of types, policies and pipelines: the methods
    [UnmarshalYAML] and the yaml tags in pipeline/type.go.  Definitions only.

    gopkg.in/yaml.v2 is modelled at the level of documents: scalars by their text,
    sequences, and mappings whose keys are scalars.  Simplified: no tags, anchors or
    merge keys; a key that is repeated within a mapping counts where it comes last.
    [strict] is whether [UnmarshalStrict] is used, which refuses unknown and repeated
    keys.  [null_text] is what a string is set to by null (versions of yaml.v2
    differ); a missing key leaves the zero value. *)
From Coq Require Import Ascii String NArith ZArith Bool List.
From Verif.Base Require Import Bytes.
From Verif.Model Require Import AggType Policy Transformation Pipeline Json.
Import ListNotations.
Open Scope Z_scope.

(** The documents that the [UnmarshalYAML] methods get to see.
    (pipeline/type.go:114-121,190-197,321-328,475-486,629-636) *)
Inductive yaml :=
| YNull
| YScalar (s : bytes)
| YSeq (l : list yaml)
| YMap (l : list (bytes * yaml)).

(** The value of a key (external yaml.v2, for the tags of pipeline/type.go:331-333,490-492). *)
Fixpoint yfield (k : bytes) (l : list (bytes * yaml)) : option yaml :=
  match l with
  | [] => None
  | (k', v) :: l' => match yfield k l' with
                     | Some w => Some w
                     | None => if beqb k' k then Some v else None
                     end
  end.

(** metric/types.go:51-62 [Type.String] *)
Definition metric_type_string (t : metric_type) : bytes :=
  match t with
  | CounterMetric => B "counter" | TimerMetric => B "timer" | GaugeMetric => B "gauge" | UnknownMetric => B "unknown"
  end.
(** metric/types.go:92-102 [ParseType] *)
Definition parse_metric_type (s : bytes) : option metric_type :=
  find (fun t => beqb s (metric_type_string t)) [CounterMetric; TimerMetric; GaugeMetric].

Section Yaml.
  Context (dt : duration_text) (strict : bool) (null_text : bytes).

  (** yaml.v2: no [UnmarshalYAML] is called for null, the value is the zero value
      (external, for the methods cited below, such as aggregation/type.go:228-240) *)
  Definition y_own {A} (zero : A) (d : yaml -> option A) (y : yaml) : option A :=
    match y with YNull => Some zero | _ => d y end.
  (** [unmarshal(&str)], then parsing  (aggregation/type.go:229-234) *)
  Definition y_text {A} (parse : bytes -> option A) (y : yaml) : option A :=
    match y with YScalar s => parse s | _ => None end.
  (** A string (pipeline/type.go:331 [NewName]). *)
  Definition y_string (y : yaml) : option bytes :=
    match y with YNull => Some null_text | YScalar s => Some s | _ => None end.
  (** A slice (pipeline/type.go:332 [Tags]). *)
  Definition y_list {A} (d : yaml -> option A) (y : yaml) : option (list A) :=
    match y with YNull => Some [] | YSeq l => map_opt d l | _ => None end.
  (** A pointer (pipeline/type.go:490-492). *)
  Definition y_ptr {A} (d : yaml -> option A) (y : yaml) : option (option A) :=
    match y with YNull => Some None | _ => option_map Some (d y) end.

  (** Keys that [UnmarshalStrict] accepts: those of the struct, each once
      (external yaml.v2, for the tags of pipeline/type.go:331-333,490-492). *)
  Fixpoint keys_accepted (ks : list bytes) (l : list (bytes * yaml)) : bool :=
    match l with
    | [] => true
    | (k, _) :: l' => existsb (beqb k) ks && negb (existsb (fun x => beqb k (fst x)) l') && keys_accepted ks l'
    end.
  (** A struct (pipeline/type.go:330-334,489-493). *)
  Definition y_struct (ks : list bytes) (y : yaml) : option (list (bytes * yaml)) :=
    match y with YMap l => if strict && negb (keys_accepted ks l) then None else Some l | _ => None end.
  (** A field of a struct (pipeline/type.go:331-333,490-492). *)
  Definition y_field {A} (k : string) (zero : A) (d : yaml -> option A) (l : list (bytes * yaml)) : option A :=
    match yfield (B k) l with None => Some zero | Some v => d v end.

  (** metric/types.go:114-127 [Type.UnmarshalYAML] *)
  Definition y_metric_type : yaml -> option metric_type := y_own UnknownMetric (y_text parse_metric_type).
  (** aggregation/type.go:228-240 [Type.UnmarshalYAML] *)
  Definition y_agg_type : yaml -> option agg_type := y_own UnknownType (y_text parse_type).
  (** aggregation/id.go:122-133 [ID.UnmarshalYAML] *)
  Definition y_agg_id : yaml -> option agg_id :=
    y_own default_id (fun y => do ts <- y_list y_agg_type y; let '(id, err) := compress_types ts in if err then None else Some id).
  (** transformation/type.go:148-160 [Type.UnmarshalYAML] *)
  Definition y_tf : yaml -> option tf_type := y_own TfUnknown (y_text tf_parse).
  (** policy/storage_policy.go:149-160 [StoragePolicy.UnmarshalYAML] *)
  Definition y_sp : yaml -> option storage_policy :=
    y_own {| sp_resolution := {| r_window := 0; r_precision := 0 |}; sp_retention := 0 |} (y_text (parse_sp dt)).
  (** policy/policy.go:130-142 [Policy.UnmarshalYAML] *)
  Definition y_policy : yaml -> option policy :=
    y_own {| p_storage := {| sp_resolution := {| r_window := 0; r_precision := 0 |}; sp_retention := 0 |}; p_agg := default_id |}
      (y_text (parse_policy dt)).
  (** policy/policy.go:208-227 [DropPolicy.UnmarshalYAML] *)
  Definition y_drop_policy : yaml -> option drop_policy := y_own DropNone (y_text unmarshal_drop_policy).

  (** pipeline/type.go:321-328 [RollupOp.UnmarshalYAML], 330-334, 344-350 *)
  Definition y_rollup_op : yaml -> option rollup_op :=
    y_own empty_rollup_op (fun y =>
      do l <- y_struct (map B ["newName"; "tags"; "aggregation"]%string) y;
      do n <- y_field "newName" [] y_string l;
      do ts <- y_field "tags" [] (y_list y_string) l;
      do a <- y_field "aggregation" default_id y_agg_id l;
      Some {| ro_name := n; ro_tags := ts; ro_agg := a |}).

  (** pipeline/type.go:475-486 [OpUnion.UnmarshalYAML], 489-493, 510-521; 114-121
      [AggregationOp.UnmarshalYAML] and 190-197 [TransformationOp.UnmarshalYAML] hand on
      to the type *)
  Definition y_op : yaml -> option op :=
    y_own {| op_kind := UnknownOp; op_agg := UnknownType; op_tf := TfUnknown; op_rollup := empty_rollup_op |} (fun y =>
      do l <- y_struct (map B ["aggregation"; "transformation"; "rollup"]%string) y;
      do a <- y_field "aggregation" None (y_ptr y_agg_type) l;
      do t <- y_field "transformation" None (y_ptr y_tf) l;
      do r <- y_field "rollup" None (y_ptr y_rollup_op) l;
      match a, t, r with
      | Some a, _, _ => Some {| op_kind := AggregationOp; op_agg := a; op_tf := TfUnknown; op_rollup := empty_rollup_op |}
      | None, Some t, _ => Some {| op_kind := TransformationOp; op_agg := UnknownType; op_tf := t; op_rollup := empty_rollup_op |}
      | None, None, Some r => Some {| op_kind := RollupOp; op_agg := UnknownType; op_tf := TfUnknown; op_rollup := r |}
      | None, None, None => None
      end).

  (** pipeline/type.go:629-636 [Pipeline.UnmarshalYAML] *)
  Definition y_pipeline : yaml -> option pipeline := y_own [] (y_list y_op).
End Yaml.
