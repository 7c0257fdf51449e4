(** Model of packages [pipeline] and [pipeline/applied].  Byte slices and strings
    are values: copying them is the identity. *)
From Coq Require Import Ascii String NArith ZArith Bool List.
From Verif.Base Require Import Bytes Slice.
From Verif.Model Require Import AggType Transformation.
Import ListNotations.
Open Scope Z_scope.

(** pipeline/type.go:44-52 [OpType]: a Go int. *)
Definition op_type := Z.
(** pipeline/type.go:49 [UnknownOpType] *)
Definition UnknownOp : op_type := 0.
(** pipeline/type.go:50 [AggregationOpType] *)
Definition AggregationOp : op_type := 1.
(** pipeline/type.go:51 [TransformationOpType] *)
Definition TransformationOp : op_type := 2.
(** pipeline/type.go:52 [RollupOpType] *)
Definition RollupOp : op_type := 3.

(** pipeline/type.go:200-207 [RollupOp] *)
Record rollup_op := { ro_name : bytes; ro_tags : list bytes; ro_agg : agg_id }.
(** The zero value of pipeline/type.go:200-207 [RollupOp]. *)
Definition empty_rollup_op : rollup_op := {| ro_name := []; ro_tags := []; ro_agg := default_id |}.

(** pipeline/type.go:353-358 [OpUnion]; aggregation and transformation operations
    (56-59, 124-127) wrap a single type. *)
Record op := { op_kind : op_type; op_agg : agg_type; op_tf : tf_type; op_rollup : rollup_op }.

(** pipeline/type.go:524-527 [Pipeline] *)
Definition pipeline := list op.

(** [sort.Strings]: byte-wise ascending.  The order is total and antisymmetric, so the
    sorted list does not depend on the algorithm.
    Calls at pipeline/type.go:222,241,243 and rules/rollup_target.go:61. *)
Definition sort_strings : list bytes -> list bytes := isort bleb.

(** pipeline/type.go:232-250 [RollupOp.SameTransform] *)
Definition same_transform (a b : rollup_op) : bool :=
  if negb (beqb (ro_name a) (ro_name b)) then false
  else if negb (Nat.eqb (length (ro_tags a)) (length (ro_tags b))) then false
  else list_eqb beqb (sort_strings (ro_tags a)) (sort_strings (ro_tags b)).

(** pipeline/type.go:253-258 [RollupOp.Equal] *)
Definition rollup_op_equal (a b : rollup_op) : bool :=
  if negb (ro_agg a =? ro_agg b)%N then false else same_transform a b.

(** pipeline/type.go:261-269 [RollupOp.Clone] *)
Definition rollup_op_clone (a : rollup_op) : rollup_op :=
  {| ro_name := ro_name a; ro_tags := ro_tags a; ro_agg := ro_agg a |}.

(** pipeline/type.go:383-396 [OpUnion.Equal] *)
Definition op_equal (a b : op) : bool :=
  if negb (op_kind a =? op_kind b) then false
  else if op_kind a =? AggregationOp then op_agg a =? op_agg b
  else if op_kind a =? TransformationOp then op_tf a =? op_tf b
  else if op_kind a =? RollupOp then rollup_op_equal (op_rollup a) (op_rollup b)
  else true.

(** pipeline/type.go:399-410 [OpUnion.Clone] *)
Definition op_clone (a : op) : op :=
  {| op_kind := op_kind a;
     op_agg := if op_kind a =? AggregationOp then op_agg a else UnknownType;
     op_tf := if op_kind a =? TransformationOp then op_tf a else TfUnknown;
     op_rollup := if op_kind a =? RollupOp then rollup_op_clone (op_rollup a) else empty_rollup_op |}.

(** pipeline/type.go:560-570 [Pipeline.Equal] *)
Definition pipeline_equal (p q : pipeline) : bool :=
  if negb (Nat.eqb (length p) (length q)) then false else list_eqb op_equal p q.

(** pipeline/type.go:579-585 [Pipeline.Clone] *)
Definition pipeline_clone (p : pipeline) : pipeline := map op_clone p.

(** pipeline/type.go:574-576 [Pipeline.SubPipeline] (indices within bounds) *)
Definition sub_pipeline {A} (p : list A) (start fin : nat) : list A := firstn (fin - start) (skipn start p).

(** pipelinepb.RollupOp, pipelinepb.PipelineOp: pointers are options; the aggregation and
    transformation messages hold a single enum.
    generated/proto/pipelinepb/pipeline.pb.go:147-151 [RollupOp] *)
Record rollup_op_pb := { rop_name : bytes; rop_tags : list bytes; rop_types : list Z }.
(** generated/proto/pipelinepb/pipeline.pb.go:179-184 [PipelineOp] *)
Record op_pb := {
  opp_type : Z; opp_agg : option Z; opp_tf : option Z; opp_rollup : option rollup_op_pb }.

(** pipeline/type.go:211-228 [NewRollupOpFromProto] *)
Definition new_rollup_op_from_proto (pb : option rollup_op_pb) : option rollup_op :=
  match pb with
  | None => None
  | Some pb =>
      let '(id, err) := id_from_proto_types (rop_types pb) in
      if err then None
      else Some {| ro_name := rop_name pb; ro_tags := sort_strings (rop_tags pb); ro_agg := id |}
  end.

(** pipeline/type.go:272-286 [RollupOp.Proto] *)
Definition rollup_op_proto (a : rollup_op) : option rollup_op_pb :=
  let '(ts, err) := decompress (ro_agg a) in
  if err then None
  else match types_proto ts with
       | None => None
       | Some zs => Some {| rop_name := ro_name a; rop_tags := ro_tags a; rop_types := zs |}
       end.

(** pipeline/type.go:361-380 [NewOpUnionFromProto]; 62-73 [NewAggregationOpFromProto]; 130-136 and
    167-172 for transformations *)
Definition new_op_from_proto (pb : op_pb) : option op :=
  if opp_type pb =? 1 then
    match opp_agg pb with
    | None => None
    | Some z => match type_from_proto z with
                | None => None
                | Some t => Some {| op_kind := AggregationOp; op_agg := t; op_tf := TfUnknown;
                                    op_rollup := empty_rollup_op |}
                end
    end
  else if opp_type pb =? 2 then
    match opp_tf pb with
    | None => None
    | Some z => match tf_from_proto z with
                | None => None
                | Some t => Some {| op_kind := TransformationOp; op_agg := UnknownType; op_tf := t;
                                    op_rollup := empty_rollup_op |}
                end
    end
  else if opp_type pb =? 3 then
    match new_rollup_op_from_proto (opp_rollup pb) with
    | None => None
    | Some r => Some {| op_kind := RollupOp; op_agg := UnknownType; op_tf := TfUnknown;
                        op_rollup := r |}
    end
  else None.

(** pipeline/type.go:413-432 [OpUnion.Proto]; 86-92 and 149-155 *)
Definition op_proto (a : op) : option op_pb :=
  if op_kind a =? AggregationOp then
    match type_proto (op_agg a) with
    | None => None
    | Some z => Some {| opp_type := 1; opp_agg := Some z; opp_tf := None; opp_rollup := None |}
    end
  else if op_kind a =? TransformationOp then
    match tf_to_proto (op_tf a) with
    | None => None
    | Some z => Some {| opp_type := 2; opp_agg := None; opp_tf := Some z; opp_rollup := None |}
    end
  else if op_kind a =? RollupOp then
    match rollup_op_proto (op_rollup a) with
    | None => None
    | Some r => Some {| opp_type := 3; opp_agg := None; opp_tf := None; opp_rollup := Some r |}
    end
  else None.

(** pipeline/type.go:535-548 [NewPipelineFromProto] *)
Definition new_pipeline_from_proto (pb : option (list op_pb)) : option pipeline :=
  match pb with None => None | Some ops => map_opt new_op_from_proto ops end.

(** pipeline/type.go:588-598 [Pipeline.Proto] *)
Definition pipeline_proto (p : pipeline) : option (list op_pb) := map_opt op_proto p.

(** pipeline/type.go:489-493 [unionMarshaler]; the JSON/YAML text of the three optional
    members is the external encoder's business. *)
Record union_marshaler := {
  um_agg : option agg_type; um_tf : option tf_type; um_rollup : option rollup_op }.

(** pipeline/type.go:495-508 [newUnionMarshaler]; 336-342 [newRollupMarshaler] *)
Definition new_union_marshaler (a : op) : option union_marshaler :=
  if op_kind a =? AggregationOp then
    Some {| um_agg := Some (op_agg a); um_tf := None; um_rollup := None |}
  else if op_kind a =? TransformationOp then
    Some {| um_agg := None; um_tf := Some (op_tf a); um_rollup := None |}
  else if op_kind a =? RollupOp then
    Some {| um_agg := None; um_tf := None; um_rollup := Some (rollup_op_clone (op_rollup a)) |}
  else None.

(** pipeline/type.go:510-521 [unionMarshaler.OpUnion]; 344-350 [rollupMarshaler.RollupOp] *)
Definition union_marshaler_op (m : union_marshaler) : option op :=
  match um_agg m with
  | Some t => Some {| op_kind := AggregationOp; op_agg := t; op_tf := TfUnknown;
                      op_rollup := empty_rollup_op |}
  | None =>
      match um_tf m with
      | Some t => Some {| op_kind := TransformationOp; op_agg := UnknownType; op_tf := t;
                          op_rollup := empty_rollup_op |}
      | None =>
          match um_rollup m with
          | Some r => Some {| op_kind := RollupOp; op_agg := UnknownType; op_tf := TfUnknown;
                              op_rollup := rollup_op_clone r |}
          | None => None
          end
      end
  end.

(** * Applied pipelines *)

(** pipeline/applied/type.go:41-46 [RollupOp] *)
Record applied_rollup := { ar_id : bytes; ar_agg : agg_id }.
(** The zero value of pipeline/applied/type.go:41-46 [RollupOp]. *)
Definition empty_applied_rollup : applied_rollup := {| ar_id := []; ar_agg := default_id |}.

(** pipeline/applied/type.go:86-90 [OpUnion] *)
Record applied_op := { ao_kind : op_type; ao_tf : tf_type; ao_rollup : applied_rollup }.
(** The zero value of pipeline/applied/type.go:86-90 [OpUnion]. *)
Definition empty_applied_op : applied_op :=
  {| ao_kind := UnknownOp; ao_tf := TfUnknown; ao_rollup := empty_applied_rollup |}.

(** pipeline/applied/type.go:169-172 [Pipeline] *)
Definition applied_pipeline := list applied_op.

(** pipeline/applied/type.go:49-51 [RollupOp.Equal] *)
Definition applied_rollup_equal (a b : applied_rollup) : bool :=
  (ar_agg a =? ar_agg b)%N && beqb (ar_id a) (ar_id b).

(** pipeline/applied/type.go:93-104 [OpUnion.Equal] *)
Definition applied_op_equal (a b : applied_op) : bool :=
  if negb (ao_kind a =? ao_kind b) then false
  else if ao_kind a =? TransformationOp then ao_tf a =? ao_tf b
  else if ao_kind a =? RollupOp then applied_rollup_equal (ao_rollup a) (ao_rollup b)
  else true.

(** pipeline/applied/type.go:107-116 [OpUnion.Clone]; 54-58 [RollupOp.Clone] *)
Definition applied_op_clone (a : applied_op) : applied_op :=
  {| ao_kind := ao_kind a;
     ao_tf := if ao_kind a =? TransformationOp then ao_tf a else TfUnknown;
     ao_rollup := if ao_kind a =? RollupOp
                  then {| ar_id := ar_id (ao_rollup a); ar_agg := ar_agg (ao_rollup a) |}
                  else empty_applied_rollup |}.

(** pipeline/applied/type.go:189-199 [Pipeline.Equal] *)
Definition applied_equal (p q : applied_pipeline) : bool :=
  if negb (Nat.eqb (length p) (length q)) then false else list_eqb applied_op_equal p q.

(** pipeline/applied/type.go:202-208 [Pipeline.Clone] *)
Definition applied_clone (p : applied_pipeline) : applied_pipeline := map applied_op_clone p.

(** pipelinepb.AppliedRollupOp (id, aggregation id) and AppliedPipelineOp
    (UNKNOWN = 0, TRANSFORMATION = 1, ROLLUP = 2).
    generated/proto/pipelinepb/pipeline.pb.go:237-240 [AppliedRollupOp], 263-267 [AppliedPipelineOp] *)
Record applied_op_pb := {
  aop_type : Z; aop_tf : option Z; aop_rollup : option (bytes * N) }.
(** The zero value of generated/proto/pipelinepb/pipeline.pb.go:263-267
    [AppliedPipelineOp]. *)
Definition empty_applied_op_pb : applied_op_pb :=
  {| aop_type := 0; aop_tf := None; aop_rollup := None |}.

(** pipeline/applied/type.go:134-148 [OpUnion.ToProto]; the message is reset first, so its
    old content does not matter; 65-71 [RollupOp.ToProto].  [None] is an error. *)
Definition applied_op_to_proto (a : applied_op) (old : applied_op_pb) : option applied_op_pb :=
  if ao_kind a =? TransformationOp then
    match tf_to_proto (ao_tf a) with
    | None => None
    | Some z => Some {| aop_type := 1; aop_tf := Some z; aop_rollup := None |}
    end
  else if ao_kind a =? RollupOp then
    Some {| aop_type := 2; aop_tf := None;
            aop_rollup := Some (ar_id (ao_rollup a), ar_agg (ao_rollup a)) |}
  else None.

(** pipeline/applied/type.go:154-166 [OpUnion.FromProto]; 74-83 [RollupOp.FromProto] *)
Definition applied_op_from_proto (pb : applied_op_pb) (old : applied_op) : option applied_op :=
  if aop_type pb =? 1 then
    match aop_tf pb with
    | None => None
    | Some z => match tf_from_proto z with
                | None => None
                | Some t => Some {| ao_kind := TransformationOp; ao_tf := t;
                                    ao_rollup := empty_applied_rollup |}
                end
    end
  else if aop_type pb =? 2 then
    match aop_rollup pb with
    | None => None
    | Some (i, g) => Some {| ao_kind := RollupOp; ao_tf := TfUnknown;
                             ao_rollup := {| ar_id := i; ar_agg := g |} |}
    end
  else None.

(** pipeline/applied/type.go:230-243 [Pipeline.ToProto] into a reused message. *)
Definition applied_to_proto (p : applied_pipeline) (old : slice applied_op_pb)
  : option (slice applied_op_pb) := into_slice empty_applied_op_pb applied_op_to_proto p old.

(** pipeline/applied/type.go:246-259 [Pipeline.FromProto] into a reused pipeline. *)
Definition applied_from_proto (pb : list applied_op_pb) (old : slice applied_op)
  : option (slice applied_op) := into_slice empty_applied_op applied_op_from_proto pb old.
