(** Specification vocabulary for transformations, pipelines and metadata. *)
From Coq Require Import Ascii String NArith ZArith Bool SpecFloat Permutation List.
From Verif.Base Require Import Bytes.
From Verif.Model Require Import AggType Policy Transformation Pipeline Metadata.
From Verif.Spec Require Import AggSpec PolicySpec.
Import ListNotations.
Open Scope Z_scope.

(** A rollup operation means: a name, a multiset of tags, an aggregation ID. *)
Definition rollup_same (a b : rollup_op) : Prop :=
  ro_name a = ro_name b /\ Permutation (ro_tags a) (ro_tags b) /\ ro_agg a = ro_agg b.

(** Two operations are the same when they are of the same kind and the payload of that kind is
    the same; payloads of the other kinds mean nothing. *)
Definition op_same (a b : op) : Prop :=
  op_kind a = op_kind b /\
  (op_kind a = AggregationOp -> op_agg a = op_agg b) /\
  (op_kind a = TransformationOp -> op_tf a = op_tf b) /\
  (op_kind a = RollupOp -> rollup_same (op_rollup a) (op_rollup b)).

Definition applied_op_same (a b : applied_op) : Prop :=
  ao_kind a = ao_kind b /\
  (ao_kind a = TransformationOp -> ao_tf a = ao_tf b) /\
  (ao_kind a = RollupOp -> ao_rollup a = ao_rollup b).

Definition valid_tf (t : Z) : Prop := t = 1 \/ t = 2.

(** An aggregation ID is well formed when it is a 64-bit word whose set bits are valid types. *)
Definition valid_agg_id (w : N) : Prop :=
  (w < 2 ^ 64)%N /\ forall k, N.testbit w k = true -> (1 <= k <= 22)%N.

(** Operations that mean something. *)
Definition op_valid (a : op) : Prop :=
  (op_kind a = AggregationOp /\ valid_type (op_agg a)) \/
  (op_kind a = TransformationOp /\ valid_tf (op_tf a)) \/
  (op_kind a = RollupOp /\ valid_agg_id (ro_agg (op_rollup a))).

(** Operations with only the payload of their kind. *)
Definition op_canonical (a : op) : Prop :=
  (op_kind a <> AggregationOp -> op_agg a = 0) /\
  (op_kind a <> TransformationOp -> op_tf a = 0) /\
  (op_kind a <> RollupOp -> op_rollup a = {| ro_name := []; ro_tags := []; ro_agg := 0%N |}).

Definition applied_op_valid (a : applied_op) : Prop :=
  (ao_kind a = TransformationOp /\ valid_tf (ao_tf a) /\ ao_rollup a = {| ar_id := []; ar_agg := 0%N |}) \/
  (ao_kind a = RollupOp /\ ao_tf a = 0).

Definition sp_ok (p : storage_policy) : Prop := valid_precision (r_precision (sp_resolution p)).

(** Metadata that can be sent: valid operations and precisions, and a drop policy below 2^31. *)
Definition pm_ok (m : pipeline_metadata) : Prop :=
  Forall sp_ok (pm_sps m) /\ Forall applied_op_valid (pm_pipeline m) /\ 0 <= pm_drop m < 2 ^ 31.
Definition sm_ok (s : staged_metadata) : Prop := Forall pm_ok (sm_pipelines s).

(** Drop policies: 0 none, 1 must, 2 only when nothing else matches. *)
Definition has_must (ms : list pipeline_metadata) : Prop := exists m, In m ms /\ pm_drop m = 1.
Definition only_if_only (ms : list pipeline_metadata) : Prop :=
  ms <> [] /\ forall m, In m ms -> pm_drop m = 2.
Definition drop_effective (ms : list pipeline_metadata) : Prop := has_must ms \/ only_if_only ms.
Definition valid_drops (ms : list pipeline_metadata) : Prop :=
  forall m, In m ms -> 0 <= pm_drop m <= 2.

(** [resolved ms ps]: [ps] is what the drop policies of [ms] resolve to. *)
Definition resolved (ms ps : list pipeline_metadata) : Prop :=
  (drop_effective ms /\ ps = [mk_pm 0%N [] [] 1]) \/
  (~ drop_effective ms /\ ps = filter (fun m => pm_drop m =? 0) ms).

(** First occurrences, in order. *)
Fixpoint firsts {A} (eqb : A -> A -> bool) (l : list A) : list A :=
  match l with
  | [] => []
  | x :: l => x :: filter (fun y => negb (eqb x y)) (firsts eqb l)
  end.

(** Protobuf operations that are accepted: a known kind with its payload, and known type codes. *)
Definition op_pb_ok (pb : op_pb) : Prop :=
  (opp_type pb = 1 /\ exists z, opp_agg pb = Some z /\ valid_type z) \/
  (opp_type pb = 2 /\ exists z, opp_tf pb = Some z /\ (z = 1 \/ z = 2)) \/
  (opp_type pb = 3 /\ exists r, opp_rollup pb = Some r /\ Forall valid_type (rop_types r)).

(** [survivors sms r]: [r] holds, in order, the stages of [sms] that do not drop, with their cutover and
    tombstone flag, and only their pipelines without a drop policy. *)
Inductive survivors : staged_metadatas -> staged_metadatas -> Prop :=
| surv_nil : survivors [] []
| surv_drop s l r : drop_effective (sm_pipelines s) -> survivors l r -> survivors (s :: l) r
| surv_keep s l r : ~ drop_effective (sm_pipelines s) -> survivors l r ->
    survivors (s :: l) (mk_sm (filter (fun m => pm_drop m =? 0) (sm_pipelines s)) (sm_cutover s) (sm_tombstoned s) :: r).

(** Two storage policies are the same: window, precision and retention agree. *)
Definition same_policy (a b : storage_policy) : bool :=
  (r_window (sp_resolution a) =? r_window (sp_resolution b)) &&
  (r_precision (sp_resolution a) =? r_precision (sp_resolution b)) && (sp_retention a =? sp_retention b).

(** The pipeline a legacy list gives to one aggregation ID: its storage policies, first occurrences. *)
Definition pipeline_for (ps : list policy) (id : N) : pipeline_metadata :=
  mk_pm id (firsts same_policy (map p_storage (filter (fun p => (p_agg p =? id)%N) ps))) [] 0.

(** The mathematical sign of a float: strictly negative. *)
Definition negative (x : float64) : Prop := SFltb x (S754_zero false) = true.
