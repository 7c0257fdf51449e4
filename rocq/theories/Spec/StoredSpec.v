(** What stored rule messages say, field by field.  Lists of messages are lists of pointers, so an element can be
    missing ([None]); a missing element means nothing. *)
From Coq Require Import Ascii String NArith ZArith Bool Permutation Sorting.Sorted List.
From Verif.Base Require Import Bytes.
From Verif.Model Require Import AggType Policy Transformation Pipeline Metadata Filter Rules RuleSet RuleSetProto.
From Verif.Spec Require Import AggSpec PolicySpec MetadataSpec RuleSetProtoSpec.
Import ListNotations.
Open Scope Z_scope.

(** A list of aggregation type codes, and the aggregation ID whose bits are those types. *)
Definition types_mean (codes : list Z) (w : N) : Prop :=
  Forall valid_type codes /\ (w < 2 ^ 64)%N /\ forall k, N.testbit w k = true <-> In (Z.of_N k) codes.

(** The eight time units in nanoseconds: second, millisecond, microsecond, nanosecond, minute, hour, day, year. *)
Definition unit_nanos : list (Z * Z) :=
  [ (1, 10 ^ 9); (2, 10 ^ 6); (3, 10 ^ 3); (4, 1); (5, 60 * 10 ^ 9); (6, 3600 * 10 ^ 9); (7, 24 * 3600 * 10 ^ 9);
    (8, 365 * 24 * 3600 * 10 ^ 9) ].

Definition sp_means (m : option sp_pb) (p : storage_policy) : Prop :=
  exists x r, m = Some x /\ spp_resolution x = Some r /\ spp_retention x = Some (sp_retention p) /\
    rp_window r = r_window (sp_resolution p) /\ In (r_precision (sp_resolution p), rp_precision r) unit_nanos.

(** A legacy policy: a storage policy with its aggregation types. *)
Definition policy_means (m : option policy_pb) (p : policy) : Prop :=
  exists x, m = Some x /\ sp_means (pp_storage x) (p_storage p) /\ types_mean (pp_types x) (p_agg p).

(** [sorted_tags tags l]: the tags in ascending order. *)
Definition sorted_tags (tags l : list bytes) : Prop :=
  Permutation l tags /\ StronglySorted (fun x y => bleb x y = true) l.

Definition no_rollup : rollup_op := {| ro_name := []; ro_tags := []; ro_agg := 0%N |}.
Definition rollup_of (name : bytes) (tags : list bytes) (agg : N) : op :=
  {| op_kind := RollupOp; op_agg := 0; op_tf := 0; op_rollup := {| ro_name := name; ro_tags := tags; ro_agg := agg |} |}.

Inductive op_means : op_pb -> op -> Prop :=
| aggregation_means m t : opp_type m = 1 -> opp_agg m = Some t -> valid_type t ->
    op_means m {| op_kind := AggregationOp; op_agg := t; op_tf := 0; op_rollup := no_rollup |}
| transformation_means m t : opp_type m = 2 -> opp_tf m = Some t -> valid_tf t ->
    op_means m {| op_kind := TransformationOp; op_agg := 0; op_tf := t; op_rollup := no_rollup |}
| rollup_op_means m r tags w : opp_type m = 3 -> opp_rollup m = Some r -> sorted_tags (rop_tags r) tags ->
    types_mean (rop_types r) w -> op_means m (rollup_of (rop_name r) tags w).

(** A legacy target is a rollup with a name, tags and policies; a current one a pipeline with storage policies. *)
Definition target_v1_means (m : option target_v1_pb) (t : target) : Prop :=
  exists x l agg tags, m = Some x /\ Forall2 policy_means (t1p_policies x) l /\ legacy_policies l agg (tg_sps t) /\
    sorted_tags (t1p_tags x) tags /\ tg_pipeline t = [rollup_of (t1p_name x) tags agg].
Definition target_v2_means (m : option target_v2_pb) (t : target) : Prop :=
  exists x ops, m = Some x /\ t2p_pipeline x = Some ops /\ Forall2 op_means ops (tg_pipeline t) /\
    Forall2 sp_means (t2p_sps x) (tg_sps t).

(** The policies of a mapping rule: legacy ones if there are any; otherwise storage policies with aggregation types;
    without either, aggregation types are ignored. *)
Definition mapping_policies_mean (m : mapping_snapshot_pb) (agg : N) (sps : list storage_policy) : Prop :=
  (msp_policies m <> [] /\ exists l, Forall2 policy_means (msp_policies m) l /\ legacy_policies l agg sps) \/
  (msp_policies m = [] /\ msp_sps m <> [] /\ types_mean (msp_types m) agg /\ Forall2 sp_means (msp_sps m) sps) \/
  (msp_policies m = [] /\ msp_sps m = [] /\ agg = 0%N /\ sps = []).

(** Drop policies: 0 none, 1 must, 2 only when nothing else matches.  A rule that is not deleted keeps or drops, and none
    does both. *)
Definition mapping_means (opts : tags_filter_options) (m : option mapping_snapshot_pb) (s : snapshot mapping_body) : Prop :=
  exists x f agg sps, m = Some x /\ mapping_policies_mean x agg sps /\ 0 <= msp_drop x <= 2 /\
    (msp_tomb x = false -> sps <> [] \/ msp_drop x <> 0) /\ (sps <> [] -> msp_drop x = 0) /\
    compiles_to opts (msp_filter x) f /\
    s = mk_snap (msp_name x) (msp_tomb x) (msp_cutover x) (Some f) (msp_filter x) (mk_mb agg sps (msp_drop x)) (msp_at x) (msp_by x).

(** The targets of a rollup rule: legacy ones if there are any, otherwise current ones; only a deleted rule has none. *)
Definition targets_mean (m : rollup_snapshot_pb) (ts : list target) : Prop :=
  (rsp_targets m <> [] /\ Forall2 target_v1_means (rsp_targets m) ts) \/
  (rsp_targets m = [] /\ Forall2 target_v2_means (rsp_targets_v2 m) ts /\ (rsp_tomb m = false -> ts <> [])).
Definition rollup_means (opts : tags_filter_options) (m : option rollup_snapshot_pb) (s : snapshot (list target)) : Prop :=
  exists x f ts, m = Some x /\ targets_mean x ts /\ compiles_to opts (rsp_filter x) f /\
    s = mk_snap (rsp_name x) (rsp_tomb x) (rsp_cutover x) (Some f) (rsp_filter x) ts (rsp_at x) (rsp_by x).

Definition rule_means {S P} (means : option S -> snapshot P -> Prop) (m : option (rule_pb S)) (r : rule P) : Prop :=
  exists x, m = Some x /\ ru_uuid r = rp_uuid x /\ Forall2 means (rp_snapshots x) (ru_snapshots r).

(** The rule set [rs] that the message [m] stands for, read as version [v]. *)
Definition rule_set_means (v : Z) (o : rule_opts) (m : option rule_set_pb) (rs : rule_set) : Prop :=
  exists x ms rr, m = Some x /\
    Forall2 (rule_means (mapping_means (ropt_tags o))) (rsetp_mapping x) ms /\
    Forall2 (rule_means (rollup_means (ropt_tags o))) (rsetp_rollup x) rr /\
    rs = mk_rs (rsetp_uuid x) v (rsetp_namespace x) (rsetp_created x) (rsetp_updated x) (rsetp_by x) (rsetp_tomb x)
           (rsetp_cutover x) ms rr (ropt_tags o) (ropt_new_id o) (ropt_is_rollup o).

(** The drop policy codes of a message are 32-bit numbers, as protobuf enums are. *)
Definition drops_fit (m : option rule_set_pb) : Prop := forall x r y s, m = Some x -> In (Some r) (rsetp_mapping x) ->
  In y (rp_snapshots r) -> y = Some s -> - 2 ^ 31 <= msp_drop s < 2 ^ 31.
