(** Specification vocabulary for the stored bytes of rule sets and namespaces. *)
From Coq Require Import Ascii String NArith ZArith Bool List.
From Verif.Base Require Import Bytes.
From Verif.Model Require Import AggType Policy Transformation Pipeline Metadata Rules RuleSetProto Namespace ProtoWire.
Import ListNotations.
Open Scope Z_scope.

(** The values of Go's integer types. *)
Definition int64 (z : Z) : Prop := - 2 ^ 63 <= z < 2 ^ 63.
Definition int32 (z : Z) : Prop := - 2 ^ 31 <= z < 2 ^ 31.

(** Every pointer of the list points to something satisfying [P]. *)
Definition each {A} (P : A -> Prop) (l : list (option A)) : Prop := Forall (fun o => exists a, o = Some a /\ P a) l.
Definition if_set {A} (P : A -> Prop) (o : option A) : Prop := match o with None => True | Some a => P a end.

(** Messages without nil pointers in lists, all numbers within their types, and in lists of aggregation types only
    codes satisfying [code]. *)
Section Typed.
  Context (code : Z -> Prop).
  Definition sp_typed (m : sp_pb) : Prop :=
    if_set (fun r => int64 (rp_window r) /\ int64 (rp_precision r)) (spp_resolution m) /\ if_set int64 (spp_retention m).
  Definition policy_typed (m : policy_pb) : Prop := if_set sp_typed (pp_storage m) /\ Forall code (pp_types m).
  Definition op_typed (m : op_pb) : Prop :=
    int32 (opp_type m) /\ if_set int32 (opp_agg m) /\ if_set int32 (opp_tf m) /\
    if_set (fun r => Forall code (rop_types r)) (opp_rollup m).
  Definition mapping_snapshot_typed (m : mapping_snapshot_pb) : Prop :=
    int64 (msp_cutover m) /\ each policy_typed (msp_policies m) /\ int64 (msp_at m) /\ Forall code (msp_types m) /\
    each sp_typed (msp_sps m) /\ int32 (msp_drop m).
  Definition target_v1_typed (m : target_v1_pb) : Prop := each policy_typed (t1p_policies m).
  Definition target_v2_typed (m : target_v2_pb) : Prop :=
    if_set (Forall op_typed) (t2p_pipeline m) /\ each sp_typed (t2p_sps m).
  Definition rollup_snapshot_typed (m : rollup_snapshot_pb) : Prop :=
    int64 (rsp_cutover m) /\ each target_v1_typed (rsp_targets m) /\ int64 (rsp_at m) /\ each target_v2_typed (rsp_targets_v2 m).
  Definition rule_typed {S} (P : S -> Prop) (m : rule_pb S) : Prop := each P (rp_snapshots m).
  Definition rule_set_typed (m : rule_set_pb) : Prop :=
    int64 (rsetp_created m) /\ int64 (rsetp_updated m) /\ int64 (rsetp_cutover m) /\
    each (rule_typed mapping_snapshot_typed) (rsetp_mapping m) /\ each (rule_typed rollup_snapshot_typed) (rsetp_rollup m).
End Typed.
Definition namespaces_typed : namespaces_pb -> Prop :=
  each (fun n => each (fun s => int32 (nssp_version s) /\ int64 (nssp_at s)) (nsp_snapshots n)).

(** The code of an aggregation type that is not negative. *)
Definition code_ok (z : Z) : Prop := 0 <= z < 2 ^ 31.

(** Rule sets and namespaces in memory whose times and durations are 64-bit integers, as their types require. *)
Definition sp_fits (p : storage_policy) : Prop := int64 (r_window (sp_resolution p)) /\ int64 (sp_retention p).
Definition mapping_numbers (s : snapshot mapping_body) : Prop :=
  int64 (sn_cutover s) /\ int64 (sn_at s) /\ Forall sp_fits (mb_sps (sn_body s)).
Definition rollup_numbers (s : snapshot (list target)) : Prop :=
  int64 (sn_cutover s) /\ int64 (sn_at s) /\ Forall (fun t => Forall sp_fits (tg_sps t)) (sn_body s).
Definition numbers_fit (rs : rule_set) : Prop :=
  int64 (rs_created_at rs) /\ int64 (rs_updated_at rs) /\ int64 (rs_cutover rs) /\
  (forall r s, In r (rs_mapping rs) -> In s (ru_snapshots r) -> mapping_numbers s) /\
  (forall r s, In r (rs_rollup rs) -> In s (ru_snapshots r) -> rollup_numbers s).
Definition ns_times_fit (x : namespaces) : Prop :=
  forall n s, In n (nsx_list x) -> In s (ns_snapshots n) -> int64 (nss_at s).

(** A nil element somewhere in a message: the Go structures hold lists of pointers. *)
Definition nil_or {A} (inside : A -> Prop) (l : list (option A)) : Prop :=
  In None l \/ exists x, In (Some x) l /\ inside x.
Definition nothing_inside {A} (x : A) : Prop := False.
Definition mapping_snapshot_has_nil (m : mapping_snapshot_pb) : Prop :=
  nil_or nothing_inside (msp_policies m) \/ nil_or nothing_inside (msp_sps m).
Definition rollup_snapshot_has_nil (m : rollup_snapshot_pb) : Prop :=
  nil_or (fun t => nil_or nothing_inside (t1p_policies t)) (rsp_targets m) \/
  nil_or (fun t => nil_or nothing_inside (t2p_sps t)) (rsp_targets_v2 m).
Definition rule_set_has_nil (m : rule_set_pb) : Prop :=
  nil_or (fun r => nil_or mapping_snapshot_has_nil (rp_snapshots r)) (rsetp_mapping m) \/
  nil_or (fun r => nil_or rollup_snapshot_has_nil (rp_snapshots r)) (rsetp_rollup m).
Definition namespaces_has_nil (m : namespaces_pb) : Prop :=
  nil_or (fun n => nil_or nothing_inside (nsp_snapshots n)) m.
