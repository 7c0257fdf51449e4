(** Model of package [metadata]. *)
From Coq Require Import Ascii String NArith ZArith Bool List.
From Verif.Base Require Import Bytes Slice.
From Verif.Model Require Import AggType Policy Transformation Pipeline.
Import ListNotations.
Open Scope Z_scope.

(** metadata/metadata.go:64-76 [PipelineMetadata].  [F] is [list] for a plain value and
    [slice] for a reused one whose slices carry stale elements behind their length. *)
Record pm_of (F : Type -> Type) := mk_pm {
  pm_agg : agg_id;
  pm_sps : F storage_policy;
  pm_pipeline : F applied_op;
  pm_drop : drop_policy }.
Arguments mk_pm {F} _ _ _ _.
Arguments pm_agg {F} _.
Arguments pm_sps {F} _.
Arguments pm_pipeline {F} _.
Arguments pm_drop {F} _.
(** metadata/metadata.go:64-76 [PipelineMetadata], plain values. *)
Notation pipeline_metadata := (pm_of list).

(** metadata/metadata.go:246-248 [Metadata] is its list of pipelines; 349-357 [StagedMetadata] *)
Record sm_of (F : Type -> Type) := mk_sm {
  sm_pipelines : F (pm_of F);
  sm_cutover : Z;
  sm_tombstoned : bool }.
Arguments mk_sm {F} _ _ _.
Arguments sm_pipelines {F} _.
Arguments sm_cutover {F} _.
Arguments sm_tombstoned {F} _.
(** metadata/metadata.go:349-357 [StagedMetadata], plain values. *)
Notation staged_metadata := (sm_of list).
(** metadata/metadata.go:398 [StagedMetadatas], plain values. *)
Notation staged_metadatas := (list (sm_of list)).

(** metadata/metadata.go:31-61, the defaults *)
Definition default_pipeline_metadata : pipeline_metadata := mk_pm default_id [] [] DropNone.
(** metadata/metadata.go:38-42 [DefaultMetadata], [DefaultStagedMetadata] *)
Definition default_staged_metadata : staged_metadata := mk_sm [default_pipeline_metadata] 0 false.
(** metadata/metadata.go:45 [DefaultStagedMetadatas] *)
Definition default_staged_metadatas : staged_metadatas := [default_staged_metadata].
(** metadata/metadata.go:48 [DropPipelineMetadata] *)
Definition drop_pipeline_metadata : pipeline_metadata := mk_pm default_id [] [] DropMust.
(** metadata/metadata.go:51 [DropPipelineMetadatas] *)
Definition drop_pipeline_metadatas : list pipeline_metadata := [drop_pipeline_metadata].
(** metadata/metadata.go:54-57 [DropMetadata], [DropStagedMetadata] *)
Definition drop_staged_metadata : staged_metadata := mk_sm drop_pipeline_metadatas 0 false.
(** metadata/metadata.go:60 [DropStagedMetadatas] *)
Definition drop_staged_metadatas : staged_metadatas := [drop_staged_metadata].

(** metadata/metadata.go:79-84 [PipelineMetadata.Equal] *)
Definition pm_equal (a b : pipeline_metadata) : bool :=
  (pm_agg a =? pm_agg b)%N && sps_equal (pm_sps a) (pm_sps b)
  && applied_equal (pm_pipeline a) (pm_pipeline b) && (pm_drop a =? pm_drop b).

(** policy/storage_policy.go:208 [StoragePolicies.IsDefault]: empty list *)
Definition is_nil {A} (l : list A) : bool := match l with [] => true | _ => false end.

(** metadata/metadata.go:87-92 [IsDefault] *)
Definition pm_is_default (m : pipeline_metadata) : bool :=
  id_is_default (pm_agg m) && is_nil (pm_sps m) && is_nil (pm_pipeline m) && drop_is_default (pm_drop m).

(** metadata/metadata.go:96-101 [IsDropPolicyApplied] *)
Definition pm_is_drop_applied (m : pipeline_metadata) : bool :=
  id_is_default (pm_agg m) && is_nil (pm_sps m) && is_nil (pm_pipeline m)
  && negb (drop_is_default (pm_drop m)).

(** metadata/metadata.go:104-110 [Clone]: the drop policy is not copied. *)
Definition pm_clone (m : pipeline_metadata) : pipeline_metadata :=
  mk_pm (pm_agg m) (pm_sps m) (applied_clone (pm_pipeline m)) DropNone.

(** metadata/metadata.go:162-172 [PipelineMetadatas.Equal] *)
Definition pms_equal (a b : list pipeline_metadata) : bool :=
  if negb (Nat.eqb (length a) (length b)) then false else list_eqb pm_equal a b.

(** metadata/metadata.go:175-181 [PipelineMetadatas.Clone] *)
Definition pms_clone (l : list pipeline_metadata) : list pipeline_metadata := map pm_clone l.

(** metadata/metadata.go:360-364 [StagedMetadata.Equal]; 261-263 [Metadata.Equal] *)
Definition sm_equal (a b : staged_metadata) : bool :=
  pms_equal (sm_pipelines a) (sm_pipelines b) && (sm_cutover a =? sm_cutover b)
  && eqb (sm_tombstoned a) (sm_tombstoned b).

(** metadata/metadata.go:401-411 [StagedMetadatas.Equal] *)
Definition sms_equal (a b : staged_metadatas) : bool :=
  if negb (Nat.eqb (length a) (length b)) then false else list_eqb sm_equal a b.

(** metadata/metadata.go:251-253, 257-259 *)
Definition md_is_default (ps : list pipeline_metadata) : bool :=
  match ps with [p] => pm_is_default p | _ => false end.
(** metadata/metadata.go:257-259 [Metadata.IsDropPolicyApplied] *)
Definition md_is_drop_applied (ps : list pipeline_metadata) : bool :=
  match ps with [p] => pm_is_drop_applied p | _ => false end.

(** metadata/metadata.go:367-369, 373-375 *)
Definition sm_is_default (s : staged_metadata) : bool :=
  (sm_cutover s =? 0) && negb (sm_tombstoned s) && md_is_default (sm_pipelines s).
(** metadata/metadata.go:373-375 [StagedMetadata.IsDropPolicyApplied] *)
Definition sm_is_drop_applied (s : staged_metadata) : bool :=
  negb (sm_tombstoned s) && md_is_drop_applied (sm_pipelines s).

(** metadata/metadata.go:414-416, 418-420 *)
Definition sms_is_default (l : staged_metadatas) : bool :=
  match l with [s] => sm_is_default s | _ => false end.
(** metadata/metadata.go:420-422 [StagedMetadatas.IsDropPolicyApplied] *)
Definition sms_is_drop_applied (l : staged_metadatas) : bool :=
  match l with [s] => sm_is_drop_applied s | _ => false end.

(** * Drop policies *)

(** metadata/metadata.go:185-194 *)
Inductive drop_result := AppliedEffectiveDropPolicy | RemovedIneffectiveDropPolicies.

(** metadata/metadata.go:208-219, the counting loop: [None] when a DropMust pipeline makes
    the function return. *)
Fixpoint count_drops (ifonly nondrop : nat) (ms : list pipeline_metadata) : option (nat * nat) :=
  match ms with
  | [] => Some (ifonly, nondrop)
  | m :: ms =>
      if pm_drop m =? DropMust then None
      else if pm_drop m =? DropIfOnlyMatch then count_drops (S ifonly) nondrop ms
      else count_drops ifonly (S nondrop) ms
  end.

(** metadata/metadata.go:236-240, removal of element [i]. *)
Definition remove_at {A} (i : nat) (l : list A) : list A :=
  if Nat.eqb i (length l - 1) then firstn i l else firstn i l ++ skipn (S i) l.

(** metadata/metadata.go:232-242, the downward loop. *)
Fixpoint remove_drops (n : nat) (l : list pipeline_metadata) : list pipeline_metadata :=
  match n with
  | O => l
  | S i =>
      let l' := match nth_error l i with
                | Some m => if negb (drop_is_default (pm_drop m)) then remove_at i l else l
                | None => l
                end in
      remove_drops i l'
  end.

(** metadata/metadata.go:199-243 [PipelineMetadatas.ApplyOrRemoveDropPolicies] *)
Definition pms_apply_drop (ms : list pipeline_metadata) : list pipeline_metadata * drop_result :=
  match count_drops 0 0 ms with
  | None => (drop_pipeline_metadatas, AppliedEffectiveDropPolicy)
  | Some (ifonly, nondrop) =>
      if Nat.eqb ifonly 0 then (ms, RemovedIneffectiveDropPolicies)
      else if Nat.eqb nondrop 0 then (drop_pipeline_metadatas, AppliedEffectiveDropPolicy)
      else (remove_drops (length ms) ms, RemovedIneffectiveDropPolicies)
  end.

(** Assignment of one element of a slice, as at metadata/metadata.go:446. *)
Fixpoint list_set {A} (l : list A) (i : nat) (a : A) : list A :=
  match l, i with
  | [], _ => []
  | _ :: l, O => a :: l
  | x :: l, S i => x :: list_set l i a
  end.

(** metadata/metadata.go:437-470, the downward loop of the staged version.  [sms] and
    [result] share one backing array in which elements up to the current index have not
    moved yet, so a single list is threaded through; the state also holds the numbers of drop
    and non-drop stages and the tracked drop stage. *)
Fixpoint staged_drop_loop (n : nat) (l : staged_metadatas) (drops nondrops : nat)
  (earliest : staged_metadata) : staged_metadatas * nat * nat * staged_metadata :=
  match n with
  | O => (l, drops, nondrops, earliest)
  | S i =>
      match nth_error l i with
      | None => (l, drops, nondrops, earliest)
      | Some s =>
          let '(ps, res) := pms_apply_drop (sm_pipelines s) in
          let s' := mk_sm ps (sm_cutover s) (sm_tombstoned s) in
          let l' := list_set l i s' in
          match res with
          | AppliedEffectiveDropPolicy =>
              let drops' := S drops in
              let earliest' :=
                if Nat.eqb drops' 1 || (sm_cutover s' <? sm_cutover earliest) then s' else earliest in
              staged_drop_loop i (remove_at i l') drops' nondrops earliest'
          | RemovedIneffectiveDropPolicies =>
              staged_drop_loop i l' drops (S nondrops) earliest
          end
      end
  end.

(** The zero [earliestDropStagedMetadata], metadata/metadata.go:441. *)
Definition empty_staged_metadata : staged_metadata := mk_sm [] 0 false.

(** metadata/metadata.go:427-478 [StagedMetadatas.ApplyOrRemoveDropPolicies] *)
Definition sms_apply_drop (sms : staged_metadatas) : staged_metadatas * drop_result :=
  match sms with
  | [] => (sms, RemovedIneffectiveDropPolicies)
  | _ =>
      let '(result, _, nondrops, earliest) :=
        staged_drop_loop (length sms) sms 0 0 empty_staged_metadata in
      if Nat.eqb nondrops 0 then ([earliest], AppliedEffectiveDropPolicy)
      else (result, RemovedIneffectiveDropPolicies)
  end.

(** * Protobuf *)

(** metricpb.PipelineMetadata, metricpb.StagedMetadata; as above [F] is [list] for content and
    [slice] for a reused message.
    generated/proto/metricpb/metadata.pb.go:41-46 [PipelineMetadata] *)
Record pm_pb_of (F : Type -> Type) := mk_pm_pb {
  pmp_agg : N;
  pmp_sps : F sp_pb;
  pmp_pipeline : F applied_op_pb;
  pmp_drop : Z }.
Arguments mk_pm_pb {F} _ _ _ _.
Arguments pmp_agg {F} _.
Arguments pmp_sps {F} _.
Arguments pmp_pipeline {F} _.
Arguments pmp_drop {F} _.

(** generated/proto/metricpb/metadata.pb.go:97-101 [StagedMetadata] *)
Record sm_pb_of (F : Type -> Type) := mk_sm_pb {
  smp_cutover : Z; smp_tombstoned : bool; smp_pipelines : F (pm_pb_of F) }.
Arguments mk_sm_pb {F} _ _ _.
Arguments smp_cutover {F} _.
Arguments smp_tombstoned {F} _.
Arguments smp_pipelines {F} _.

(** What a reader of a reused value or message sees: the elements within the length.
    For [PipelineMetadata], metadata/metadata.go:64-76. *)
Definition pm_content (m : pm_of slice) : pm_of list :=
  mk_pm (pm_agg m) (s_elems (pm_sps m)) (s_elems (pm_pipeline m)) (pm_drop m).
(** What a reader sees of a reused [StagedMetadata] (metadata/metadata.go:349-357). *)
Definition sm_content (m : sm_of slice) : sm_of list :=
  mk_sm (map pm_content (s_elems (sm_pipelines m))) (sm_cutover m) (sm_tombstoned m).
(** What a reader sees of a reused message
    (generated/proto/metricpb/metadata.pb.go:41-46). *)
Definition pm_pb_content (m : pm_pb_of slice) : pm_pb_of list :=
  mk_pm_pb (pmp_agg m) (s_elems (pmp_sps m)) (s_elems (pmp_pipeline m)) (pmp_drop m).
(** What a reader sees of a reused message
    (generated/proto/metricpb/metadata.pb.go:97-101). *)
Definition sm_pb_content (m : sm_pb_of slice) : sm_pb_of list :=
  mk_sm_pb (smp_cutover m) (smp_tombstoned m) (map pm_pb_content (s_elems (smp_pipelines m))).

(** A nil slice, the zero value of the slice fields at metadata/metadata.go:66-75. *)
Definition nil_slice {A} : slice A := mk_slice [] [].
(** The zero [PipelineMetadata], as made at metadata/metadata.go:288. *)
Definition zero_pm : pm_of slice := mk_pm default_id nil_slice nil_slice DropNone.
(** The zero message, as made at metadata/metadata.go:272. *)
Definition zero_pm_pb : pm_pb_of slice := mk_pm_pb 0%N nil_slice nil_slice 0.
(** The zero [StagedMetadata], as made at metadata/metadata.go:502. *)
Definition zero_sm : sm_of slice := mk_sm nil_slice 0 false.
(** The zero message, as made at metadata/metadata.go:486. *)
Definition zero_sm_pb : sm_pb_of slice := mk_sm_pb 0 false nil_slice.

(** A result with its error flag as an option: the err != nil tests of
    metadata/metadata.go:112-158. *)
Definition ok_of {A} (r : A * bool) : option A := if snd r then None else Some (fst r).

(** Conversion of a Go [uint] to an int32 enum and back (an int32 is sign extended).
    (metadata/metadata.go:113-158, the drop policy) *)
Definition to_uint64 (z : Z) : Z := z mod 2 ^ 64.

(** metadata/metadata.go:113-133 [PipelineMetadata.ToProto]; on error [None]: the partially
    written message is not used by callers. *)
Definition pm_to_proto (m : pipeline_metadata) (old : pm_pb_of slice) : option (pm_pb_of slice) :=
  match applied_to_proto (pm_pipeline m) (pmp_pipeline old) with
  | None => None
  | Some pipe =>
      match into_slice empty_sp_pb (fun sp o => ok_of (sp_to_proto sp o)) (pm_sps m) (pmp_sps old) with
      | None => None
      | Some sps => Some (mk_pm_pb (pm_agg m) sps pipe (to_int32 (pm_drop m)))
      end
  end.

(** metadata/metadata.go:136-156 [PipelineMetadata.FromProto] *)
Definition pm_from_proto (pb : pm_pb_of list) (old : pm_of slice) : option (pm_of slice) :=
  match applied_from_proto (pmp_pipeline pb) (pm_pipeline old) with
  | None => None
  | Some pipe =>
      match into_slice empty_storage_policy (fun pb o => ok_of (sp_from_proto o pb)) (pmp_sps pb) (pm_sps old) with
      | None => None
      | Some sps => Some (mk_pm (pmp_agg pb) sps pipe (to_uint64 (pmp_drop pb)))
      end
  end.

(** metadata/metadata.go:267-280 [Metadata.ToProto]; 283-296 [FromProto] *)
Definition md_to_proto (ps : list pipeline_metadata) (old : slice (pm_pb_of slice)) :=
  into_slice zero_pm_pb pm_to_proto ps old.
(** metadata/metadata.go:283-296 [Metadata.FromProto] *)
Definition md_from_proto (pb : list (pm_pb_of list)) (old : slice (pm_of slice)) :=
  into_slice zero_pm pm_from_proto pb old.

(** metadata/metadata.go:378-385 [StagedMetadata.ToProto]; 388-395 [FromProto] *)
Definition sm_to_proto (s : staged_metadata) (old : sm_pb_of slice) : option (sm_pb_of slice) :=
  match md_to_proto (sm_pipelines s) (smp_pipelines old) with
  | None => None
  | Some md => Some (mk_sm_pb (sm_cutover s) (sm_tombstoned s) md)
  end.
(** metadata/metadata.go:388-395 [StagedMetadata.FromProto] *)
Definition sm_from_proto (pb : sm_pb_of list) (old : sm_of slice) : option (sm_of slice) :=
  match md_from_proto (smp_pipelines pb) (sm_pipelines old) with
  | None => None
  | Some md => Some (mk_sm md (smp_cutover pb) (smp_tombstoned pb))
  end.

(** metadata/metadata.go:481-494 [StagedMetadatas.ToProto]; 497-510 [FromProto] *)
Definition sms_to_proto (l : staged_metadatas) (old : slice (sm_pb_of slice)) :=
  into_slice zero_sm_pb sm_to_proto l old.
(** metadata/metadata.go:497-510 [StagedMetadatas.FromProto] *)
Definition sms_from_proto (pb : list (sm_pb_of list)) (old : slice (sm_of slice)) :=
  into_slice zero_sm sm_from_proto pb old.

(** metadata/metadata.go:299-314 [ForwardMetadata]; 519-525 [TimedMetadata] *)
Record fm_of (F : Type -> Type) := mk_fm {
  fm_agg : agg_id; fm_sp : storage_policy; fm_pipeline : F applied_op;
  fm_source : Z; fm_times : Z }.
Arguments mk_fm {F} _ _ _ _ _.
Arguments fm_agg {F} _.
Arguments fm_sp {F} _.
Arguments fm_pipeline {F} _.
Arguments fm_source {F} _.
Arguments fm_times {F} _.
(** metadata/metadata.go:299-314 [ForwardMetadata], plain values. *)
Notation forward_metadata := (fm_of list).
(** generated/proto/metricpb/metadata.pb.go:145-151 [ForwardMetadata] *)
Record fm_pb_of (F : Type -> Type) := mk_fm_pb {
  fmp_agg : N; fmp_sp : sp_pb; fmp_pipeline : F applied_op_pb;
  fmp_source : Z; fmp_times : Z }.
Arguments mk_fm_pb {F} _ _ _ _ _.
Arguments fmp_agg {F} _.
Arguments fmp_sp {F} _.
Arguments fmp_pipeline {F} _.
Arguments fmp_source {F} _.
Arguments fmp_times {F} _.
(** What a reader sees of a reused [ForwardMetadata] (metadata/metadata.go:299-314). *)
Definition fm_content (m : fm_of slice) : fm_of list :=
  mk_fm (fm_agg m) (fm_sp m) (s_elems (fm_pipeline m)) (fm_source m) (fm_times m).
(** What a reader sees of a reused message
    (generated/proto/metricpb/metadata.pb.go:145-151). *)
Definition fm_pb_content (m : fm_pb_of slice) : fm_pb_of list :=
  mk_fm_pb (fmp_agg m) (fmp_sp m) (s_elems (fmp_pipeline m)) (fmp_source m) (fmp_times m).

(** metadata/metadata.go:317-330 [ForwardMetadata.ToProto] *)
Definition fm_to_proto (m : forward_metadata) (old : fm_pb_of slice) : option (fm_pb_of slice) :=
  match ok_of (sp_to_proto (fm_sp m) (fmp_sp old)) with
  | None => None
  | Some sp =>
      match applied_to_proto (fm_pipeline m) (fmp_pipeline old) with
      | None => None
      | Some pipe => Some (mk_fm_pb (fm_agg m) sp pipe (fm_source m) (to_int32 (fm_times m)))
      end
  end.

(** metadata/metadata.go:333-346 [ForwardMetadata.FromProto] *)
Definition fm_from_proto (pb : fm_pb_of list) (old : fm_of slice) : option (fm_of slice) :=
  match ok_of (sp_from_proto (fm_sp old) (fmp_sp pb)) with
  | None => None
  | Some sp =>
      match applied_from_proto (fmp_pipeline pb) (fm_pipeline old) with
      | None => None
      | Some pipe => Some (mk_fm (fmp_agg pb) sp pipe (fmp_source pb) (fmp_times pb))
      end
  end.

(** metadata/metadata.go:519-525 [TimedMetadata] *)
Record timed_metadata := { tm_agg : agg_id; tm_sp : storage_policy }.
(** generated/proto/metricpb/metadata.pb.go:193-196 [TimedMetadata] *)
Record tm_pb := { tmp_agg : N; tmp_sp : sp_pb }.

(** metadata/metadata.go:528-536 [TimedMetadata.ToProto]; 539-547 [FromProto] *)
Definition tm_to_proto (m : timed_metadata) (old : tm_pb) : option tm_pb :=
  option_map (fun sp => {| tmp_agg := tm_agg m; tmp_sp := sp |}) (ok_of (sp_to_proto (tm_sp m) (tmp_sp old))).
(** metadata/metadata.go:539-547 [TimedMetadata.FromProto] *)
Definition tm_from_proto (pb : tm_pb) (old : timed_metadata) : option timed_metadata :=
  option_map (fun sp => {| tm_agg := tmp_agg pb; tm_sp := sp |}) (ok_of (sp_from_proto (tm_sp old) (tmp_sp pb))).
