(** Model of package [policy]. *)
From Coq Require Import Ascii String NArith ZArith Bool List.
From Verif.Base Require Import Bytes.
From Verif.Model Require Import AggType.
Import ListNotations.
Open Scope Z_scope.

(** External package m3x/time [Unit] (not in the repository): units 1..8 are
    second, millisecond, microsecond, nanosecond, minute, hour, day, year.
    [unit_value] models [Unit.Value], [unit_from_duration] models
    [UnitFromDuration]; durations are nanoseconds.
    External m3x/time, used by policy/resolution.go:53,67: unit codes and their nanoseconds. *)
Definition unit_table : list (Z * Z) :=
  [ (1, 1000000000); (2, 1000000); (3, 1000); (4, 1); (5, 60000000000);
    (6, 3600000000000); (7, 86400000000000); (8, 31536000000000000) ].

(** External m3x/time [Unit.Value], called at policy/resolution.go:53. *)
Definition unit_value (u : Z) : option Z :=
  option_map snd (find (fun p => fst p =? u) unit_table).

(** External m3x/time [UnitFromDuration], called at policy/resolution.go:67,110. *)
Definition unit_from_duration (d : Z) : option Z :=
  option_map fst (find (fun p => snd p =? d) unit_table).

(** policy/resolution.go:42-49 [Resolution] *)
Record resolution := { r_window : Z; r_precision : Z }.

(** policy/storage_policy.go:49-52 [StoragePolicy]; policy/retention.go:35 [Retention] *)
Record storage_policy := { sp_resolution : resolution; sp_retention : Z }.

(** policy/policy.go:46-49 [Policy] *)
Record policy := { p_storage : storage_policy; p_agg : agg_id }.

(** Go [==] on [Resolution] (policy/resolution.go:43-49). *)
Definition resolution_eqb (a b : resolution) : bool :=
  (r_window a =? r_window b) && (r_precision a =? r_precision b).

(** Go [==] on [StoragePolicy].  (policy/storage_policy.go:49-52, used at :217) *)
Definition sp_eqb (a b : storage_policy) : bool :=
  resolution_eqb (sp_resolution a) (sp_resolution b) && (sp_retention a =? sp_retention b).

(** Go [==] on [Policy].  (policy/policy.go:46-49, used at policy/staged_policy.go) *)
Definition policy_eqb (a b : policy) : bool :=
  sp_eqb (p_storage a) (p_storage b) && (p_agg a =? p_agg b)%N.

(** policy/storage_policy.go:256-272 [Less] *)
Definition sp_less (a b : storage_policy) : bool :=
  let rw1 := r_window (sp_resolution a) in
  let rw2 := r_window (sp_resolution b) in
  if rw1 <? rw2 then true
  else if rw2 <? rw1 then false
  else if sp_retention b <? sp_retention a then true
  else if sp_retention a <? sp_retention b then false
  else r_precision (sp_resolution a) <? r_precision (sp_resolution b).

(** policy/storage_policy.go:208-222 [StoragePolicies.Equal].  The two copies are
    sorted with [sort.Sort], an arbitrary sorting procedure [sort]. *)
Definition sps_equal_with (sort : list storage_policy -> list storage_policy)
  (a b : list storage_policy) : bool :=
  if negb (Nat.eqb (length a) (length b)) then false
  else list_eqb sp_eqb (sort a) (sort b).

(** The sorting procedure used when the model is run.
    (sort.Sort at policy/storage_policy.go:214-215) *)
Definition sp_sort : list storage_policy -> list storage_policy :=
  isort (fun a b => negb (sp_less b a)).

(** policy/storage_policy.go:208-222 [StoragePolicies.Equal] with that sorting procedure. *)
Definition sps_equal := sps_equal_with sp_sort.

(** * Protobuf *)

(** generated/proto/policypb/policy.pb.go [Resolution], [StoragePolicy]: pointer
    fields are options; [Retention] holds a period only. *)
Record resolution_pb := { rp_window : Z; rp_precision : Z }.
(** generated/proto/policypb/policy.pb.go:120-123 [StoragePolicy] *)
Record sp_pb := { spp_resolution : option resolution_pb; spp_retention : option Z }.
(** generated/proto/policypb/policy.pb.go:120-123, the zero [StoragePolicy]
    (policy/storage_policy.go:94). *)
Definition empty_sp_pb : sp_pb := {| spp_resolution := None; spp_retention := None |}.

(** policy/resolution.go:52-60 [Resolution.ToProto]: the new message content, or
    an error leaving it unchanged. *)
Definition resolution_to_proto (r : resolution) : option resolution_pb :=
  match unit_value (r_precision r) with
  | None => None
  | Some p => Some {| rp_window := r_window r; rp_precision := p |}
  end.

(** policy/resolution.go:63-74 [Resolution.FromProto] *)
Definition resolution_from_proto (pb : option resolution_pb) : option resolution :=
  match pb with
  | None => None
  | Some pb =>
      match unit_from_duration (rp_precision pb) with
      | None => None
      | Some u => Some {| r_window := rp_window pb; r_precision := u |}
      end
  end.

(** policy/storage_policy.go:102-114 [StoragePolicy.ToProto] into a message with
    previous content [old]; result and error flag. *)
Definition sp_to_proto (p : storage_policy) (old : sp_pb) : sp_pb * bool :=
  let res_old := match spp_resolution old with
                 | None => {| rp_window := 0; rp_precision := 0 |}
                 | Some r => r
                 end in
  match resolution_to_proto (sp_resolution p) with
  | None => ({| spp_resolution := Some res_old; spp_retention := spp_retention old |}, true)
  | Some r => ({| spp_resolution := Some r; spp_retention := Some (sp_retention p) |}, false)
  end.

(** policy/storage_policy.go:117-125 [StoragePolicy.FromProto] into a value with
    previous content [old]; result and error flag. *)
Definition sp_from_proto (old : storage_policy) (pb : sp_pb) : storage_policy * bool :=
  match resolution_from_proto (spp_resolution pb) with
  | None => (old, true)
  | Some r =>
      match spp_retention pb with
      | None => ({| sp_resolution := r; sp_retention := sp_retention old |}, true)
      | Some t => ({| sp_resolution := r; sp_retention := t |}, false)
      end
  end.

(** policy/resolution.go:38 [emptyResolution], 145 [EmptyResolution] *)
Definition empty_resolution : resolution := {| r_window := 0; r_precision := 0 |}.
(** policy/storage_policy.go:41 [EmptyStoragePolicy] *)
Definition empty_storage_policy : storage_policy :=
  {| sp_resolution := empty_resolution; sp_retention := 0 |}.

(** policy/storage_policy.go:93-99 [StoragePolicy.Proto] *)
Definition sp_proto (p : storage_policy) : option sp_pb :=
  let '(pb, err) := sp_to_proto p empty_sp_pb in if err then None else Some pb.

(** policy/storage_policy.go:66-75 [NewStoragePolicyFromProto] (nil pointer is [None]) *)
Definition new_sp_from_proto (pb : option sp_pb) : option storage_policy :=
  match pb with
  | None => None
  | Some pb => let '(p, err) := sp_from_proto empty_storage_policy pb in
               if err then None else Some p
  end.

(** policy/storage_policy.go:225-235 [StoragePolicies.Proto] and 192-205
    [NewStoragePoliciesFromProto] *)
Definition sps_proto (l : list storage_policy) : option (list sp_pb) := map_opt sp_proto l.
(** policy/storage_policy.go:193-205 [NewStoragePoliciesFromProto] *)
Definition new_sps_from_proto (l : list (option sp_pb)) : option (list storage_policy) :=
  map_opt new_sp_from_proto l.

(** policypb.Policy  (generated/proto/policypb/policy.pb.go:144-147) *)
Record policy_pb := { pp_storage : option sp_pb; pp_types : list Z }.

(** policy/policy.go:57-74 [NewPolicyFromProto] *)
Definition new_policy_from_proto (pb : option policy_pb) : option policy :=
  match pb with
  | None => None
  | Some pb =>
      match new_sp_from_proto (pp_storage pb) with
      | None => None
      | Some sp =>
          let '(id, err) := id_from_proto_types (pp_types pb) in
          if err then None else Some {| p_storage := sp; p_agg := id |}
      end
  end.

(** policy/policy.go:77-98 [Policy.Proto] *)
Definition policy_proto (p : policy) : option policy_pb :=
  match sp_proto (p_storage p) with
  | None => None
  | Some spb =>
      let '(ts, err) := decompress (p_agg p) in
      if err then None
      else match types_proto ts with
           | None => None
           | Some zs => Some {| pp_storage := Some spb; pp_types := zs |}
           end
  end.

(** policy/policy.go:174-184 [NewPoliciesFromProto] *)
Definition new_policies_from_proto (l : list (option policy_pb)) : option (list policy) :=
  map_opt new_policy_from_proto l.

(** policy/policy.go:195-205 [Policies.Equals] *)
Definition policies_equals (a b : list policy) : bool := list_eqb policy_eqb a b.

(** * Text.  The duration functions of m3x/time are arguments.
    The calls are at policy/resolution.go:78-110 and policy/retention.go:41,65. *)
Record duration_text := {
  dt_print : Z -> bytes;            (** [xtime.ToExtendedString] *)
  dt_parse : bytes -> option Z;     (** [xtime.ParseExtendedDuration] *)
  dt_max_unit : Z -> Z;             (** second result of [xtime.MaxUnitForDuration] *)
  dt_unit_string : Z -> bytes;      (** [xtime.Unit.String]
    policy/resolution.go:34 [windowPrecisionSeparator] *)
}.

Definition at_sep : ascii := "@"%char.
(** policy/storage_policy.go:36 [resolutionRetentionSeparator] *)
Definition colon_sep : ascii := ":"%char.
(** policy/policy.go:33 [policyAggregationTypeSeparator] *)
Definition bar_sep : ascii := "|"%char.

(** policy/resolution.go:77-84 [Resolution.String] *)
Definition resolution_string (dt : duration_text) (r : resolution) : bytes :=
  if dt_max_unit dt (r_window r) =? r_precision r then dt_print dt (r_window r)
  else dt_print dt (r_window r) ++ at_sep :: B "1" ++ dt_unit_string dt (r_precision r).

(** policy/resolution.go:87-115 [ParseResolution] *)
Definition parse_resolution (dt : duration_text) (s : bytes) : option resolution :=
  match index_byte at_sep s with
  | None =>
      match dt_parse dt s with
      | None => None
      | Some w => Some {| r_window := w; r_precision := dt_max_unit dt w |}
      end
  | Some i =>
      match dt_parse dt (firstn i s) with
      | None => None
      | Some w =>
          match dt_parse dt (skipn (S i) s) with
          | None => None
          | Some d =>
              match unit_from_duration d with
              | None => None
              | Some u => Some {| r_window := w; r_precision := u |}
              end
          end
      end
  end.

(** policy/storage_policy.go:78-80 [StoragePolicy.String]; policy/retention.go:40-42 *)
Definition sp_string (dt : duration_text) (p : storage_policy) : bytes :=
  resolution_string dt (sp_resolution p) ++ colon_sep :: dt_print dt (sp_retention p).

(** policy/storage_policy.go:163-178 [ParseStoragePolicy]; policy/retention.go:64-70 *)
Definition parse_sp (dt : duration_text) (s : bytes) : option storage_policy :=
  match split_on colon_sep s with
  | [a; b] =>
      match parse_resolution dt a with
      | None => None
      | Some r =>
          match dt_parse dt b with
          | None => None
          | Some t => Some {| sp_resolution := r; sp_retention := t |}
          end
      end
  | _ => None
  end.

(** policy/policy.go:101-106 [Policy.String].  An ID that does not decompress prints
    an error text in its place ([id_string] is [None]); not modelled further. *)
Definition policy_string (dt : duration_text) (p : policy) : option bytes :=
  if id_is_default (p_agg p) then Some (sp_string dt (p_storage p))
  else match id_string (p_agg p) with
       | None => None
       | Some s => Some (sp_string dt (p_storage p) ++ bar_sep :: s)
       end.

(** policy/policy.go:145-171 [ParsePolicy] *)
Definition parse_policy (dt : duration_text) (s : bytes) : option policy :=
  match split_on bar_sep s with
  | [a] =>
      match parse_sp dt a with
      | None => None
      | Some sp => Some {| p_storage := sp; p_agg := default_id |}
      end
  | [a; b] =>
      match parse_sp dt a with
      | None => None
      | Some sp =>
          match parse_types b with
          | None => None
          | Some ts =>
              let '(id, err) := compress_types ts in
              if err then None else Some {| p_storage := sp; p_agg := id |}
          end
      end
  | _ => None
  end.

(** * Known resolution and retention values *)

(** policy/resolution.go:172-178 [valuesToResolution]; the map is injective, and
    resolutionToValues (184-188) is its inverse. *)
Definition known_resolutions : list (Z * resolution) :=
  [ (1, {| r_window := 1000000000; r_precision := 1 |});
    (2, {| r_window := 10000000000; r_precision := 1 |});
    (3, {| r_window := 60000000000; r_precision := 5 |});
    (4, {| r_window := 300000000000; r_precision := 5 |});
    (5, {| r_window := 600000000000; r_precision := 5 |}) ].

(** policy/resolution.go:149-155 and 164-170 *)
Definition resolution_of_value (v : Z) : option resolution :=
  option_map snd (find (fun p => fst p =? v) known_resolutions).
(** policy/resolution.go:164-170 [ValueFromResolution] *)
Definition value_of_resolution (r : resolution) : option Z :=
  option_map fst (find (fun p => resolution_eqb (snd p) r) known_resolutions).

(** policy/retention.go:132-142 [valuesToRetention] *)
Definition known_retentions : list (Z * Z) :=
  [ (1, 3600000000000); (2, 21600000000000); (3, 43200000000000); (4, 86400000000000);
    (5, 172800000000000); (6, 604800000000000); (7, 1209600000000000);
    (8, 2592000000000000); (9, 3888000000000000) ].

(** policy/retention.go:107-113 and 122-128 *)
Definition retention_of_value (v : Z) : option Z :=
  option_map snd (find (fun p => fst p =? v) known_retentions).
(** policy/retention.go:122-128 [ValueFromRetention] *)
Definition value_of_retention (t : Z) : option Z :=
  option_map fst (find (fun p => snd p =? t) known_retentions).

(** * Drop policies: policy/drop_policy.go *)
Definition drop_policy := Z.
(** policy/drop_policy.go:30 [DropNone], 39 [DefaultDropPolicy] *)
Definition DropNone : drop_policy := 0.
(** policy/drop_policy.go:33 [DropMust] *)
Definition DropMust : drop_policy := 1.
(** policy/drop_policy.go:36 [DropIfOnlyMatch] *)
Definition DropIfOnlyMatch : drop_policy := 2.

(** policy/drop_policy.go:44-48 [validDropPolicies] *)
Definition valid_drop_policies : list drop_policy := [DropNone; DropMust; DropIfOnlyMatch].

(** policy/drop_policy.go:49-51 *)
Definition drop_is_default (p : drop_policy) : bool := p =? DropNone.

(** policy/drop_policy.go:53-63 *)
Definition drop_string (p : drop_policy) : bytes :=
  if p =? DropNone then B "drop_none"
  else if p =? DropMust then B "drop_must"
  else if p =? DropIfOnlyMatch then B "drop_if_only_match"
  else B "drop_none".

(** policy/drop_policy.go:66-73 *)
Definition drop_is_valid (p : drop_policy) : bool := existsb (fun q => q =? p) valid_drop_policies.

(** policy/policy.go:230-238 [ParseDropPolicy] *)
Definition parse_drop_policy (s : bytes) : option drop_policy :=
  find (fun p => beqb (drop_string p) s) valid_drop_policies.

(** policy/policy.go:208-227 [DropPolicy.UnmarshalYAML] on the decoded string *)
Definition unmarshal_drop_policy (s : bytes) : option drop_policy :=
  match s with [] => Some DropNone | _ => parse_drop_policy s end.

(** * Staged policies: policy/staged_policy.go *)

(** policy/staged_policy.go:37-46 *)
Record staged_policies := {
  stp_cutover : Z;
  stp_tombstoned : bool;
  stp_policies : list policy;
}.

(** policy/policy.go:187-189 [IsDefaultPolicies] *)
Definition is_default_policies (ps : list policy) : bool :=
  match ps with [] => true | _ => false end.

(** policy/staged_policy.go:57-59 *)
Definition stp_is_default (p : staged_policies) : bool :=
  (stp_cutover p =? 0) && negb (stp_tombstoned p) && is_default_policies (stp_policies p).

(** policy/staged_policy.go:67-88 [StagedPolicies.Equals] *)
Definition stp_equals (a b : staged_policies) : bool :=
  if negb (stp_cutover a =? stp_cutover b) || negb (Bool.eqb (stp_tombstoned a) (stp_tombstoned b))
  then false
  else
    let ad := is_default_policies (stp_policies a) in
    let bd := is_default_policies (stp_policies b) in
    if ad && bd then true
    else if ad || bd then false
    else list_eqb policy_eqb (stp_policies a) (stp_policies b).

(** policy/staged_policy.go:142-144 [PoliciesList.IsDefault] *)
Definition policies_list_is_default (l : list staged_policies) : bool :=
  match l with [p] => stp_is_default p | _ => false end.

(** policy/staged_policy.go:29-33 *)
Definition default_staged_policies : staged_policies :=
  {| stp_cutover := 0; stp_tombstoned := false; stp_policies := [] |}.
(** policy/staged_policy.go:33 [DefaultPoliciesList] *)
Definition default_policies_list : list staged_policies := [default_staged_policies].
