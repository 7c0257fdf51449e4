(** Specification vocabulary for stored rule sets. *)
From Coq Require Import Ascii String NArith ZArith Bool Permutation Sorting.Sorted List.
From Verif.Base Require Import Bytes.
From Verif.Model Require Import AggType Policy Transformation Pipeline Metadata Filter Rules RuleSet RuleSetProto.
From Verif.Spec Require Import AggSpec PolicySpec MetadataSpec.
Import ListNotations.
Open Scope Z_scope.

(** [f] is the filter that the text [raw] stands for. *)
Definition compiles_to (opts : tags_filter_options) (raw : bytes) (f : tags_filter) : Prop :=
  exists m, parse_tag_filter_value_map raw = Some m /\ new_tags_filter m Conjunction opts = Some f.

(** Mapping rule snapshots that can be stored and read. *)
Definition mapping_readable (s : snapshot mapping_body) : Prop :=
  let b := sn_body s in
  valid_agg_id (mb_agg b) /\ Forall sp_ok (mb_sps b) /\ 0 <= mb_drop b <= 2 /\
  (sn_tomb s = false -> mb_sps b <> [] \/ mb_drop b <> 0) /\
  (mb_sps b <> [] -> mb_drop b = 0).

(** What is read back: the filter is compiled; an aggregation ID without storage policies is lost. *)
Definition mapping_read_back (opts : tags_filter_options) (s s' : snapshot mapping_body) : Prop :=
  exists f agg, compiles_to opts (sn_raw s) f /\
    (mb_sps (sn_body s) <> [] -> agg = mb_agg (sn_body s)) /\ (mb_sps (sn_body s) = [] -> agg = 0%N) /\
    s' = mk_snap (sn_name s) (sn_tomb s) (sn_cutover s) (Some f) (sn_raw s)
           (mk_mb agg (mb_sps (sn_body s)) (mb_drop (sn_body s))) (sn_at s) (sn_by s).

(** Rollup targets with meaningful operations. *)
Definition target_readable (t : target) : Prop := Forall op_valid (tg_pipeline t) /\ Forall sp_ok (tg_sps t).
Definition rollup_readable (s : snapshot (list target)) : Prop :=
  Forall target_readable (sn_body s) /\ (sn_tomb s = false -> sn_body s <> []).

(** Numbers within the range of their Go types: 64-bit aggregation words; aggregation types and drop policies
    that survive the conversion to a 32-bit protobuf enum. *)
Definition mapping_fits (s : snapshot mapping_body) : Prop :=
  (mb_agg (sn_body s) < 2 ^ 64)%N /\ 0 <= mb_drop (sn_body s) < 2 ^ 31.
Definition op_fits (a : op) : Prop := - 2 ^ 31 <= op_agg a < 2 ^ 31 /\ (ro_agg (op_rollup a) < 2 ^ 64)%N.
Definition rollup_fits (s : snapshot (list target)) : Prop :=
  forall t a, In t (sn_body s) -> In a (tg_pipeline t) -> op_fits a.

(** The same target, the tags of its rollup operations sorted. *)
Definition tags_sorted (a : op) : Prop := StronglySorted (fun x y => bleb x y = true) (ro_tags (op_rollup a)).
Definition target_read_back (t t' : target) : Prop :=
  tg_sps t' = tg_sps t /\ Forall2 op_same (tg_pipeline t') (tg_pipeline t) /\
  Forall (fun a => op_canonical a /\ tags_sorted a) (tg_pipeline t').
Definition rollup_read_back (opts : tags_filter_options) (s s' : snapshot (list target)) : Prop :=
  exists f ts, compiles_to opts (sn_raw s) f /\ Forall2 target_read_back (sn_body s) ts /\
    s' = mk_snap (sn_name s) (sn_tomb s) (sn_cutover s) (Some f) (sn_raw s) ts (sn_at s) (sn_by s).

Definition rule_rel {P} (R : snapshot P -> snapshot P -> Prop) (r r' : rule P) : Prop :=
  ru_uuid r' = ru_uuid r /\ Forall2 R (ru_snapshots r) (ru_snapshots r').

(** [rs'] is what is read after [rs] is stored, as version [v]. *)
Definition read_back (v : Z) (o : rule_opts) (rs rs' : rule_set) : Prop :=
  rs_uuid rs' = rs_uuid rs /\ rs_version rs' = v /\ rs_namespace rs' = rs_namespace rs /\
  rs_created_at rs' = rs_created_at rs /\ rs_updated_at rs' = rs_updated_at rs /\
  rs_updated_by rs' = rs_updated_by rs /\ rs_tomb rs' = rs_tomb rs /\ rs_cutover rs' = rs_cutover rs /\
  Forall2 (rule_rel (mapping_read_back (ropt_tags o))) (rs_mapping rs) (rs_mapping rs') /\
  Forall2 (rule_rel (rollup_read_back (ropt_tags o))) (rs_rollup rs) (rs_rollup rs') /\
  rs_opts rs' = ropt_tags o /\ rs_new_id rs' = ropt_new_id o /\ rs_is_rollup rs' = ropt_is_rollup o.

(** Every snapshot of [l] satisfies [R]. *)
Definition every_snapshot {P} (R : snapshot P -> Prop) (l : list (rule P)) : Prop :=
  forall r s, In r l -> In s (ru_snapshots r) -> R s.

(** Finest resolution first, then longest retention first, then finest precision first. *)
Definition finest_first (a b : storage_policy) : Prop :=
  r_window (sp_resolution a) < r_window (sp_resolution b) \/
  (r_window (sp_resolution a) = r_window (sp_resolution b) /\
   (sp_retention b < sp_retention a \/
    (sp_retention a = sp_retention b /\ r_precision (sp_resolution a) <= r_precision (sp_resolution b)))).

(** The storage policies that a legacy list of policies stands for. *)
Definition legacy_policies (ps : list policy) (agg : N) (sps : list storage_policy) : Prop :=
  (forall p, In p ps -> p_agg p = agg) /\ (ps = [] -> agg = 0%N) /\
  (forall sp, In sp sps <-> In sp (map p_storage ps)) /\ NoDup sps /\
  StronglySorted finest_first sps.

(** An edit whose content can be stored: the body of the rule it writes is readable and live. *)
Definition content_ok (e : edit) : Prop :=
  match e with
  | AddMapping _ e | UpdateMapping e =>
      let s := mk_snap (re_name e) false 0 None (re_filter e) (re_body e) 0 [] in mapping_fits s /\ mapping_readable s
  | AddRollup _ e | UpdateRollup e =>
      let s := mk_snap (re_name e) false 0 None (re_filter e) (re_body e) 0 [] in rollup_fits s /\ rollup_readable s
  | _ => True
  end.

(** A rule set that can be stored and read with the options [o]. *)
Definition storable (o : rule_opts) (rs : rule_set) : Prop :=
  every_snapshot (fun s => mapping_fits s /\ mapping_readable s /\ exists f, compiles_to (ropt_tags o) (sn_raw s) f) (rs_mapping rs) /\
  every_snapshot (fun s => rollup_fits s /\ rollup_readable s /\ exists f, compiles_to (ropt_tags o) (sn_raw s) f) (rs_rollup rs).
