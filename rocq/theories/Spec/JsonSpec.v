(** Specification vocabulary for the JSON form of views and changes. *)
From Coq Require Import Ascii String NArith ZArith Bool Permutation List.
From Verif.Base Require Import Bytes.
From Verif.Model Require Import AggType Policy Transformation Pipeline Rules RuleSet Namespace Json.
From Verif.Spec Require Import AggSpec PolicySpec MetadataSpec.
From Verif.Spec Require Export TextSpec.
Import ListNotations.
Open Scope Z_scope.

(** ** Views that can be sent *)

Definition fits_int64 (z : Z) : Prop := - 2 ^ 63 <= z < 2 ^ 63.

Definition rollup_op_text (a : op) : Prop := is_text (ro_name (op_rollup a)) /\ Forall is_text (ro_tags (op_rollup a)).
Definition op_sendable (a : op) : Prop := op_valid a /\ (op_kind a = RollupOp -> rollup_op_text a).
Definition target_sendable (t : target) : Prop := Forall op_sendable (tg_pipeline t) /\ Forall sp_ok (tg_sps t).
Definition mapping_sendable (b : mapping_body) : Prop :=
  valid_agg_id (mb_agg b) /\ Forall sp_ok (mb_sps b) /\ 0 <= mb_drop b < 2 ^ 64.
Definition rollup_sendable (ts : list target) : Prop := Forall target_sendable ts.

Definition view_sendable {P} (body : P -> Prop) (v : rule_view P) : Prop :=
  is_text (rv_id v) /\ is_text (rv_name v) /\ is_text (rv_filter v) /\ is_text (rv_by v) /\
  fits_int64 (rv_cutover_ms v) /\ fits_int64 (rv_at_ms v) /\ body (rv_body v).
Definition set_view_sendable (v : rule_set_view) : Prop :=
  is_text (rsv_namespace v) /\ fits_int64 (rsv_version v) /\ fits_int64 (rsv_cutover_ms v) /\
  Forall (view_sendable mapping_sendable) (rsv_mapping v) /\ Forall (view_sendable rollup_sendable) (rsv_rollup v).

Definition change_sendable {P} (body : P -> Prop) (c : view_change P) : Prop :=
  is_text (vc_op c) /\ (forall i, vc_id c = Some i -> is_text i) /\
  (forall v, vc_data c = Some v -> view_sendable body v).
Definition set_changes_sendable (c : set_changes) : Prop :=
  is_text (sc_namespace c) /\
  Forall (change_sendable mapping_sendable) (sc_mapping c) /\ Forall (change_sendable rollup_sendable) (sc_rollup c).

(** Operations carry the payload of their kind only. *)
Definition targets_canonical (ts : list target) : Prop := forall t a, In t ts -> In a (tg_pipeline t) -> op_canonical a.
Definition set_view_canonical (v : rule_set_view) : Prop :=
  forall r, In r (rsv_rollup v) -> targets_canonical (rv_body r).
Definition set_changes_canonical (c : set_changes) : Prop :=
  forall x r, In x (sc_rollup c) -> vc_data x = Some r -> targets_canonical (rv_body r).

(** Dropping the payloads that do not belong to the kind of an operation. *)
Definition op_cleaned (a : op) : op :=
  {| op_kind := op_kind a;
     op_agg := if op_kind a =? AggregationOp then op_agg a else 0;
     op_tf := if op_kind a =? TransformationOp then op_tf a else 0;
     op_rollup := if op_kind a =? RollupOp then op_rollup a else {| ro_name := []; ro_tags := []; ro_agg := 0%N |} |}.
Definition targets_cleaned (ts : list target) : list target :=
  map (fun t => mk_target (map op_cleaned (tg_pipeline t)) (tg_sps t)) ts.
Definition with_body {P} (f : P -> P) (v : rule_view P) : rule_view P :=
  mk_rv (rv_id v) (rv_name v) (rv_tomb v) (rv_cutover_ms v) (rv_filter v) (f (rv_body v)) (rv_by v) (rv_at_ms v).
Definition set_view_cleaned (v : rule_set_view) : rule_set_view :=
  mk_rsv (rsv_namespace v) (rsv_version v) (rsv_cutover_ms v) (rsv_mapping v)
    (map (with_body targets_cleaned) (rsv_rollup v)).
Definition set_changes_cleaned (c : set_changes) : set_changes :=
  mk_sc (sc_namespace c) (sc_mapping c)
    (map (fun x => mk_vc (vc_op x) (vc_id x) (option_map (with_body targets_cleaned) (vc_data x))) (sc_rollup c)).

(** The aggregation IDs and operations of a view, all that can keep it from being written. *)
Definition set_view_writable (v : rule_set_view) : Prop :=
  (forall r, In r (rsv_mapping v) -> valid_agg_id (mb_agg (rv_body r))) /\
  (forall r t a, In r (rsv_rollup v) -> In t (rv_body r) -> In a (tg_pipeline t) -> op_valid a).
Definition set_view_words (v : rule_set_view) : Prop :=
  (forall r, In r (rsv_mapping v) -> (mb_agg (rv_body r) < 2 ^ 64)%N) /\
  (forall r t a, In r (rsv_rollup v) -> In t (rv_body r) -> In a (tg_pipeline t) -> (ro_agg (op_rollup a) < 2 ^ 64)%N).

(** ** Documents *)

(** Every string of a document is Unicode text, as parsing guarantees. *)
Inductive document : json -> Prop :=
| doc_null : document JNull
| doc_bool b : document (JBool b)
| doc_int z : document (JInt z)
| doc_frac : document JFrac
| doc_str s : is_text s -> document (JStr s)
| doc_arr l : (forall j, In j l -> document j) -> document (JArr l)
| doc_obj l : (forall k j, In (k, j) l -> document j) -> document (JObj l).

(** The keys with a meaning somewhere in a view or a change. *)
Definition known_keys : list bytes := map B
  ["id"; "name"; "tombstoned"; "cutoverMillis"; "filter"; "aggregation"; "storagePolicies"; "dropPolicy";
   "lastUpdatedBy"; "lastUpdatedAtMillis"; "targets"; "pipeline"; "transformation"; "rollup"; "newName"; "tags";
   "version"; "mappingRules"; "rollupRules"; "namespace"; "mappingRuleChanges"; "rollupRuleChanges"; "op"; "ruleID";
   "ruleData"; "forRuleSetVersion"; "namespaces"]%string.
(** Keys are the same if their characters are, up to case and with the Kelvin sign for k and the long s for s
    (encoding/json; [same_key] decides it, see [C68_keys]). *)
Definition folded (c : N) : N :=
  (if (65 <=? c) && (c <=? 90) then c + 32 else if c =? 0x212A then 107 else if c =? 0x17F then 115 else c)%N.
Definition unknown_key (k : bytes) : Prop := forall k', In k' known_keys -> same_key k k' = false.

(** The same document with, at any depth, further fields under unknown keys, keys in other case, and fields in
    another order. *)
Inductive extends : json -> json -> Prop :=
| ext_same j : extends j j
| ext_arr l l' : Forall2 extends l l' -> extends (JArr l) (JArr l')
| ext_obj l kept extra l' :
    Forall2 (fun x y => same_key (fst x) (fst y) = true /\ extends (snd x) (snd y)) l kept ->
    Forall (fun x => unknown_key (fst x)) extra ->
    NoDup (map (fun x => fold_key (fst x)) l') ->
    Permutation (kept ++ extra) l' ->
    extends (JObj l) (JObj l').

(** ** Rule sets whose view can be sent *)

(** Names are text and numbers are int64. *)
Definition targets_text (ts : list target) : Prop :=
  forall t a, In t ts -> In a (tg_pipeline t) -> rollup_op_text a.
Definition rules_presentable {P} (names : P -> Prop) (l : list (rule P)) : Prop :=
  forall r s, In r l -> In s (ru_snapshots r) ->
    is_text (ru_uuid r) /\ is_text (sn_name s) /\ is_text (sn_raw s) /\ is_text (sn_by s) /\
    fits_int64 (sn_cutover s) /\ fits_int64 (sn_at s) /\ names (sn_body s).
Definition rule_set_presentable (rs : rule_set) : Prop :=
  is_text (rs_namespace rs) /\ fits_int64 (rs_version rs) /\ fits_int64 (rs_cutover rs) /\
  rules_presentable (fun _ => True) (rs_mapping rs) /\ rules_presentable targets_text (rs_rollup rs).

Definition namespaces_sendable (v : Z * list ns_view) : Prop :=
  fits_int64 (fst v) /\
  Forall (fun n => is_text (nsv_id n) /\ is_text (nsv_by n) /\ fits_int64 (nsv_version n) /\ fits_int64 (nsv_at_millis n)) (snd v).
