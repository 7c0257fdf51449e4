(** Model of the JSON form of rule set views and rule set changes: the json tags
    in rules/view and rules/view/changes, and the methods [MarshalJSON] and
    [UnmarshalJSON] of the types within.  Definitions only.

    The standard library's encoding/json is modelled at the level of JSON values:
    that writing a value as text and parsing the text gives the value back is
    assumed.  Simplified: a key that is repeated within an object counts where it
    comes last. *)
From Coq Require Import Ascii String NArith ZArith Bool List.
From Verif.Base Require Import Bytes.
From Verif.Base Require Export Utf8.
From Verif.Model Require Import AggType Policy Transformation Pipeline Rules RuleSet Namespace.
Import ListNotations.
Open Scope Z_scope.

(** ** JSON values *)

(** [JFrac] is any number that is not written as an integer.
    (the values written and read at pipeline/type.go:99-101,457,463,615,621 and aggregation/id.go:104,110) *)
Inductive json :=
| JNull
| JBool (b : bool)
| JInt (z : Z)
| JFrac
| JStr (s : bytes)
| JArr (l : list json)
| JObj (l : list (bytes * json)).

(** encoding/json [encodeState.string]: bytes that are not part of well-formed
    UTF-8 are written as U+FFFD  (for the strings of rules/view/mapping.go:29-40) *)
Definition replacement : bytes := map ascii_of_nat [239; 191; 189]%nat.
(** The same, byte by byte (external encoding/json, for the strings of
    rules/view/mapping.go:29-40). *)
Fixpoint utf8_fix_from (skip : nat) (s : bytes) : bytes :=
  match s with
  | [] => []
  | c :: s' =>
      match skip with
      | S n => c :: utf8_fix_from n s'
      | O => match utf8_head s with
             | Some (S n) => c :: utf8_fix_from n s'
             | _ => replacement ++ utf8_fix_from 0 s'
             end
      end
  end.
(** The whole string (external encoding/json, for the strings of
    rules/view/mapping.go:29-40). *)
Definition utf8_fix (s : bytes) : bytes := utf8_fix_from 0 s.

(** encoding/json: the field of a struct that a key denotes
    (for the tags of rules/view/mapping.go:29-40) *)
Definition lower (c : ascii) : ascii := if between 65 90 c then ascii_of_N (N_of_ascii c + 32) else c.
(** ... up to the case of ASCII letters; the Kelvin sign (E2 84 AA) counts as k and the long s (C5 BF) as s.
    (external encoding/json, for the tags of rules/view/mapping.go:29-40) *)
Fixpoint fold_key (s : bytes) : bytes :=
  let is (n : N) (c : ascii) := N.eqb (N_of_ascii c) n in
  match s with
  | [] => []
  | a :: s1 =>
      match s1 with
      | b :: s2 =>
          if is 197%N a && is 191%N b then "s"%char :: fold_key s2
          else match s2 with
               | c :: s3 => if is 226%N a && is 132%N b && is 170%N c then "k"%char :: fold_key s3 else lower a :: fold_key s1
               | [] => lower a :: fold_key s1
               end
      | [] => lower a :: fold_key s1
      end
  end.
(** Two keys for one field (external encoding/json, for the tags of
    rules/view/mapping.go:29-40). *)
Definition same_key (a b : bytes) : bool := beqb (fold_key a) (fold_key b).
(** The value that the last such key has (external encoding/json, for the tags of
    rules/view/mapping.go:29-40). *)
Fixpoint jfield (k : bytes) (l : list (bytes * json)) : option json :=
  match l with
  | [] => None
  | (k', v) :: l' => match jfield k l' with
                     | Some w => Some w
                     | None => if same_key k' k then Some v else None
                     end
  end.
(** A missing field and one that is null leave the zero value; so do the
    [UnmarshalJSON] methods of fields of the structs here when they get null.
    (rules/view/mapping.go:29-40, rules/view/rollup.go:29-55) *)
Definition field (k : string) (l : list (bytes * json)) : json :=
  match jfield (B k) l with None => JNull | Some v => v end.

(** ** encoding/json for the types used: writing
    A string field, such as rules/view/mapping.go:29-40 [MappingRule]'s [Name]. *)

Definition e_string (s : bytes) : json := JStr (utf8_fix s).
(** [nl]: whether empty slices are nil, and so written as null
    (e.g. the [StoragePolicies] of rules/view/mapping.go:29-40) *)
Definition e_list {A} (nl : bool) (e : A -> option json) (l : list A) : option json :=
  match l with
  | [] => Some (if nl then JNull else JArr [])
  | _ => option_map JArr (map_opt e l)
  end.
(** [omitempty]  (rules/view/mapping.go:30, rules/view/rollup.go:47) *)
Definition omit_empty (k : string) (s : bytes) : list (bytes * json) := match s with [] => [] | _ => [(B k, e_string s)] end.
(** The same for an integer (rules/view/mapping.go:33, rules/view/rollup.go:50). *)
Definition omit_zero (k : string) (z : Z) : list (bytes * json) := if z =? 0 then [] else [(B k, JInt z)].
(** The same for a pointer (pipeline/type.go:490-492, rules/view/changes/mapping.go:28-29). *)
Definition omit_nil {A} (k : string) (e : A -> option json) (x : option A) : option (list (bytes * json)) :=
  match x with
  | None => Some []
  | Some a => option_map (fun j => [(B k, j)]) (e a)
  end.

(** ** encoding/json for the types used: reading
    A string field (rules/view/mapping.go:29-40). *)

Definition d_string (j : json) : option bytes :=
  match j with JNull => Some [] | JStr s => Some s | _ => None end.
(** A bool field (rules/view/mapping.go:29-40 [Tombstoned]). *)
Definition d_bool (j : json) : option bool :=
  match j with JNull => Some false | JBool b => Some b | _ => None end.
(** integers within the range of the Go type
    (rules/view/mapping.go:29-40 [CutoverMillis]) *)
Definition d_int (lo hi : Z) (j : json) : option Z :=
  match j with JNull => Some 0 | JInt z => if (lo <=? z) && (z <? hi) then Some z else None | _ => None end.
(** An int64 field (rules/view/mapping.go:29-40 [CutoverMillis]). *)
Definition d_int64 : json -> option Z := d_int (- 2 ^ 63) (2 ^ 63).
(** A uint64 field (rules/view/mapping.go:29-40 [DropPolicy]). *)
Definition d_uint64 : json -> option Z := d_int 0 (2 ^ 64).
(** A slice (rules/view/ruleset.go:28-34). *)
Definition d_list {A} (d : json -> option A) (j : json) : option (list A) :=
  match j with JNull => Some [] | JArr l => map_opt d l | _ => None end.
(** a pointer  (pipeline/type.go:489-508) *)
Definition d_ptr {A} (d : json -> option A) (j : json) : option (option A) :=
  match j with JNull => Some None | _ => option_map Some (d j) end.
(** a struct: its fields  (rules/view/mapping.go:29-40) *)
Definition d_struct (j : json) : option (list (bytes * json)) :=
  match j with JNull => Some [] | JObj l => Some l | _ => None end.

(** [if err != nil { return err }] (pipeline/type.go:311-318) *)
Definition bind {A C} (x : option A) (f : A -> option C) : option C := match x with None => None | Some a => f a end.
Notation "'do' x <- a ; b" := (bind a (fun x => b)) (at level 200, x pattern, a at level 100, b at level 200, right associativity).

Section Json.
  Context (dt : duration_text) (nl : bool).

  (** ** Types, IDs, storage policies, operations *)

  (** aggregation/type.go 204-210 [Type.MarshalJSON]; 213-225 [UnmarshalJSON] *)
  Definition e_agg_type (t : agg_type) : option json := if is_valid t then Some (JStr (type_string t)) else None.
  (** aggregation/type.go:213-225 [Type.UnmarshalJSON] *)
  Definition d_agg_type (j : json) : option agg_type := match j with JStr s => parse_type s | _ => None end.

  (** aggregation/id.go 99-105 [ID.MarshalJSON], the default ID having nil types;
      108-119 [UnmarshalJSON] *)
  Definition e_agg_id (id : agg_id) : option json :=
    let '(ts, err) := decompress id in if err then None else e_list true e_agg_type ts.
  (** aggregation/id.go:108-119 [ID.UnmarshalJSON] *)
  Definition d_agg_id (j : json) : option agg_id :=
    do ts <- d_list d_agg_type j; let '(id, err) := compress_types ts in if err then None else Some id.

  (** transformation/type.go 124-130 [MarshalJSON]; 133-145 [UnmarshalJSON] *)
  Definition e_tf (t : tf_type) : option json := if tf_is_valid t then option_map JStr (tf_string t) else None.
  (** transformation/type.go:133-145 [Type.UnmarshalJSON] *)
  Definition d_tf (j : json) : option tf_type := match j with JStr s => tf_parse s | _ => None end.

  (** policy/storage_policy.go 128-131 [MarshalJSON]; 134-146 [UnmarshalJSON] *)
  Definition e_sp (p : storage_policy) : option json := Some (JStr (sp_string dt p)).
  (** policy/storage_policy.go:134-146 [StoragePolicy.UnmarshalJSON] *)
  Definition d_sp (j : json) : option storage_policy := match j with JStr s => parse_sp dt s | _ => None end.

  (** pipeline/type.go 306-308 [RollupOp.MarshalJSON], 330-342; 311-318 [UnmarshalJSON], 344-350 *)
  Definition e_rollup_op (r : rollup_op) : option json :=
    do a <- e_agg_id (ro_agg r);
    Some (JObj [(B "newName", e_string (ro_name r)); (B "tags", JArr (map e_string (ro_tags r))); (B "aggregation", a)]).
  (** pipeline/type.go:311-318 [RollupOp.UnmarshalJSON] *)
  Definition d_rollup_op (j : json) : option rollup_op :=
    do l <- d_struct j;
    do n <- d_string (field "newName" l);
    do ts <- d_list d_string (field "tags" l);
    do a <- d_agg_id (field "aggregation" l);
    Some {| ro_name := n; ro_tags := ts; ro_agg := a |}.

  (** pipeline/type.go 452-458 [OpUnion.MarshalJSON], 489-508, 99-101, 175-177;
      461-472 [UnmarshalJSON], 510-521, 104-111, 180-187 *)
  Definition e_op (a : op) : option json :=
    let one k j := Some (JObj [(B k, j)]) in
    if op_kind a =? AggregationOp then do j <- e_agg_type (op_agg a); one "aggregation"%string j
    else if op_kind a =? TransformationOp then do j <- e_tf (op_tf a); one "transformation"%string j
    else if op_kind a =? RollupOp then do j <- e_rollup_op (op_rollup a); one "rollup"%string j
    else None.
  (** pipeline/type.go:461-472 [OpUnion.UnmarshalJSON] *)
  Definition d_op (j : json) : option op :=
    do l <- d_struct j;
    do a <- d_ptr d_agg_type (field "aggregation" l);
    do t <- d_ptr d_tf (field "transformation" l);
    do r <- d_ptr d_rollup_op (field "rollup" l);
    match a, t, r with
    | Some a, _, _ => Some {| op_kind := AggregationOp; op_agg := a; op_tf := TfUnknown; op_rollup := empty_rollup_op |}
    | None, Some t, _ => Some {| op_kind := TransformationOp; op_agg := UnknownType; op_tf := t; op_rollup := empty_rollup_op |}
    | None, None, Some r => Some {| op_kind := RollupOp; op_agg := UnknownType; op_tf := TfUnknown; op_rollup := r |}
    | None, None, None => None
    end.

  (** pipeline/type.go 614-616 [Pipeline.MarshalJSON]; 619-626 [UnmarshalJSON] *)
  Definition e_pipeline (p : pipeline) : option json := e_list nl e_op p.
  (** pipeline/type.go:619-626 [Pipeline.UnmarshalJSON] *)
  Definition d_pipeline (j : json) : option pipeline := d_list d_op j.

  (** ** Views *)

  (** rules/view/rollup.go 29-32 [RollupTarget] *)
  Definition e_target (t : target) : option json :=
    do p <- e_pipeline (tg_pipeline t);
    do s <- e_list nl e_sp (tg_sps t);
    Some (JObj [(B "pipeline", p); (B "storagePolicies", s)]).
  (** Reading rules/view/rollup.go:29-32 [RollupTarget] *)
  Definition d_target (j : json) : option target :=
    do l <- d_struct j;
    do p <- d_pipeline (field "pipeline" l);
    do s <- d_list d_sp (field "storagePolicies" l);
    Some (mk_target p s).

  (** rules/view/mapping.go 29-40 [MappingRule] *)
  Definition e_mapping_view (v : rule_view mapping_body) : option json :=
    do a <- e_agg_id (mb_agg (rv_body v));
    do s <- e_list nl e_sp (mb_sps (rv_body v));
    Some (JObj (omit_empty "id" (rv_id v) ++ [(B "name", e_string (rv_name v)); (B "tombstoned", JBool (rv_tomb v))] ++
      omit_zero "cutoverMillis" (rv_cutover_ms v) ++
      [(B "filter", e_string (rv_filter v)); (B "aggregation", a); (B "storagePolicies", s);
       (B "dropPolicy", JInt (mb_drop (rv_body v)));
       (B "lastUpdatedBy", e_string (rv_by v)); (B "lastUpdatedAtMillis", JInt (rv_at_ms v))])).
  (** Reading rules/view/mapping.go:29-40 [MappingRule] *)
  Definition d_mapping_view (j : json) : option (rule_view mapping_body) :=
    do l <- d_struct j;
    do id <- d_string (field "id" l);
    do n <- d_string (field "name" l);
    do tomb <- d_bool (field "tombstoned" l);
    do c <- d_int64 (field "cutoverMillis" l);
    do f <- d_string (field "filter" l);
    do a <- d_agg_id (field "aggregation" l);
    do s <- d_list d_sp (field "storagePolicies" l);
    do dp <- d_uint64 (field "dropPolicy" l);
    do b <- d_string (field "lastUpdatedBy" l);
    do at_ <- d_int64 (field "lastUpdatedAtMillis" l);
    Some (mk_rv id n tomb c f (mk_mb a s dp) b at_).

  (** rules/view/rollup.go 46-55 [RollupRule] *)
  Definition e_rollup_view (v : rule_view (list target)) : option json :=
    do ts <- e_list nl e_target (rv_body v);
    Some (JObj (omit_empty "id" (rv_id v) ++ [(B "name", e_string (rv_name v)); (B "tombstoned", JBool (rv_tomb v))] ++
      omit_zero "cutoverMillis" (rv_cutover_ms v) ++
      [(B "filter", e_string (rv_filter v)); (B "targets", ts);
       (B "lastUpdatedBy", e_string (rv_by v)); (B "lastUpdatedAtMillis", JInt (rv_at_ms v))])).
  (** Reading rules/view/rollup.go:46-55 [RollupRule] *)
  Definition d_rollup_view (j : json) : option (rule_view (list target)) :=
    do l <- d_struct j;
    do id <- d_string (field "id" l);
    do n <- d_string (field "name" l);
    do tomb <- d_bool (field "tombstoned" l);
    do c <- d_int64 (field "cutoverMillis" l);
    do f <- d_string (field "filter" l);
    do ts <- d_list d_target (field "targets" l);
    do b <- d_string (field "lastUpdatedBy" l);
    do at_ <- d_int64 (field "lastUpdatedAtMillis" l);
    Some (mk_rv id n tomb c f ts b at_).

  (** rules/view/ruleset.go 28-34 [RuleSet] *)
  Definition e_rule_set_view (v : rule_set_view) : option json :=
    do ms <- e_list nl e_mapping_view (rsv_mapping v);
    do rs <- e_list nl e_rollup_view (rsv_rollup v);
    Some (JObj [(B "id", e_string (rsv_namespace v)); (B "version", JInt (rsv_version v));
      (B "cutoverMillis", JInt (rsv_cutover_ms v)); (B "mappingRules", ms); (B "rollupRules", rs)]).
  (** Reading rules/view/ruleset.go:28-34 [RuleSet] *)
  Definition d_rule_set_view (j : json) : option rule_set_view :=
    do l <- d_struct j;
    do n <- d_string (field "id" l);
    do v <- d_int64 (field "version" l);
    do c <- d_int64 (field "cutoverMillis" l);
    do ms <- d_list d_mapping_view (field "mappingRules" l);
    do rs <- d_list d_rollup_view (field "rollupRules" l);
    Some (mk_rsv n v c ms rs).

  (** rules/view/namespace.go 24-30 [Namespace], 33-36 [Namespaces] *)
  Definition e_namespace (v : ns_view) : option json :=
    Some (JObj [(B "id", e_string (nsv_id v)); (B "forRuleSetVersion", JInt (nsv_version v));
      (B "tombstoned", JBool (nsv_tomb v)); (B "lastUpdatedBy", e_string (nsv_by v));
      (B "lastUpdatedAtMillis", JInt (nsv_at_millis v))]).
  (** Reading rules/view/namespace.go:24-30 [Namespace] *)
  Definition d_namespace (j : json) : option ns_view :=
    do l <- d_struct j;
    do id <- d_string (field "id" l);
    do v <- d_int64 (field "forRuleSetVersion" l);
    do tomb <- d_bool (field "tombstoned" l);
    do b <- d_string (field "lastUpdatedBy" l);
    do at_ <- d_int64 (field "lastUpdatedAtMillis" l);
    Some (mk_nsv id v tomb b at_).
  (** rules/view/namespace.go:33-36 [Namespaces] *)
  Definition e_namespaces (v : Z * list ns_view) : option json :=
    do l <- e_list nl e_namespace (snd v);
    Some (JObj [(B "version", JInt (fst v)); (B "namespaces", l)]).
  (** Reading rules/view/namespace.go:33-36 [Namespaces] *)
  Definition d_namespaces (j : json) : option (Z * list ns_view) :=
    do l <- d_struct j;
    do v <- d_int64 (field "version" l);
    do ns <- d_list d_namespace (field "namespaces" l);
    Some (v, ns).
End Json.

(** ** Changes *)

(** rules/view/changes/mapping.go 26-30 [MappingRuleChange] and rules/view/changes/rollup.go 26-30
    [RollupRuleChange]; pointers are options *)
Record view_change (P : Type) := mk_vc { vc_op : bytes; vc_id : option bytes; vc_data : option (rule_view P) }.
Arguments mk_vc {P} _ _ _.
Arguments vc_op {P} _.
Arguments vc_id {P} _.
Arguments vc_data {P} _.

(** rules/view/changes/ruleset.go 28-32 [RuleSetChanges] *)
Record set_changes := mk_sc {
  sc_namespace : bytes; sc_mapping : list (view_change mapping_body); sc_rollup : list (view_change (list target)) }.

(** The fields of a change that [ApplyRuleSetChanges] reads (Model.RuleSet), with
    the UUID drawn if it creates a rule.
    (rules/ruleset.go, the arguments of [addMappingRule] and [updateMappingRule]) *)
Definition edit_of_view {P} (v : rule_view P) : rule_edit P := mk_re (rv_id v) (rv_name v) (rv_filter v) (rv_body v).
(** rules/view/changes/mapping.go:26-30 [MappingRuleChange],
    rules/view/changes/rollup.go:26-30 [RollupRuleChange] *)
Definition change_of {P} (fresh : bytes) (c : view_change P) : rule_change P :=
  mk_rc (vc_op c) (vc_id c) (option_map edit_of_view (vc_data c)) fresh.

Section ChangeJson.
  Context (dt : duration_text) (nl : bool).

  (** Writing rules/view/changes/mapping.go:26-30 [MappingRuleChange] or
      rules/view/changes/rollup.go:26-30 [RollupRuleChange] *)
  Definition e_change {P} (e : rule_view P -> option json) (c : view_change P) : option json :=
    do d <- omit_nil "ruleData" e (vc_data c);
    Some (JObj ((B "op", e_string (vc_op c)) ::
      (match vc_id c with None => [] | Some s => [(B "ruleID", e_string s)] end) ++ d)).
  (** Reading rules/view/changes/mapping.go:26-30 [MappingRuleChange] or
      rules/view/changes/rollup.go:26-30 [RollupRuleChange] *)
  Definition d_change {P} (d : json -> option (rule_view P)) (j : json) : option (view_change P) :=
    do l <- d_struct j;
    do o <- d_string (field "op" l);
    do i <- d_ptr d_string (field "ruleID" l);
    do v <- d_ptr d (field "ruleData" l);
    Some (mk_vc o i v).

  (** Writing rules/view/changes/ruleset.go:28-32 [RuleSetChanges] *)
  Definition e_set_changes (c : set_changes) : option json :=
    do ms <- e_list nl (e_change (e_mapping_view dt nl)) (sc_mapping c);
    do rs <- e_list nl (e_change (e_rollup_view dt nl)) (sc_rollup c);
    Some (JObj [(B "namespace", e_string (sc_namespace c)); (B "mappingRuleChanges", ms); (B "rollupRuleChanges", rs)]).
  (** Reading rules/view/changes/ruleset.go:28-32 [RuleSetChanges] *)
  Definition d_set_changes (j : json) : option set_changes :=
    do l <- d_struct j;
    do n <- d_string (field "namespace" l);
    do ms <- d_list (d_change (d_mapping_view dt)) (field "mappingRuleChanges" l);
    do rs <- d_list (d_change (d_rollup_view dt)) (field "rollupRuleChanges" l);
    Some (mk_sc n ms rs).
End ChangeJson.
