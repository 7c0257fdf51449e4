(** Model of the mutable interface of package [rules]: rules/ruleset.go and the editing parts of
    rules/mapping.go and rules/rollup.go.  Definitions only. *)
From Coq Require Import Ascii String NArith ZArith Bool List.
From Verif.Base Require Import Bytes.
From Verif.Model Require Import AggType Policy Transformation Pipeline Metadata Filter MetricID Rules.
Import ListNotations.
Open Scope Z_scope.

(** rules/ruleset.go 652-659 [UpdateMetadata] *)
Record update_meta := mk_um { um_cutover : Z; um_at : Z; um_by : bytes }.

(** rules/ruleset.go 662-665 [RuleSetUpdateHelper.NewUpdateMetadata], without int64 overflow *)
Definition new_update_metadata (delay : Z) (time : Z) (by_ : bytes) : update_meta :=
  mk_um (time + delay) time by_.

(** rules/view/mapping.go 29-40 [MappingRule]: the fields that are read when a rule is edited
    ([Tombstoned], [CutoverMillis], [LastUpdatedBy] and [LastUpdatedAtMillis] are ignored there), as one
    record with [RollupRule] (rules/view/rollup.go 46-55); [re_body] is the payload. *)
Record rule_edit (P : Type) := mk_re { re_id : bytes; re_name : bytes; re_filter : bytes; re_body : P }.
Arguments mk_re {P} _ _ _ _.
Arguments re_id {P} _.
Arguments re_name {P} _.
Arguments re_filter {P} _.
Arguments re_body {P} _.

(** The last element, as at rules/mapping.go:324-340 (snapshots[len-1]). *)
Fixpoint last_opt {A} (l : list A) : option A :=
  match l with [] => None | [x] => Some x | _ :: l' => last_opt l' end.

(** Writing through a pointer to the [i]-th element.
    (rules/ruleset.go:344-470, the rules found by getMappingRuleByName and the like) *)
Fixpoint set_nth {A} (i : nat) (x : A) (l : list A) : list A :=
  match l, i with
  | [], _ => []
  | _ :: l', O => x :: l'
  | y :: l', S i' => y :: set_nth i' x l'
  end.

(** The outcome of a lookup: a pointer (an index), "not found", or another error.
    (rules/ruleset.go:519-563) *)
Inductive lookup := Found (i : nat) | NotFound | Failed.

Section Edits.
  Context {P : Type}.
  (** How a payload is cloned and what a tombstone's payload is. *)
  Context (cl : P -> P) (empty : P).

  (** rules/mapping.go 324-330 and rules/rollup.go 291-297 [name] *)
  Definition rule_name (r : rule P) : option bytes := option_map sn_name (last_opt (ru_snapshots r)).

  (** rules/mapping.go 332-338 and rules/rollup.go 299-306 [tombstoned] *)
  Definition rule_tombstoned (r : rule P) : bool :=
    match last_opt (ru_snapshots r) with None => true | Some s => sn_tomb s end.

  (** rules/mapping.go 136-190 and rules/rollup.go 108-154 [new...SnapshotFromFields] *)
  Definition new_snapshot_from_fields (name : bytes) (cutover : Z) (f : option tags_filter) (raw : bytes)
      (body : P) (at_ : Z) (by_ : bytes) : option (snapshot P) :=
    match validate_tags_filter raw with
    | None => None
    | Some _ => Some (mk_snap name false cutover f raw body at_ by_)
    end.

  (** rules/mapping.go 192-209 and rules/rollup.go 156-175 [clone] *)
  Definition snapshot_clone (s : snapshot P) : snapshot P :=
    mk_snap (sn_name s) (sn_tomb s) (sn_cutover s) (sn_filter s) (sn_raw s) (cl (sn_body s)) (sn_at s) (sn_by s).

  (** rules/mapping.go 270-280 and rules/rollup.go 232-242 [clone] of a rule *)
  Definition rule_clone (r : rule P) : rule P :=
    mk_rule (ru_uuid r) (map snapshot_clone (ru_snapshots r)).

  (** rules/mapping.go 340-364 and rules/rollup.go 308-328 [addSnapshot] *)
  Definition add_snapshot (r : rule P) (name raw : bytes) (body : P) (m : update_meta) : option (rule P) :=
    match new_snapshot_from_fields name (um_cutover m) None raw body (um_at m) (um_by m) with
    | None => None
    | Some s => Some (mk_rule (ru_uuid r) (ru_snapshots r ++ [s]))
    end.

  (** rules/mapping.go 366-388 and rules/rollup.go 330-352 [markTombstoned] *)
  Definition mark_tombstoned (r : rule P) (m : update_meta) : option (rule P) :=
    match last_opt (ru_snapshots r) with
    | None => None
    | Some s =>
        if sn_tomb s then None
        else
          let c := snapshot_clone s in
          Some (mk_rule (ru_uuid r)
                  (ru_snapshots r ++
                   [mk_snap (sn_name c) true (um_cutover m) (sn_filter c) (sn_raw c) empty (um_at m) (um_by m)]))
    end.

  (** rules/mapping.go 390-407 and rules/rollup.go 354-368 [revive] *)
  Definition revive_rule (r : rule P) (name raw : bytes) (body : P) (m : update_meta) : option (rule P) :=
    match rule_name r with
    | None => None
    | Some _ => if negb (rule_tombstoned r) then None else add_snapshot r name raw body m
    end.

  (** rules/ruleset.go 519-531 [getMappingRuleByName] ([skip] is true: rules without snapshots are
      skipped) and 542-554 [getRollupRuleByName] ([skip] is false: they are an error) *)
  Fixpoint rule_by_name (skip : bool) (i : nat) (l : list (rule P)) (name : bytes) : lookup :=
    match l with
    | [] => NotFound
    | r :: l' =>
        match rule_name r with
        | None => if skip then rule_by_name skip (S i) l' name else Failed
        | Some n => if beqb n name then Found i else rule_by_name skip (S i) l' name
        end
    end.

  (** rules/ruleset.go 533-540 [getMappingRuleByID] and 556-563 [getRollupRuleByID] *)
  Fixpoint rule_by_id (i : nat) (l : list (rule P)) (id : bytes) : option nat :=
    match l with
    | [] => None
    | r :: l' => if beqb (ru_uuid r) id then Some i else rule_by_id (S i) l' id
    end.

  (** The part of rules/ruleset.go 344-376 [AddMappingRule] and 410-439 [AddRollupRule] that works on
      the list of rules; [fresh] is what uuid.New() returns.  The new list and the ID returned. *)
  Definition rules_add (skip : bool) (fresh : bytes) (l : list (rule P)) (e : rule_edit P) (m : update_meta)
    : option (list (rule P) * bytes) :=
    match rule_by_name skip 0 l (re_name e) with
    | Failed => None
    | NotFound =>
        match add_snapshot (mk_rule fresh []) (re_name e) (re_filter e) (re_body e) m with
        | None => None
        | Some r => Some (l ++ [r], ru_uuid r)
        end
    | Found i =>
        match nth_error l i with
        | None => None
        | Some r =>
            match revive_rule r (re_name e) (re_filter e) (re_body e) m with
            | None => None
            | Some r' => Some (set_nth i r' l, ru_uuid r')
            end
        end
    end.

  (** rules/ruleset.go 378-395 [UpdateMappingRule] and 441-457 [UpdateRollupRule] *)
  Definition rules_update (l : list (rule P)) (e : rule_edit P) (m : update_meta) : option (list (rule P)) :=
    match rule_by_id 0 l (re_id e) with
    | None => None
    | Some i =>
        match nth_error l i with
        | None => None
        | Some r =>
            option_map (fun r' => set_nth i r' l) (add_snapshot r (re_name e) (re_filter e) (re_body e) m)
        end
    end.

  (** rules/ruleset.go 397-408 [DeleteMappingRule] and 459-470 [DeleteRollupRule] *)
  Definition rules_delete (l : list (rule P)) (id : bytes) (m : update_meta) : option (list (rule P)) :=
    match rule_by_id 0 l id with
    | None => None
    | Some i =>
        match nth_error l i with
        | None => None
        | Some r => option_map (fun r' => set_nth i r' l) (mark_tombstoned r m)
        end
    end.

  (** rules/ruleset.go 480-491, the loops of [Delete]: errors are ignored *)
  Definition rules_delete_all (l : list (rule P)) (m : update_meta) : list (rule P) :=
    map (fun r => if negb (rule_tombstoned r)
                  then match mark_tombstoned r m with Some r' => r' | None => r end
                  else r) l.
End Edits.

(** The payloads of the two kinds.
    rules/mapping.go:192-209 [mappingRuleSnapshot.clone]: the payload of a mapping rule. *)
Definition mb_clone (b : mapping_body) : mapping_body := mk_mb (mb_agg b) (mb_sps b) (mb_drop b).
(** rules/mapping.go:383-385: the payload of a tombstone. *)
Definition mb_empty : mapping_body := mk_mb default_id [] DropNone.
(** rules/rollup.go:156-175 [rollupRuleSnapshot.clone]: the payload of a rollup rule. *)
Definition targets_clone (ts : list target) : list target := map target_clone ts.
(** rules/rollup.go:346-350: the payload of a tombstone. *)
Definition targets_empty : list target := [].

(** rules/rollup_target.go 96-101, 134-140: targets of views become targets of rules field by field. *)
Definition targets_from_view (ts : list target) : list target :=
  map (fun t => mk_target (tg_pipeline t) (tg_sps t)) ts.

(** rules/ruleset.go 513-517 [updateMetadata], together with new lists of rules *)
Definition with_rules (rs : rule_set) (ms : list mapping_rule) (rr : list rollup_rule) (tomb : bool)
    (m : update_meta) : rule_set :=
  mk_rs (rs_uuid rs) (rs_version rs) (rs_namespace rs) (rs_created_at rs) (um_at m) (um_by m) tomb
    (um_cutover m) ms rr (rs_opts rs) (rs_new_id rs) (rs_is_rollup rs).

(** rules/ruleset.go 190-201 [NewEmptyRuleSet]; the tag options and the ID functions are nil in Go until
    the set is stored and read; here they are arguments. *)
Definition new_empty_rule_set (uuid namespace : bytes) (m : update_meta) (opts : tags_filter_options)
    (new_id : bytes -> list (bytes * bytes) -> bytes) (is_rollup : bytes -> bytes -> bool) : rule_set :=
  mk_rs uuid 0 namespace 0 (um_at m) (um_by m) false (um_cutover m) [] [] opts new_id is_rollup.

(** The edits of [MutableRuleSet].  [fresh] is the UUID that is drawn if a new rule is created.
    (rules/ruleset.go:98-132 [MutableRuleSet]) *)
Inductive edit :=
| AddMapping (fresh : bytes) (e : rule_edit mapping_body)
| UpdateMapping (e : rule_edit mapping_body)
| DeleteMapping (id : bytes)
| AddRollup (fresh : bytes) (e : rule_edit (list target))
| UpdateRollup (e : rule_edit (list target))
| DeleteRollup (id : bytes)
| DeleteSet
| ReviveSet.

(** rules/rollup_target.go:134-140 [newRollupTargetsFromView]: the targets of a view,
    taken over. *)
Definition view_targets (e : rule_edit (list target)) : rule_edit (list target) :=
  mk_re (re_id e) (re_name e) (re_filter e) (targets_from_view (re_body e)).

(** One edit: the rule set afterwards, and whether the edit succeeded.
    rules/ruleset.go 344-470, 472-494 [Delete], 503-511 [Revive] *)
Definition run_edit (rs : rule_set) (e : edit) (m : update_meta) : rule_set * bool :=
  let mapping o := match o with
                   | None => (rs, false)
                   | Some l => (with_rules rs l (rs_rollup rs) (rs_tomb rs) m, true)
                   end in
  let rollup o := match o with
                  | None => (rs, false)
                  | Some l => (with_rules rs (rs_mapping rs) l (rs_tomb rs) m, true)
                  end in
  match e with
  | AddMapping fresh e => mapping (option_map fst (rules_add true fresh (rs_mapping rs) e m))
  | UpdateMapping e => mapping (rules_update (rs_mapping rs) e m)
  | DeleteMapping id => mapping (rules_delete mb_clone mb_empty (rs_mapping rs) id m)
  | AddRollup fresh e => rollup (option_map fst (rules_add false fresh (rs_rollup rs) (view_targets e) m))
  | UpdateRollup e => rollup (rules_update (rs_rollup rs) (view_targets e) m)
  | DeleteRollup id => rollup (rules_delete targets_clone targets_empty (rs_rollup rs) id m)
  | DeleteSet =>
      if rs_tomb rs then (rs, false)
      else (with_rules rs (rules_delete_all mb_clone mb_empty (rs_mapping rs) m)
              (rules_delete_all targets_clone targets_empty (rs_rollup rs) m) true m, true)
  | ReviveSet =>
      if negb (rs_tomb rs) then (rs, false)
      else (with_rules rs (rs_mapping rs) (rs_rollup rs) false m, true)
  end.

(** The ID that a successful addition returns: rules/ruleset.go 375, 438 *)
Definition added_id (rs : rule_set) (e : edit) (m : update_meta) : option bytes :=
  match e with
  | AddMapping fresh e => option_map snd (rules_add true fresh (rs_mapping rs) e m)
  | AddRollup fresh e => option_map snd (rules_add false fresh (rs_rollup rs) (view_targets e) m)
  | _ => None
  end.

(** rules/view/changes/mapping.go 26-30 [MappingRuleChange] and rules/view/changes/rollup.go [RollupRuleChange]; pointers are
    options; [rc_fresh] is the UUID drawn if the change creates a rule. *)
Record rule_change (P : Type) := mk_rc {
  rc_op : bytes; rc_id : option bytes; rc_data : option (rule_edit P); rc_fresh : bytes }.
Arguments mk_rc {P} _ _ _ _.
Arguments rc_op {P} _.
Arguments rc_id {P} _.
Arguments rc_data {P} _.
Arguments rc_fresh {P} _.

(** rules/view/changes/op.go 23-31 *)
Definition add_op_name : bytes := B "add".
(** rules/view/changes/op.go:29 [ChangeOp] *)
Definition change_op_name : bytes := B "change".
(** rules/view/changes/op.go:30 [DeleteOp] *)
Definition delete_op_name : bytes := B "delete".

(** How a call ends: normally, with an error, or with a nil pointer panic.
    (rules/ruleset.go:496-501 [ruleSet.ApplyRuleSetChanges]) *)
Inductive outcome := Done | Error | Panic.

(** rules/ruleset.go 597-618 and 620-641: the edit a change stands for *)
Definition change_edit {P} (add : bytes -> rule_edit P -> edit) (update : rule_edit P -> edit)
    (delete : bytes -> edit) (c : rule_change P) : edit + outcome :=
  if beqb (rc_op c) add_op_name then
    match rc_data c with None => inr Panic | Some e => inl (add (rc_fresh c) e) end
  else if beqb (rc_op c) change_op_name then
    match rc_data c with None => inr Panic | Some e => inl (update e) end
  else if beqb (rc_op c) delete_op_name then
    match rc_id c with None => inr Panic | Some id => inl (delete id) end
  else inr Error.

(** rules/ruleset.go:597-618 and 620-641: the loop over the changes. *)
Fixpoint apply_changes {P} (to_edit : rule_change P -> edit + outcome) (rs : rule_set)
    (cs : list (rule_change P)) (m : update_meta) : rule_set * outcome :=
  match cs with
  | [] => (rs, Done)
  | c :: cs' =>
      match to_edit c with
      | inr o => (rs, o)
      | inl e =>
          let '(rs', ok) := run_edit rs e m in
          if ok then apply_changes to_edit rs' cs' m else (rs', Error)
      end
  end.

(** rules/ruleset.go:597-618 [ruleSet.applyMappingRuleChanges] *)
Definition mapping_change_edit := change_edit AddMapping UpdateMapping DeleteMapping.
(** rules/ruleset.go:620-641 [ruleSet.applyRollupRuleChanges] *)
Definition rollup_change_edit := change_edit AddRollup UpdateRollup DeleteRollup.

(** rules/ruleset.go 496-501 [ApplyRuleSetChanges] *)
Definition apply_rule_set_changes (rs : rule_set) (ms : list (rule_change mapping_body))
    (rr : list (rule_change (list target))) (m : update_meta) : rule_set * outcome :=
  match apply_changes mapping_change_edit rs ms m with
  | (rs', Done) => apply_changes rollup_change_edit rs' rr m
  | r => r
  end.

(** rules/ruleset.go 309-342 [Clone] *)
Definition rule_set_clone (rs : rule_set) : rule_set :=
  mk_rs (rs_uuid rs) (rs_version rs) (rs_namespace rs) (rs_created_at rs) (rs_updated_at rs) (rs_updated_by rs)
    (rs_tomb rs) (rs_cutover rs) (map (rule_clone mb_clone) (rs_mapping rs))
    (map (rule_clone targets_clone) (rs_rollup rs)) (rs_opts rs) (rs_new_id rs) (rs_is_rollup rs).

(** ** Views *)

(** rules/view/mapping.go 29-40 [MappingRule] and rules/view/rollup.go 46-55 [RollupRule] *)
Record rule_view (P : Type) := mk_rv {
  rv_id : bytes; rv_name : bytes; rv_tomb : bool; rv_cutover_ms : Z; rv_filter : bytes; rv_body : P;
  rv_by : bytes; rv_at_ms : Z }.
Arguments mk_rv {P} _ _ _ _ _ _ _ _.
Arguments rv_id {P} _.
Arguments rv_name {P} _.
Arguments rv_tomb {P} _.
Arguments rv_cutover_ms {P} _.
Arguments rv_filter {P} _.
Arguments rv_body {P} _.
Arguments rv_by {P} _.
Arguments rv_at_ms {P} _.

(** rules/mapping.go 40: nanoseconds to milliseconds, Go division *)
Definition to_millis (t : Z) : Z := Z.quot t 1000000.

Section Views.
  Context {P : Type} (cl : P -> P).

  (** rules/mapping.go 431-449 [mappingRuleView] and rules/rollup.go 384-405 [rollupRuleView] *)
  Definition view_of (uuid : bytes) (s : snapshot P) : rule_view P :=
    let c := snapshot_clone cl s in
    mk_rv uuid (sn_name c) (sn_tomb c) (to_millis (sn_cutover c)) (sn_raw c) (sn_body c) (sn_by c)
      (to_millis (sn_at c)).

  (** rules/mapping.go 417-429 and rules/rollup.go 370-382 [history]: newest first *)
  Definition history (r : rule P) : list (rule_view P) := map (view_of (ru_uuid r)) (rev (ru_snapshots r)).

  (** Assigning to a Go map, as a list of entries.
    (rules/view/ruleset.go, rules/ruleset.go:267-289) *)
  Definition map_assign {A} (k : bytes) (v : A) (m : list (bytes * A)) : list (bytes * A) :=
    List.filter (fun e => negb (beqb (fst e) k)) m ++ [(k, v)].

  (** rules/ruleset.go 267-289 [MappingRules], [RollupRules] *)
  Definition rule_histories (l : list (rule P)) : list (bytes * list (rule_view P)) :=
    fold_left (fun m r => map_assign (ru_uuid r) (history r) m) l [].

  (** rules/ruleset.go 565-579 and 581-595 [latest...Rules].  Simplified: the map is visited in one
      order, which decides the order of live rules with the same name only. *)
  Definition latest_rules (l : list (rule P)) : list (rule_view P) :=
    isort (fun a b => bleb (rv_name a) (rv_name b))
      (flat_map (fun e => match snd e with
                          | v :: _ => if negb (rv_tomb v) then [v] else []
                          | [] => []
                          end) (rule_histories l)).
End Views.

(** rules/view/ruleset.go 28-34 [RuleSet] *)
Record rule_set_view := mk_rsv {
  rsv_namespace : bytes; rsv_version : Z; rsv_cutover_ms : Z;
  rsv_mapping : list (rule_view mapping_body); rsv_rollup : list (rule_view (list target)) }.

(** rules/ruleset.go 291-307 [Latest] *)
Definition latest (rs : rule_set) : rule_set_view :=
  mk_rsv (rs_namespace rs) (rs_version rs) (to_millis (rs_cutover rs))
    (latest_rules mb_clone (rs_mapping rs)) (latest_rules targets_clone (rs_rollup rs)).
