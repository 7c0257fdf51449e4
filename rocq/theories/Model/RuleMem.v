(** Model of rule sets as the Go program has them in memory: pointers to rules, slices of pointers to
    snapshots that are appended to in place, and slices of storage policies, operations and tags that may
    be shared between a rule set and its callers.  rules/ruleset.go, rules/mapping.go, rules/rollup.go,
    rules/rollup_target.go.  Definitions only; see Base/Mem.v for the operations of the language.

    Struct types are lists of fields:
    - ruleSet: uuid, version, namespace, createdAtNanos, lastUpdatedAtNanos, lastUpdatedBy, tombstoned,
      cutoverNanos, mappingRules, rollupRules, and the tag options and ID functions;
    - mappingRule, rollupRule: uuid, snapshots;
    - mappingRuleSnapshot, rollupRuleSnapshot: name, tombstoned, cutoverNanos, filter, rawFilter, body,
      lastUpdatedAtNanos, lastUpdatedBy, where the body is the struct of aggregation ID, storage policies
      and drop policy for mapping rules and the slice of targets for rollup rules;
    - rollupTarget: pipeline, storage policies; OpUnion: type, aggregation, transformation, rollup;
      RollupOp: name, tags, aggregation ID. *)
From Coq Require Import Ascii String Arith NArith ZArith Bool List.
From Verif.Base Require Import Bytes Mem.
From Verif.Model Require Import AggType Policy Transformation Pipeline Metadata Filter MetricID Rules RuleSet.
Import ListNotations.
Open Scope Z_scope.
Open Scope mem_scope.

(** What cannot be changed through a pointer.  Filters are immutable (filters/filter.go 651-669). *)
Inductive atom :=
| AStr (s : bytes)
| AByte (c : ascii)
| AInt (z : Z)
| ABool (b : bool)
| AId (id : agg_id)
| APolicy (sp : storage_policy)
| AFilter (f : option tags_filter)
| AFuncs (opts : tags_filter_options) (new_id : bytes -> list (bytes * bytes) -> bytes)
    (is_rollup : bytes -> bytes -> bool).

(** Go values in memory: rules/ruleset.go:134-148 and what it points to. *)
Notation val := (value atom).
(** The memory those values live in (rules/ruleset.go:134-148). *)
Notation memory := (mem atom).
(** Code that reads and writes that memory (rules/ruleset.go:309-641). *)
Notation prog := (M atom).

(** A Go string value, e.g. rules/mapping.go:55 [name]. *)
Definition VStr (s : bytes) : val := VAtom (AStr s).
(** A Go integer value, e.g. rules/mapping.go:57 [cutoverNanos]. *)
Definition VInt (z : Z) : val := VAtom (AInt z).
(** A Go bool value, e.g. rules/mapping.go:56 [tombstoned]. *)
Definition VBool (b : bool) : val := VAtom (ABool b).

(** * Cloning *)

(** x/bytes/convert.go 42-49 [ArrayCopy]; [make] and [copy] of bytes *)
Definition bytes_copy : val -> prog val := copy_slice ret.
(** x/bytes/convert.go:42-49 [ArrayCopy] *)
Definition array_copy : val -> prog val := copy_slice bytes_copy.

(** policy/storage_policy.go 238-242 [StoragePolicies.Clone] *)
Definition sps_copy : val -> prog val := copy_slice ret.

(** pipeline/type.go 261-269 [RollupOp.Clone] *)
Definition rollup_op_copy (v : val) : prog val :=
  match v with
  | VStruct [name; tags; agg] =>
      name' <- bytes_copy name ;; tags' <- array_copy tags ;; ret (VStruct [name'; tags'; agg])
  | _ => panic
  end.

(** the zero values of pipeline/type.go 353-358 [OpUnion] *)
Definition zero_agg : val := VInt UnknownType.
(** pipeline/type.go:353-358 [OpUnion]: the zero [TransformationOp]. *)
Definition zero_tf : val := VInt TfUnknown.
(** pipeline/type.go:353-358 [OpUnion]: the zero [RollupOp]. *)
Definition zero_rollup : val := VStruct [VNil; VNil; VAtom (AId default_id)].

(** pipeline/type.go 399-410 [OpUnion.Clone] *)
Definition op_copy (v : val) : prog val :=
  match v with
  | VStruct [VAtom (AInt k); agg; tf; ro] =>
      if k =? AggregationOp then ret (VStruct [VInt k; agg; zero_tf; zero_rollup])
      else if k =? TransformationOp then ret (VStruct [VInt k; zero_agg; tf; zero_rollup])
      else if k =? RollupOp then ro' <- rollup_op_copy ro ;; ret (VStruct [VInt k; zero_agg; zero_tf; ro'])
      else ret (VStruct [VInt k; zero_agg; zero_tf; zero_rollup])
  | _ => panic
  end.

(** pipeline/type.go 579-585 [Pipeline.Clone]; the struct has one field *)
Definition pipeline_copy : val -> prog val := copy_slice op_copy.

(** rules/rollup_target.go 111-116 [clone] *)
Definition target_copy (v : val) : prog val :=
  match v with
  | VStruct [p; sps] => p' <- pipeline_copy p ;; sps' <- sps_copy sps ;; ret (VStruct [p'; sps'])
  | _ => panic
  end.

(** The bodies of snapshots: rules/mapping.go 192-209, rules/rollup.go 156-160 *)
Definition mbody_copy (v : val) : prog val :=
  match v with
  | VStruct [agg; sps; drop] => sps' <- sps_copy sps ;; ret (VStruct [agg; sps'; drop])
  | _ => panic
  end.
(** rules/rollup.go:156-160 (in [rollupRuleSnapshot.clone]) *)
Definition rbody_copy : val -> prog val := copy_slice target_copy.

(** What the body of a tombstone is: rules/mapping.go 383-385, rules/rollup.go 349 *)
Definition mbody_tomb : val := VStruct [VAtom (AId default_id); VNil; VInt DropNone].
(** rules/rollup.go:349: no targets. *)
Definition rbody_tomb : val := VNil.

(** rules/rollup_target.go 96-107, 134-140: a new slice with the fields of the old targets, between the
    targets of views and those of rules; mapping rules hand their storage policies over as they are
    (rules/mapping.go 340-364, 446). *)
Definition mbody_view (v : val) : prog val := ret v.
(** rules/rollup_target.go:134-140 [newRollupTargetsFromView] and
    rules/rollup.go:384-405 [rollupRuleView] *)
Definition rbody_view : val -> prog val :=
  copy_slice (fun t => match t with VStruct [p; sps] => ret (VStruct [p; sps]) | _ => panic end).

Section Kind.
  Context (body_copy : val -> prog val) (body_tomb : val) (body_view : val -> prog val).

  (** rules/mapping.go 192-209 and rules/rollup.go 156-175 [clone]: the fields of the copy *)
  Definition snapshot_copy (s : val) : prog (list val) :=
    c <- deref s ;;
    match c with
    | [name; tomb; cutover; f; raw; body; at_; by_] =>
        body' <- body_copy body ;; ret [name; tomb; cutover; f; raw; body'; at_; by_]
    | _ => panic
    end.

  (** rules/mapping.go 270-280 and rules/rollup.go 232-242 [clone] *)
  Definition rule_copy (r : val) : prog val :=
    c <- deref r ;;
    match c with
    | [uuid; ss] =>
        ss' <- copy_slice (fun s => c <- snapshot_copy s ;; new_obj c) ss ;;
        new_obj [uuid; ss']
    | _ => panic
    end.

  (** the latest snapshot of a rule, if there is one
    (rules/mapping.go:324-338, rules/rollup.go:291-306) *)
  Definition latest_snapshot (r : val) : prog (option (list val)) :=
    c <- deref r ;;
    match c with
    | [_; ss] =>
        l <- elems ss ;;
        match last_opt l with
        | None => ret None
        | Some s => c' <- deref s ;; ret (Some c')
        end
    | _ => panic
    end.

  (** rules/mapping.go 324-330 and rules/rollup.go 291-297 [name]; [None] is the error *)
  Definition name_of (r : val) : prog (option bytes) :=
    c <- latest_snapshot r ;;
    match c with
    | None => ret None
    | Some (VAtom (AStr n) :: _) => ret (Some n)
    | _ => panic
    end.

  (** rules/mapping.go 332-338 and rules/rollup.go 299-306 [tombstoned] *)
  Definition is_tombstoned (r : val) : prog bool :=
    c <- latest_snapshot r ;;
    match c with
    | None => ret true
    | Some (_ :: VAtom (ABool t) :: _) => ret t
    | _ => panic
    end.

  (** [r.snapshots = append(r.snapshots, &snapshot)]
    (rules/mapping.go:362, 386; rules/rollup.go) *)
  Definition push_snapshot (grow : nat -> nat) (r : val) (snapshot : list val) : prog unit :=
    s <- new_obj snapshot ;;
    c <- deref r ;;
    match c with
    | [_; ss] => ss' <- append grow ss s ;; set_field r 1 ss'
    | _ => panic
    end.

  (** rules/mapping.go 340-364 and rules/rollup.go 308-328 [addSnapshot], with 115-190 and 108-154 for the
      snapshot; false is an error *)
  Definition add_snapshot_to (grow : nat -> nat) (r : val) (name raw : bytes) (body : val) (m : update_meta)
    : prog bool :=
    match validate_tags_filter raw with
    | None => ret false
    | Some _ =>
        push_snapshot grow r
          [VStr name; VBool false; VInt (um_cutover m); VAtom (AFilter None); VStr raw; body; VInt (um_at m);
           VStr (um_by m)] ;;;
        ret true
    end.

  (** rules/mapping.go 366-388 and rules/rollup.go 330-352 [markTombstoned] *)
  Definition tombstone_rule (grow : nat -> nat) (r : val) (m : update_meta) : prog bool :=
    n <- name_of r ;;
    match n with
    | None => ret false
    | Some _ =>
        t <- is_tombstoned r ;;
        if t : bool then ret false
        else
          c <- deref r ;;
          match c with
          | [_; ss] =>
              l <- elems ss ;;
              match last_opt l with
              | None => ret false
              | Some s =>
                  f <- snapshot_copy s ;;
                  match f with
                  | [name; _; _; fl; raw; _; _; _] =>
                      push_snapshot grow r
                        [name; VBool true; VInt (um_cutover m); fl; raw; body_tomb; VInt (um_at m);
                         VStr (um_by m)] ;;;
                      ret true
                  | _ => panic
                  end
              end
          | _ => panic
          end
    end.

  (** rules/mapping.go 390-407 and rules/rollup.go 354-368 [revive] *)
  Definition revive_rule_at (grow : nat -> nat) (r : val) (name raw : bytes) (body : val) (m : update_meta)
    : prog bool :=
    n <- name_of r ;;
    match n with
    | None => ret false
    | Some _ =>
        t <- is_tombstoned r ;;
        if t : bool then add_snapshot_to grow r name raw body m else ret false
    end.

  (** The results of rules/ruleset.go:519-563 [getMappingRuleByName] and the like: a
      pointer, not found, another error. *)
  Inductive found := At (r : val) | Absent | Broken.

  (** rules/ruleset.go 519-531 [getMappingRuleByName], 542-554 [getRollupRuleByName] *)
  Fixpoint find_by_name (skip : bool) (l : list val) (name : bytes) : prog found :=
    match l with
    | [] => ret Absent
    | r :: l' =>
        n <- name_of r ;;
        match n with
        | None => if skip then find_by_name skip l' name else ret Broken
        | Some n => if beqb n name then ret (At r) else find_by_name skip l' name
        end
    end.

  (** rules/ruleset.go 533-540 [getMappingRuleByID], 556-563 [getRollupRuleByID] *)
  Fixpoint find_by_id (l : list val) (id : bytes) : prog (option val) :=
    match l with
    | [] => ret None
    | r :: l' =>
        c <- deref r ;;
        match c with
        | VAtom (AStr u) :: _ => if beqb u id then ret (Some r) else find_by_id l' id
        | _ => panic
        end
    end.

  (** the [i]-th field of a struct that is a slice, and its elements
    (rules/ruleset.go:309-342) *)
  Definition field (v : val) (i : nat) : prog val :=
    c <- deref v ;; match nth_error c i with Some x => ret x | None => panic end.
  (** The elements of that slice (rules/ruleset.go:309-342). *)
  Definition field_elems (v : val) (i : nat) : prog (list val) := x <- field v i ;; elems x.

  (** rules/ruleset.go 513-517 [updateMetadata] *)
  Definition update_metadata (rs : val) (m : update_meta) : prog unit :=
    set_field rs 7 (VInt (um_cutover m)) ;;;
    set_field rs 4 (VInt (um_at m)) ;;;
    set_field rs 5 (VStr (um_by m)).

  (** rules/ruleset.go 344-376 [AddMappingRule], 410-439 [AddRollupRule]; [at_] is the field with the
      rules, [fresh] what uuid.New() returns.  The ID is returned, or nothing with an error. *)
  Definition add_rule (skip : bool) (at_ : nat) (grow : nat -> nat) (rs : val) (fresh : bytes)
      (e : rule_edit val) (m : update_meta) : prog (option bytes) :=
    l <- field_elems rs at_ ;;
    x <- find_by_name skip l (re_name e) ;;
    match x with
    | Broken => ret None
    | Absent =>
        body <- body_view (re_body e) ;;
        r <- new_obj [VStr fresh; VNil] ;;
        ok <- add_snapshot_to grow r (re_name e) (re_filter e) body m ;;
        if ok : bool then
          rules <- field rs at_ ;;
          rules' <- append grow rules r ;;
          set_field rs at_ rules' ;;;
          update_metadata rs m ;;;
          ret (Some fresh)
        else ret None
    | At r =>
        body <- body_view (re_body e) ;;
        ok <- revive_rule_at grow r (re_name e) (re_filter e) body m ;;
        if ok : bool then
          update_metadata rs m ;;;
          u <- field r 0 ;;
          match u with VAtom (AStr u) => ret (Some u) | _ => panic end
        else ret None
    end.

  (** rules/ruleset.go 378-395 [UpdateMappingRule], 441-457 [UpdateRollupRule] *)
  Definition update_rule (at_ : nat) (grow : nat -> nat) (rs : val) (e : rule_edit val) (m : update_meta)
    : prog bool :=
    l <- field_elems rs at_ ;;
    x <- find_by_id l (re_id e) ;;
    match x with
    | None => ret false
    | Some r =>
        body <- body_view (re_body e) ;;
        ok <- add_snapshot_to grow r (re_name e) (re_filter e) body m ;;
        if ok : bool then update_metadata rs m ;;; ret true else ret false
    end.

  (** rules/ruleset.go 397-408 [DeleteMappingRule], 459-470 [DeleteRollupRule] *)
  Definition delete_rule (at_ : nat) (grow : nat -> nat) (rs : val) (id : bytes) (m : update_meta) : prog bool :=
    l <- field_elems rs at_ ;;
    x <- find_by_id l id ;;
    match x with
    | None => ret false
    | Some r =>
        ok <- tombstone_rule grow r m ;;
        if ok : bool then update_metadata rs m ;;; ret true else ret false
    end.

  (** rules/ruleset.go 480-491: the loops of [Delete] *)
  Definition delete_rules (at_ : nat) (grow : nat -> nat) (rs : val) (m : update_meta) : prog unit :=
    l <- field_elems rs at_ ;;
    each (fun r => t <- is_tombstoned r ;;
                   if t : bool then ret tt else tombstone_rule grow r m ;;; ret tt) l ;;;
    ret tt.

  (** rules/mapping.go 417-449 and rules/rollup.go 370-405 [history]: the views of a rule, newest first *)
  Definition history_of (r : val) : prog (list val) :=
    c <- deref r ;;
    match c with
    | [uuid; ss] =>
        l <- elems ss ;;
        each (fun s => c <- snapshot_copy s ;;
                       match c with
                       | [name; tomb; VAtom (AInt cutover); _; raw; body; VAtom (AInt at_); by_] =>
                           body' <- body_view body ;;
                           ret (VStruct [uuid; name; tomb; VInt (to_millis cutover); raw; body'; by_;
                                         VInt (to_millis at_)])
                       | _ => panic
                       end) (rev l)
    | _ => panic
    end.

  (** rules/mapping.go 409-415 and rules/rollup.go 283-289 [activeIndex]; [n] is idx+1 *)
  Fixpoint active_index_in (l : list val) (n : nat) (t : Z) : prog (option nat) :=
    match n with
    | O => ret None
    | S i =>
        match nth_error l i with
        | None => panic
        | Some s =>
            c <- deref s ;;
            match c with
            | _ :: _ :: VAtom (AInt cutover) :: _ =>
                if t <? cutover then active_index_in l i t else ret (Some i)
            | _ => panic
            end
        end
    end.

  (** rules/mapping.go 311-322 and rules/rollup.go 273-281 [activeRule]: the rule itself, or a new one whose
      snapshots are the end of the same array *)
  Definition active_rule_of (t : Z) (r : val) : prog val :=
    c <- deref r ;;
    match c with
    | [uuid; ss] =>
        l <- elems ss ;;
        i <- active_index_in l (length l) t ;;
        match i, ss with
        | None, _ => ret r
        | Some i, VSlice a off len cap => new_obj [uuid; VSlice a (off + i) (len - i) (cap - i)]
        | Some _, _ => panic
        end
    | _ => panic
    end.

  (** The rules of rules/ruleset.go 211-230 [ActiveSet] *)
  Definition active_rules_of (at_ : nat) (rs : val) (t : Z) : prog val :=
    x <- field rs at_ ;; copy_slice (active_rule_of t) x.
End Kind.

(** * Rule sets *)

(** rules/ruleset.go 309-342 [Clone] *)
Definition set_copy (rs : val) : prog val :=
  c <- deref rs ;;
  match c with
  | [uuid; version; ns; created; updated; by_; tomb; cutover; ms; rr; funcs] =>
      ns' <- bytes_copy ns ;;
      ms' <- copy_slice (rule_copy mbody_copy) ms ;;
      rr' <- copy_slice (rule_copy rbody_copy) rr ;;
      new_obj [uuid; version; ns'; created; updated; by_; tomb; cutover; ms'; rr'; funcs]
  | _ => panic
  end.

(** rules/ruleset.go:98-132 [MutableRuleSet]: the edits. *)
Inductive mem_edit :=
| MAddMapping (fresh : bytes) (e : rule_edit val)
| MUpdateMapping (e : rule_edit val)
| MDeleteMapping (id : bytes)
| MAddRollup (fresh : bytes) (e : rule_edit val)
| MUpdateRollup (e : rule_edit val)
| MDeleteRollup (id : bytes)
| MDeleteSet
| MReviveSet.

(** One call of the mutable interface (rules/ruleset.go 344-511): whether it succeeded *)
Definition edit_set (grow : nat -> nat) (rs : val) (e : mem_edit) (m : update_meta) : prog bool :=
  match e with
  | MAddMapping fresh e =>
      x <- add_rule mbody_view true 8 grow rs fresh e m ;; ret (match x with Some _ => true | None => false end)
  | MUpdateMapping e => update_rule mbody_view 8 grow rs e m
  | MDeleteMapping id => delete_rule mbody_copy mbody_tomb 8 grow rs id m
  | MAddRollup fresh e =>
      x <- add_rule rbody_view false 9 grow rs fresh e m ;; ret (match x with Some _ => true | None => false end)
  | MUpdateRollup e => update_rule rbody_view 9 grow rs e m
  | MDeleteRollup id => delete_rule rbody_copy rbody_tomb 9 grow rs id m
  | MDeleteSet =>
      t <- field rs 6 ;;
      match t with
      | VAtom (ABool true) => ret false
      | VAtom (ABool false) =>
          set_field rs 6 (VBool true) ;;;
          update_metadata rs m ;;;
          delete_rules mbody_copy mbody_tomb 8 grow rs m ;;;
          delete_rules rbody_copy rbody_tomb 9 grow rs m ;;;
          ret true
      | _ => panic
      end
  | MReviveSet =>
      t <- field rs 6 ;;
      match t with
      | VAtom (ABool true) => set_field rs 6 (VBool false) ;;; update_metadata rs m ;;; ret true
      | VAtom (ABool false) => ret false
      | _ => panic
      end
  end.

(** rules/ruleset.go 267-289 [MappingRules], [RollupRules]: the views of every rule.  Simplified: a list
    of histories instead of a map from rule IDs; [Latest] (291-307) hands out some of these views. *)
Definition set_views (rs : val) : prog (list (list val) * list (list val)) :=
  ms <- field_elems rs 8 ;;
  mv <- each (history_of mbody_copy mbody_view) ms ;;
  rr <- field_elems rs 9 ;;
  rv <- each (history_of rbody_copy rbody_view) rr ;;
  ret (mv, rv).

(** rules/ruleset.go 211-230 [ActiveSet]: the mapping rules and the rollup rules *)
Definition set_active (rs : val) (t : Z) : prog (val * val) :=
  ms <- active_rules_of 8 rs t ;; rr <- active_rules_of 9 rs t ;; ret (ms, rr).

(** * Building: what decoding a stored rule set allocates, and what callers allocate for views
    A []byte made from a string, as at pipeline/type.go:224 and rules/ruleset.go:151-188. *)

Definition new_bytes (s : bytes) : prog val := make_slice (map (fun c => VAtom (AByte c)) s).

(** policy/storage_policy.go 117-128 [NewStoragePoliciesFromProto] *)
Definition new_sps (l : list storage_policy) : prog val := make_slice (map (fun sp => VAtom (APolicy sp)) l).

(** pipeline/type.go 211-228 [NewRollupOpFromProto], 361-380 [NewOpUnionFromProto] *)
Definition new_op (o : op) : prog val :=
  name <- new_bytes (ro_name (op_rollup o)) ;;
  tags <- each new_bytes (ro_tags (op_rollup o)) ;;
  tags' <- make_slice tags ;;
  ret (VStruct [VInt (op_kind o); VInt (op_agg o); VInt (op_tf o);
                VStruct [name; tags'; VAtom (AId (ro_agg (op_rollup o)))]]).

(** rules/rollup_target.go 78-94 [newRollupTargetFromV2Proto] *)
Definition new_target (t : target) : prog val :=
  ops <- each new_op (tg_pipeline t) ;;
  p <- make_slice ops ;;
  sps <- new_sps (tg_sps t) ;;
  ret (VStruct [p; sps]).

(** rules/mapping.go:67-134 [newMappingRuleSnapshotFromProto]: the payload. *)
Definition new_mbody (b : mapping_body) : prog val :=
  sps <- new_sps (mb_sps b) ;; ret (VStruct [VAtom (AId (mb_agg b)); sps; VInt (mb_drop b)]).
(** rules/rollup.go:55-106 [newRollupRuleSnapshotFromProto]: the payload. *)
Definition new_rbody (ts : list target) : prog val := l <- each new_target ts ;; make_slice l.

(** rules/mapping.go 67-134, 249-268 [newMappingRuleSnapshotFromProto], [newMappingRuleFromProto], and
    rules/rollup.go 55-106, 211-230 *)
Definition new_snapshot {P} (new_body : P -> prog val) (s : snapshot P) : prog val :=
  b <- new_body (sn_body s) ;;
  new_obj [VStr (sn_name s); VBool (sn_tomb s); VInt (sn_cutover s); VAtom (AFilter (sn_filter s));
           VStr (sn_raw s); b; VInt (sn_at s); VStr (sn_by s)].
(** rules/mapping.go:249-268 [newMappingRuleFromProto] and rules/rollup.go:211-230
    [newRollupRuleFromProto] *)
Definition new_rule {P} (new_body : P -> prog val) (r : rule P) : prog val :=
  l <- each (new_snapshot new_body) (ru_snapshots r) ;;
  ss <- make_slice l ;;
  new_obj [VStr (ru_uuid r); ss].

(** rules/ruleset.go 148-188 [NewRuleSetFromProto], and 190-201 [NewEmptyRuleSet] for a set without
    rules: a rule set of which nothing is shared *)
Definition new_set (rs : rule_set) : prog val :=
  ns <- new_bytes (rs_namespace rs) ;;
  ml <- each (new_rule new_mbody) (rs_mapping rs) ;;
  ms <- make_slice ml ;;
  rl <- each (new_rule new_rbody) (rs_rollup rs) ;;
  rr <- make_slice rl ;;
  new_obj [VStr (rs_uuid rs); VInt (rs_version rs); ns; VInt (rs_created_at rs); VInt (rs_updated_at rs);
           VStr (rs_updated_by rs); VBool (rs_tomb rs); VInt (rs_cutover rs); ms; rr;
           VAtom (AFuncs (rs_opts rs) (rs_new_id rs) (rs_is_rollup rs))].
