(** Specification vocabulary for editing rule sets. *)
From Coq Require Import Ascii String NArith ZArith Bool Sorting.Sorted List.
From Verif.Base Require Import Bytes.
From Verif.Model Require Import AggType Policy Transformation Pipeline Metadata Filter Rules RuleSet.
From Verif.Spec Require Import RulesSpec.
Import ListNotations.
Open Scope Z_scope.

(** ** Histories *)

(** The snapshot [s] records the time, the author and the cutover of the edit [m]. *)
Definition stamped {P} (m : update_meta) (s : snapshot P) : Prop :=
  sn_cutover s = um_cutover m /\ sn_at s = um_at m /\ sn_by s = um_by m.

(** [r'] is [r] with one more snapshot, made by [m]. *)
Definition appended {P} (m : update_meta) (r r' : rule P) (s : snapshot P) : Prop :=
  ru_uuid r' = ru_uuid r /\ ru_snapshots r' = ru_snapshots r ++ [s] /\ stamped m s.

(** [r'] is [r], or [r] with one more snapshot. *)
Definition grown {P} (m : update_meta) (r r' : rule P) : Prop :=
  r' = r \/ exists s, appended m r r' s.

(** A rule that [m] created. *)
Definition created {P} (m : update_meta) (r : rule P) : Prop :=
  exists s, ru_snapshots r = [s] /\ stamped m s.

(** Every rule is where it was, with at most one more snapshot, and at most one rule is new. *)
Definition rules_grown {P} (m : update_meta) (l l' : list (rule P)) : Prop :=
  exists kept new, l' = kept ++ new /\ Forall2 (grown m) l kept /\
    (new = [] \/ exists r, new = [r] /\ created m r).

(** At most one snapshot is added in all. *)
Definition one_change {P} (m : update_meta) (l l' : list (rule P)) : Prop :=
  l' = l \/
  (exists a r r' b s, l = a ++ r :: b /\ l' = a ++ r' :: b /\ appended m r r' s) \/
  (exists r, l' = l ++ [r] /\ created m r).

(** [l'] has all the rules of [l], in place, with histories that are at least as long. *)
Definition histories_kept {P} (l l' : list (rule P)) : Prop :=
  exists kept new, l' = kept ++ new /\
    Forall2 (fun r r' => ru_uuid r' = ru_uuid r /\ exists more, ru_snapshots r' = ru_snapshots r ++ more) l kept.

Definition all_ascending {P} (l : list (rule P)) : Prop := Forall (fun r => ascending (ru_snapshots r)) l.

(** The newest snapshot of a rule. *)
Definition newest {P} (r : rule P) (s : snapshot P) : Prop := exists h, ru_snapshots r = h ++ [s].
Definition latest_name {P} (r : rule P) (n : bytes) : Prop := exists s, newest r s /\ sn_name s = n.
Definition is_live {P} (r : rule P) : Prop := exists s, newest r s /\ sn_tomb s = false.

(** No two rules, live or deleted, have the same name. *)
Definition names_distinct {P} (l : list (rule P)) : Prop :=
  forall i j r r' n, nth_error l i = Some r -> nth_error l j = Some r' ->
    latest_name r n -> latest_name r' n -> i = j.

(** No two live rules have the same name. *)
Definition live_names_distinct {P} (l : list (rule P)) : Prop :=
  forall i j r r' n, nth_error l i = Some r -> nth_error l j = Some r' ->
    is_live r -> is_live r' -> latest_name r n -> latest_name r' n -> i = j.

Definition ids_distinct {P} (l : list (rule P)) : Prop := NoDup (map ru_uuid l).

(** All cutovers in the history are at most [c]. *)
Definition dated_by {P} (c : Z) (l : list (rule P)) : Prop :=
  forall r s, In r l -> In s (ru_snapshots r) -> sn_cutover s <= c.

(** An accepted filter text. *)
Definition filter_text_ok (raw : bytes) : Prop := exists m, validate_tags_filter raw = Some m.

(** ** Edits of a list of rules *)

(** The snapshot that an addition or an update writes.  Its filter is compiled when the rule set is read
    back from the store. *)
Definition edited {P} (e : rule_edit P) (m : update_meta) : snapshot P :=
  mk_snap (re_name e) false (um_cutover m) None (re_filter e) (re_body e) (um_at m) (um_by m).

(** Adding: a new rule at the end if no rule has the name, else one more snapshot for the first rule that
    has it, which must not be live.  [id] is the ID that is returned. *)
Inductive adds {P} (fresh : bytes) (e : rule_edit P) (m : update_meta) : list (rule P) -> list (rule P) -> bytes -> Prop :=
| adds_new l : filter_text_ok (re_filter e) -> (forall r, In r l -> ~ latest_name r (re_name e)) ->
    adds fresh e m l (l ++ [mk_rule fresh [edited e m]]) fresh
| adds_revived a r b : filter_text_ok (re_filter e) -> (forall r', In r' a -> ~ latest_name r' (re_name e)) ->
    latest_name r (re_name e) -> ~ is_live r ->
    adds fresh e m (a ++ r :: b) (a ++ mk_rule (ru_uuid r) (ru_snapshots r ++ [edited e m]) :: b) (ru_uuid r).

(** Updating the first rule with the ID. *)
Inductive updates {P} (e : rule_edit P) (m : update_meta) : list (rule P) -> list (rule P) -> Prop :=
| updates_rule a r b : filter_text_ok (re_filter e) -> (forall r', In r' a -> ru_uuid r' <> re_id e) -> ru_uuid r = re_id e ->
    updates e m (a ++ r :: b) (a ++ mk_rule (ru_uuid r) (ru_snapshots r ++ [edited e m]) :: b).

(** Deleting the first rule with the ID, which must be live. *)
Inductive deletes {P} (empty : P) (id : bytes) (m : update_meta) : list (rule P) -> list (rule P) -> Prop :=
| deletes_rule a r s b : (forall r', In r' a -> ru_uuid r' <> id) -> ru_uuid r = id -> newest r s -> sn_tomb s = false ->
    deletes empty id m (a ++ r :: b)
      (a ++ mk_rule (ru_uuid r) (ru_snapshots r ++ [mk_snap (sn_name s) true (um_cutover m) (sn_filter s) (sn_raw s) empty (um_at m) (um_by m)]) :: b).

(** ** Edits *)

(** Running edits one after the other; errors do not stop the sequence. *)
Definition run_edits (rs : rule_set) (es : list (edit * update_meta)) : rule_set :=
  fold_left (fun rs em => fst (run_edit rs (fst em) (snd em))) es rs.

(** Running edits that all have to succeed. *)
Inductive all_succeed (m : update_meta) : rule_set -> list edit -> rule_set -> Prop :=
| all_nil rs : all_succeed m rs [] rs
| all_cons rs e rs1 es rs2 : run_edit rs e m = (rs1, true) -> all_succeed m rs1 es rs2 ->
    all_succeed m rs (e :: es) rs2.

Definition is_update (e : edit) : bool :=
  match e with UpdateMapping _ | UpdateRollup _ => true | _ => false end.

Definition touches_mapping (e : edit) : bool :=
  match e with AddMapping _ _ | UpdateMapping _ | DeleteMapping _ => true | _ => false end.
Definition touches_rollup (e : edit) : bool :=
  match e with AddRollup _ _ | UpdateRollup _ | DeleteRollup _ => true | _ => false end.

(** An update renames no rule onto the name of another one. *)
Definition no_clash (rs : rule_set) (e : edit) : Prop :=
  match e with
  | UpdateMapping e => forall r, In r (rs_mapping rs) -> latest_name r (re_name e) -> ru_uuid r = re_id e
  | UpdateRollup e => forall r, In r (rs_rollup rs) -> latest_name r (re_name e) -> ru_uuid r = re_id e
  | _ => True
  end.

(** The cutovers of the edits do not decrease, and start at [c] or later. *)
Fixpoint dated_edits (c : Z) (es : list (edit * update_meta)) : Prop :=
  match es with [] => True | (_, m) :: es => c <= um_cutover m /\ dated_edits (um_cutover m) es end.

Definition ids_ok (rs : rule_set) : Prop := ids_distinct (rs_mapping rs) /\ ids_distinct (rs_rollup rs).
Definition names_ok (rs : rule_set) : Prop := names_distinct (rs_mapping rs) /\ names_distinct (rs_rollup rs).

(** The UUID drawn for a new rule is not in use. *)
Definition fresh_id (rs : rule_set) (e : edit) : Prop :=
  match e with
  | AddMapping f _ => ~ In f (map ru_uuid (rs_mapping rs))
  | AddRollup f _ => ~ In f (map ru_uuid (rs_rollup rs))
  | _ => True
  end.

(** What a change of a batch asks for. *)
Inductive asks_mapping : rule_change mapping_body -> edit -> Prop :=
| asks_add_m i e f : asks_mapping (mk_rc (B "add") i (Some e) f) (AddMapping f e)
| asks_change_m i e f : asks_mapping (mk_rc (B "change") i (Some e) f) (UpdateMapping e)
| asks_delete_m i e f : asks_mapping (mk_rc (B "delete") (Some i) e f) (DeleteMapping i).
Inductive asks_rollup : rule_change (list target) -> edit -> Prop :=
| asks_add_r i e f : asks_rollup (mk_rc (B "add") i (Some e) f) (AddRollup f e)
| asks_change_r i e f : asks_rollup (mk_rc (B "change") i (Some e) f) (UpdateRollup e)
| asks_delete_r i e f : asks_rollup (mk_rc (B "delete") (Some i) e f) (DeleteRollup i).

(** A view shows the newest snapshot of a live rule; [body] is how the payload is shown. *)
Definition shows_live {P} (body : P -> P) (r : rule P) (v : rule_view P) : Prop :=
  exists s, newest r s /\ sn_tomb s = false /\
    v = mk_rv (ru_uuid r) (sn_name s) false (Z.quot (sn_cutover s) 1000000) (sn_raw s) (body (sn_body s)) (sn_by s)
          (Z.quot (sn_at s) 1000000).
Definition shows_snapshot {P} (body : P -> P) (uuid : bytes) (s : snapshot P) (v : rule_view P) : Prop :=
  v = mk_rv uuid (sn_name s) (sn_tomb s) (Z.quot (sn_cutover s) 1000000) (sn_raw s) (body (sn_body s)) (sn_by s)
        (Z.quot (sn_at s) 1000000).
