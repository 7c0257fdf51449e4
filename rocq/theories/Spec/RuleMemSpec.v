(** What memory shows: the plain value that a Go value stands for in a given memory, and a world in which
    programs hold rule sets, views and active sets that may share memory. *)
From Coq Require Import Ascii String Arith NArith ZArith Bool List.
From Verif.Base Require Import Bytes Mem.
From Verif.Model Require Import AggType Policy Transformation Pipeline Metadata Filter MetricID Rules RuleSet
  RuleMem.
Import ListNotations.
Open Scope nat_scope.

(** * Plain values *)

(** A value without addresses: what one sees when following all pointers and slices. *)
Inductive tree :=
| TAtom (a : atom)
| TStruct (l : list tree)
| TList (l : list tree)     (* a slice *)
| TRef (l : list tree).     (* a pointer to a struct *)

(** What is looked at on the way: a whole object, or the cells of an array up to an index. *)
Inductive look := Whole (p : nat) | Upto (p n : nat).
Definition addr (l : look) : nat := match l with Whole p => p | Upto p _ => p end.

(** [shows m v t f]: in memory [m], [v] stands for [t]; finding that out looks at [f]. *)
Inductive shows (m : memory) : val -> tree -> list look -> Prop :=
| shows_atom a : shows m (VAtom a) (TAtom a) []
| shows_nil : shows m VNil (TList []) []
| shows_struct l ts f : shows_all m l ts f -> shows m (VStruct l) (TStruct ts) f
| shows_ptr p ts f : shows_all m (m_at m p) ts f -> shows m (VPtr p) (TRef ts) (Whole p :: f)
| shows_slice a off len cap ts f :
    off + len <= length (m_at m a) ->
    shows_all m (firstn len (skipn off (m_at m a))) ts f ->
    shows m (VSlice a off len cap) (TList ts) (Upto a (off + len) :: f)
with shows_all (m : memory) : list val -> list tree -> list look -> Prop :=
| shows_none : shows_all m [] [] []
| shows_more v t f vs ts fs :
    shows m v t f -> shows_all m vs ts fs -> shows_all m (v :: vs) (t :: ts) (f ++ fs).

(** * The plain values of rule sets *)

Definition t_str (s : bytes) : tree := TAtom (AStr s).
Definition t_int (z : Z) : tree := TAtom (AInt z).
Definition t_bool (b : bool) : tree := TAtom (ABool b).
Definition t_id (i : agg_id) : tree := TAtom (AId i).
Definition t_bytes (s : bytes) : tree := TList (map (fun c => TAtom (AByte c)) s).
Definition t_sps (l : list storage_policy) : tree := TList (map (fun sp => TAtom (APolicy sp)) l).

Definition t_rollup_op (r : rollup_op) : tree :=
  TStruct [t_bytes (ro_name r); TList (map t_bytes (ro_tags r)); t_id (ro_agg r)].
Definition t_op (o : op) : tree :=
  TStruct [t_int (op_kind o); t_int (op_agg o); t_int (op_tf o); t_rollup_op (op_rollup o)].
Definition t_target (t : target) : tree :=
  TStruct [TList (map t_op (tg_pipeline t)); t_sps (tg_sps t)].

Definition t_mbody (b : mapping_body) : tree := TStruct [t_id (mb_agg b); t_sps (mb_sps b); t_int (mb_drop b)].
Definition t_rbody (ts : list target) : tree := TList (map t_target ts).

Definition t_snapshot {P} (tb : P -> tree) (s : snapshot P) : tree :=
  TRef [t_str (sn_name s); t_bool (sn_tomb s); t_int (sn_cutover s); TAtom (AFilter (sn_filter s));
        t_str (sn_raw s); tb (sn_body s); t_int (sn_at s); t_str (sn_by s)].
Definition t_rule {P} (tb : P -> tree) (r : rule P) : tree :=
  TRef [t_str (ru_uuid r); TList (map (t_snapshot tb) (ru_snapshots r))].
Definition t_rules {P} (tb : P -> tree) (l : list (rule P)) : tree := TList (map (t_rule tb) l).

Definition t_set (rs : rule_set) : tree :=
  TRef [t_str (rs_uuid rs); t_int (rs_version rs); t_bytes (rs_namespace rs); t_int (rs_created_at rs);
        t_int (rs_updated_at rs); t_str (rs_updated_by rs); t_bool (rs_tomb rs); t_int (rs_cutover rs);
        t_rules t_mbody (rs_mapping rs); t_rules t_rbody (rs_rollup rs);
        TAtom (AFuncs (rs_opts rs) (rs_new_id rs) (rs_is_rollup rs))].

(** The views of a rule: rules/view/mapping.go, rules/view/rollup.go *)
Definition t_view {P} (tb : P -> tree) (v : rule_view P) : tree :=
  TStruct [t_str (rv_id v); t_str (rv_name v); t_bool (rv_tomb v); t_int (rv_cutover_ms v); t_str (rv_filter v);
           tb (rv_body v); t_str (rv_by v); t_int (rv_at_ms v)].

(** * Programs that hold rule sets, views and active sets *)

(** The part of a view that is handed over by reference when a rule is added or updated. *)
Inductive body := OfMapping (b : mapping_body) | OfRollup (ts : list target).
Definition t_body (b : body) : tree :=
  match b with OfMapping b => t_mbody b | OfRollup ts => t_rbody ts end.
Definition new_view_body (b : body) : prog val :=
  match b with OfMapping b => new_mbody b | OfRollup ts => new_rbody ts end.

(** Calls of the mutable interface; instead of its body, a rule comes with the number of the view that
    has it. *)
Inductive call :=
| CAddMapping (fresh : bytes) (e : rule_edit nat)
| CUpdateMapping (e : rule_edit nat)
| CDeleteMapping (id : bytes)
| CAddRollup (fresh : bytes) (e : rule_edit nat)
| CUpdateRollup (e : rule_edit nat)
| CDeleteRollup (id : bytes)
| CDeleteSet
| CReviveSet.

Definition call_view (c : call) : option nat :=
  match c with
  | CAddMapping _ e | CUpdateMapping e | CAddRollup _ e | CUpdateRollup e => Some (re_body e)
  | _ => None
  end.

Definition with_body {P Q} (e : rule_edit P) (b : Q) : rule_edit Q := mk_re (re_id e) (re_name e) (re_filter e) b.

(** the call as the program makes it, with a view's memory, and as a plain edit, with its value *)
Definition call_in_memory (views : list val) (c : call) : option mem_edit :=
  let arg (f : rule_edit val -> mem_edit) (e : rule_edit nat) :=
    option_map (fun v => f (with_body e v)) (nth_error views (re_body e)) in
  match c with
  | CAddMapping fresh e => arg (MAddMapping fresh) e
  | CUpdateMapping e => arg MUpdateMapping e
  | CDeleteMapping id => Some (MDeleteMapping id)
  | CAddRollup fresh e => arg (MAddRollup fresh) e
  | CUpdateRollup e => arg MUpdateRollup e
  | CDeleteRollup id => Some (MDeleteRollup id)
  | CDeleteSet => Some MDeleteSet
  | CReviveSet => Some MReviveSet
  end.

Definition call_on_values (views : list body) (c : call) : option edit :=
  let mapping (f : rule_edit mapping_body -> edit) (e : rule_edit nat) :=
    match nth_error views (re_body e) with
    | Some (OfMapping b) => Some (f (with_body e b))
    | _ => None
    end in
  let rollup (f : rule_edit (list target) -> edit) (e : rule_edit nat) :=
    match nth_error views (re_body e) with
    | Some (OfRollup b) => Some (f (with_body e b))
    | _ => None
    end in
  match c with
  | CAddMapping fresh e => mapping (AddMapping fresh) e
  | CUpdateMapping e => mapping UpdateMapping e
  | CDeleteMapping id => Some (DeleteMapping id)
  | CAddRollup fresh e => rollup (AddRollup fresh) e
  | CUpdateRollup e => rollup UpdateRollup e
  | CDeleteRollup id => Some (DeleteRollup id)
  | CDeleteSet => Some DeleteSet
  | CReviveSet => Some ReviveSet
  end.

(** A view's body: still the caller's own, or handed over to a rule set. *)
Record view_state := mk_vs { vs_body : body; vs_given : bool }.

(** An active set: the rule set it was taken from, whether some rule was not in effect yet when it was
    taken, and the rules it had then; [None] if those are not guaranteed any more. *)
Record active_state := mk_ac {
  ac_set : nat; ac_waiting : bool; ac_rules : option (list mapping_rule * list rollup_rule) }.

(** What the program holds: in memory ... *)
Record world := mk_world {
  w_mem : memory; w_sets : list val; w_views : list val; w_active : list (val * val) }.
(** ... and as plain values, independent of each other. *)
Record state := mk_state { s_sets : list rule_set; s_views : list view_state; s_active : list active_state }.

Definition empty_world : world := mk_world (mk_mem (fun _ => []) 0) [] [] [].
Definition empty_state : state := mk_state [] [] [].

(** The bodies of all views of a rule set, in the order in which they are handed out. *)
Definition all_views (rs : rule_set) : list body :=
  map (fun v => OfMapping (rv_body v)) (flat_map (history mb_clone) (rs_mapping rs)) ++
  map (fun v => OfRollup (rv_body v)) (flat_map (history targets_clone) (rs_rollup rs)).
(** the field [StoragePolicies]/[AggregationID]/[DropPolicy] or [Targets] of a view in memory *)
Definition view_body (v : val) : val :=
  match v with VStruct [_; _; _; _; _; b; _; _] => b | _ => VNil end.

(** A rule all of whose snapshots are in the future. *)
Definition waiting {P} (t : Z) (r : rule P) : bool :=
  match active_index (ru_snapshots r) t with None => true | Some _ => false end.

Definition give (i : option nat) (vs : list view_state) : list view_state :=
  match i with
  | None => vs
  | Some i => match nth_error vs i with
              | Some v => set_nth i (mk_vs (vs_body v) true) vs
              | None => vs
              end
  end.
Definition disturb (i : nat) (a : active_state) : active_state :=
  if andb (Nat.eqb (ac_set a) i) (ac_waiting a) then mk_ac (ac_set a) (ac_waiting a) None else a.

(** One action: what happens in memory, and what would happen if everything were a plain value. *)
Inductive acts : world -> state -> world -> state -> Prop :=
| acts_load w s rs v m' :
    (* a rule set is read from the store or created *)
    new_set rs (w_mem w) = Some (v, m') ->
    acts w s (mk_world m' (w_sets w ++ [v]) (w_views w) (w_active w))
             (mk_state (s_sets s ++ [rs]) (s_views s) (s_active s))
| acts_clone w s i v rs v' m' :
    nth_error (w_sets w) i = Some v -> nth_error (s_sets s) i = Some rs ->
    set_copy v (w_mem w) = Some (v', m') ->
    acts w s (mk_world m' (w_sets w ++ [v']) (w_views w) (w_active w))
             (mk_state (s_sets s ++ [rule_set_clone rs]) (s_views s) (s_active s))
| acts_edit w s i v rs c ce e m grow ok m' :
    (* a rule set is edited; the view is handed over *)
    nth_error (w_sets w) i = Some v -> nth_error (s_sets s) i = Some rs ->
    call_in_memory (w_views w) c = Some ce ->
    call_on_values (map vs_body (s_views s)) c = Some e ->
    edit_set grow v ce m (w_mem w) = Some (ok, m') ->
    acts w s (mk_world m' (w_sets w) (w_views w) (w_active w))
             (mk_state (set_nth i (fst (run_edit rs e m)) (s_sets s)) (give (call_view c) (s_views s))
                (map (disturb i) (s_active s)))
| acts_look w s i v rs mv rv m' :
    (* the views of a rule set are handed out *)
    nth_error (w_sets w) i = Some v -> nth_error (s_sets s) i = Some rs ->
    set_views v (w_mem w) = Some ((mv, rv), m') ->
    acts w s (mk_world m' (w_sets w) (w_views w ++ map view_body (concat mv) ++ map view_body (concat rv))
                (w_active w))
             (mk_state (s_sets s) (s_views s ++ map (fun b => mk_vs b false) (all_views rs)) (s_active s))
| acts_own w s b v m' :
    (* the caller makes a view of its own *)
    new_view_body b (w_mem w) = Some (v, m') ->
    acts w s (mk_world m' (w_sets w) (w_views w ++ [v]) (w_active w))
             (mk_state (s_sets s) (s_views s ++ [mk_vs b false]) (s_active s))
| acts_write w s j v b f m' b' f' :
    (* the caller writes into a view that is its own: into any of the memory that the view shows *)
    nth_error (w_views w) j = Some v -> nth_error (s_views s) j = Some (mk_vs b false) ->
    shows (w_mem w) v (t_body b) f ->
    m_next m' = m_next (w_mem w) ->
    (forall p, ~ In p (map addr f) -> m_at m' p = m_at (w_mem w) p) ->
    shows m' v (t_body b') f' -> incl (map addr f') (map addr f) ->
    acts w s (mk_world m' (w_sets w) (w_views w) (w_active w))
             (mk_state (s_sets s) (set_nth j (mk_vs b' false) (s_views s)) (s_active s))
| acts_activate w s i v rs t ms rr m' :
    (* an active set is taken *)
    nth_error (w_sets w) i = Some v -> nth_error (s_sets s) i = Some rs ->
    set_active v t (w_mem w) = Some ((ms, rr), m') ->
    acts w s (mk_world m' (w_sets w) (w_views w) (w_active w ++ [(ms, rr)]))
             (mk_state (s_sets s) (s_views s)
                (s_active s ++ [mk_ac i (existsb (waiting t) (rs_mapping rs) || existsb (waiting t) (rs_rollup rs))
                                  (Some (as_mapping (active_set rs t), as_rollup (active_set rs t)))])).

(** Any number of actions. *)
Inductive reached : world -> state -> Prop :=
| reached_start : reached empty_world empty_state
| reached_more w s w' s' : reached w s -> acts w s w' s' -> reached w' s'.
