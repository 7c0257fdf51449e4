(** Specification vocabulary for rule matching: histories, rule changes, what a live rule
    contributes to a metric. *)
From Coq Require Import Ascii String NArith ZArith Bool Sorting.Sorted List.
From Verif.Base Require Import Bytes.
From Verif.Model Require Import AggType Policy Transformation Pipeline Metadata Filter Rules.
From Verif.Spec Require Import AggSpec MetadataSpec.
Import ListNotations.
Open Scope Z_scope.

(** ** Histories *)

(** The snapshot of a history in effect at [t]: the last one whose cutover is not after [t]. *)
Definition in_effect {P} (h : list (snapshot P)) (t : Z) (s : snapshot P) : Prop :=
  exists before after, h = before ++ s :: after /\ sn_cutover s <= t /\
    Forall (fun s' => t < sn_cutover s') after.

Definition ascending {P} (h : list (snapshot P)) : Prop :=
  StronglySorted (fun a b => sn_cutover a <= sn_cutover b) h.

(** The snapshot has a filter, and that accepts the metric. *)
Definition accepts {P} (s : snapshot P) (id : bytes) : Prop :=
  exists f, sn_filter s = Some f /\ tags_matches f id = true.

(** A rule has a snapshot in effect whose filter accepts the metric; it is live when that snapshot is
    not a deletion. *)
Definition hit {P} (id : bytes) (t : Z) (r : rule P) (s : snapshot P) : Prop :=
  in_effect (ru_snapshots r) t s /\ accepts s id.
Definition live {P} (id : bytes) (t : Z) (r : rule P) (s : snapshot P) : Prop :=
  hit id t r s /\ sn_tomb s = false.

(** The verdict of a rule's filters on the metric never changes over its history. *)
Definition steady {P} (id : bytes) (r : rule P) : Prop :=
  forall s s', In s (ru_snapshots r) -> In s' (ru_snapshots r) -> (accepts s id <-> accepts s' id).

(** [collect R l m]: [m] lists, in order, what the elements of [l] are related to, skipping those
    related to nothing. *)
Inductive collect {A C} (R : A -> C -> Prop) : list A -> list C -> Prop :=
| collect_nil : collect R [] []
| collect_take a c l m : R a c -> collect R l m -> collect R (a :: l) (c :: m)
| collect_skip a l m : (forall c, ~ R a c) -> collect R l m -> collect R (a :: l) m.

(** ** Rule changes *)

(** [c] is the cutover of some snapshot of some rule. *)
Definition is_change (ms : list mapping_rule) (rs : list rollup_rule) (c : Z) : Prop :=
  (exists r s, In r ms /\ In s (ru_snapshots r) /\ sn_cutover s = c) \/
  (exists r s, In r rs /\ In s (ru_snapshots r) /\ sn_cutover s = c).

(** [cs] are the changes strictly between [from] and [to], in ascending order. *)
Definition changes_between (ms : list mapping_rule) (rs : list rollup_rule) (from to : Z) (cs : list Z) : Prop :=
  StronglySorted Z.lt cs /\ forall c, In c cs <-> is_change ms rs c /\ from < c < to.

(** The least number of a set, or [time_max] if it is empty. *)
Definition first_of (S : Z -> Prop) (c : Z) : Prop :=
  (S c /\ forall c', S c' -> c <= c') \/ ((forall c', ~ S c') /\ c = 2 ^ 63 - 1).

(** ** Contributions *)

(** The tags of a metric. *)
Definition metric_tags (opts : tags_filter_options) (id : bytes) (tags : list (bytes * bytes)) : Prop :=
  exists name section, tfo_name_and_tags opts id = Some (name, section) /\
    fst (tfo_sorted_tags opts section) = tags.

Definition names_strict (names : list bytes) : Prop := StronglySorted (fun x y => bltb x y = true) names.

(** [selects tags wanted sel]: the wanted tags are all present, and [sel] is the part of [tags] with
    those names. *)
Definition selects (tags : list (bytes * bytes)) (wanted : list bytes) (sel : list (bytes * bytes)) : Prop :=
  (forall w, In w wanted -> In w (map fst tags)) /\
  sel = List.filter (fun p => existsb (beqb (fst p)) wanted) tags.

Section Contribution.
  Context (new_id : bytes -> list (bytes * bytes) -> bytes) (tags : list (bytes * bytes)).

  (** An operation applied to a metric. *)
  Inductive applies : op -> applied_op -> Prop :=
  | Applies_tf o :
      op_kind o = TransformationOp ->
      applies o {| ao_kind := TransformationOp; ao_tf := op_tf o; ao_rollup := {| ar_id := []; ar_agg := 0%N |} |}
  | Applies_rollup o sel :
      op_kind o = RollupOp -> selects tags (ro_tags (op_rollup o)) sel ->
      applies o {| ao_kind := RollupOp; ao_tf := 0;
                   ao_rollup := {| ar_id := new_id (ro_name (op_rollup o)) sel;
                                   ar_agg := ro_agg (op_rollup o) |} |}.

  (** What a rollup target contributes: a pipeline for the metric itself ([None]) or for a new ID. *)
  Inductive contributes (tg : target) : option bytes * pipeline_metadata -> Prop :=
  | Contributes_agg o rest ap :
      tg_pipeline tg = o :: rest -> op_kind o = AggregationOp -> valid_type (op_agg o) ->
      Forall2 applies rest ap ->
      contributes tg (None, mk_pm (2 ^ Z.to_N (op_agg o))%N (tg_sps tg) ap 0)
  | Contributes_tf o rest ap :
      tg_pipeline tg = o :: rest -> op_kind o = TransformationOp ->
      Forall2 applies (o :: rest) ap ->
      contributes tg (None, mk_pm 0%N (tg_sps tg) ap 0)
  | Contributes_rollup o rest sel ap :
      tg_pipeline tg = o :: rest -> op_kind o = RollupOp ->
      selects tags (ro_tags (op_rollup o)) sel -> Forall2 applies rest ap ->
      contributes tg (Some (new_id (ro_name (op_rollup o)) sel),
                      mk_pm (ro_agg (op_rollup o)) (tg_sps tg) ap 0).
End Contribution.

(** Rollup operations name their tags in strictly ascending order. *)
Definition target_strict (tg : target) : Prop :=
  forall o, In o (tg_pipeline tg) -> op_kind o = RollupOp -> names_strict (ro_tags (op_rollup o)).

(** The pipeline of a mapping rule. *)
Definition pipeline_of (s : snapshot mapping_body) : pipeline_metadata :=
  mk_pm (mb_agg (sn_body s)) (mb_sps (sn_body s)) [] (mb_drop (sn_body s)).

(** Pipelines of the metric itself among the contributions, and the contributions to new IDs. *)
Definition own_part (cs : list (option bytes * pipeline_metadata)) : list pipeline_metadata :=
  map snd (List.filter (fun c => match fst c with None => true | Some _ => false end) cs).

(** The pipelines of the live mapping rules without the drop-if-only-match ones, or the default pipeline
    when there is none. *)
Definition kept_or_default (ss : list (snapshot mapping_body)) : list pipeline_metadata :=
  match List.filter (fun m => pm_drop m =? 0) (map pipeline_of ss) with
  | [] => [mk_pm 0%N [] [] 0]
  | l => l
  end.

(** ** Results over a window *)

(** [stage_of at X u st]: at the instant [u] the rollup ID [X] has the stage [st], or is not produced and
    [st] is a tombstone dated [u].  [at_ u] are the results for new IDs at the instant [u]. *)
Definition stage_of (at_ : Z -> list id_with_metadatas) (X : bytes) (u : Z) (st : staged_metadata) : Prop :=
  In (X, [st]) (at_ u) \/ (~ In X (map fst (at_ u)) /\ st = mk_sm [] u true).

(** [accounts at T entries]: over the instants [T] every rollup ID that is produced at one of them has
    exactly one entry, the entries are in strict order of ID, and the entry lists one stage per instant
    from the first one that produces the ID. *)
Definition accounts_for (at_ : Z -> list id_with_metadatas) (T : list Z) (entries : list id_with_metadatas) : Prop :=
  StronglySorted (fun x y => bltb (fst x) (fst y) = true) entries /\
  forall X l, In (X, l) entries <->
    exists before t after, T = before ++ t :: after /\
      (forall u, In u before -> ~ In X (map fst (at_ u))) /\
      In X (map fst (at_ t)) /\ Forall2 (stage_of at_ X) (t :: after) l.
