(** Model of the data types and the matching code of package [rules]:
    rules/mapping.go, rules/rollup.go, rules/rollup_target.go, rules/active_ruleset.go, rules/match_result.go.
    Definitions only. *)
From Coq Require Import Ascii String NArith ZArith Bool List.
From Verif.Base Require Import Bytes.
From Verif.Model Require Import AggType Policy Transformation Pipeline Metadata Filter MetricID.
Import ListNotations.
Open Scope Z_scope.

(** rules/rollup_target.go 44-47 [rollupTarget] *)
Record target := mk_target { tg_pipeline : pipeline; tg_sps : list storage_policy }.

(** rules/rollup_target.go 119-124 [clone] *)
Definition target_clone (t : target) : target :=
  mk_target (pipeline_clone (tg_pipeline t)) (tg_sps t).

(** The fields of rules/mapping.go 54-65 [mappingRuleSnapshot] that
    [rollupRuleSnapshot] does not have. *)
Record mapping_body := mk_mb {
  mb_agg : agg_id; mb_sps : list storage_policy; mb_drop : drop_policy }.

(** rules/mapping.go 54-65 [mappingRuleSnapshot] and rules/rollup.go 44-53
    [rollupRuleSnapshot]: one record, with [P] = [mapping_body] or [P] = [list target].
    [sn_filter] is [None] for the nil filter of a snapshot that was added through the
    mutable interface and not read back from its stored form yet. *)
Record snapshot (P : Type) := mk_snap {
  sn_name : bytes;
  sn_tomb : bool;
  sn_cutover : Z;
  sn_filter : option tags_filter;
  sn_raw : bytes;
  sn_body : P;
  sn_at : Z;
  sn_by : bytes }.
Arguments mk_snap {P} _ _ _ _ _ _ _ _.
Arguments sn_name {P} _.
Arguments sn_tomb {P} _.
Arguments sn_cutover {P} _.
Arguments sn_filter {P} _.
Arguments sn_raw {P} _.
Arguments sn_body {P} _.
Arguments sn_at {P} _.
Arguments sn_by {P} _.

(** rules/mapping.go 243-246 [mappingRule] and rules/rollup.go 202-205 [rollupRule] *)
Record rule (P : Type) := mk_rule { ru_uuid : bytes; ru_snapshots : list (snapshot P) }.
Arguments mk_rule {P} _ _.
Arguments ru_uuid {P} _.
Arguments ru_snapshots {P} _.

(** rules/mapping.go:240-243 [mappingRule] *)
Notation mapping_rule := (rule mapping_body).
(** rules/rollup.go:202-205 [rollupRule] *)
Notation rollup_rule := (rule (list target)).

Section History.
  Context {P : Type}.

  (** rules/mapping.go 409-415 and rules/rollup.go 283-289 [activeIndex]; [n] is idx+1. *)
  Fixpoint active_index_from (l : list (snapshot P)) (n : nat) (t : Z) : option nat :=
    match n with
    | O => None
    | S i =>
        match nth_error l i with
        | Some s => if t <? sn_cutover s then active_index_from l i t else Some i
        | None => None
        end
    end.
  (** rules/mapping.go:409-415 [mappingRule.activeIndex] and rules/rollup.go:283-289
      [rollupRule.activeIndex]: the loop started at the last index. *)
  Definition active_index (l : list (snapshot P)) (t : Z) : option nat :=
    active_index_from l (length l) t.

  (** rules/mapping.go 301-307 and rules/rollup.go 263-269 [activeSnapshot] *)
  Definition active_snapshot (r : rule P) (t : Z) : option (snapshot P) :=
    match active_index (ru_snapshots r) t with
    | None => None
    | Some i => nth_error (ru_snapshots r) i
    end.

  (** rules/mapping.go 311-322 and rules/rollup.go 273-281 [activeRule] *)
  Definition active_rule (r : rule P) (t : Z) : rule P :=
    match active_index (ru_snapshots r) t with
    | None => r
    | Some i => mk_rule (ru_uuid r) (skipn i (ru_snapshots r))
    end.

  (** Calls of filters.Filter [Matches].  Simplified: a nil filter panics in Go; rule
      sets read from the store have none.  (rules/active_ruleset.go:208-292) *)
  Definition snapshot_matches (s : snapshot P) (id : bytes) : bool :=
    match sn_filter s with None => false | Some f => tags_matches f id end.
End History.

(** rules/ruleset.go 43 [timeNanosMax] *)
Definition time_max : Z := 2 ^ 63 - 1.

(** rules/active_ruleset.go 55-63 [activeRuleSet].  The two ID functions and the tag
    options are arguments of the program, as in Go. *)
Record active_ruleset := mk_as {
  as_version : Z;
  as_mapping : list mapping_rule;
  as_rollup : list rollup_rule;
  as_cutovers : list Z;
  as_opts : tags_filter_options;
  as_new_id : bytes -> list (bytes * bytes) -> bytes;
  as_is_rollup : bytes -> bytes -> bool }.

(** rules/active_ruleset.go 73-83: the cutover times of all snapshots. *)
Definition all_cutovers (ms : list mapping_rule) (rs : list rollup_rule) : list Z :=
  flat_map (fun r => map sn_cutover (ru_snapshots r)) ms ++
  flat_map (fun r => map sn_cutover (ru_snapshots r)) rs.

(** rules/active_ruleset.go 65-100 [newActiveRuleSet]: the map of unique times is a list
    without repetition; its iteration order is removed by the sorting. *)
Definition new_active_ruleset (version : Z) (ms : list mapping_rule) (rs : list rollup_rule)
    (opts : tags_filter_options) (new_id : bytes -> list (bytes * bytes) -> bytes)
    (is_rollup : bytes -> bytes -> bool) : active_ruleset :=
  mk_as version ms rs (isort Z.leb (nodup Z.eq_dec (all_cutovers ms rs))) opts new_id is_rollup.

(** rules/active_ruleset.go 598-609 [nextCutoverIdx]; [fuel] bounds the rounds of the
    loop, each of which shrinks j-i. *)
Fixpoint cutover_search (fuel : nat) (l : list Z) (t : Z) (i j : nat) : nat :=
  match fuel with
  | O => i
  | S fuel' =>
      if Nat.ltb i j then
        let h := (i + Nat.div2 (j - i))%nat in
        if nth h l 0 <=? t then cutover_search fuel' l t (S h) j
        else cutover_search fuel' l t i h
      else i
  end.
(** rules/active_ruleset.go:598-609 [activeRuleSet.nextCutoverIdx]: the loop on the
    whole list. *)
Definition next_cutover_idx (a : active_ruleset) (t : Z) : nat :=
  let n := length (as_cutovers a) in cutover_search (S n) (as_cutovers a) t 0 n.

(** rules/active_ruleset.go 612-617 [cutoverNanosAt] *)
Definition cutover_at (a : active_ruleset) (idx : nat) : Z :=
  match nth_error (as_cutovers a) idx with Some c => c | None => time_max end.

(** rules/active_ruleset.go 732-735 [ruleMatchResults] *)
Record rule_match := mk_rm { rm_cutover : Z; rm_pipelines : list pipeline_metadata }.

(** The loop body shared by rules/active_ruleset.go 216-240 and 260-281: the cutover is
    raised by every matching snapshot in effect, the content is taken from those that are
    not tombstoned. *)
Fixpoint match_rules {P} (rules : list (rule P)) (id : bytes) (t : Z) (cutover : Z)
  : Z * list (snapshot P) :=
  match rules with
  | [] => (cutover, [])
  | r :: rules' =>
      match active_snapshot r t with
      | None => match_rules rules' id t cutover
      | Some s =>
          if snapshot_matches s id then
            let cutover' := if cutover <? sn_cutover s then sn_cutover s else cutover in
            if sn_tomb s then match_rules rules' id t cutover'
            else
              let (c, ss) := match_rules rules' id t cutover' in (c, s :: ss)
          else match_rules rules' id t cutover
      end
  end.

(** rules/active_ruleset.go 234-238 *)
Definition mapping_pipeline (s : snapshot mapping_body) : pipeline_metadata :=
  mk_pm (mb_agg (sn_body s)) (mb_sps (sn_body s)) [] (mb_drop (sn_body s)).

(** rules/active_ruleset.go 208-253 [mappingsForNonRollupID] *)
Definition mappings_for_non_rollup_id (a : active_ruleset) (id : bytes) (t : Z) : rule_match :=
  let (cutover, ss) := match_rules (as_mapping a) id t 0 in
  let ps := fst (pms_apply_drop (map mapping_pipeline ss)) in
  mk_rm cutover (match ps with [] => pms_clone [default_pipeline_metadata] | _ => ps end).

(** rules/active_ruleset.go 408-427, the merge scan of the sorted metric tags and the
    sorted target tags; the pairs collected, or [None] when a target tag is missing.  An
    error of the tag iterator just ends the tags. *)
Fixpoint match_tags (pairs : list (bytes * bytes)) (tags : list bytes)
  : option (list (bytes * bytes)) :=
  match tags with
  | [] => Some []
  | tag :: tags' =>
      match pairs with
      | [] => None
      | (n, v) :: pairs' =>
          match bcompare n tag with
          | Eq => option_map (cons (n, v)) (match_tags pairs' tags')
          | Gt => None
          | Lt => match_tags pairs' tags
          end
      end
  end.

(** rules/active_ruleset.go 401-441 [matchRollupTarget] with generateRollupID *)
Definition match_rollup_target (a : active_ruleset) (section : bytes) (r : rollup_op)
  : option bytes :=
  option_map (as_new_id a (ro_name r))
    (match_tags (fst (tfo_sorted_tags (as_opts a) section)) (ro_tags r)).

(** rules/active_ruleset.go 443-482 [applyIDToPipeline], one operation *)
Definition apply_id_to_op (a : active_ruleset) (section : bytes) (o : op) : option applied_op :=
  if op_kind o =? TransformationOp then
    Some {| ao_kind := TransformationOp; ao_tf := op_tf o; ao_rollup := empty_applied_rollup |}
  else if op_kind o =? RollupOp then
    match match_rollup_target a section (op_rollup o) with
    | None => None
    | Some id => Some {| ao_kind := RollupOp; ao_tf := TfUnknown;
                         ao_rollup := {| ar_id := id; ar_agg := ro_agg (op_rollup o) |} |}
    end
  else None.
(** rules/active_ruleset.go:443-482 [activeRuleSet.applyIDToPipeline] *)
Definition apply_id_to_pipeline (a : active_ruleset) (section : bytes) (p : pipeline)
  : option applied_pipeline := map_opt (apply_id_to_op a section) p.

(** rules/active_ruleset.go 316-388, one round of the loop over the targets: the ID the
    pipeline is for ([None] for the metric's own ID; Go tests rollupID == nil, and the ID
    function never returns nil) and the pipeline; [None] when the target is skipped. *)
Definition apply_target (a : active_ruleset) (section : bytes) (tg : target)
  : option (option bytes * pipeline_metadata) :=
  match tg_pipeline tg with
  | [] => None
  | first :: rest =>
      let finish id agg to_apply :=
        match apply_id_to_pipeline a section to_apply with
        | None => None
        | Some ap => Some (id, mk_pm agg (tg_sps tg) ap DropNone)
        end in
      if op_kind first =? AggregationOp then
        let (agg, err) := compress_types [op_agg first] in
        if err then None else finish None agg rest
      else if op_kind first =? TransformationOp then finish None default_id (first :: rest)
      else if op_kind first =? RollupOp then
        match match_rollup_target a section (op_rollup first) with
        | None => None
        | Some id => finish (Some id) (ro_agg (op_rollup first)) rest
        end
      else None
  end.

(** The two halves of rules/active_ruleset.go 376-388 *)
Definition own_results (rs : list (option bytes * pipeline_metadata)) : list pipeline_metadata :=
  flat_map (fun r => match fst r with None => [snd r] | Some _ => [] end) rs.
(** rules/active_ruleset.go:376-388, the results with a new ID. *)
Definition new_id_results (cutover : Z) (rs : list (option bytes * pipeline_metadata))
  : list (bytes * rule_match) :=
  flat_map (fun r => match fst r with
                     | None => []
                     | Some id => [(id, mk_rm cutover [snd r])]
                     end) rs.

(** rules/active_ruleset.go 294-396 [toRollupResults], errors ignored as by its caller. *)
Definition to_rollup_results (a : active_ruleset) (id : bytes) (cutover : Z) (ts : list target)
  : rule_match * list (bytes * rule_match) :=
  match ts with
  | [] => (mk_rm 0 [], [])
  | _ =>
      match tfo_name_and_tags (as_opts a) id with
      | None => (mk_rm 0 [], [])
      | Some (_, section) =>
          let rs := flat_map (fun tg => match apply_target a section tg with
                                        | None => [] | Some r => [r] end) ts in
          (mk_rm cutover (own_results rs), new_id_results cutover rs)
      end
  end.

(** rules/active_ruleset.go 255-285 [rollupResultsFor] *)
Definition rollup_results_for (a : active_ruleset) (id : bytes) (t : Z)
  : rule_match * list (bytes * rule_match) :=
  let (cutover, ss) := match_rules (as_rollup a) id t 0 in
  to_rollup_results a id cutover (flat_map (fun s => map target_clone (sn_body s)) ss).

(** rules/active_ruleset.go 738-744 [merge] *)
Definition rm_merge (x y : rule_match) : rule_match :=
  mk_rm (if rm_cutover x <? rm_cutover y then rm_cutover y else rm_cutover x)
        (rm_pipelines x ++ rm_pipelines y).

(** rules/active_ruleset.go 764-778: the in-place de-duplication; [kept] are the
    pipelines up to curr. *)
Fixpoint dedup_loop (kept : list pipeline_metadata) (ps : list pipeline_metadata)
  : list pipeline_metadata :=
  match ps with
  | [] => kept
  | p :: ps' => if existsb (fun k => pm_equal k p) kept then dedup_loop kept ps'
                else dedup_loop (kept ++ [p]) ps'
  end.

(** rules/active_ruleset.go 747-783 [unique].  Simplified: when removing drop policies
    leaves no pipeline (only possible with a drop policy that is none of the defined
    ones) Go re-slices one stale element; here the result is empty. *)
Definition rm_unique (x : rule_match) : rule_match :=
  match rm_pipelines x with
  | [] => x
  | _ =>
      match pms_apply_drop (rm_pipelines x) with
      | (ps, AppliedEffectiveDropPolicy) => mk_rm (rm_cutover x) ps
      | ([], RemovedIneffectiveDropPolicies) => mk_rm (rm_cutover x) []
      | (p :: ps, RemovedIneffectiveDropPolicies) => mk_rm (rm_cutover x) (dedup_loop [p] ps)
      end
  end.

(** rules/active_ruleset.go 786-799 [toStagedMetadata] and [resolvedPipelines] *)
Definition rm_to_staged (x : rule_match) : staged_metadata :=
  mk_sm (match rm_pipelines x with [] => [default_pipeline_metadata] | ps => ps end)
        (rm_cutover x) false.

(** rules/match_result.go 36-46 [IDWithMetadatas] and its order by ID *)
Notation id_with_metadatas := (bytes * list staged_metadata)%type.
(** rules/match_result.go:46 [IDWithMetadatasByIDAsc.Less]: not after. *)
Definition id_leb (x y : id_with_metadatas) : bool := bleb (fst x) (fst y).

(** rules/active_ruleset.go 182-206 [forwardMatchAt] *)
Definition forward_match_at (a : active_ruleset) (id : bytes) (t : Z)
  : staged_metadata * list id_with_metadatas :=
  let m := mappings_for_non_rollup_id a id t in
  let (own, news) := rollup_results_for a id t in
  (rm_to_staged (rm_unique (rm_merge m own)),
   isort id_leb (map (fun r => (fst r, [rm_to_staged (rm_unique (snd r))])) news)).

(** rules/active_ruleset.go 655-669 [mergeResultsForExistingID] *)
Definition merge_existing (curr : staged_metadatas) (next : staged_metadata) (change : Z)
  : staged_metadatas :=
  match rev curr with
  | [] => [next]
  | last :: _ =>
      let next' := if sm_cutover next <? sm_cutover last
                   then mk_sm (sm_pipelines next) change (sm_tombstoned next) else next in
      curr ++ [next']
  end.

(** rules/active_ruleset.go 706: the stage of an ID that is no longer produced *)
Definition tombstone_stage (change : Z) : staged_metadata := mk_sm [] change true.

(** rules/active_ruleset.go 684-717: the merge loop over two sorted lists; the updated
    current results, and the new results appended to them.  [next] holds one stage per
    ID. *)
Fixpoint merge_news_loop (change : Z) (curr : list id_with_metadatas)
  : list id_with_metadatas -> list id_with_metadatas * list id_with_metadatas :=
  fix inner (next : list id_with_metadatas) :=
    match curr, next with
    | [], _ => ([], next)
    | (i, ms) :: curr', [] =>
        let (u, n) := merge_news_loop change curr' [] in
        ((i, ms ++ [tombstone_stage change]) :: u, n)
    | (i, ms) :: curr', (j, ns) :: next' =>
        match bcompare i j with
        | Eq => let (u, n) := merge_news_loop change curr' next' in
                ((i, ms ++ firstn 1 ns) :: u, n)
        | Lt => let (u, n) := merge_news_loop change curr' ((j, ns) :: next') in
                ((i, ms ++ [tombstone_stage change]) :: u, n)
        | Gt => let (u, n) := inner next' in (u, (j, ns) :: n)
        end
    end.

(** rules/active_ruleset.go 677-720 [mergeResultsForNewRollupIDs] *)
Definition merge_news (curr next : list id_with_metadatas) (change : Z) : list id_with_metadatas :=
  let (u, n) := merge_news_loop change curr next in isort id_leb (u ++ n).

(** rules/match_result.go 49-64 [MatchResult] *)
Record match_result := mk_mr {
  mr_version : Z; mr_expire : Z;
  mr_existing : staged_metadatas; mr_news : list id_with_metadatas }.

(** rules/active_ruleset.go 131-137, the loop of [ForwardMatch]; [fuel] bounds the
    number of cutovers left. *)
Fixpoint forward_loop (fuel : nat) (a : active_ruleset) (id : bytes) (to : Z) (idx : nat)
    (existing : staged_metadatas) (news : list id_with_metadatas)
  : nat * staged_metadatas * list id_with_metadatas :=
  match fuel with
  | O => (idx, existing, news)
  | S fuel' =>
      let c := cutover_at a idx in
      if Nat.ltb idx (length (as_cutovers a)) && (c <? to) then
        let (e, n) := forward_match_at a id c in
        forward_loop fuel' a id to (S idx) (merge_existing existing e c) (merge_news news n c)
      else (idx, existing, news)
  end.

(** rules/active_ruleset.go 119-143 [ForwardMatch] *)
Definition forward_match (a : active_ruleset) (id : bytes) (from to : Z) : match_result :=
  let (e, n) := forward_match_at a id from in
  let '(idx, existing, news) :=
    forward_loop (length (as_cutovers a)) a id to (next_cutover_idx a from) [e] n in
  mk_mr (as_version a) (cutover_at a idx) existing news.

(** rules/active_ruleset.go 621-644 [filteredPipelinesWithAggregationType] *)
Definition filter_by_agg_type (ps : list pipeline_metadata) (mt : metric_type) (t : agg_type)
    (opts : types_options) : list pipeline_metadata :=
  List.filter (fun p => if id_is_default (pm_agg p) then is_contained_in_default opts t mt
                   else id_contains (pm_agg p) t) ps.

(** rules/active_ruleset.go 501-521 [reverseMappingsForNonRollupID] *)
Definition reverse_for_non_rollup_id (a : active_ruleset) (id : bytes) (t : Z)
    (mt : metric_type) (at_ : agg_type) (opts : types_options) : option staged_metadata :=
  let m := mappings_for_non_rollup_id a id t in
  match filter_by_agg_type (rm_pipelines m) mt at_ opts with
  | [] => None
  | ps => Some (mk_sm ps (rm_cutover m) false)
  end.

(** rules/active_ruleset.go 546-591: the loop over the operations of one target;
    [None] to go on with the next target, [Some r] to return [r]. *)
Fixpoint reverse_ops (a : active_ruleset) (name section : bytes) (cutover : Z)
    (sps : list storage_policy) (mt : metric_type) (at_ : agg_type) (multi : bool)
    (opts : types_options) (ops : pipeline) : option (option staged_metadata) :=
  match ops with
  | [] => None
  | o :: ops' =>
      if negb (op_kind o =? RollupOp) then reverse_ops a name section cutover sps mt at_ multi opts ops'
      else if negb (beqb (ro_name (op_rollup o)) name)
           then reverse_ops a name section cutover sps mt at_ multi opts ops'
      else match match_tags (fst (tfo_sorted_tags (as_opts a) section)) (ro_tags (op_rollup o)) with
           | None => reverse_ops a name section cutover sps mt at_ multi opts ops'
           | Some _ =>
               let p := mk_pm (ro_agg (op_rollup o)) sps [] DropNone in
               let ps := if multi then filter_by_agg_type [p] mt at_ opts else [p] in
               Some (match ps with [] => None | _ => Some (mk_sm ps cutover false) end)
           end
  end.

(** rules/active_ruleset.go:546-591, the loop over the targets of one rule. *)
Fixpoint reverse_targets (a : active_ruleset) (name section : bytes) (cutover : Z)
    (mt : metric_type) (at_ : agg_type) (multi : bool) (opts : types_options)
    (ts : list target) : option (option staged_metadata) :=
  match ts with
  | [] => None
  | tg :: ts' =>
      match reverse_ops a name section cutover (tg_sps tg) mt at_ multi opts (tg_pipeline tg) with
      | Some r => Some r
      | None => reverse_targets a name section cutover mt at_ multi opts ts'
      end
  end.

(** rules/active_ruleset.go 532-594 [reverseMappingsForRollupID] *)
Fixpoint reverse_rules (a : active_ruleset) (rules : list rollup_rule) (name section : bytes)
    (t : Z) (mt : metric_type) (at_ : agg_type) (multi : bool) (opts : types_options)
  : option staged_metadata :=
  match rules with
  | [] => None
  | r :: rules' =>
      match active_snapshot r t with
      | None => reverse_rules a rules' name section t mt at_ multi opts
      | Some s =>
          if sn_tomb s then reverse_rules a rules' name section t mt at_ multi opts
          else match reverse_targets a name section (sn_cutover s) mt at_ multi opts (sn_body s) with
               | Some res => res
               | None => reverse_rules a rules' name section t mt at_ multi opts
               end
      end
  end.

(** rules/active_ruleset.go 484-497 [reverseMappingsFor] with the name and tags computed at
    161-164; an ID without name and tags is not a rollup ID. *)
Definition reverse_mappings_for (a : active_ruleset) (id : bytes) (t : Z) (mt : metric_type)
    (at_ : agg_type) (multi : bool) (opts : types_options) : option staged_metadata :=
  match tfo_name_and_tags (as_opts a) id with
  | Some (name, section) =>
      if as_is_rollup a name section
      then reverse_rules a (as_rollup a) name section t mt at_ multi opts
      else reverse_for_non_rollup_id a id t mt at_ opts
  | None => reverse_for_non_rollup_id a id t mt at_ opts
  end.

(** rules/active_ruleset.go:145-180: a result, if there is one, merged into those so far. *)
Definition merge_found (curr : staged_metadatas) (next : option staged_metadata) (change : Z)
  : staged_metadatas :=
  match next with None => curr | Some n => merge_existing curr n change end.

(** rules/active_ruleset.go 169-175 *)
Fixpoint reverse_loop (fuel : nat) (a : active_ruleset) (id : bytes) (to : Z) (idx : nat)
    (mt : metric_type) (at_ : agg_type) (multi : bool) (opts : types_options)
    (existing : staged_metadatas) : nat * staged_metadatas :=
  match fuel with
  | O => (idx, existing)
  | S fuel' =>
      let c := cutover_at a idx in
      if Nat.ltb idx (length (as_cutovers a)) && (c <? to) then
        reverse_loop fuel' a id to (S idx) mt at_ multi opts
          (merge_found existing (reverse_mappings_for a id c mt at_ multi opts) c)
      else (idx, existing)
  end.

(** rules/active_ruleset.go 145-177 [ReverseMatch] *)
Definition reverse_match (a : active_ruleset) (id : bytes) (from to : Z) (mt : metric_type)
    (at_ : agg_type) (multi : bool) (opts : types_options) : match_result :=
  let existing := merge_found [] (reverse_mappings_for a id from mt at_ multi opts) from in
  let '(idx, existing) :=
    reverse_loop (length (as_cutovers a)) a id to (next_cutover_idx a from) mt at_ multi opts existing in
  mk_mr (as_version a) (cutover_at a idx) existing [].

(** rules/match_result.go 107-117 [activeStagedMetadatasAt]; [n] is idx+1. *)
Fixpoint active_stages_from (l : staged_metadatas) (n : nat) (t : Z) : staged_metadatas :=
  match n with
  | O => l
  | S i =>
      match nth_error l i with
      | Some s => if sm_cutover s <=? t then skipn i l else active_stages_from l i t
      | None => l
      end
  end.
(** rules/match_result.go:107-117 [activeStagedMetadatasAt]: the loop started at the
    last index. *)
Definition active_stages_at (l : staged_metadatas) (t : Z) : staged_metadatas :=
  active_stages_from l (length l) t.

(** rules/match_result.go 84 [HasExpired]; 93-95 [ForExistingIDAt]; 99-103
    [ForNewRollupIDsAt] *)
Definition mr_has_expired (r : match_result) (t : Z) : bool := mr_expire r <=? t.
(** rules/match_result.go:93-95 [MatchResult.ForExistingIDAt] *)
Definition mr_existing_at (r : match_result) (t : Z) : staged_metadatas :=
  active_stages_at (mr_existing r) t.
(** rules/match_result.go:99-103 [MatchResult.ForNewRollupIDsAt] *)
Definition mr_news_at (r : match_result) (idx : nat) (t : Z) : option id_with_metadatas :=
  option_map (fun e => (fst e, active_stages_at (snd e) t)) (nth_error (mr_news r) idx).

(** rules/match_result.go 32 [EmptyMatchResult]; kv.UninitializedVersion is 0. *)
Definition empty_match_result : match_result := mk_mr 0 time_max default_staged_metadatas [].

(** rules/ruleset.go 134-148 [ruleSet] *)
Record rule_set := mk_rs {
  rs_uuid : bytes;
  rs_version : Z;
  rs_namespace : bytes;
  rs_created_at : Z;
  rs_updated_at : Z;
  rs_updated_by : bytes;
  rs_tomb : bool;
  rs_cutover : Z;
  rs_mapping : list mapping_rule;
  rs_rollup : list rollup_rule;
  rs_opts : tags_filter_options;
  rs_new_id : bytes -> list (bytes * bytes) -> bytes;
  rs_is_rollup : bytes -> bytes -> bool }.

(** rules/ruleset.go 211-230 [ActiveSet] *)
Definition active_set (rs : rule_set) (t : Z) : active_ruleset :=
  new_active_ruleset (rs_version rs) (map (fun r => active_rule r t) (rs_mapping rs))
    (map (fun r => active_rule r t) (rs_rollup rs)) (rs_opts rs) (rs_new_id rs) (rs_is_rollup rs).
