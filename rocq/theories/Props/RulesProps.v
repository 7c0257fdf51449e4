(** Properties of rule matching.  Each theorem is stated with the vocabulary of
    [Spec/RulesSpec.v] and [Spec/MetadataSpec.v]. *)
From Coq Require Import Ascii String Arith NArith ZArith Bool Lia Permutation Sorting.Sorted List.
From Verif.Base Require Import Bytes BytesFacts.
From Verif.Proof Require Import MetadataProof TagProof RulesProof MatchProof TargetProof WindowProof ServeProof ReverseProof InstantProof.
From Verif.Model Require Import AggType Policy Transformation Pipeline Metadata Filter MetricID Rules.
From Verif.Spec Require Import AggSpec MetadataSpec FilterSpec RulesSpec.
Import ListNotations.
Open Scope Z_scope.

(** ** Rules used in the examples *)

Definition m3_opts := mk_tfo (B "name") name_and_tags sorted_tags.
Definition tag_is (name value : string) : option tags_filter :=
  new_tags_filter [(B name, mk_fv (B value) false)] Conjunction m3_opts.
Definition sp (window retention : Z) : storage_policy :=
  {| sp_resolution := {| r_window := window; r_precision := 1 |}; sp_retention := retention |}.
Definition msnap (tomb : bool) (cutover : Z) (f : option tags_filter) (sps : list storage_policy) (drop : Z) : snapshot mapping_body :=
  mk_snap (B "m") tomb cutover f [] (mk_mb 0%N sps drop) 0 [].
Definition rsnap (tomb : bool) (cutover : Z) (f : option tags_filter) (tgs : list target) : snapshot (list target) :=
  mk_snap (B "r") tomb cutover f [] tgs 0 [].
Definition roll (name : string) (tags : list bytes) (agg : N) : op :=
  {| op_kind := RollupOp; op_agg := 0; op_tf := 0; op_rollup := {| ro_name := B name; ro_tags := tags; ro_agg := agg |} |}.
Definition agg_op (t : Z) : op := {| op_kind := AggregationOp; op_agg := t; op_tf := 0; op_rollup := empty_rollup_op |}.
Definition tf_op (t : Z) : op := {| op_kind := TransformationOp; op_agg := 0; op_tf := t; op_rollup := empty_rollup_op |}.
Definition set_of (ms : list mapping_rule) (rs : list rollup_rule) : active_ruleset :=
  new_active_ruleset 1 ms rs m3_opts new_rollup_id is_rollup_id.
Definition metric := B "m3+requests+dc=sjc,env=prod,host=h1".

(** ** C23: a rule is in effect from its cutover *)
Theorem C23_in_effect P (r : rule P) t s :
  active_snapshot r t = Some s <-> in_effect (ru_snapshots r) t s.
Proof. exact (active_snapshot_some r t s). Qed.
Print Assumptions C23_in_effect.

Theorem C23_not_yet P (r : rule P) t :
  active_snapshot r t = None <-> forall s, In s (ru_snapshots r) -> t < sn_cutover s.
Proof. rewrite active_snapshot_none. apply Forall_forall. Qed.
Print Assumptions C23_not_yet.

Theorem C23_greatest_cutover P (r : rule P) t s :
  ascending (ru_snapshots r) -> active_snapshot r t = Some s ->
  In s (ru_snapshots r) /\ sn_cutover s <= t /\
  forall s', In s' (ru_snapshots r) -> sn_cutover s' <= t -> sn_cutover s' <= sn_cutover s.
Proof. intros Ha H. apply active_snapshot_some in H. now apply in_effect_ascending. Qed.
Print Assumptions C23_greatest_cutover.

Example C23_nonvacuous :
  let r := mk_rule (B "u") [msnap false 5 None [sp 1 2] 0; msnap true 10 None [] 0; msnap false 10 None [sp 3 4] 0; msnap false 20 None [] 1] in
  ascending (ru_snapshots r) /\ active_snapshot r 4 = None /\
  active_snapshot r 9 = Some (msnap false 5 None [sp 1 2] 0) /\ active_snapshot r 10 = Some (msnap false 10 None [sp 3 4] 0).
Proof. cbv zeta. split; [|repeat split]. repeat constructor; simpl; lia. Qed.

(** ** C24: trimming history does not change matching *)
Theorem C24_forward rs t0 id from to :
  Forall (fun r => ascending (ru_snapshots r)) (rs_mapping rs) ->
  Forall (fun r => ascending (ru_snapshots r)) (rs_rollup rs) -> t0 <= from ->
  forward_match (active_set rs t0) id from to =
  forward_match (new_active_ruleset (rs_version rs) (rs_mapping rs) (rs_rollup rs) (rs_opts rs) (rs_new_id rs) (rs_is_rollup rs)) id from to.
Proof. intros H1 H2 H3. now apply trim_forward. Qed.
Print Assumptions C24_forward.

Theorem C24_reverse rs t0 id from to mt at_ multi topts :
  Forall (fun r => ascending (ru_snapshots r)) (rs_mapping rs) ->
  Forall (fun r => ascending (ru_snapshots r)) (rs_rollup rs) -> t0 <= from ->
  reverse_match (active_set rs t0) id from to mt at_ multi topts =
  reverse_match (new_active_ruleset (rs_version rs) (rs_mapping rs) (rs_rollup rs) (rs_opts rs) (rs_new_id rs) (rs_is_rollup rs))
    id from to mt at_ multi topts.
Proof. intros H1 H2 H3. now apply trim_reverse. Qed.
Print Assumptions C24_reverse.

Definition history_example (cutovers : list Z) : rule_set :=
  mk_rs [] 1 [] 0 0 [] false 0
    [mk_rule (B "u") (map (fun c => msnap false c (tag_is "env" "prod") [sp c c] 0) cutovers)] [] m3_opts new_rollup_id is_rollup_id.

Example C24_nonvacuous :
  Forall (fun r => ascending (ru_snapshots r)) (rs_mapping (history_example [1; 5; 20])) /\
  as_cutovers (active_set (history_example [1; 5; 20]) 10) = [5; 20] /\
  map sm_cutover (mr_existing (forward_match (active_set (history_example [1; 5; 20]) 10) metric 10 30)) = [5; 20].
Proof. split; [|split; vm_compute; reflexivity]. repeat constructor; simpl; lia. Qed.

(** The cutovers have to ascend: trimming [100; 5] at 10 forgets the change at 100. *)
Example C24_order_needed :
  let rs := history_example [100; 5] in
  mr_expire (forward_match (active_set rs 10) metric 10 11) = 2 ^ 63 - 1 /\
  mr_expire (forward_match (set_of (rs_mapping rs) (rs_rollup rs)) metric 10 11) = 100.
Proof. split; vm_compute; reflexivity. Qed.

(** ** C25: cutover search finds the next change *)
Theorem C25_cutovers v ms rs opts nid isr :
  let a := new_active_ruleset v ms rs opts nid isr in
  StronglySorted Z.lt (as_cutovers a) /\ forall c, In c (as_cutovers a) <-> is_change ms rs c.
Proof. split; [apply built_sorted|intros; apply built_in]. Qed.
Print Assumptions C25_cutovers.

Theorem C25_next_change v ms rs opts nid isr t :
  let a := new_active_ruleset v ms rs opts nid isr in
  first_of (fun c => is_change ms rs c /\ t < c) (cutover_at a (next_cutover_idx a t)).
Proof. exact (next_change v ms rs opts nid isr t). Qed.
Print Assumptions C25_next_change.

Example C25_nonvacuous :
  let rs := history_example [20; 5; 5; 9] in
  let a := set_of (rs_mapping rs) [mk_rule (B "r") [rsnap false 7 None []]] in
  as_cutovers a = [5; 7; 9; 20] /\ cutover_at a (next_cutover_idx a 4) = 5 /\ cutover_at a (next_cutover_idx a 5) = 7 /\
  cutover_at a (next_cutover_idx a 19) = 20 /\ cutover_at a (next_cutover_idx a 20) = 2 ^ 63 - 1.
Proof. repeat split. Qed.

(** ** C26: forward match of an existing metric at an instant *)

(** [ss] and [ts] are the live snapshots of the mapping and rollup rules, in the order of the rules;
    [cs] is what the targets of the latter contribute.  The metric's tags are sorted and distinct, as are
    the tags of the targets. *)
Theorem C26_instant v ms rs opts nid isr id t tags ss ts cs :
  metric_tags opts id tags -> names_strict (map fst tags) ->
  collect (live id t) ms ss -> valid_drops (map pipeline_of ss) ->
  collect (live id t) rs ts -> Forall target_strict (flat_map sn_body ts) ->
  collect (contributes nid tags) (flat_map sn_body ts) cs ->
  exists st news, forward_match (new_active_ruleset v ms rs opts nid isr) id t t =
      mk_mr v (mr_expire (forward_match (new_active_ruleset v ms rs opts nid isr) id t t)) [st] news /\
    sm_tombstoned st = false /\
    (drop_effective (map pipeline_of ss) -> sm_pipelines st = [mk_pm 0%N [] [] 1]) /\
    (~ drop_effective (map pipeline_of ss) -> sm_pipelines st = firsts pm_equal (kept_or_default ss ++ own_part cs)) /\
    Permutation (map (fun e => (fst e, map sm_pipelines (snd e))) news)
      (flat_map (fun c => match fst c with None => [] | Some X => [(X, [[snd c]])] end) cs).
Proof. exact (instant_tagged v ms rs opts nid isr id t tags ss ts cs). Qed.
Print Assumptions C26_instant.

(** A metric without name and tags gets no rollup pipeline. *)
Theorem C26_instant_untagged v ms rs opts nid isr id t ss :
  tfo_name_and_tags opts id = None ->
  collect (live id t) ms ss -> valid_drops (map pipeline_of ss) ->
  exists st, forward_match (new_active_ruleset v ms rs opts nid isr) id t t =
      mk_mr v (mr_expire (forward_match (new_active_ruleset v ms rs opts nid isr) id t t)) [st] [] /\
    sm_tombstoned st = false /\
    (drop_effective (map pipeline_of ss) -> sm_pipelines st = [mk_pm 0%N [] [] 1]) /\
    (~ drop_effective (map pipeline_of ss) -> sm_pipelines st = firsts pm_equal (kept_or_default ss)).
Proof. exact (instant_untagged v ms rs opts nid isr id t ss). Qed.
Print Assumptions C26_instant_untagged.

(** Whatever the tags, every pipeline is the default one, the drop one, or comes from a live rule. *)
Theorem C26_provenance v ms rs opts nid isr id t ss st p :
  collect (live id t) ms ss -> valid_drops (map pipeline_of ss) ->
  In st (mr_existing (forward_match (new_active_ruleset v ms rs opts nid isr) id t t)) -> In p (sm_pipelines st) ->
  p = mk_pm 0%N [] [] 0 \/ (p = mk_pm 0%N [] [] 1 /\ drop_effective (map pipeline_of ss)) \/
  (exists r s, In r ms /\ live id t r s /\ p = pipeline_of s) \/
  (exists r s tg, In r rs /\ live id t r s /\ In tg (sn_body s) /\ pm_sps p = tg_sps tg).
Proof. exact (instant_provenance v ms rs opts nid isr id t ss st p). Qed.
Print Assumptions C26_provenance.

(** The live snapshots always exist, so the theorems apply to every rule set. *)
Theorem C26_live_exist P (rules : list (rule P)) id t : exists! ss, collect (live id t) rules ss.
Proof.
  exists (snd (match_rules rules id t 0)); split; [apply match_rules_live|].
  intros ss H. now apply match_rules_eq.
Qed.
Print Assumptions C26_live_exist.

Definition ex_target := mk_target [roll "by_dc" [B "dc"] 8%N; tf_op 2] [sp 10 100].
Definition ex_own := mk_target [agg_op 3; tf_op 2] [sp 20 100].
Definition ex_rollups : list rollup_rule := [mk_rule (B "r") [rsnap false 4 (tag_is "env" "prod") [ex_target; ex_own; mk_target [roll "by_zone" [B "zone"] 8%N] []]]].
Definition ex_mappings : list mapping_rule :=
  [mk_rule (B "a") [msnap false 5 (tag_is "env" "prod") [sp 1 2] 0];
   mk_rule (B "b") [msnap false 6 (tag_is "env" "test") [sp 3 4] 0];
   mk_rule (B "c") [msnap true 7 (tag_is "env" "prod") [sp 5 6] 0];
   mk_rule (B "d") [msnap false 3 (tag_is "dc" "sjc") [sp 1 2] 0];
   mk_rule (B "e") [msnap false 2 (tag_is "dc" "sjc") [] 2]].

Example C26_nonvacuous :
  metric_tags m3_opts metric [(B "dc", B "sjc"); (B "env", B "prod"); (B "host", B "h1")] /\
  names_strict [B "dc"; B "env"; B "host"] /\ Forall target_strict [ex_target; ex_own] /\
  snd (match_rules ex_mappings metric 10 0) =
    [msnap false 5 (tag_is "env" "prod") [sp 1 2] 0; msnap false 3 (tag_is "dc" "sjc") [sp 1 2] 0; msnap false 2 (tag_is "dc" "sjc") [] 2] /\
  map sm_pipelines (mr_existing (forward_match (set_of ex_mappings ex_rollups) metric 10 10)) =
    [[mk_pm 0%N [sp 1 2] [] 0;
      mk_pm 8%N [sp 20 100] [{| ao_kind := 2; ao_tf := 2; ao_rollup := empty_applied_rollup |}] 0]] /\
  map fst (mr_news (forward_match (set_of ex_mappings ex_rollups) metric 10 10)) = [B "m3+by_dc+dc=sjc,m3_rollup=true"].
Proof.
  split; [exists (B "requests"), (B "dc=sjc,env=prod,host=h1"); split; vm_compute; reflexivity|].
  split; [repeat constructor|]. split.
  - repeat constructor; intros o Hin Hk; simpl in Hin; destruct Hin as [<-|[<-|[]]]; try discriminate Hk; repeat constructor.
  - split; [vm_compute; reflexivity|]. split; vm_compute; reflexivity.
Qed.

(** ** C27: drop-if-only-match *)

(** The full claim fails: the rollup rule matches as well, and the metric is dropped. *)
Theorem C27_rollup_match_refuted :
  exists ms rs id t m r s, collect (live id t) ms [m] /\ mb_drop (sn_body m) = 2 /\
    In r rs /\ live id t r s /\ (exists tg c, In tg (sn_body s) /\ contributes new_rollup_id
        [(B "dc", B "sjc"); (B "env", B "prod"); (B "host", B "h1")] tg c) /\
    map sm_pipelines (mr_existing (forward_match (set_of ms rs) id t t)) = [[mk_pm 0%N [] [] 1]].
Proof.
  exists [mk_rule (B "e") [msnap false 2 (tag_is "dc" "sjc") [] 2]], ex_rollups, metric, 10.
  eexists (msnap false 2 (tag_is "dc" "sjc") [] 2), (mk_rule (B "r") _), _.
  split; [apply match_rules_collect; vm_compute; reflexivity|]. split; [reflexivity|]. split; [now left|].
  split; [apply live_spec; split; [vm_compute; reflexivity|split; vm_compute; reflexivity]|].
  split; [|vm_compute; reflexivity].
  exists ex_own. eexists; split; [now right; left|].
  eapply Contributes_agg; [reflexivity|reflexivity|vm_compute; split; discriminate|].
  repeat constructor.
Qed.
Print Assumptions C27_rollup_match_refuted.

(** Among mapping rules: with another live mapping rule that does not drop, and none that must drop, no
    pipeline drops and the other rule's pipeline is reported; when every live rule is drop-if-only-match the
    metric is dropped.  Missing: the rollup rules, see above. *)
Theorem C27_mapping_partial v ms rs opts nid isr id t ss :
  collect (live id t) ms ss -> valid_drops (map pipeline_of ss) ->
  exists st, mr_existing (forward_match (new_active_ruleset v ms rs opts nid isr) id t t) = [st] /\
    (forall s, In s ss -> mb_drop (sn_body s) = 0 -> (forall s', In s' ss -> mb_drop (sn_body s') <> 1) ->
       (forall p, In p (sm_pipelines st) -> pm_drop p = 0) /\
       exists p, In p (sm_pipelines st) /\ pm_equal p (pipeline_of s) = true) /\
    (ss <> [] -> (forall s, In s ss -> mb_drop (sn_body s) = 2) -> sm_pipelines st = [mk_pm 0%N [] [] 1]).
Proof. exact (only_match_mapping v ms rs opts nid isr id t ss). Qed.
Print Assumptions C27_mapping_partial.

Example C27_nonvacuous :
  map (fun s => mb_drop (sn_body s)) (snd (match_rules ex_mappings metric 10 0)) = [0; 0; 2] /\
  map sm_pipelines (mr_existing (forward_match (set_of [nth 4 ex_mappings (mk_rule [] [])] []) metric 10 10)) = [[mk_pm 0%N [] [] 1]].
Proof. split; vm_compute; reflexivity. Qed.

(** ** C28: forward match results are time ordered and expire at the next change *)
Theorem C28_window v ms rs opts nid isr id from to :
  let a := new_active_ruleset v ms rs opts nid isr in
  let result := forward_match a id from to in
  exists cs, changes_between ms rs from to cs /\
    (* one stage per change, each with the pipelines of a fresh match *)
    map (fun s => [sm_pipelines s]) (mr_existing result) =
      map (fun t => map sm_pipelines (mr_existing (forward_match a id t t))) (from :: cs) /\
    (* the first is the match at from *)
    firstn 1 (mr_existing result) = mr_existing (forward_match a id from from) /\
    StronglySorted (fun s s' => sm_cutover s <= sm_cutover s') (mr_existing result) /\
    Forall (fun s => sm_tombstoned s = false) (mr_existing result) /\
    first_of (fun c => is_change ms rs c /\ from < c /\ to <= c) (mr_expire result).
Proof. exact (window_result v ms rs opts nid isr id from to). Qed.
Print Assumptions C28_window.

(** Between changes the match stays the same. *)
Theorem C28_constant v ms rs opts nid isr id t u :
  let a := new_active_ruleset v ms rs opts nid isr in
  t <= u -> (forall c, is_change ms rs c -> ~ (t < c <= u)) ->
  mr_existing (forward_match a id t t) = mr_existing (forward_match a id u u) /\
  mr_news (forward_match a id t t) = mr_news (forward_match a id u u).
Proof. intros a H1 H2. unfold a. rewrite !instant. cbn [mr_existing mr_news]. now rewrite (constant_at v ms rs opts nid isr id t u H1 H2). Qed.
Print Assumptions C28_constant.

(** Until the expiry, a fresh match over a later window only drops leading stages. *)
Theorem C28_later_window v ms rs opts nid isr id from to from' to' :
  let a := new_active_ruleset v ms rs opts nid isr in
  from <= from' -> to <= to' -> to' <= mr_expire (forward_match a id from to) -> from' < mr_expire (forward_match a id from to) ->
  mr_expire (forward_match a id from to) < 2 ^ 63 - 1 ->
  exists k, map sm_pipelines (mr_existing (forward_match a id from' to')) =
            skipn k (map sm_pipelines (mr_existing (forward_match a id from to))).
Proof. exact (later_window v ms rs opts nid isr id from to from' to'). Qed.
Print Assumptions C28_later_window.

Example C28_nonvacuous :
  let rs := history_example [1; 5; 20; 40] in
  let a := set_of (rs_mapping rs) [] in
  map (fun s => (sm_cutover s, map (@pm_sps list) (sm_pipelines s))) (mr_existing (forward_match a metric 3 30)) =
    [(1, [[sp 1 1]]); (5, [[sp 5 5]]); (20, [[sp 20 20]])] /\
  mr_expire (forward_match a metric 3 30) = 40 /\ mr_expire (forward_match a metric 3 20) = 20 /\
  map sm_cutover (mr_existing (forward_match a metric 12 35)) = [5; 20].
Proof. repeat split; vm_compute; reflexivity. Qed.

(** ** C29: the stage in effect is the right one *)

(** The full claim fails.  Rule A stops matching at 20; the remaining rule keeps the cutover 10, so the
    second stage is dated 10 as well and is served from then on. *)
Definition c29_rules : list mapping_rule :=
  [mk_rule (B "A") [msnap false 5 (tag_is "env" "prod") [sp 1 1] 0; msnap false 20 (tag_is "env" "test") [sp 1 1] 0];
   mk_rule (B "B") [msnap false 10 (tag_is "dc" "sjc") [sp 2 2] 0]].
Theorem C29_existing_refuted :
  exists ms rs id from to t, 0 <= from /\ from <= t < to /\
    Forall (fun r => ascending (ru_snapshots r)) ms /\
    map sm_pipelines (firstn 1 (mr_existing_at (forward_match (set_of ms rs) id from to) t)) <>
    map sm_pipelines (mr_existing (forward_match (set_of ms rs) id t t)).
Proof.
  exists c29_rules, [], metric, 15, 30, 16. split; [lia|]. split; [lia|]. split.
  - repeat constructor; simpl; lia.
  - vm_compute. discriminate.
Qed.
Print Assumptions C29_existing_refuted.

(** It holds for the metric itself when no rule changes its mind about the metric, and the rollup
    rules that match it are never deleted and have targets.  Missing: rules that start or stop matching
    the metric inside the window, see above. *)
Theorem C29_existing_partial v ms rs opts nid isr id from to t :
  let a := new_active_ruleset v ms rs opts nid isr in
  0 <= from -> from <= t < to ->
  (forall r, In r ms -> steady id r) -> (forall r, In r rs -> steady id r) ->
  tfo_name_and_tags opts id <> None ->
  (forall r s, In r rs -> In s (ru_snapshots r) -> accepts s id -> sn_tomb s = false /\ sn_body s <> []) ->
  exists s rest, mr_existing_at (forward_match a id from to) t = s :: rest /\
    map sm_pipelines (mr_existing (forward_match a id t t)) = [sm_pipelines s] /\
    sm_tombstoned s = false /\ sm_cutover s <= t.
Proof.
  intros a H0 Ht Hm Hr Hid Hl.
  destruct (existing_served v ms rs opts nid isr id from to _ (window_changes v ms rs opts nid isr from to) H0 Hm Hr Hid Hl t Ht)
    as (s & rest & E & Hp & Htomb & Hc).
  exists s, rest. split; auto. split; auto. unfold a; rewrite instant. cbn [mr_existing map]. now rewrite Hp.
Qed.
Print Assumptions C29_existing_partial.

(** For rollup IDs it always holds, as long as no two targets produce the same ID at one time. *)
Theorem C29_rollup_ids v ms rs opts nid isr id from to t X idx l :
  let a := new_active_ruleset v ms rs opts nid isr in
  (forall u, from <= u < to \/ u = from -> NoDup (map fst (mr_news (forward_match a id u u)))) ->
  0 <= from -> from <= t < to ->
  mr_news_at (forward_match a id from to) idx t = Some (X, l) ->
  exists s rest, l = s :: rest /\
    (forall st, In (X, [st]) (mr_news (forward_match a id t t)) -> sm_pipelines s = sm_pipelines st /\ sm_tombstoned s = false) /\
    (~ In X (map fst (mr_news (forward_match a id t t))) -> sm_tombstoned s = true \/ t < sm_cutover s).
Proof. intros a Hd. exact (news_served_api v ms rs opts nid isr id from to Hd t X idx l). Qed.
Print Assumptions C29_rollup_ids.

Definition c29_rollups : list rollup_rule :=
  [mk_rule (B "r") [rsnap false 4 (tag_is "env" "prod") [mk_target [roll "by_dc" [B "dc"] 8%N] [sp 1 1]];
                    rsnap false 12 (tag_is "env" "prod") [mk_target [roll "by_dc" [B "dc"] 8%N] [sp 2 2]; mk_target [roll "by_env" [B "env"] 0%N] []];
                    rsnap false 20 (tag_is "env" "prod") [mk_target [roll "by_env" [B "env"] 0%N] []]]].

Lemma distinct_at v ms rs opts nid isr id from to :
  let a := new_active_ruleset v ms rs opts nid isr in
  (forall u, In u (from :: window a from to) -> NoDup (map fst (mr_news (forward_match a id u u)))) ->
  forall u, from <= u < to \/ u = from -> NoDup (map fst (mr_news (forward_match a id u u))).
Proof.
  intros a H u Hu. pose proof (window_changes v ms rs opts nid isr from to) as W. fold a in W.
  destruct (governing from (window a from to) u ltac:(lia)) as (k & Hk & Hle & Hmax).
  destruct Hu as [Hu| ->]; [|apply H; now left].
  specialize (H k Hk). unfold a in *. rewrite instant in *. cbn [mr_news] in *.
  rewrite <- (governing_match v ms rs opts nid isr id from to _ W u k ltac:(lia) Hk Hle Hmax). exact H.
Qed.

Example C29_nonvacuous :
  (forall r, In r c29_rollups -> steady metric r) /\
  (forall r s, In r c29_rollups -> In s (ru_snapshots r) -> accepts s metric -> sn_tomb s = false /\ sn_body s <> []) /\
  (forall u, 5 <= u < 30 \/ u = 5 -> NoDup (map fst (mr_news (forward_match (set_of [] c29_rollups) metric u u)))) /\
  map (fun e => (fst e, map (fun s => (sm_cutover s, sm_tombstoned s)) (snd e))) (mr_news (forward_match (set_of [] c29_rollups) metric 5 30)) =
   [(B "m3+by_dc+dc=sjc,m3_rollup=true", [(4, false); (12, false); (20, true)]);
    (B "m3+by_env+env=prod,m3_rollup=true", [(12, false); (20, false)])].
Proof.
  split; [|split; [|split]].
  - intros r [<-|[]] s s' Hs Hs'. simpl in Hs, Hs'. intuition (subst; assumption).
  - intros r s [<-|[]] Hs _. simpl in Hs. intuition (subst; try reflexivity; discriminate).
  - apply distinct_at. intros u Hu.
    assert (E : 5 :: window (set_of [] c29_rollups) 5 30 = [5; 12; 20]) by (vm_compute; reflexivity).
    fold (set_of [] c29_rollups) in Hu. rewrite E in Hu. clear E.
    destruct Hu as [<-|[<-|[<-|[]]]]; vm_compute; repeat constructor; simpl; intuition discriminate.
  - vm_compute; reflexivity.
Qed.

(** ** C30: rollup IDs appear and disappear with their rules *)
Theorem C30_accounts v ms rs opts nid isr id from to :
  let a := new_active_ruleset v ms rs opts nid isr in
  (forall u, from <= u < to \/ u = from -> NoDup (map fst (mr_news (forward_match a id u u)))) ->
  exists cs, changes_between ms rs from to cs /\
    accounts_for (fun u => mr_news (forward_match a id u u)) (from :: cs) (mr_news (forward_match a id from to)).
Proof. exact (accounts_api v ms rs opts nid isr id from to). Qed.
Print Assumptions C30_accounts.

(** An ID introduced inside the window starts at the change that introduced it. *)
Theorem C30_introduced v ms rs opts nid isr id from to cs before t after X st :
  let a := new_active_ruleset v ms rs opts nid isr in
  (forall u, from <= u < to \/ u = from -> NoDup (map fst (mr_news (forward_match a id u u)))) ->
  0 <= from -> changes_between ms rs from to cs ->
  from :: cs = before ++ t :: after -> before <> [] ->
  (forall u, In u before -> ~ In X (map fst (mr_news (forward_match a id u u)))) ->
  In (X, [st]) (mr_news (forward_match a id t t)) -> sm_cutover st = t.
Proof. intros a Hd. exact (introduced_api v ms rs opts nid isr id from to Hd cs before t after X st). Qed.
Print Assumptions C30_introduced.

(** What makes an ID be produced at an instant. *)
Theorem C30_produced v ms rs opts nid isr id t X tags :
  metric_tags opts id tags -> names_strict (map fst tags) ->
  (forall r s, In r rs -> In s (ru_snapshots r) -> Forall target_strict (sn_body s)) ->
  In X (map fst (mr_news (forward_match (new_active_ruleset v ms rs opts nid isr) id t t))) <->
  exists r s tg p, In r rs /\ live id t r s /\ In tg (sn_body s) /\ contributes nid tags tg (Some X, p).
Proof. exact (produced_api v ms rs opts nid isr id t X tags). Qed.
Print Assumptions C30_produced.

Example C30_nonvacuous :
  let at_ u := map fst (mr_news (forward_match (set_of [] c29_rollups) metric u u)) in
  at_ 5 = [B "m3+by_dc+dc=sjc,m3_rollup=true"] /\
  at_ 12 = [B "m3+by_dc+dc=sjc,m3_rollup=true"; B "m3+by_env+env=prod,m3_rollup=true"] /\
  at_ 20 = [B "m3+by_env+env=prod,m3_rollup=true"] /\
  changes_between [] c29_rollups 5 30 [12; 20] /\
  metric_tags m3_opts metric [(B "dc", B "sjc"); (B "env", B "prod"); (B "host", B "h1")].
Proof.
  cbv zeta. split; [vm_compute; reflexivity|]. split; [vm_compute; reflexivity|]. split; [vm_compute; reflexivity|]. split.
  - change [12; 20] with (window (set_of [] c29_rollups) 5 30). apply window_changes.
  - exists (B "requests"), (B "dc=sjc,env=prod,host=h1"); split; vm_compute; reflexivity.
Qed.

(** ** C31: rollup targets match by tag presence *)
Theorem C31_presence a section r X :
  let tags := fst (tfo_sorted_tags (as_opts a) section) in
  names_strict (map fst tags) -> names_strict (ro_tags r) ->
  match_rollup_target a section r = Some X <->
  (forall w, In w (ro_tags r) -> In w (map fst tags)) /\
  X = as_new_id a (ro_name r) (List.filter (fun p => existsb (beqb (fst p)) (ro_tags r)) tags).
Proof.
  intros tags Ht Hr. unfold tags in *. rewrite (match_rollup_target_spec a section Ht r X Hr). split.
  - intros (sel & [H1 ->] & ->); auto.
  - intros [H1 ->]. eexists; split; [split; [exact H1|reflexivity]|reflexivity].
Qed.
Print Assumptions C31_presence.

(** With the m3 ID format the produced ID reads back as the name and exactly the wanted tags with the
    metric's values, besides the rollup marker. *)
Theorem C31_id_tags name tags wanted sel :
  selects tags wanted sel -> name_ok name -> Forall tag_ok tags ->
  exists section ps, name_and_tags (new_rollup_id name sel) = Some (name, section) /\
    sorted_tags section = (ps, false) /\
    Permutation ps ((B "m3_rollup", B "true") :: sel) /\
    (forall n v, In (n, v) sel <-> In n wanted /\ In (n, v) tags).
Proof.
  intros Hs Hn Ht. destruct (rollup_id_parse name sel Hn) as (section & ps & E1 & E2 & Hp & _ & _).
  - rewrite Forall_forall in *. intros p Hp. apply Ht. eapply selects_incl; eauto.
  - exists section, ps. split; auto. split; auto. split; auto. intros n v. destruct Hs as [_ ->].
    rewrite filter_In, existsb_exists. split.
    + intros [Hin (w & Hw & E)]. apply beqb_eq in E. cbn in E. subst. auto.
    + intros [Hw Hin]. split; auto. exists n; split; auto. now apply beqb_eq.
Qed.
Print Assumptions C31_id_tags.

Example C31_nonvacuous :
  let tags := fst (sorted_tags (B "dc=sjc,env=prod,host=h1")) in
  names_strict (map fst tags) /\ names_strict [B "dc"; B "host"] /\ Forall tag_ok tags /\
  match_rollup_target (set_of [] []) (B "dc=sjc,env=prod,host=h1") {| ro_name := B "n"; ro_tags := [B "dc"; B "host"]; ro_agg := 0%N |}
    = Some (B "m3+n+dc=sjc,host=h1,m3_rollup=true") /\
  match_rollup_target (set_of [] []) (B "dc=sjc,env=prod,host=h1") {| ro_name := B "n"; ro_tags := [B "dc"; B "zone"]; ro_agg := 0%N |} = None.
Proof.
  cbv zeta. split; [vm_compute; repeat constructor|]. split; [repeat constructor|].
  split; [vm_compute; repeat constructor; simpl; intuition discriminate|]. split; vm_compute; reflexivity.
Qed.

(** ** C32: reverse match recovers the policies of a rollup ID *)

(** The full claim fails: the second target produces an ID with the tags dc and env; the first target has
    the same name and only asks for dc, so its policies are returned. *)
Definition c32_rollups : list rollup_rule :=
  [mk_rule (B "r") [rsnap false 4 (tag_is "env" "prod")
     [mk_target [roll "n" [B "dc"] 0%N] [sp 1 1]; mk_target [roll "n" [B "dc"; B "env"] 0%N] [sp 2 2]]]].
Theorem C32_reverse_refuted :
  exists rs id t r s tg o sel, In r rs /\ live id t r s /\ In tg (sn_body s) /\ In o (tg_pipeline tg) /\ op_kind o = RollupOp /\
    selects [(B "dc", B "sjc"); (B "env", B "prod"); (B "host", B "h1")] (ro_tags (op_rollup o)) sel /\
    In (new_rollup_id (ro_name (op_rollup o)) sel) (map fst (mr_news (forward_match (set_of [] rs) id t t))) /\
    forall mt at_ topts,
    map (fun s => map (@pm_sps list) (sm_pipelines s))
      (mr_existing (reverse_match (set_of [] rs) (new_rollup_id (ro_name (op_rollup o)) sel) t t mt at_ false topts)) <> [[tg_sps tg]].
Proof.
  exists c32_rollups, metric, 10. eexists (mk_rule (B "r") _), _, (mk_target [roll "n" [B "dc"; B "env"] 0%N] [sp 2 2]),
    (roll "n" [B "dc"; B "env"] 0%N), [(B "dc", B "sjc"); (B "env", B "prod")].
  split; [now left|]. split; [apply live_spec; split; [vm_compute; reflexivity|split; vm_compute; reflexivity]|].
  split; [now right; left|]. split; [now left|]. split; [reflexivity|]. split.
  - split; [|reflexivity]. simpl. intuition (subst; auto).
  - split; [vm_compute; auto|]. intros mt at_ topts. vm_compute. discriminate.
Qed.
Print Assumptions C32_reverse_refuted.

(** It holds when no other live rollup operation has that name.  [wanted] tells whether the
    aggregation type asked for is one of the operation's; it only matters for metrics with several. *)
Theorem C32_reverse_partial v ms rs t r s tg o tags sel mt at_ multi topts :
  let a := new_active_ruleset v ms rs m3_opts new_rollup_id is_rollup_id in
  let wanted := if (ro_agg (op_rollup o) =? 0)%N then is_contained_in_default topts at_ mt
                else id_contains (ro_agg (op_rollup o)) at_ in
  In r rs -> in_effect (ru_snapshots r) t s -> sn_tomb s = false -> In tg (sn_body s) ->
  In o (tg_pipeline tg) -> op_kind o = RollupOp ->
  (forall r' s' tg' o', In r' rs -> in_effect (ru_snapshots r') t s' -> sn_tomb s' = false -> In tg' (sn_body s') ->
     In o' (tg_pipeline tg') -> op_kind o' = RollupOp -> ro_name (op_rollup o') = ro_name (op_rollup o) ->
     s' = s /\ tg' = tg /\ o' = o) ->
  selects tags (ro_tags (op_rollup o)) sel -> NoDup (map fst tags) -> Forall tag_ok tags ->
  name_ok (ro_name (op_rollup o)) -> names_strict (ro_tags (op_rollup o)) -> ~ In (B "m3_rollup") (ro_tags (op_rollup o)) ->
  mr_existing (reverse_match a (new_rollup_id (ro_name (op_rollup o)) sel) t t mt at_ multi topts) =
  if multi && negb wanted then []
  else [mk_sm [mk_pm (ro_agg (op_rollup o)) (tg_sps tg) [] 0] (sn_cutover s) false].
Proof. exact (reverse_recovers v ms rs (B "name") t r s tg o tags sel mt at_ multi topts). Qed.
Print Assumptions C32_reverse_partial.

(** An ID that is not a rollup ID: the pipelines of the live mapping rules that have the aggregation type. *)
Theorem C32_non_rollup v ms rs opts nid isr id t ss mt at_ multi topts ps :
  (forall name section, tfo_name_and_tags opts id = Some (name, section) -> isr name section = false) ->
  collect (live id t) ms ss -> valid_drops (map pipeline_of ss) ->
  (drop_effective (map pipeline_of ss) -> ps = [mk_pm 0%N [] [] 1]) ->
  (~ drop_effective (map pipeline_of ss) -> ps = kept_or_default ss) ->
  map sm_pipelines (mr_existing (reverse_match (new_active_ruleset v ms rs opts nid isr) id t t mt at_ multi topts)) =
  match List.filter (fun p => if (pm_agg p =? 0)%N then is_contained_in_default topts at_ mt else id_contains (pm_agg p) at_) ps with
  | [] => []
  | l => [l]
  end.
Proof. exact (reverse_non_rollup v ms rs opts nid isr id t ss mt at_ multi topts ps). Qed.
Print Assumptions C32_non_rollup.

Example C32_nonvacuous :
  let rs := [mk_rule (B "r") [rsnap false 4 (tag_is "env" "prod")
     [mk_target [roll "n" [B "dc"] 0%N] [sp 1 1]; mk_target [agg_op 3; roll "k" [B "dc"; B "env"] 8%N] [sp 2 2]]]] in
  let id := new_rollup_id (B "k") [(B "dc", B "sjc"); (B "env", B "prod")] in
  selects [(B "dc", B "sjc"); (B "env", B "prod"); (B "host", B "h1")] [B "dc"; B "env"] [(B "dc", B "sjc"); (B "env", B "prod")] /\
  mr_existing (reverse_match (set_of [] rs) id 10 10 CounterMetric 3 true new_types_options) = [mk_sm [mk_pm 8%N [sp 2 2] [] 0] 4 false] /\
  mr_existing (reverse_match (set_of [] rs) id 10 10 CounterMetric 2 true new_types_options) = [] /\
  map sm_pipelines (mr_existing (reverse_match (set_of ex_mappings rs) metric 10 10 CounterMetric 7 true new_types_options)) =
    [[mk_pm 0%N [sp 1 2] [] 0; mk_pm 0%N [sp 1 2] [] 0]].
Proof.
  cbv zeta. split; [split; [simpl; intuition (subst; auto)|reflexivity]|]. repeat split; vm_compute; reflexivity.
Qed.
