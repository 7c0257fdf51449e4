(** Properties of editing rule sets.  Each theorem is stated with the vocabulary of [Spec/EditSpec.v]. *)
From Coq Require Import Ascii String Arith NArith ZArith Bool Lia Permutation Sorting.Sorted List.
From Verif.Base Require Import Bytes BytesFacts.
From Verif.Proof Require Import MetadataProof RulesProof MatchProof InstantProof EditProof EditMatchProof.
From Verif.Model Require Import AggType Policy Transformation Pipeline Metadata Filter MetricID Rules RuleSet.
From Verif.Spec Require Import AggSpec MetadataSpec FilterSpec RulesSpec EditSpec.
From Verif.Props Require Import RulesProps.
Import ListNotations.
Open Scope Z_scope.

(** ** Rule sets used in the examples *)
Definition at_time (t : Z) : update_meta := mk_um (t + 10) t (B "me").
Definition empty_set : rule_set :=
  new_empty_rule_set (B "set") (B "ns") (at_time 0) m3_opts new_rollup_id is_rollup_id.
Definition mapping_edit (id name : string) (window : Z) : rule_edit mapping_body :=
  mk_re (B id) (B name) (B "env:prod") (mk_mb 0%N [sp window 1] 0).
Definition rollup_edit (id name : string) (window : Z) : rule_edit (list target) :=
  mk_re (B id) (B name) (B "env:prod") [mk_target [roll "new" [B "dc"] 0%N] [sp window 1]].
Definition session : list (edit * update_meta) :=
  [(AddMapping (B "u1") (mapping_edit "" "a" 1), at_time 1); (AddMapping (B "u2") (mapping_edit "" "b" 2), at_time 2);
   (AddRollup (B "u3") (rollup_edit "" "a" 3), at_time 3); (DeleteMapping (B "u1"), at_time 4);
   (AddMapping (B "u4") (mapping_edit "" "a" 5), at_time 5); (AddMapping (B "u5") (mapping_edit "" "b" 6), at_time 6)].
Definition after_session : rule_set := run_edits empty_set session.

(** ** C33: histories are append-only *)
Theorem C33_append_only rs e m rs' ok : run_edit rs e m = (rs', ok) ->
  rules_grown m (rs_mapping rs) (rs_mapping rs') /\ rules_grown m (rs_rollup rs) (rs_rollup rs').
Proof. exact (run_edit_grown rs e m rs' ok). Qed.
Print Assumptions C33_append_only.

Theorem C33_single rs e m rs' ok : e <> DeleteSet -> run_edit rs e m = (rs', ok) ->
  one_change m (rs_mapping rs) (rs_mapping rs') /\ one_change m (rs_rollup rs) (rs_rollup rs') /\
  (touches_mapping e = false -> rs_mapping rs' = rs_mapping rs) /\
  (touches_rollup e = false -> rs_rollup rs' = rs_rollup rs).
Proof. exact (run_edit_one rs e m rs' ok). Qed.
Print Assumptions C33_single.

Theorem C33_failed rs e m rs' : run_edit rs e m = (rs', false) -> rs' = rs.
Proof. exact (run_edit_failed rs e m rs'). Qed.
Print Assumptions C33_failed.

Theorem C33_metadata rs e m rs' : run_edit rs e m = (rs', true) ->
  rs_uuid rs' = rs_uuid rs /\ rs_version rs' = rs_version rs /\ rs_namespace rs' = rs_namespace rs /\
  rs_created_at rs' = rs_created_at rs /\ rs_opts rs' = rs_opts rs /\ rs_new_id rs' = rs_new_id rs /\
  rs_is_rollup rs' = rs_is_rollup rs /\
  rs_cutover rs' = um_cutover m /\ rs_updated_at rs' = um_at m /\ rs_updated_by rs' = um_by m /\
  rs_tomb rs' = match e with DeleteSet => true | ReviveSet => false | _ => rs_tomb rs end.
Proof. exact (run_edit_meta rs e m rs'). Qed.
Print Assumptions C33_metadata.

Theorem C33_sequence rs es :
  histories_kept (rs_mapping rs) (rs_mapping (run_edits rs es)) /\
  histories_kept (rs_rollup rs) (rs_rollup (run_edits rs es)).
Proof. exact (run_edits_kept es rs). Qed.
Print Assumptions C33_sequence.

Theorem C33_ordered rs es c : dated_edits c es ->
  dated_by c (rs_mapping rs) -> dated_by c (rs_rollup rs) ->
  all_ascending (rs_mapping rs) -> all_ascending (rs_rollup rs) ->
  all_ascending (rs_mapping (run_edits rs es)) /\ all_ascending (rs_rollup (run_edits rs es)).
Proof. exact (run_edits_ascending es c rs). Qed.
Print Assumptions C33_ordered.

(** What is matched before the edit's cutover does not change. *)
Theorem C33_past rs e m rs' ok t0 id from to :
  run_edit rs e m = (rs', ok) ->
  all_ascending (rs_mapping rs) -> all_ascending (rs_rollup rs) ->
  dated_by (um_cutover m) (rs_mapping rs) -> dated_by (um_cutover m) (rs_rollup rs) ->
  t0 <= from -> from < um_cutover m -> to <= um_cutover m ->
  mr_existing (forward_match (active_set rs' t0) id from to) = mr_existing (forward_match (active_set rs t0) id from to) /\
  mr_news (forward_match (active_set rs' t0) id from to) = mr_news (forward_match (active_set rs t0) id from to).
Proof. exact (edit_past rs e m rs' ok t0 id from to). Qed.
Print Assumptions C33_past.

Theorem C33_in_effect rs e m rs' ok id t : run_edit rs e m = (rs', ok) -> t < um_cutover m ->
  (forall s, (exists r', In r' (rs_mapping rs') /\ live id t r' s) <-> (exists r, In r (rs_mapping rs) /\ live id t r s)) /\
  (forall s, (exists r', In r' (rs_rollup rs') /\ live id t r' s) <-> (exists r, In r (rs_rollup rs) /\ live id t r s)).
Proof.
  intros H Ht. apply run_edit_grown in H as [Hm Hr]. split; intros s; eapply extended_live; eauto using grown_extended.
Qed.
Print Assumptions C33_in_effect.

Example C33_nonvacuous :
  dated_edits 10 session /\
  map (fun r => (ru_uuid r, map (fun s => (sn_name s, sn_tomb s, sn_cutover s)) (ru_snapshots r))) (rs_mapping after_session) =
    [(B "u1", [(B "a", false, 11); (B "a", true, 14); (B "a", false, 15)]); (B "u2", [(B "b", false, 12)])] /\
  length (rs_rollup after_session) = 1%nat /\
  all_ascending (rs_mapping after_session) /\ dated_by 30 (rs_mapping after_session) /\
  snd (run_edit after_session (UpdateMapping (mapping_edit "u2" "c" 7)) (at_time 20)) = true.
Proof.
  split; [simpl; repeat split; discriminate|]. split; [reflexivity|]. split; [reflexivity|]. split; [|split; [|reflexivity]].
  - repeat constructor; simpl; lia.
  - intros r s Hr Hs. vm_compute in Hr. destruct Hr as [<-|[<-|[]]]; simpl in Hs; intuition (subst; simpl; lia).
Qed.

(** ** C34: names *)
Theorem C34_names_unique rs es : Forall (fun em => is_update (fst em) = false) es -> names_ok rs ->
  names_ok (run_edits rs es) /\
  live_names_distinct (rs_mapping (run_edits rs es)) /\ live_names_distinct (rs_rollup (run_edits rs es)).
Proof.
  intros Hu Hn. pose proof (run_edits_names es rs Hu Hn) as [H1 H2]. split; [split; auto|]. split; now apply names_live.
Qed.
Print Assumptions C34_names_unique.

Theorem C34_names_step rs e m : ids_ok rs -> no_clash rs e -> names_ok rs -> names_ok (fst (run_edit rs e m)).
Proof. exact (run_edit_names rs e m). Qed.
Print Assumptions C34_names_step.

Theorem C34_ids_unique rs e m : fresh_id rs e -> ids_ok rs -> ids_ok (fst (run_edit rs e m)).
Proof. exact (run_edit_ids rs e m). Qed.
Print Assumptions C34_ids_unique.

Theorem C34_live_name_rejected_mapping rs f e m r : names_ok rs -> In r (rs_mapping rs) -> latest_name r (re_name e) -> is_live r ->
  run_edit rs (AddMapping f e) m = (rs, false).
Proof. intros [Hn _] Hr Hl Hv. simpl. now rewrite (add_live_fails true f (rs_mapping rs) e m r Hn Hr Hl Hv). Qed.
Print Assumptions C34_live_name_rejected_mapping.
Theorem C34_live_name_rejected_rollup rs f e m r : names_ok rs -> In r (rs_rollup rs) -> latest_name r (re_name e) -> is_live r ->
  run_edit rs (AddRollup f e) m = (rs, false).
Proof. intros [_ Hn] Hr Hl Hv. simpl. now rewrite (add_live_fails false f (rs_rollup rs) (view_targets e) m r Hn Hr Hl Hv). Qed.
Print Assumptions C34_live_name_rejected_rollup.

(** An addition under a dead name gives the old rule one more snapshot and returns its ID. *)
Theorem C34_revives_mapping rs f e m a r b : rs_mapping rs = a ++ r :: b -> names_ok rs -> filter_text_ok (re_filter e) ->
  latest_name r (re_name e) -> ~ is_live r ->
  exists rs', run_edit rs (AddMapping f e) m = (rs', true) /\ added_id rs (AddMapping f e) m = Some (ru_uuid r) /\
    rs_mapping rs' = a ++ mk_rule (ru_uuid r) (ru_snapshots r ++ [edited e m]) :: b /\ rs_rollup rs' = rs_rollup rs.
Proof.
  intros E [Hn _] Hf Hl Hd. rewrite E in Hn. eexists. simpl. rewrite E, (add_revives true f a r b e m); auto. simpl. repeat split.
Qed.
Print Assumptions C34_revives_mapping.
Theorem C34_revives_rollup rs f e m a r b : rs_rollup rs = a ++ r :: b -> names_ok rs -> filter_text_ok (re_filter e) ->
  Forall (fun r => ru_snapshots r <> []) (rs_rollup rs) -> latest_name r (re_name e) -> ~ is_live r ->
  exists rs', run_edit rs (AddRollup f e) m = (rs', true) /\ added_id rs (AddRollup f e) m = Some (ru_uuid r) /\
    rs_rollup rs' = a ++ mk_rule (ru_uuid r) (ru_snapshots r ++ [edited e m]) :: b /\ rs_mapping rs' = rs_mapping rs.
Proof.
  intros E [_ Hn] Hf Hs Hl Hd. rewrite E in Hn, Hs. apply Forall_app in Hs as [Hs _]. rewrite <- (view_targets_id e).
  eexists. simpl. rewrite !view_targets_id in *. rewrite E, (add_revives false f a r b e m); auto. simpl. repeat split.
Qed.
Print Assumptions C34_revives_rollup.

Example C34_nonvacuous :
  Forall (fun em => is_update (fst em) = false) session /\ names_ok empty_set /\ ids_ok empty_set /\
  (exists r1 r2, rs_mapping after_session = [r1; r2] /\ is_live r1 /\ is_live r2 /\ latest_name r1 (B "a") /\ latest_name r2 (B "b")) /\
  added_id after_session (AddMapping (B "u9") (mapping_edit "" "a" 5)) (at_time 9) = None /\
  added_id (fst (run_edit after_session (DeleteMapping (B "u1")) (at_time 8))) (AddMapping (B "u9") (mapping_edit "" "a" 5)) (at_time 9) = Some (B "u1").
Proof.
  split; [repeat constructor|]. split; [split; intros i j r r' n Hi; destruct i; discriminate Hi|]. split; [split; constructor|].
  split; [|split; vm_compute; reflexivity].
  eexists _, _. split; [vm_compute; reflexivity|].
  unfold is_live, latest_name, newest. simpl.
  repeat split; (eexists; split; [first [exists []; reflexivity | eexists [_]; reflexivity | eexists [_; _]; reflexivity]|reflexivity]).
Qed.

(** Updates are not checked: renaming "b" to "a" gives two live rules called "a". *)
Theorem C34_update_can_rename : exists rs e m, names_ok rs /\ ids_ok rs /\
  (exists i j r r', i <> j /\ nth_error (rs_mapping (fst (run_edit rs e m))) i = Some r /\
     nth_error (rs_mapping (fst (run_edit rs e m))) j = Some r' /\
     is_live r /\ is_live r' /\ latest_name r (B "a") /\ latest_name r' (B "a")).
Proof.
  exists after_session, (UpdateMapping (mapping_edit "u2" "a" 7)), (at_time 20).
  split; [apply C34_names_unique; [repeat constructor|split; intros i j r r' n Hi; destruct i; discriminate Hi]|].
  split; [split; vm_compute; repeat constructor; simpl; intuition discriminate|].
  exists 0%nat, 1%nat. eexists _, _. split; [discriminate|]. split; [vm_compute; reflexivity|]. split; [vm_compute; reflexivity|].
  unfold is_live, latest_name, newest. simpl.
  repeat split; (eexists; split; [first [exists []; reflexivity | eexists [_]; reflexivity | eexists [_; _]; reflexivity]|reflexivity]).
Qed.
Print Assumptions C34_update_can_rename.

(** ** C35: deleting a rule set *)
Theorem C35_delete rs m : rs_tomb rs = false ->
  exists rs', run_edit rs DeleteSet m = (rs', true) /\ rs_tomb rs' = true /\
    (forall r, In r (rs_mapping rs') -> ~ is_live r) /\ (forall r, In r (rs_rollup rs') -> ~ is_live r) /\
    histories_kept (rs_mapping rs) (rs_mapping rs') /\ histories_kept (rs_rollup rs) (rs_rollup rs') /\
    length (rs_mapping rs') = length (rs_mapping rs) /\ length (rs_rollup rs') = length (rs_rollup rs).
Proof. exact (delete_set rs m). Qed.
Print Assumptions C35_delete.

Theorem C35_nothing_matches rs m rs' t0 id from to :
  run_edit rs DeleteSet m = (rs', true) ->
  all_ascending (rs_mapping rs) -> all_ascending (rs_rollup rs) ->
  dated_by (um_cutover m) (rs_mapping rs) -> dated_by (um_cutover m) (rs_rollup rs) ->
  t0 <= from -> um_cutover m <= from ->
  (forall r s, In r (rs_mapping rs') -> ~ live id from r s) /\ (forall r s, In r (rs_rollup rs') -> ~ live id from r s) /\
  (exists c, mr_existing (forward_match (active_set rs' t0) id from to) = [mk_sm [mk_pm 0%N [] [] 0] c false]) /\
  mr_news (forward_match (active_set rs' t0) id from to) = [].
Proof. exact (deleted_matches_nothing rs m rs' t0 id from to). Qed.
Print Assumptions C35_nothing_matches.

Theorem C35_delete_twice rs m : rs_tomb rs = true -> run_edit rs DeleteSet m = (rs, false).
Proof. intros H. simpl. now rewrite H. Qed.
Print Assumptions C35_delete_twice.

Theorem C35_revive rs m :
  (rs_tomb rs = false -> run_edit rs ReviveSet m = (rs, false)) /\
  (rs_tomb rs = true -> exists rs', run_edit rs ReviveSet m = (rs', true) /\ rs_tomb rs' = false /\
     rs_mapping rs' = rs_mapping rs /\ rs_rollup rs' = rs_rollup rs).
Proof. split; intros H; simpl; rewrite H; auto. simpl. eexists. split; [reflexivity|]. simpl. auto. Qed.
Print Assumptions C35_revive.

Example C35_nonvacuous :
  rs_tomb after_session = false /\
  (let rs := fst (run_edit after_session DeleteSet (at_time 20)) in
   map (fun r => length (ru_snapshots r)) (rs_mapping rs) = [4; 2]%nat /\ map (fun r => length (ru_snapshots r)) (rs_rollup rs) = [2]%nat) /\
  (let rs := history_example [5] in
   let rs' := fst (run_edit rs DeleteSet (at_time 20)) in
   map sm_pipelines (mr_existing (forward_match (active_set rs' 0) metric 29 30)) = [[mk_pm 0%N [sp 5 5] [] 0]] /\
   map sm_pipelines (mr_existing (forward_match (active_set rs' 0) metric 30 40)) = [[mk_pm 0%N [] [] 0]]).
Proof. repeat split; vm_compute; reflexivity. Qed.

(** ** C37: batches *)
Theorem C37_in_order rs ms rr m rs' :
  apply_rule_set_changes rs ms rr m = (rs', Done) <->
  exists es1 es2, Forall2 asks_mapping ms es1 /\ Forall2 asks_rollup rr es2 /\ all_succeed m rs (es1 ++ es2) rs'.
Proof. exact (batch_done rs ms rr m rs'). Qed.
Print Assumptions C37_in_order.

(** A batch that does not succeed has carried out the changes before the first one that cannot be. *)
Theorem C37_failure rs ms rr m rs' o : o <> Done -> apply_rule_set_changes rs ms rr m = (rs', o) ->
  exists es, all_succeed m rs es rs' /\
    ((exists done c rest, ms = done ++ c :: rest /\ Forall2 asks_mapping done es /\
        ((forall e, ~ asks_mapping c e) \/ (o = Error /\ exists e, asks_mapping c e /\ run_edit rs' e m = (rs', false)))) \/
     (exists es1 es2 done c rest, es = es1 ++ es2 /\ Forall2 asks_mapping ms es1 /\ rr = done ++ c :: rest /\ Forall2 asks_rollup done es2 /\
        ((forall e, ~ asks_rollup c e) \/ (o = Error /\ exists e, asks_rollup c e /\ run_edit rs' e m = (rs', false))))).
Proof. exact (batch_stop rs ms rr m rs' o). Qed.
Print Assumptions C37_failure.

Definition batch := [mk_rc (B "add") None (Some (mapping_edit "" "c" 1)) (B "u6"); mk_rc (B "delete") (Some (B "u2")) None []].
Example C37_nonvacuous :
  snd (apply_rule_set_changes after_session batch [mk_rc (B "change") None (Some (rollup_edit "u3" "d" 1)) []] (at_time 20)) = Done /\
  (let '(rs, o) := apply_rule_set_changes after_session (batch ++ [mk_rc (B "drop") None None []]) [] (at_time 20) in
   o = Error /\ length (rs_mapping rs) = 3%nat /\ length (rs_mapping after_session) = 2%nat) /\
  snd (apply_rule_set_changes after_session [mk_rc (B "delete") None None []] [] (at_time 20)) = Panic.
Proof. repeat split; vm_compute; reflexivity. Qed.

(** ** C58: the latest view *)
Theorem C58_latest_mapping rs : ids_distinct (rs_mapping rs) ->
  exists vs, collect (shows_live (fun b => b)) (rs_mapping rs) vs /\ Permutation vs (rsv_mapping (latest rs)) /\
    StronglySorted (fun v w => bleb (rv_name v) (rv_name w) = true) (rsv_mapping (latest rs)).
Proof. exact (latest_mapping rs). Qed.
Print Assumptions C58_latest_mapping.

Theorem C58_latest_rollup rs : ids_distinct (rs_rollup rs) ->
  (forall r s tg, In r (rs_rollup rs) -> In s (ru_snapshots r) -> In tg (sn_body s) -> Forall op_canonical (tg_pipeline tg)) ->
  exists vs, collect (shows_live (fun b => b)) (rs_rollup rs) vs /\ Permutation vs (rsv_rollup (latest rs)) /\
    StronglySorted (fun v w => bleb (rv_name v) (rv_name w) = true) (rsv_rollup (latest rs)).
Proof. exact (latest_rollup rs). Qed.
Print Assumptions C58_latest_rollup.

Theorem C58_latest_header rs :
  rsv_namespace (latest rs) = rs_namespace rs /\ rsv_version (latest rs) = rs_version rs /\
  rsv_cutover_ms (latest rs) = Z.quot (rs_cutover rs) 1000000.
Proof. repeat split. Qed.
Print Assumptions C58_latest_header.

Example C58_nonvacuous :
  let rs := fst (run_edit after_session (AddMapping (B "u6") (mapping_edit "" "0" 5)) (at_time 30000000)) in
  ids_distinct (rs_mapping rs) /\
  map (fun v => (rv_id v, rv_name v, rv_cutover_ms v)) (rsv_mapping (latest rs)) = [(B "u6", B "0", 30); (B "u1", B "a", 0); (B "u2", B "b", 0)] /\
  map rv_id (rsv_mapping (latest (fst (run_edit rs (DeleteMapping (B "u1")) (at_time 30000001))))) = [B "u6"; B "u2"].
Proof. split; [|split; vm_compute; reflexivity]. vm_compute. repeat constructor; simpl; intuition discriminate. Qed.

(** ** C59: histories in views, and clones *)
Theorem C59_history_mapping rs : ids_distinct (rs_mapping rs) ->
  Forall2 (fun r e => fst e = ru_uuid r /\ Forall2 (shows_snapshot (fun b => b) (ru_uuid r)) (rev (ru_snapshots r)) (snd e))
    (rs_mapping rs) (rule_histories mb_clone (rs_mapping rs)).
Proof. intros H. apply histories_shown; auto. intros b; now destruct b. Qed.
Print Assumptions C59_history_mapping.

Theorem C59_history_rollup rs : ids_distinct (rs_rollup rs) ->
  Forall2 (fun r e => fst e = ru_uuid r /\ Forall2 (shows_snapshot targets_clone (ru_uuid r)) (rev (ru_snapshots r)) (snd e))
    (rs_rollup rs) (rule_histories targets_clone (rs_rollup rs)).
Proof. intros H. now apply histories_shown. Qed.
Print Assumptions C59_history_rollup.

Theorem C59_clone rs :
  (forall r s tg, In r (rs_rollup rs) -> In s (ru_snapshots r) -> In tg (sn_body s) -> Forall op_canonical (tg_pipeline tg)) ->
  rule_set_clone rs = rs.
Proof. exact (clone_same rs). Qed.
Print Assumptions C59_clone.

Example C59_nonvacuous :
  rule_set_clone after_session = after_session /\
  map (fun e => (fst e, map (fun v => (rv_tomb v, rv_body v)) (snd e))) (rule_histories mb_clone (rs_mapping after_session)) =
    [(B "u1", [(false, mk_mb 0%N [sp 5 1] 0); (true, mk_mb 0%N [] 0); (false, mk_mb 0%N [sp 1 1] 0)]);
     (B "u2", [(false, mk_mb 0%N [sp 2 1] 0)])].
Proof. split; vm_compute; reflexivity. Qed.

(** ** C60: an edit does exactly what it is asked to *)
Theorem C60_add_mapping rs f e m :
  (forall rs', run_edit rs (AddMapping f e) m = (rs', true) ->
     exists id, adds f e m (rs_mapping rs) (rs_mapping rs') id /\ added_id rs (AddMapping f e) m = Some id /\ rs_rollup rs' = rs_rollup rs) /\
  (forall l' id, adds f e m (rs_mapping rs) l' id ->
     exists rs', run_edit rs (AddMapping f e) m = (rs', true) /\ rs_mapping rs' = l' /\ added_id rs (AddMapping f e) m = Some id).
Proof. exact (exact_add_mapping rs f e m). Qed.
Print Assumptions C60_add_mapping.

Theorem C60_add_rollup rs f e m : Forall (fun r => ru_snapshots r <> []) (rs_rollup rs) ->
  (forall rs', run_edit rs (AddRollup f e) m = (rs', true) ->
     exists id, adds f e m (rs_rollup rs) (rs_rollup rs') id /\ added_id rs (AddRollup f e) m = Some id /\ rs_mapping rs' = rs_mapping rs) /\
  (forall l' id, adds f e m (rs_rollup rs) l' id ->
     exists rs', run_edit rs (AddRollup f e) m = (rs', true) /\ rs_rollup rs' = l' /\ added_id rs (AddRollup f e) m = Some id).
Proof. exact (exact_add_rollup rs f e m). Qed.
Print Assumptions C60_add_rollup.

Theorem C60_update_mapping rs e m l' :
  (exists rs', run_edit rs (UpdateMapping e) m = (rs', true) /\ rs_mapping rs' = l' /\ rs_rollup rs' = rs_rollup rs) <->
  updates e m (rs_mapping rs) l'.
Proof. exact (exact_update_mapping rs e m l'). Qed.
Print Assumptions C60_update_mapping.

Theorem C60_update_rollup rs e m l' :
  (exists rs', run_edit rs (UpdateRollup e) m = (rs', true) /\ rs_rollup rs' = l' /\ rs_mapping rs' = rs_mapping rs) <->
  updates e m (rs_rollup rs) l'.
Proof. exact (exact_update_rollup rs e m l'). Qed.
Print Assumptions C60_update_rollup.

Theorem C60_delete_mapping rs id m l' :
  (exists rs', run_edit rs (DeleteMapping id) m = (rs', true) /\ rs_mapping rs' = l' /\ rs_rollup rs' = rs_rollup rs) <->
  deletes (mk_mb 0%N [] 0) id m (rs_mapping rs) l'.
Proof. exact (exact_delete_mapping rs id m l'). Qed.
Print Assumptions C60_delete_mapping.

Theorem C60_delete_rollup rs id m l' :
  (exists rs', run_edit rs (DeleteRollup id) m = (rs', true) /\ rs_rollup rs' = l' /\ rs_mapping rs' = rs_mapping rs) <->
  deletes [] id m (rs_rollup rs) l'.
Proof. exact (exact_delete_rollup rs id m l'). Qed.
Print Assumptions C60_delete_rollup.

(** Every rule of a set that is edited from the empty one has a snapshot. *)
Theorem C60_rules_have_snapshots rs es :
  Forall (fun r => ru_snapshots r <> []) (rs_rollup rs) -> Forall (fun r => ru_snapshots r <> []) (rs_rollup (run_edits rs es)).
Proof. exact (run_edits_nonempty es rs). Qed.
Print Assumptions C60_rules_have_snapshots.

Example C60_nonvacuous :
  Forall (fun r => ru_snapshots r <> []) (rs_rollup empty_set) /\
  snd (run_edit after_session (UpdateRollup (rollup_edit "u3" "d" 7)) (at_time 20)) = true /\
  snd (run_edit after_session (UpdateRollup (mk_re (B "u3") (B "d") (B "bad") [])) (at_time 20)) = false /\
  snd (run_edit after_session (UpdateMapping (mapping_edit "u3" "d" 7)) (at_time 20)) = false /\
  snd (run_edit after_session (DeleteRollup (B "u3")) (at_time 20)) = true.
Proof. split; [constructor|]. repeat split; vm_compute; reflexivity. Qed.
