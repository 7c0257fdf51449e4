(** C85: edits made with the metadata of the update helper take effect when the propagation delay has passed. *)
From Coq Require Import Ascii String Arith NArith ZArith Bool Lia List.
From Verif.Proof Require Import EditProof.
From Verif.Base Require Import Bytes BytesFacts.
From Verif.Model Require Import AggType Policy Transformation Pipeline Metadata Filter MetricID Rules RuleSet.
From Verif.Spec Require Import RulesSpec EditSpec DelaySpec.
From Verif.Props Require Import RulesProps EditProps.
Import ListNotations.
Open Scope Z_scope.

Lemma last_in_effect {P} (h : list (snapshot P)) s T : sn_cutover s <= T -> in_effect (h ++ [s]) T s.
Proof. intros H. exists h, []. repeat split; [exact H|constructor]. Qed.

Lemma adds_says {P} f (e : rule_edit P) t d by_ l l' id : adds f e (new_update_metadata d t by_) l l' id ->
  exists r, In r l' /\ ru_uuid r = id /\ says_from t d by_ e r.
Proof.
  intros H. destruct H as [l F N|a r b F N L D].
  - eexists. split; [apply in_or_app; right; left; reflexivity|]. split; [reflexivity|].
    intros T HT. apply (last_in_effect []). exact HT.
  - eexists. split; [apply in_or_app; right; left; reflexivity|]. split; [reflexivity|].
    intros T HT. apply (last_in_effect (ru_snapshots r)). exact HT.
Qed.

Lemma updates_says {P} (e : rule_edit P) t d by_ l l' : updates e (new_update_metadata d t by_) l l' ->
  exists r, In r l' /\ ru_uuid r = re_id e /\ says_from t d by_ e r.
Proof.
  intros H. destruct H as [a r b F N L].
  eexists. split; [apply in_or_app; right; left; reflexivity|]. split; [exact L|].
  intros T HT. apply (last_in_effect (ru_snapshots r)). exact HT.
Qed.

Lemma deletes_says {P} (empty : P) id t d by_ l l' : deletes empty id (new_update_metadata d t by_) l l' ->
  exists r, In r l' /\ ru_uuid r = id /\ deleted_from t d by_ r.
Proof.
  intros H. destruct H as [a r s b N L W Tb].
  eexists. split; [apply in_or_app; right; left; reflexivity|]. split; [exact L|].
  eexists. repeat split; cycle 4; [intros T HT; apply (last_in_effect (ru_snapshots r)); exact HT|reflexivity..].
Qed.

(** Until [t + d] every match is what it was ... *)
Theorem C85_before rs e d t by_ rs' ok t0 id from to :
  run_edit rs e (new_update_metadata d t by_) = (rs', ok) ->
  all_ascending (rs_mapping rs) -> all_ascending (rs_rollup rs) ->
  dated_by (t + d) (rs_mapping rs) -> dated_by (t + d) (rs_rollup rs) ->
  t0 <= from -> from < t + d -> to <= t + d ->
  mr_existing (forward_match (active_set rs' t0) id from to) = mr_existing (forward_match (active_set rs t0) id from to) /\
  mr_news (forward_match (active_set rs' t0) id from to) = mr_news (forward_match (active_set rs t0) id from to).
Proof. exact (C33_past rs e (new_update_metadata d t by_) rs' ok t0 id from to). Qed.
Print Assumptions C85_before.

(** ... and from then on the rule that was added, updated or deleted is what the edit said. *)
Theorem C85_after rs d t by_ rs' :
  (forall f e, run_edit rs (AddMapping f e) (new_update_metadata d t by_) = (rs', true) ->
     exists r, In r (rs_mapping rs') /\ added_id rs (AddMapping f e) (new_update_metadata d t by_) = Some (ru_uuid r) /\
       says_from t d by_ e r) /\
  (forall f e, Forall (fun r => ru_snapshots r <> []) (rs_rollup rs) ->
     run_edit rs (AddRollup f e) (new_update_metadata d t by_) = (rs', true) ->
     exists r, In r (rs_rollup rs') /\ added_id rs (AddRollup f e) (new_update_metadata d t by_) = Some (ru_uuid r) /\
       says_from t d by_ e r) /\
  (forall e, run_edit rs (UpdateMapping e) (new_update_metadata d t by_) = (rs', true) ->
     exists r, In r (rs_mapping rs') /\ ru_uuid r = re_id e /\ says_from t d by_ e r) /\
  (forall e, run_edit rs (UpdateRollup e) (new_update_metadata d t by_) = (rs', true) ->
     exists r, In r (rs_rollup rs') /\ ru_uuid r = re_id e /\ says_from t d by_ e r) /\
  (forall id, run_edit rs (DeleteMapping id) (new_update_metadata d t by_) = (rs', true) ->
     exists r, In r (rs_mapping rs') /\ ru_uuid r = id /\ deleted_from t d by_ r) /\
  (forall id, run_edit rs (DeleteRollup id) (new_update_metadata d t by_) = (rs', true) ->
     exists r, In r (rs_rollup rs') /\ ru_uuid r = id /\ deleted_from t d by_ r).
Proof.
  set (m := new_update_metadata d t by_).
  repeat split.
  - intros f e H. destruct (proj1 (C60_add_mapping rs f e m) rs' H) as (id & A & I & _).
    destruct (adds_says f e t d by_ _ _ id A) as (r & R1 & R2 & R3). exists r. rewrite R2. auto.
  - intros f e F H. destruct (proj1 (C60_add_rollup rs f e m F) rs' H) as (id & A & I & _).
    destruct (adds_says f e t d by_ _ _ id A) as (r & R1 & R2 & R3). exists r. rewrite R2. auto.
  - intros e H. apply (updates_says e t d by_ (rs_mapping rs)). apply C60_update_mapping. exists rs'.
    destruct (C33_single rs (UpdateMapping e) m rs' true ltac:(discriminate) H) as (_ & _ & _ & K). auto.
  - intros e H. apply (updates_says e t d by_ (rs_rollup rs)). apply C60_update_rollup. exists rs'.
    destruct (C33_single rs (UpdateRollup e) m rs' true ltac:(discriminate) H) as (_ & _ & K & _). auto.
  - intros id H. apply (deletes_says (mk_mb 0%N [] 0) id t d by_ (rs_mapping rs)). apply C60_delete_mapping. exists rs'.
    destruct (C33_single rs (DeleteMapping id) m rs' true ltac:(discriminate) H) as (_ & _ & _ & K). auto.
  - intros id H. apply (deletes_says (@nil target) id t d by_ (rs_rollup rs)). apply C60_delete_rollup. exists rs'.
    destruct (C33_single rs (DeleteRollup id) m rs' true ltac:(discriminate) H) as (_ & _ & K & _). auto.
Qed.
Print Assumptions C85_after.

(** The rule set records the same times and the author. *)
Theorem C85_recorded rs e d t by_ rs' : run_edit rs e (new_update_metadata d t by_) = (rs', true) ->
  rs_cutover rs' = t + d /\ rs_updated_at rs' = t /\ rs_updated_by rs' = by_.
Proof. intros H. destruct (C33_metadata rs e _ rs' H) as (_ & _ & _ & _ & _ & _ & _ & A & C & D & _). auto. Qed.
Print Assumptions C85_recorded.

(** A whole session: with one delay and requests in the order of their times every history is in the order of time, so that
    the two theorems above apply to every edit of it. *)
Theorem C85_session rs d by_ (reqs : list (edit * Z)) t0 :
  Sorted.StronglySorted Z.le (map snd reqs) -> Forall (fun q => t0 <= snd q) reqs ->
  dated_by (t0 + d) (rs_mapping rs) -> dated_by (t0 + d) (rs_rollup rs) ->
  all_ascending (rs_mapping rs) -> all_ascending (rs_rollup rs) ->
  let rs' := run_edits rs (map (fun q => (fst q, new_update_metadata d (snd q) by_)) reqs) in
  all_ascending (rs_mapping rs') /\ all_ascending (rs_rollup rs') /\
  forall t1, Forall (fun q => snd q <= t1) reqs -> t0 <= t1 ->
    dated_by (t1 + d) (rs_mapping rs') /\ dated_by (t1 + d) (rs_rollup rs').
Proof.
  revert rs t0. induction reqs as [|[e t] reqs IH]; intros rs t0 Hs Hl Dm Dr Am Ar.
  - split; [exact Am|]. split; [exact Ar|]. intros t1 _ H1.
    split; [apply (dated_by_weaken (t0 + d)); [lia|exact Dm]|apply (dated_by_weaken (t0 + d)); [lia|exact Dr]].
  - cbn [map snd] in Hs. apply Sorted.StronglySorted_inv in Hs as [Hs Ht]. apply Forall_inv in Hl as H0. cbn [snd] in H0.
    set (m := new_update_metadata d t by_).
    destruct (run_edit rs e m) as [rs1 ok] eqn:E.
    destruct (C33_append_only rs e m rs1 ok E) as [Gm Gr].
    apply (dated_by_weaken (t0 + d) (t + d)) in Dm; [|lia]. apply (dated_by_weaken (t0 + d) (t + d)) in Dr; [|lia].
    destruct (grown_ascending m _ _ Gm Dm Am) as [Am1 Dm1]. destruct (grown_ascending m _ _ Gr Dr Ar) as [Ar1 Dr1].
    assert (Hl1 : Forall (fun q : edit * Z => t <= snd q) reqs).
    { apply Forall_forall. intros q Hq. rewrite Forall_forall in Ht. apply Ht. apply in_map. exact Hq. }
    specialize (IH rs1 t Hs Hl1 Dm1 Dr1 Am1 Ar1). cbv zeta in IH |- *.
    cbn [map fst snd]. unfold run_edits. cbn [fold_left fst snd]. fold m. rewrite E. cbn [fst].
    destruct IH as (I1 & I2 & I3). split; [exact I1|]. split; [exact I2|].
    intros t1 F1 _. apply I3; [exact (Forall_inv_tail F1)|]. exact (Forall_inv F1).
Qed.
Print Assumptions C85_session.

(** Non-vacuity: the delay is 10; rule "a", added at time 1 and updated at time 20, says the first until time 30 and the
    second from then on; it is deleted at time 50, with effect from time 60. *)
Definition delay_ex (t : Z) : update_meta := new_update_metadata 10 t (B "me").
Definition reqs_ex : list (edit * Z) :=
  [(AddMapping (B "u1") (mapping_edit "" "a" 1), 1); (UpdateMapping (mapping_edit "u1" "a" 2), 20);
   (UpdateMapping (mapping_edit "u9" "a" 3), 30); (DeleteMapping (B "u1"), 50)].
Example C85_nonvacuous :
  let rs1 := fst (run_edit empty_set (AddMapping (B "u1") (mapping_edit "" "a" 1)) (delay_ex 1)) in
  let rs2 := fst (run_edit rs1 (UpdateMapping (mapping_edit "u1" "a" 2)) (delay_ex 20)) in
  let rs4 := run_edits empty_set (map (fun q => (fst q, new_update_metadata 10 (snd q) (B "me"))) reqs_ex) in
  snd (run_edit empty_set (AddMapping (B "u1") (mapping_edit "" "a" 1)) (delay_ex 1)) = true /\
  snd (run_edit rs1 (UpdateMapping (mapping_edit "u1" "a" 2)) (delay_ex 20)) = true /\
  map (fun r => map sn_cutover (ru_snapshots r)) (rs_mapping rs2) = [[11; 30]] /\
  map (fun r => map sn_cutover (ru_snapshots r)) (rs_mapping rs4) = [[11; 30; 60]] /\
  map (fun r => map sn_tomb (ru_snapshots r)) (rs_mapping rs4) = [[false; false; true]] /\
  Sorted.StronglySorted Z.le (map snd reqs_ex).
Proof.
  split; [vm_compute; reflexivity|]. split; [vm_compute; reflexivity|]. split; [vm_compute; reflexivity|].
  split; [vm_compute; reflexivity|]. split; [vm_compute; reflexivity|].
  cbn [map snd reqs_ex]. repeat constructor; lia.
Qed.
