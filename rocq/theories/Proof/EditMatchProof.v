(** Proofs about what edits do to matching, about deleting rule sets, batches and views. *)
From Coq Require Import Ascii String Arith NArith ZArith Bool Lia Permutation Sorting.Sorted List.
From Verif.Base Require Import Bytes BytesFacts.
From Verif.Proof Require Import MetadataProof RulesProof MatchProof InstantProof EditProof.
From Verif.Model Require Import AggType Policy Transformation Pipeline Metadata Filter MetricID Rules RuleSet.
From Verif.Spec Require Import AggSpec MetadataSpec FilterSpec RulesSpec EditSpec.
Import ListNotations.
Open Scope Z_scope.

(** ** The past *)

(** [l'] is [l] with snapshots added from the time [c] on. *)
Definition extended_after {P} (c : Z) (l l' : list (rule P)) : Prop :=
  exists kept new, l' = kept ++ new /\
    Forall2 (fun r r' => exists more, ru_snapshots r' = ru_snapshots r ++ more /\ Forall (fun s => c <= sn_cutover s) more) l kept /\
    Forall (fun r => Forall (fun s => c <= sn_cutover s) (ru_snapshots r)) new.

Lemma grown_extended {P} m (l l' : list (rule P)) : rules_grown m l l' -> extended_after (um_cutover m) l l'.
Proof.
  intros (k & n & -> & Hk & Hn). exists k, n. split; auto. split.
  - eapply Forall2_imp; [|exact Hk]. intros r r' [->|(s & _ & Hs & Hst & _)].
    + exists []. rewrite app_nil_r; auto.
    + exists [s]; split; auto. constructor; auto. lia.
  - destruct Hn as [->|(r & -> & s & Hs & Hst & _)]; auto. constructor; auto. rewrite Hs. constructor; auto. lia.
Qed.

Lemma active_snapshot_extended {P} (r r' : rule P) more c t :
  ru_snapshots r' = ru_snapshots r ++ more -> Forall (fun s => c <= sn_cutover s) more -> t < c ->
  active_snapshot r' t = active_snapshot r t.
Proof.
  intros E Hm Ht. destruct (active_snapshot r t) as [s|] eqn:Ea.
  - apply active_snapshot_some in Ea as (b & a & Eh & Hc & Ha). apply active_snapshot_some. exists b, (a ++ more).
    rewrite E, Eh, <- app_assoc. split; auto. split; auto. apply Forall_app; split; auto.
    eapply Forall_impl; [|exact Hm]. simpl; intros; lia.
  - apply active_snapshot_none in Ea. apply active_snapshot_none. rewrite E. apply Forall_app; split; auto.
    eapply Forall_impl; [|exact Hm]. simpl; intros; lia.
Qed.

Lemma match_rules_app_none {P} (l new : list (rule P)) id t : Forall (fun r => active_snapshot r t = None) new ->
  forall c, match_rules (l ++ new) id t c = match_rules l id t c.
Proof.
  intros Hn. induction l as [|r l IH]; intros c; simpl.
  - induction Hn as [|r new Hr Hn IH]; simpl; auto. now rewrite Hr.
  - destruct (active_snapshot r t) as [s|]; auto. destruct (snapshot_matches s id); auto. destruct (sn_tomb s); auto. now rewrite IH.
Qed.

Lemma match_rules_extended {P} (l l' : list (rule P)) c id t cut : extended_after c l l' -> t < c ->
  match_rules l' id t cut = match_rules l id t cut.
Proof.
  intros (k & n & -> & Hk & Hn) Ht. rewrite match_rules_app_none.
  - symmetry. apply match_rules_ext. eapply Forall2_imp; [|exact Hk]. intros r r' (more & E & Hm). symmetry.
    eapply active_snapshot_extended; eauto.
  - eapply Forall_impl; [|exact Hn]. intros r Hr. apply active_snapshot_none. eapply Forall_impl; [|exact Hr]. simpl; intros; lia.
Qed.

Lemma forward_match_at_by (a b : active_ruleset) id t :
  (forall c, match_rules (as_mapping a) id t c = match_rules (as_mapping b) id t c) ->
  (forall c, match_rules (as_rollup a) id t c = match_rules (as_rollup b) id t c) ->
  as_opts a = as_opts b -> as_new_id a = as_new_id b ->
  forward_match_at a id t = forward_match_at b id t.
Proof.
  intros Hm Hr Ho Hn. unfold forward_match_at, mappings_for_non_rollup_id, rollup_results_for. rewrite Hm, Hr.
  assert (E : forall section tg, apply_target a section tg = apply_target b section tg).
  { destruct a, b; simpl in *; subst; reflexivity. }
  destruct (match_rules (as_rollup b) id t 0) as [c ss]. unfold to_rollup_results. rewrite Ho.
  destruct (flat_map _ ss) as [|tg ts]; auto. destruct (tfo_name_and_tags (as_opts b) id) as [[nm section]|]; auto.
  assert (Ef : forall l, flat_map (fun tg => match apply_target a section tg with None => [] | Some r => [r] end) l
                       = flat_map (fun tg => match apply_target b section tg with None => [] | Some r => [r] end) l).
  { intros l; apply flat_map_ext; intros x; now rewrite E. }
  now rewrite Ef.
Qed.

Lemma extended_change (ms ms' : list mapping_rule) (rs rs' : list rollup_rule) c x :
  extended_after c ms ms' -> extended_after c rs rs' -> x < c -> (is_change ms' rs' x <-> is_change ms rs x).
Proof.
  assert (G : forall P (l l' : list (rule P)), extended_after c l l' -> x < c ->
            ((exists r s, In r l' /\ In s (ru_snapshots r) /\ sn_cutover s = x) <->
             (exists r s, In r l /\ In s (ru_snapshots r) /\ sn_cutover s = x))).
  { intros P l l' (k & n & -> & Hk & Hn) Hx. split.
    - intros (r & s & Hr & Hs & E). apply in_app_or in Hr as [Hr|Hr].
      + clear - Hk Hr Hs E Hx. induction Hk as [|y r' l k (more & Em & Hm) Hk IH]; [destruct Hr|].
        destruct Hr as [->|Hr].
        * exists y, s. split; [now left|]. split; auto. rewrite Em in Hs. apply in_app_or in Hs as [|Hs]; auto.
          rewrite Forall_forall in Hm. specialize (Hm _ Hs). lia.
        * destruct IH as (r0 & s0 & ? & ?); auto. exists r0, s0; split; auto; now right.
      + rewrite Forall_forall in Hn. specialize (Hn _ Hr). rewrite Forall_forall in Hn. specialize (Hn _ Hs). lia.
    - intros (r & s & Hr & Hs & E). clear Hn. induction Hk as [|y r' l k (more & Em & Hm) Hk IH]; [destruct Hr|].
      destruct Hr as [->|Hr].
      + exists r', s. split; [now left|]. split; auto. rewrite Em. apply in_or_app; auto.
      + destruct IH as (r0 & s0 & Hr0 & ?); auto. exists r0, s0; split; auto. now right. }
  intros Hms Hrs Hx. unfold is_change. rewrite (G _ _ _ Hms Hx), (G _ _ _ Hrs Hx). tauto.
Qed.

Section Past.
  Variables (v : Z) (ms ms' : list mapping_rule) (rs rs' : list rollup_rule) (opts : tags_filter_options)
    (nid : bytes -> list (bytes * bytes) -> bytes) (isr : bytes -> bytes -> bool) (c : Z).
  Let a := new_active_ruleset v ms rs opts nid isr.
  Let a' := new_active_ruleset v ms' rs' opts nid isr.
  Hypothesis Hms : extended_after c ms ms'.
  Hypothesis Hrs : extended_after c rs rs'.

  Lemma past_at id t : t < c -> forward_match_at a' id t = forward_match_at a id t.
  Proof. intros Ht. apply forward_match_at_by; simpl; auto; intros cut; eapply match_rules_extended; eauto. Qed.

  Lemma past_window from to : to <= c -> window a' from to = window a from to.
  Proof.
    intros H. apply changes_between_unique. destruct (window_changes v ms' rs' opts nid isr from to) as [Hs Hi].
    split; auto. intros x. fold a' in Hi. rewrite Hi.
    split; intros [Hx Hr]; split; auto; [apply (extended_change ms ms' rs rs' c) in Hx|apply (extended_change ms ms' rs rs' c)]; auto; lia.
  Qed.

  Lemma past_forward id from to : from < c -> to <= c ->
    mr_existing (forward_match a' id from to) = mr_existing (forward_match a id from to) /\
    mr_news (forward_match a' id from to) = mr_news (forward_match a id from to).
  Proof.
    intros Hf Ht. rewrite !forward_match_shape by apply built_sorted. cbn [mr_existing mr_news]. rewrite past_window by auto.
    rewrite past_at by auto. split; apply fold_left_ext; intros y x Hx; unfold step_existing, step_news;
      (rewrite past_at; [reflexivity|]); apply filter_In in Hx as [_ Hx]; apply andb_true_iff in Hx as [_ Hx]; apply Z.ltb_lt in Hx; lia.
  Qed.
End Past.

Lemma active_set_shape rs t0 id from to :
  all_ascending (rs_mapping rs) -> all_ascending (rs_rollup rs) -> t0 <= from ->
  forward_match (active_set rs t0) id from to =
  forward_match (new_active_ruleset (rs_version rs) (rs_mapping rs) (rs_rollup rs) (rs_opts rs) (rs_new_id rs) (rs_is_rollup rs)) id from to.
Proof. intros H1 H2 H3. now apply trim_forward. Qed.

Lemma edit_past rs e m rs' ok t0 id from to :
  run_edit rs e m = (rs', ok) ->
  all_ascending (rs_mapping rs) -> all_ascending (rs_rollup rs) ->
  dated_by (um_cutover m) (rs_mapping rs) -> dated_by (um_cutover m) (rs_rollup rs) ->
  t0 <= from -> from < um_cutover m -> to <= um_cutover m ->
  mr_existing (forward_match (active_set rs' t0) id from to) = mr_existing (forward_match (active_set rs t0) id from to) /\
  mr_news (forward_match (active_set rs' t0) id from to) = mr_news (forward_match (active_set rs t0) id from to).
Proof.
  intros H Am Ar Dm Dr H0 Hf Ht. pose proof (run_edit_grown _ _ _ _ _ H) as [Gm Gr].
  destruct (grown_ascending _ _ _ Gm Dm Am) as [Am' _]. destruct (grown_ascending _ _ _ Gr Dr Ar) as [Ar' _].
  rewrite !active_set_shape by auto.
  assert (E : rs_version rs' = rs_version rs /\ rs_opts rs' = rs_opts rs /\ rs_new_id rs' = rs_new_id rs /\ rs_is_rollup rs' = rs_is_rollup rs).
  { destruct ok; [apply run_edit_meta in H; tauto|apply run_edit_failed in H as ->; auto]. }
  destruct E as (-> & -> & -> & ->).
  apply past_forward with (c := um_cutover m); auto using grown_extended.
Qed.

(** ** Ordered sequences of edits *)

Lemma run_edits_ascending es : forall c rs, dated_edits c es ->
  dated_by c (rs_mapping rs) -> dated_by c (rs_rollup rs) ->
  all_ascending (rs_mapping rs) -> all_ascending (rs_rollup rs) ->
  all_ascending (rs_mapping (run_edits rs es)) /\ all_ascending (rs_rollup (run_edits rs es)).
Proof.
  unfold run_edits. induction es as [|[e m] es IH]; intros c rs Hes Dm Dr Am Ar; simpl; auto. destruct Hes as [Hc Hes].
  destruct (run_edit rs e m) as [rs1 ok] eqn:E. apply run_edit_grown in E as [Gm Gr].
  eapply dated_by_weaken in Dm; eauto. eapply dated_by_weaken in Dr; eauto.
  destruct (grown_ascending _ _ _ Gm Dm Am) as [Am' Dm']. destruct (grown_ascending _ _ _ Gr Dr Ar) as [Ar' Dr'].
  simpl. now apply (IH (um_cutover m)).
Qed.

(** ** Names over edits *)

Lemma run_edit_names rs e m : ids_ok rs -> no_clash rs e -> names_ok rs -> names_ok (fst (run_edit rs e m)).
Proof.
  intros [Im Ir] Hc [Nm Nr]. destruct (run_edit rs e m) as [rs' ok] eqn:E. simpl.
  destruct ok; [|apply run_edit_failed in E as ->; split; auto].
  destruct e; edit_cases E; simpl in *; split; simpl; auto.
  - destruct (rules_add true fresh (rs_mapping rs) e m) as [[l' id]|] eqn:Ea; [|discriminate]. injection Heqo as <-.
    eapply rules_add_names; eauto.
  - eapply rules_update_names; eauto.
  - eapply rules_delete_names; eauto.
  - destruct (rules_add false fresh (rs_rollup rs) (view_targets e) m) as [[l' id]|] eqn:Ea; [|discriminate]. injection Heqo as <-.
    eapply rules_add_names; eauto.
  - eapply rules_update_names; eauto.
  - eapply rules_delete_names; eauto.
  - now apply rules_delete_all_names.
  - now apply rules_delete_all_names.
Qed.

Lemma run_edit_names_no_update rs e m : is_update e = false -> names_ok rs -> names_ok (fst (run_edit rs e m)).
Proof.
  intros Hu [Nm Nr]. destruct (run_edit rs e m) as [rs' ok] eqn:E. simpl.
  destruct ok; [|apply run_edit_failed in E as ->; split; auto].
  destruct e; try discriminate; edit_cases E; simpl in *; split; simpl; auto.
  - destruct (rules_add true fresh (rs_mapping rs) e m) as [[l' id]|] eqn:Ea; [|discriminate]. injection Heqo as <-.
    eapply rules_add_names; eauto.
  - eapply rules_delete_names; eauto.
  - destruct (rules_add false fresh (rs_rollup rs) (view_targets e) m) as [[l' id]|] eqn:Ea; [|discriminate]. injection Heqo as <-.
    eapply rules_add_names; eauto.
  - eapply rules_delete_names; eauto.
  - now apply rules_delete_all_names.
  - now apply rules_delete_all_names.
Qed.

Lemma run_edits_names es : forall rs, Forall (fun em => is_update (fst em) = false) es -> names_ok rs -> names_ok (run_edits rs es).
Proof.
  unfold run_edits. induction es as [|[e m] es IH]; intros rs Hu Hn; simpl; auto. inversion Hu; subst.
  apply IH; auto. now apply run_edit_names_no_update.
Qed.

Lemma delete_all_ids {P} cl (empty : P) l m : map ru_uuid (rules_delete_all cl empty l m) = map ru_uuid l.
Proof.
  pose proof (rules_delete_all_spec cl empty l m) as H. induction H as [|r r' l l' Hr H IH]; auto. simpl. f_equal; auto.
  destruct Hr as [[_ ->]|(s & _ & _ & Hu & _)]; auto.
Qed.

Lemma run_edit_ids rs e m : fresh_id rs e -> ids_ok rs -> ids_ok (fst (run_edit rs e m)).
Proof.
  intros Hf [Im Ir]. destruct (run_edit rs e m) as [rs' ok] eqn:E. simpl.
  destruct ok; [|apply run_edit_failed in E as ->; split; auto].
  unfold ids_ok, ids_distinct in *.
  destruct e; edit_cases E; simpl in *; split; simpl; auto.
  - destruct (rules_add true fresh (rs_mapping rs) e m) as [[l' id]|] eqn:Ea; [|discriminate]. injection Heqo as <-.
    eapply add_ids; eauto.
  - apply rules_update_some in Heqo as (_ & a & r & r' & b & H1 & H2 & _ & _ & Hap).
    rewrite (change_ids (rs_mapping rs) l m); auto. exists a, r, r', b; eauto.
  - apply rules_delete_some in Heqo as (a & r & r' & b & s & H1 & H2 & _ & _ & _ & _ & Hap).
    rewrite (change_ids (rs_mapping rs) l m); auto. exists a, r, r', b; eauto.
  - destruct (rules_add false fresh (rs_rollup rs) (view_targets e) m) as [[l' id]|] eqn:Ea; [|discriminate]. injection Heqo as <-.
    eapply add_ids; eauto.
  - apply rules_update_some in Heqo as (_ & a & r & r' & b & H1 & H2 & _ & _ & Hap).
    rewrite (change_ids (rs_rollup rs) l m); auto. exists a, r, r', b; eauto.
  - apply rules_delete_some in Heqo as (a & r & r' & b & s & H1 & H2 & _ & _ & _ & _ & Hap).
    rewrite (change_ids (rs_rollup rs) l m); auto. exists a, r, r', b; eauto.
  - now rewrite delete_all_ids.
  - now rewrite delete_all_ids.
Qed.

(** ** Exactly what edits of the lists do *)

Section Exact.
  Context {P : Type} (cl : P -> P) (empty : P).
  Implicit Types (l : list (rule P)).

  Lemma appended_eq m (r r' : rule P) s : appended m r r' s -> r' = mk_rule (ru_uuid r) (ru_snapshots r ++ [s]).
  Proof. intros (Hu & Hs & _). destruct r'; simpl in *; congruence. Qed.

  Lemma set_nth_at {A} (a : list A) x y b : set_nth (length a) y (a ++ x :: b) = a ++ y :: b.
  Proof. induction a; simpl; congruence. Qed.

  Lemma rules_add_adds skip fresh l e m l' id : rules_add skip fresh l e m = Some (l', id) -> adds fresh e m l l' id.
  Proof.
    intros H. apply rules_add_some in H as [Hf [(-> & -> & Hn)|(a & r & r' & b & -> & -> & -> & Hn & Hl & Ha & Hap)]].
    - constructor; auto. now apply Forall_forall.
    - apply appended_eq in Hap as ->. constructor; auto. now apply Forall_forall.
  Qed.

  Lemma adds_rules_add skip fresh l e m l' id : (skip = true \/ Forall (fun r => ru_snapshots r <> []) l) ->
    adds fresh e m l l' id -> rules_add skip fresh l e m = Some (l', id).
  Proof.
    intros Hs H. destruct H as [l Hf Hn|a r b Hf Ha Hn Hl].
    - now apply add_absent.
    - unfold rules_add. assert (E : forall i, rule_by_name skip i (a ++ r :: b) (re_name e) = Found (i + length a)%nat).
      { clear - Ha Hn Hs. induction a as [|x a IH]; intros i; simpl.
        - apply rule_name_spec in Hn. rewrite Hn, beqb_refl. f_equal. lia.
        - assert (Hx : skip = true \/ Forall (fun r => ru_snapshots r <> []) (a ++ r :: b)) by (destruct Hs as [|Hs]; auto; inversion Hs; auto).
          destruct (rule_name x) as [n|] eqn:En.
          + destruct (beqb n (re_name e)) eqn:Eb.
            * apply beqb_eq in Eb. subst. exfalso. apply (Ha x); [now left|]. now apply rule_name_spec.
            * rewrite IH; auto; [f_equal; lia|]. intros; apply Ha; now right.
          + apply rule_name_none in En. destruct Hs as [->|Hs]; [|inversion Hs; contradiction].
            rewrite IH; auto; [f_equal; lia|]. intros; apply Ha; now right. }
      rewrite E. simpl. rewrite nth_error_app2, Nat.sub_diag by lia. simpl.
      unfold revive_rule. apply rule_name_spec in Hn. rewrite Hn.
      destruct (rule_tombstoned r) eqn:Et; [|apply rule_tombstoned_spec in Et; contradiction]. simpl.
      destruct Hf as (v & Hf). unfold add_snapshot, new_snapshot_from_fields. rewrite Hf. simpl. now rewrite set_nth_at.
  Qed.

  Lemma rule_by_id_at id (a : list (rule P)) r b : (forall r', In r' a -> ru_uuid r' <> id) -> ru_uuid r = id ->
    forall i, rule_by_id i (a ++ r :: b) id = Some (i + length a)%nat.
  Proof.
    intros Ha Hr. induction a as [|x a IH]; intros i; simpl.
    - rewrite Hr, beqb_refl. f_equal. lia.
    - destruct (beqb (ru_uuid x) id) eqn:Eb; [apply beqb_eq in Eb; exfalso; apply (Ha x); auto; now left|].
      rewrite IH by (intros; apply Ha; now right). f_equal. lia.
  Qed.

  Lemma rules_update_updates l e m l' : rules_update l e m = Some l' <-> updates e m l l'.
  Proof.
    split.
    - intros H. apply rules_update_some in H as (Hf & a & r & r' & b & -> & -> & Hu & Ha & Hap).
      apply appended_eq in Hap as ->. constructor; auto. now apply Forall_forall.
    - intros [a r b (v & Hf) Ha Hr]. unfold rules_update. rewrite rule_by_id_at by auto. simpl.
      rewrite nth_error_app2, Nat.sub_diag by lia. simpl. unfold add_snapshot, new_snapshot_from_fields. rewrite Hf. simpl.
      now rewrite set_nth_at.
  Qed.

  Lemma rules_delete_deletes l id m l' : rules_delete cl empty l id m = Some l' <-> deletes empty id m l l'.
  Proof.
    split.
    - intros H. apply rules_delete_some in H as (a & r & r' & b & s & -> & -> & Hu & Ha & Hn & Ht & Hap).
      apply appended_eq in Hap as ->. constructor; auto. now apply Forall_forall.
    - intros [a r s b Ha Hr Hn Ht]. unfold rules_delete. rewrite rule_by_id_at by auto. simpl.
      rewrite nth_error_app2, Nat.sub_diag by lia. simpl. unfold mark_tombstoned.
      destruct (last_opt (ru_snapshots r)) as [s'|] eqn:E.
      + apply newest_last in E. rewrite (newest_unique _ _ _ E Hn) in *. rewrite Ht. simpl. now rewrite set_nth_at.
      + exfalso. apply newest_last in Hn. congruence.
  Qed.
End Exact.

(** ** Deleting a rule set *)

Lemma Forall2_in_r {A C} (R : A -> C -> Prop) l l' y : Forall2 R l l' -> In y l' -> exists x, In x l /\ R x y.
Proof. induction 1 as [|x z l l' Hxz H IH]; intros []; [subst; exists x; split; auto; now left|]. destruct IH as (x0 & ? & ?); auto. exists x0; split; auto; now right. Qed.

Lemma deleted_not_live {P} (empty : P) m r r' : deleted_rule empty m r r' -> ~ is_live r'.
Proof.
  intros [[H ->]|(s & _ & _ & Hap)]; auto. intros (s' & Hs & Ht).
  rewrite (newest_unique _ _ _ Hs (appended_newest _ _ _ _ Hap)) in Ht. discriminate.
Qed.

Lemma deleted_not_in_effect {P} (empty : P) m r r' id t s : deleted_rule empty m r r' ->
  (forall s, In s (ru_snapshots r) -> sn_cutover s <= um_cutover m) -> um_cutover m <= t -> ~ live id t r' s.
Proof.
  intros Hd Hc Ht [[(b & a & E & Hs & Ha) Hm] Hl]. pose proof (deleted_not_live _ _ _ _ Hd) as Hn. apply Hn.
  exists s. split; auto. exists b. destruct a as [|x a]; auto. exfalso.
  assert (Hx : In x (ru_snapshots r')) by (rewrite E; apply in_or_app; right; right; now left).
  inversion Ha; subst.
  assert (sn_cutover x <= um_cutover m); [|lia].
  destruct Hd as [[_ ->]|(s0 & _ & _ & _ & Es & Hst & _)]; auto.
  rewrite Es in Hx. apply in_app_or in Hx as [Hx|[<-|[]]]; auto. lia.
Qed.

Lemma match_rules_no_live {P} (l : list (rule P)) id t : (forall r s, In r l -> ~ live id t r s) -> forall c, snd (match_rules l id t c) = [].
Proof.
  induction l as [|r l IH]; intros H c; simpl; auto.
  assert (Hl : forall r0 s, In r0 l -> ~ live id t r0 s) by (intros; apply H; now right).
  destruct (active_snapshot r t) as [s|] eqn:E; auto. destruct (snapshot_matches s id) eqn:Em; auto.
  destruct (sn_tomb s) eqn:Et; auto. exfalso. apply (H r s); [now left|]. apply live_spec; auto.
Qed.

Lemma no_live_match a id t : (forall r s, In r (as_mapping a) -> ~ live id t r s) -> (forall r s, In r (as_rollup a) -> ~ live id t r s) ->
  exists c, forward_match_at a id t = (mk_sm [mk_pm 0%N [] [] 0] c false, []).
Proof.
  intros Hm Hr. unfold forward_match_at, mappings_for_non_rollup_id, rollup_results_for.
  pose proof (match_rules_no_live _ id t Hm 0) as Em. pose proof (match_rules_no_live _ id t Hr 0) as Er.
  destruct (match_rules (as_mapping a) id t 0) as [c1 ss1]. destruct (match_rules (as_rollup a) id t 0) as [c2 ss2]. simpl in Em, Er. subst.
  simpl. eexists. reflexivity.
Qed.

Lemma window_none a from to : (forall c, In c (as_cutovers a) -> c <= from) -> window a from to = [].
Proof.
  intros H. unfold window. apply filter_false. intros x Hx. specialize (H x Hx). destruct (Z.ltb_spec from x); auto. lia.
Qed.

(** ** Batches *)

Lemma change_edit_mapping c e : mapping_change_edit c = inl e <-> asks_mapping c e.
Proof.
  unfold mapping_change_edit, change_edit. split.
  - destruct c as [o i d f]; simpl.
    destruct (beqb o add_op_name) eqn:E1; [apply beqb_eq in E1; subst; destruct d; [|discriminate]; intros H; injection H as <-; constructor|].
    destruct (beqb o change_op_name) eqn:E2; [apply beqb_eq in E2; subst; destruct d; [|discriminate]; intros H; injection H as <-; constructor|].
    destruct (beqb o delete_op_name) eqn:E3; [apply beqb_eq in E3; subst; destruct i; [|discriminate]; intros H; injection H as <-; constructor|discriminate].
  - intros []; reflexivity.
Qed.
Lemma change_edit_rollup c e : rollup_change_edit c = inl e <-> asks_rollup c e.
Proof.
  unfold rollup_change_edit, change_edit. split.
  - destruct c as [o i d f]; simpl.
    destruct (beqb o add_op_name) eqn:E1; [apply beqb_eq in E1; subst; destruct d; [|discriminate]; intros H; injection H as <-; constructor|].
    destruct (beqb o change_op_name) eqn:E2; [apply beqb_eq in E2; subst; destruct d; [|discriminate]; intros H; injection H as <-; constructor|].
    destruct (beqb o delete_op_name) eqn:E3; [apply beqb_eq in E3; subst; destruct i; [|discriminate]; intros H; injection H as <-; constructor|discriminate].
  - intros []; reflexivity.
Qed.

Section Batch.
  Context {P : Type} (to_edit : rule_change P -> edit + outcome).
  Hypothesis no_done : forall c, to_edit c <> inr Done.

  Lemma apply_changes_done m cs : forall rs rs', apply_changes to_edit rs cs m = (rs', Done) <->
    exists es, Forall2 (fun c e => to_edit c = inl e) cs es /\ all_succeed m rs es rs'.
  Proof.
    induction cs as [|c cs IH]; intros rs rs'; simpl.
    - split.
      + intros H. injection H as <-. exists []. split; constructor.
      + intros (es & H & Ha). inversion H; subst. now inversion Ha.
    - destruct (to_edit c) as [e|o] eqn:E.
      + destruct (run_edit rs e m) as [rs1 ok] eqn:Er. destruct ok.
        * rewrite IH. split.
          -- intros (es & H & Ha). exists (e :: es). split; [constructor; auto|]. econstructor; eauto.
          -- intros (es & H & Ha). inversion H as [|? e' ? es' He Hes]; subst. rewrite E in He. injection He as <-.
             inversion Ha; subst. exists es'. split; auto. congruence.
        * split; [discriminate|]. intros (es & H & Ha). inversion H as [|? e' ? es' He Hes]; subst. rewrite E in He. injection He as <-.
          inversion Ha; subst. congruence.
      + split.
        * intros H. injection H as <- ->. now apply no_done in E.
        * intros (es & H & _). inversion H; subst. congruence.
  Qed.

  (** A batch that fails has carried out the changes before the one that fails. *)
  Lemma apply_changes_stop m cs : forall rs rs' o, o <> Done -> apply_changes to_edit rs cs m = (rs', o) ->
    exists done c rest es, cs = done ++ c :: rest /\ Forall2 (fun c e => to_edit c = inl e) done es /\ all_succeed m rs es rs' /\
      (to_edit c = inr o \/ (o = Error /\ exists e, to_edit c = inl e /\ run_edit rs' e m = (rs', false))).
  Proof.
    induction cs as [|c cs IH]; intros rs rs' o Ho H; simpl in H; [congruence|].
    destruct (to_edit c) as [e|o'] eqn:E.
    - destruct (run_edit rs e m) as [rs1 ok] eqn:Er. destruct ok.
      + apply IH in H as (d & c' & rest & es & -> & Hd & Ha & Hl); auto.
        exists (c :: d), c', rest, (e :: es). split; auto. split; [constructor; auto|]. split; [econstructor; eauto|auto].
      + injection H as <- <-. pose proof (run_edit_failed _ _ _ _ Er) as ->. exists [], c, cs, []. split; auto.
        split; [constructor|]. split; [constructor|]. right. split; auto. eauto.
    - injection H as <- <-. exists [], c, cs, []. split; auto. split; [constructor|]. split; [constructor|auto].
  Qed.
End Batch.

Lemma all_succeed_app m rs es1 rs1 es2 rs2 : all_succeed m rs es1 rs1 -> all_succeed m rs1 es2 rs2 -> all_succeed m rs (es1 ++ es2) rs2.
Proof. induction 1; simpl; auto. intros. econstructor; eauto. Qed.

Lemma all_succeed_split m es1 : forall rs es2 rs2, all_succeed m rs (es1 ++ es2) rs2 -> exists rs1, all_succeed m rs es1 rs1 /\ all_succeed m rs1 es2 rs2.
Proof.
  induction es1 as [|e es1 IH]; intros rs es2 rs2 H; simpl in H; [exists rs; split; auto; constructor|].
  inversion H; subst. apply IH in H5 as (rs3 & ? & ?). exists rs3; split; auto. econstructor; eauto.
Qed.

Lemma mapping_no_done c : mapping_change_edit c <> inr Done.
Proof. unfold mapping_change_edit, change_edit. destruct (beqb _ _), (rc_data c), (rc_id c), (beqb (rc_op c) change_op_name), (beqb (rc_op c) delete_op_name); discriminate. Qed.
Lemma rollup_no_done c : rollup_change_edit c <> inr Done.
Proof. unfold rollup_change_edit, change_edit. destruct (beqb _ _), (rc_data c), (rc_id c), (beqb (rc_op c) change_op_name), (beqb (rc_op c) delete_op_name); discriminate. Qed.

Lemma batch_done rs ms rr m rs' : apply_rule_set_changes rs ms rr m = (rs', Done) <->
  exists es1 es2, Forall2 asks_mapping ms es1 /\ Forall2 asks_rollup rr es2 /\ all_succeed m rs (es1 ++ es2) rs'.
Proof.
  unfold apply_rule_set_changes. destruct (apply_changes mapping_change_edit rs ms m) as [rs1 o] eqn:E.
  assert (Im : forall es, Forall2 (fun c e => mapping_change_edit c = inl e) ms es <-> Forall2 asks_mapping ms es)
    by (intros es; split; apply Forall2_imp; intros; now apply change_edit_mapping).
  assert (Ir : forall es, Forall2 (fun c e => rollup_change_edit c = inl e) rr es <-> Forall2 asks_rollup rr es)
    by (intros es; split; apply Forall2_imp; intros; now apply change_edit_rollup).
  split.
  - destruct o; try discriminate. apply apply_changes_done in E as (es1 & H1 & A1); [|apply mapping_no_done].
    intros H. apply apply_changes_done in H as (es2 & H2 & A2); [|apply rollup_no_done].
    exists es1, es2. split; [now apply Im|]. split; [now apply Ir|]. eapply all_succeed_app; eauto.
  - intros (es1 & es2 & H1 & H2 & Ha). apply all_succeed_split in Ha as (rs2 & A1 & A2).
    assert (E' : apply_changes mapping_change_edit rs ms m = (rs2, Done)).
    { apply apply_changes_done; [apply mapping_no_done|]. exists es1. split; auto. now apply Im. }
    rewrite E' in E. injection E as <- <-. apply apply_changes_done; [apply rollup_no_done|]. exists es2. split; auto. now apply Ir.
Qed.

(** ** Views *)

Lemma NoDup_filter_other {A} (k : bytes) (m : list (bytes * A)) : ~ In k (map fst m) -> List.filter (fun e => negb (beqb (fst e) k)) m = m.
Proof.
  induction m as [|[k' v] m IH]; simpl; auto. intros H. destruct (beqb k' k) eqn:E.
  - apply beqb_eq in E. exfalso; apply H; now left.
  - simpl. f_equal. apply IH. tauto.
Qed.

Section Latest.
  Context {P : Type} (cl : P -> P).

  Lemma rule_histories_distinct (l : list (rule P)) : ids_distinct l -> rule_histories cl l = map (fun r => (ru_uuid r, history cl r)) l.
  Proof.
    unfold rule_histories. intros Hd.
    enough (G : forall done, NoDup (map fst done ++ map ru_uuid l) ->
              fold_left (fun m r => map_assign (ru_uuid r) (history cl r) m) l done = done ++ map (fun r => (ru_uuid r, history cl r)) l)
      by (now rewrite G).
    clear Hd. induction l as [|r l IH]; intros done Hd; simpl; [now rewrite app_nil_r|].
    simpl in Hd. rewrite IH.
    - unfold map_assign. rewrite NoDup_filter_other; [now rewrite <- app_assoc|].
      apply NoDup_remove_2 in Hd. intros Hc. apply Hd. apply in_or_app; auto.
    - unfold map_assign. rewrite NoDup_filter_other.
      + rewrite map_app. simpl. rewrite <- app_assoc. exact Hd.
      + apply NoDup_remove_2 in Hd. intros Hc. apply Hd. apply in_or_app; auto.
  Qed.

  Lemma history_newest (r : rule P) : match history cl r with
    | [] => ru_snapshots r = []
    | v :: _ => exists s, newest r s /\ v = view_of cl (ru_uuid r) s
    end.
  Proof.
    unfold history. destruct (rev (ru_snapshots r)) as [|s h] eqn:E; simpl.
    - rewrite <- (rev_involutive (ru_snapshots r)), E. auto.
    - exists s. split; auto. exists (rev h). rewrite <- (rev_involutive (ru_snapshots r)), E. auto.
  Qed.

  Lemma latest_rules_spec (l : list (rule P)) : ids_distinct l ->
    exists vs, collect (shows_live cl) l vs /\ Permutation vs (latest_rules cl l) /\
      StronglySorted (fun v w => bleb (rv_name v) (rv_name w) = true) (latest_rules cl l).
  Proof.
    intros Hd. unfold latest_rules. rewrite rule_histories_distinct by auto.
    eexists. split; [|split; [apply isort_perm|]].
    - rewrite flat_map_concat_map, map_map, <- flat_map_concat_map. clear Hd. simpl.
      induction l as [|r l IH]; [constructor|]. cbn [flat_map].
      pose proof (history_newest r) as Hh. destruct (history cl r) as [|v h].
      + apply collect_skip; auto. intros c (s & Hs & _). destruct Hs as (h & Hs). rewrite Hh in Hs. now destruct h.
      + destruct Hh as (s & Hs & ->). cbn [view_of rv_tomb snapshot_clone sn_tomb].
        destruct (sn_tomb s) eqn:Et; simpl.
        * apply collect_skip; auto. intros c (s' & Hs' & Ht & _). rewrite (newest_unique _ _ _ Hs Hs') in Et. congruence.
        * constructor; auto. exists s. split; auto. split; auto. unfold view_of; simpl. now rewrite Et.
    - apply isort_sorted.
      + intros x y. apply bleb_total.
      + intros x y z. apply bleb_trans.
  Qed.
End Latest.

Lemma target_clone_id t : Forall op_canonical (tg_pipeline t) -> target_clone t = t.
Proof.
  intros H. destruct t as [p sps]. unfold target_clone; simpl in *. f_equal. unfold pipeline_clone.
  induction H as [|o p (H1 & H2 & H3) H IH]; simpl; auto. f_equal; auto. destruct o as [k a f r]; simpl in *. unfold op_clone; simpl.
  f_equal.
  - destruct (Z.eqb_spec k AggregationOp); auto. rewrite H1; auto.
  - destruct (Z.eqb_spec k TransformationOp); auto. rewrite H2; auto.
  - destruct (Z.eqb_spec k RollupOp); [destruct r; auto|]. rewrite H3; auto.
Qed.

(** ** Statements about whole rule sets *)

Lemma extended_live {P} c (l l' : list (rule P)) id t s : extended_after c l l' -> t < c ->
  (exists r', In r' l' /\ live id t r' s) <-> (exists r, In r l /\ live id t r s).
Proof.
  intros (k & n & -> & Hk & Hn) Ht.
  assert (G : forall r r' : rule P, (exists more, ru_snapshots r' = ru_snapshots r ++ more /\ Forall (fun s => c <= sn_cutover s) more) ->
              (live id t r' s <-> live id t r s)).
  { intros r r' (more & E & Hm). unfold live, hit. rewrite <- !active_snapshot_some.
    now rewrite (active_snapshot_extended r r' more c t E Hm Ht). }
  split.
  - intros (r' & Hr & Hl). apply in_app_or in Hr as [Hr|Hr].
    + apply (Forall2_in_r _ _ _ _ Hk) in Hr as (r & Hr & He). exists r. split; auto. now apply (G r r').
    + exfalso. rewrite Forall_forall in Hn. specialize (Hn _ Hr). destruct Hl as [[Hl _] _]. apply active_snapshot_some in Hl.
      assert (active_snapshot r' t = None); [|congruence]. apply active_snapshot_none. eapply Forall_impl; [|exact Hn]. simpl; intros; lia.
  - intros (r & Hr & Hl). clear Hn. induction Hk as [|x y l k He Hk IH]; [destruct Hr|]. destruct Hr as [->|Hr].
    + exists y. split; [now left|]. now apply (G r y).
    + destruct IH as (r' & Hr' & Hl'); auto. exists r'. split; auto. now right.
Qed.

Lemma delete_set rs m : rs_tomb rs = false ->
  exists rs', run_edit rs DeleteSet m = (rs', true) /\ rs_tomb rs' = true /\
    (forall r, In r (rs_mapping rs') -> ~ is_live r) /\ (forall r, In r (rs_rollup rs') -> ~ is_live r) /\
    histories_kept (rs_mapping rs) (rs_mapping rs') /\ histories_kept (rs_rollup rs) (rs_rollup rs') /\
    length (rs_mapping rs') = length (rs_mapping rs) /\ length (rs_rollup rs') = length (rs_rollup rs).
Proof.
  intros H. eexists. simpl. rewrite H. split; [reflexivity|]. simpl. split; auto.
  split; [intros r Hr; apply (Forall2_in_r _ _ _ _ (rules_delete_all_spec _ _ _ m)) in Hr as (r0 & _ & Hd); eapply deleted_not_live; eauto|].
  split; [intros r Hr; apply (Forall2_in_r _ _ _ _ (rules_delete_all_spec _ _ _ m)) in Hr as (r0 & _ & Hd); eapply deleted_not_live; eauto|].
  split; [eapply rules_grown_kept, delete_all_grown|]. split; [eapply rules_grown_kept, delete_all_grown|].
  unfold rules_delete_all. now rewrite !map_length.
Qed.

Lemma deleted_matches_nothing rs m rs' t0 id from to :
  run_edit rs DeleteSet m = (rs', true) ->
  all_ascending (rs_mapping rs) -> all_ascending (rs_rollup rs) ->
  dated_by (um_cutover m) (rs_mapping rs) -> dated_by (um_cutover m) (rs_rollup rs) ->
  t0 <= from -> um_cutover m <= from ->
  (forall r s, In r (rs_mapping rs') -> ~ live id from r s) /\ (forall r s, In r (rs_rollup rs') -> ~ live id from r s) /\
  (exists c, mr_existing (forward_match (active_set rs' t0) id from to) = [mk_sm [mk_pm 0%N [] [] 0] c false]) /\
  mr_news (forward_match (active_set rs' t0) id from to) = [].
Proof.
  intros H Am Ar Dm Dr H0 Hf. pose proof (run_edit_grown _ _ _ _ _ H) as [Gm Gr].
  destruct (grown_ascending _ _ _ Gm Dm Am) as [Am' Dm']. destruct (grown_ascending _ _ _ Gr Dr Ar) as [Ar' Dr'].
  assert (Lm : forall r s, In r (rs_mapping rs') -> ~ live id from r s).
  { simpl in H. destruct (rs_tomb rs); [discriminate|]. injection H as <-. simpl. intros r s Hr.
    apply (Forall2_in_r _ _ _ _ (rules_delete_all_spec _ _ _ m)) in Hr as (r0 & Hr0 & Hd).
    apply (deleted_not_in_effect _ _ _ _ id from s Hd); auto. intros s0 Hs0. eapply Dm; eauto. }
  assert (Lr : forall r s, In r (rs_rollup rs') -> ~ live id from r s).
  { simpl in H. destruct (rs_tomb rs); [discriminate|]. injection H as <-. simpl. intros r s Hr.
    apply (Forall2_in_r _ _ _ _ (rules_delete_all_spec _ _ _ m)) in Hr as (r0 & Hr0 & Hd).
    apply (deleted_not_in_effect _ _ _ _ id from s Hd); auto. intros s0 Hs0. eapply Dr; eauto. }
  split; auto. split; auto.
  rewrite active_set_shape by auto. rewrite forward_match_shape by apply built_sorted. cbn [mr_existing mr_news].
  rewrite window_none.
  - simpl fold_left. destruct (no_live_match (new_active_ruleset (rs_version rs') (rs_mapping rs') (rs_rollup rs') (rs_opts rs') (rs_new_id rs') (rs_is_rollup rs')) id from) as (c & ->); auto.
    simpl. split; [exists c|]; reflexivity.
  - intros c Hc. apply built_in in Hc as [(r & s & Hr & Hs & <-)|(r & s & Hr & Hs & <-)].
    + specialize (Dm' r s Hr Hs). lia.
    + specialize (Dr' r s Hr Hs). lia.
Qed.

Lemma view_targets_id e : view_targets e = e.
Proof.
  destruct e as [i n f b]; unfold view_targets, targets_from_view; simpl. f_equal. rewrite <- (map_id b) at 2. apply map_ext. now intros [].
Qed.

Lemma stop_mapping rs ms m rs1 o : o <> Done -> apply_changes mapping_change_edit rs ms m = (rs1, o) ->
  exists done c rest es, ms = done ++ c :: rest /\ Forall2 asks_mapping done es /\ all_succeed m rs es rs1 /\
    ((forall e, ~ asks_mapping c e) \/ (o = Error /\ exists e, asks_mapping c e /\ run_edit rs1 e m = (rs1, false))).
Proof.
  intros Ho H. apply apply_changes_stop in H as (d & c & rest & es & -> & Hd & Ha & Hl); auto.
  exists d, c, rest, es. split; auto. split; [eapply Forall2_imp; [|exact Hd]; intros; now apply change_edit_mapping|]. split; auto.
  destruct Hl as [Hl|(-> & e & He & Hr)]; [left|right].
  - intros e He. apply change_edit_mapping in He. congruence.
  - split; auto. exists e. split; auto. now apply change_edit_mapping.
Qed.
Lemma stop_rollup rs ms m rs1 o : o <> Done -> apply_changes rollup_change_edit rs ms m = (rs1, o) ->
  exists done c rest es, ms = done ++ c :: rest /\ Forall2 asks_rollup done es /\ all_succeed m rs es rs1 /\
    ((forall e, ~ asks_rollup c e) \/ (o = Error /\ exists e, asks_rollup c e /\ run_edit rs1 e m = (rs1, false))).
Proof.
  intros Ho H. apply apply_changes_stop in H as (d & c & rest & es & -> & Hd & Ha & Hl); auto.
  exists d, c, rest, es. split; auto. split; [eapply Forall2_imp; [|exact Hd]; intros; now apply change_edit_rollup|]. split; auto.
  destruct Hl as [Hl|(-> & e & He & Hr)]; [left|right].
  - intros e He. apply change_edit_rollup in He. congruence.
  - split; auto. exists e. split; auto. now apply change_edit_rollup.
Qed.

Lemma batch_stop rs ms rr m rs' o : o <> Done -> apply_rule_set_changes rs ms rr m = (rs', o) ->
  exists es, all_succeed m rs es rs' /\
    ((exists done c rest, ms = done ++ c :: rest /\ Forall2 asks_mapping done es /\
        ((forall e, ~ asks_mapping c e) \/ (o = Error /\ exists e, asks_mapping c e /\ run_edit rs' e m = (rs', false)))) \/
     (exists es1 es2 done c rest, es = es1 ++ es2 /\ Forall2 asks_mapping ms es1 /\ rr = done ++ c :: rest /\ Forall2 asks_rollup done es2 /\
        ((forall e, ~ asks_rollup c e) \/ (o = Error /\ exists e, asks_rollup c e /\ run_edit rs' e m = (rs', false))))).
Proof.
  intros Ho H. unfold apply_rule_set_changes in H. destruct (apply_changes mapping_change_edit rs ms m) as [rs1 o1] eqn:E.
  assert (D : o1 = Done \/ (o1 <> Done /\ rs' = rs1 /\ o = o1)) by (destruct o1; auto; right; repeat split; congruence).
  destruct D as [->|(Ho1 & -> & ->)].
  - apply stop_rollup in H as (d & c & rest & es2 & -> & Hd & Ha & Hl); auto.
    apply apply_changes_done in E as (es1 & H1 & A1); [|apply mapping_no_done].
    exists (es1 ++ es2). split; [eapply all_succeed_app; eauto|]. right. exists es1, es2, d, c, rest. split; auto.
    split; [eapply Forall2_imp; [|exact H1]; intros; now apply change_edit_mapping|]. auto.
  - apply stop_mapping in E as (d & c & rest & es & -> & Hd & Ha & Hl); auto. exists es. split; auto. left. exists d, c, rest. auto.
Qed.

Lemma mb_clone_id b : mb_clone b = b.
Proof. now destruct b. Qed.

Lemma collect_weaken {A C} (R R' : A -> C -> Prop) l cs : (forall x c, In x l -> (R x c <-> R' x c)) -> collect R l cs -> collect R' l cs.
Proof.
  intros He H. induction H as [|x l c cs Hx H IH|x l cs Hx H IH]; [constructor|apply collect_take|apply collect_skip];
    try (apply IH; intros; apply He; now right).
  - apply He; auto. now left.
  - intros c Hc. apply (Hx c). apply He; auto. now left.
Qed.

Lemma latest_mapping rs : ids_distinct (rs_mapping rs) ->
  exists vs, collect (shows_live (fun b => b)) (rs_mapping rs) vs /\ Permutation vs (rsv_mapping (latest rs)) /\
    StronglySorted (fun v w => bleb (rv_name v) (rv_name w) = true) (rsv_mapping (latest rs)).
Proof.
  intros H. apply (latest_rules_spec mb_clone) in H as (vs & Hc & Hp & Hs). exists vs. split; auto.
  eapply collect_weaken; [|exact Hc]. intros r v _. unfold shows_live. split; intros (s & ? & ? & E); exists s; rewrite mb_clone_id in *; auto.
Qed.

Lemma targets_clone_id b : (forall tg, In tg b -> Forall op_canonical (tg_pipeline tg)) -> targets_clone b = b.
Proof.
  intros H. unfold targets_clone. induction b as [|tg b IH]; simpl; auto. rewrite target_clone_id by (apply H; now left).
  f_equal. apply IH. intros; apply H; now right.
Qed.

Lemma newest_in {P} (r : rule P) s : newest r s -> In s (ru_snapshots r).
Proof. intros (h & ->). apply in_or_app. right. now left. Qed.

Lemma latest_rollup rs : ids_distinct (rs_rollup rs) ->
  (forall r s tg, In r (rs_rollup rs) -> In s (ru_snapshots r) -> In tg (sn_body s) -> Forall op_canonical (tg_pipeline tg)) ->
  exists vs, collect (shows_live (fun b => b)) (rs_rollup rs) vs /\ Permutation vs (rsv_rollup (latest rs)) /\
    StronglySorted (fun v w => bleb (rv_name v) (rv_name w) = true) (rsv_rollup (latest rs)).
Proof.
  intros H Hop. apply (latest_rules_spec targets_clone) in H as (vs & Hc & Hp & Hs). exists vs. split; auto.
  eapply collect_weaken; [|exact Hc]. intros r v Hr. unfold shows_live.
  split; intros (s & Hn & Ht & E); exists s; rewrite targets_clone_id in *; auto; intros tg Htg; apply (Hop r s tg); auto using newest_in.
Qed.

Lemma histories_shown {P} (cl body : P -> P) (l : list (rule P)) : ids_distinct l -> (forall b, cl b = body b) ->
  Forall2 (fun r e => fst e = ru_uuid r /\ Forall2 (shows_snapshot body (ru_uuid r)) (rev (ru_snapshots r)) (snd e)) l (rule_histories cl l).
Proof.
  intros H Hb. rewrite rule_histories_distinct by auto. clear H. induction l as [|r l IH]; simpl; constructor; auto.
  split; auto. simpl. unfold history. generalize (rev (ru_snapshots r)) as h. induction h as [|s h IHh]; simpl; constructor; auto.
  unfold shows_snapshot, view_of. simpl. now rewrite Hb.
Qed.

Lemma clone_same rs :
  (forall r s tg, In r (rs_rollup rs) -> In s (ru_snapshots r) -> In tg (sn_body s) -> Forall op_canonical (tg_pipeline tg)) ->
  rule_set_clone rs = rs.
Proof.
  intros H. destruct rs as [u v ns ca ua ub tb co ms rr o n i]. unfold rule_set_clone; simpl in *. f_equal.
  - clear H. induction ms as [|[id h] ms IH]; simpl; auto. f_equal; auto. unfold rule_clone; simpl. f_equal.
    induction h as [|s h IHh]; simpl; auto. f_equal; auto. unfold snapshot_clone. rewrite mb_clone_id. now destruct s.
  - induction rr as [|[id h] rr IH]; simpl; auto. f_equal; [|apply IH; intros r s tg Hr; apply H; now right].
    unfold rule_clone; simpl. f_equal.
    assert (Hh : forall s tg, In s h -> In tg (sn_body s) -> Forall op_canonical (tg_pipeline tg)) by (intros s tg Hs; apply (H (mk_rule id h)); auto; now left).
    clear H IH. induction h as [|s h IHh]; simpl; auto. f_equal.
    + unfold snapshot_clone. rewrite targets_clone_id by (intros tg; apply Hh; now left). now destruct s.
    + apply IHh. intros s' tg Hs; apply Hh; now right.
Qed.

Lemma exact_add_mapping rs f e m :
  (forall rs', run_edit rs (AddMapping f e) m = (rs', true) ->
     exists id, adds f e m (rs_mapping rs) (rs_mapping rs') id /\ added_id rs (AddMapping f e) m = Some id /\ rs_rollup rs' = rs_rollup rs) /\
  (forall l' id, adds f e m (rs_mapping rs) l' id ->
     exists rs', run_edit rs (AddMapping f e) m = (rs', true) /\ rs_mapping rs' = l' /\ added_id rs (AddMapping f e) m = Some id).
Proof.
  simpl. split.
  - intros rs' H. destruct (rules_add true f (rs_mapping rs) e m) as [[l' id]|] eqn:E; [|discriminate]. simpl in H. injection H as <-.
    exists id. simpl. split; [|auto]. eapply rules_add_adds; eauto.
  - intros l' id H. rewrite (adds_rules_add true f _ e m l' id); auto. simpl. eexists; split; [reflexivity|]. auto.
Qed.
Lemma exact_add_rollup rs f e m : Forall (fun r => ru_snapshots r <> []) (rs_rollup rs) ->
  (forall rs', run_edit rs (AddRollup f e) m = (rs', true) ->
     exists id, adds f e m (rs_rollup rs) (rs_rollup rs') id /\ added_id rs (AddRollup f e) m = Some id /\ rs_mapping rs' = rs_mapping rs) /\
  (forall l' id, adds f e m (rs_rollup rs) l' id ->
     exists rs', run_edit rs (AddRollup f e) m = (rs', true) /\ rs_rollup rs' = l' /\ added_id rs (AddRollup f e) m = Some id).
Proof.
  intros Hs. simpl. rewrite view_targets_id. split.
  - intros rs' H. destruct (rules_add false f (rs_rollup rs) e m) as [[l' id]|] eqn:E; [|discriminate]. simpl in H. injection H as <-.
    exists id. simpl. split; [|auto]. eapply rules_add_adds; eauto.
  - intros l' id H. rewrite (adds_rules_add false f _ e m l' id); auto. simpl. eexists; split; [reflexivity|]. auto.
Qed.

Lemma exact_update_mapping rs e m l' :
  (exists rs', run_edit rs (UpdateMapping e) m = (rs', true) /\ rs_mapping rs' = l' /\ rs_rollup rs' = rs_rollup rs) <->
  updates e m (rs_mapping rs) l'.
Proof.
  rewrite <- rules_update_updates. simpl. destruct (rules_update (rs_mapping rs) e m) as [l|]; split.
  - intros (rs' & H & <- & _). injection H as <-. reflexivity.
  - intros H. injection H as <-. eexists; split; [reflexivity|]; auto.
  - intros (rs' & H & _). discriminate.
  - discriminate.
Qed.
Lemma exact_update_rollup rs e m l' :
  (exists rs', run_edit rs (UpdateRollup e) m = (rs', true) /\ rs_rollup rs' = l' /\ rs_mapping rs' = rs_mapping rs) <->
  updates e m (rs_rollup rs) l'.
Proof.
  rewrite <- rules_update_updates. simpl. rewrite view_targets_id. destruct (rules_update (rs_rollup rs) e m) as [l|]; split.
  - intros (rs' & H & <- & _). injection H as <-. reflexivity.
  - intros H. injection H as <-. eexists; split; [reflexivity|]; auto.
  - intros (rs' & H & _). discriminate.
  - discriminate.
Qed.
Lemma exact_delete_mapping rs id m l' :
  (exists rs', run_edit rs (DeleteMapping id) m = (rs', true) /\ rs_mapping rs' = l' /\ rs_rollup rs' = rs_rollup rs) <->
  deletes (mk_mb 0%N [] 0) id m (rs_mapping rs) l'.
Proof.
  rewrite <- (rules_delete_deletes mb_clone). simpl. unfold mb_empty, default_id, DropNone. destruct (rules_delete mb_clone _ (rs_mapping rs) id m) as [l|]; split.
  - intros (rs' & H & <- & _). injection H as <-. reflexivity.
  - intros H. injection H as <-. eexists; split; [reflexivity|]; auto.
  - intros (rs' & H & _). discriminate.
  - discriminate.
Qed.
Lemma exact_delete_rollup rs id m l' :
  (exists rs', run_edit rs (DeleteRollup id) m = (rs', true) /\ rs_rollup rs' = l' /\ rs_mapping rs' = rs_mapping rs) <->
  deletes [] id m (rs_rollup rs) l'.
Proof.
  rewrite <- (rules_delete_deletes targets_clone). simpl. unfold targets_empty. destruct (rules_delete targets_clone _ (rs_rollup rs) id m) as [l|]; split.
  - intros (rs' & H & <- & _). injection H as <-. reflexivity.
  - intros H. injection H as <-. eexists; split; [reflexivity|]; auto.
  - intros (rs' & H & _). discriminate.
  - discriminate.
Qed.

Lemma grown_nonempty {P} m (l l' : list (rule P)) : rules_grown m l l' -> Forall (fun r => ru_snapshots r <> []) l -> Forall (fun r => ru_snapshots r <> []) l'.
Proof.
  intros (k & n & -> & Hk & Hn) H. apply Forall_app. split.
  - apply Forall_forall. intros r' Hr'. apply (Forall2_in_r _ _ _ _ Hk) in Hr' as (r & Hr & [->|(s & _ & E & _)]).
    + rewrite Forall_forall in H; auto.
    + rewrite E. intros Hc. now apply app_eq_nil in Hc as [_ Hc].
  - destruct Hn as [->|(r & -> & s & E & _)]; auto. constructor; auto. rewrite E. discriminate.
Qed.
Lemma run_edits_nonempty es : forall rs,
  Forall (fun r => ru_snapshots r <> []) (rs_rollup rs) -> Forall (fun r => ru_snapshots r <> []) (rs_rollup (run_edits rs es)).
Proof.
  unfold run_edits. induction es as [|[e m] es IH]; intros rs H; simpl; auto. apply IH.
  destruct (run_edit rs e m) as [rs1 ok] eqn:E. apply run_edit_grown in E as [_ G]. simpl. eapply grown_nonempty; eauto.
Qed.
