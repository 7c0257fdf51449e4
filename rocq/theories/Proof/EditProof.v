(** Proofs about editing rule sets. *)
From Coq Require Import Ascii String Arith NArith ZArith Bool Lia Permutation Sorting.Sorted List.
From Verif.Base Require Import Bytes BytesFacts.
From Verif.Proof Require Import MetadataProof RulesProof MatchProof.
From Verif.Model Require Import AggType Policy Transformation Pipeline Metadata Filter MetricID Rules RuleSet.
From Verif.Spec Require Import AggSpec MetadataSpec FilterSpec RulesSpec EditSpec.
Import ListNotations.
Open Scope Z_scope.

(** ** Lists *)

Lemma last_opt_snoc {A} (l : list A) x : last_opt (l ++ [x]) = Some x.
Proof. induction l as [|y l IH]; simpl; auto. destruct (l ++ [x]) eqn:E; [now destruct l|auto]. Qed.

Lemma last_opt_some {A} (l : list A) x : last_opt l = Some x <-> exists h, l = h ++ [x].
Proof.
  split.
    destruct l as [|a l]; [intros H; discriminate H|]. intros H.
    destruct (exists_last (l := a :: l)) as (h & y & E); [discriminate|]. rewrite E in *.
    rewrite last_opt_snoc in H. injection H as ->. eauto.
  - intros (h & ->). apply last_opt_snoc.
Qed.

Lemma last_opt_none {A} (l : list A) : last_opt l = None <-> l = [].
Proof.
  split; [|now intros ->]. destruct l as [|a l]; auto. intros H.
  destruct (exists_last (l := a :: l)) as (h & y & E); [discriminate|]. rewrite E, last_opt_snoc in H. discriminate.
Qed.

Lemma newest_last {P} (r : rule P) s : newest r s <-> last_opt (ru_snapshots r) = Some s.
Proof. symmetry. apply last_opt_some. Qed.

Lemma newest_unique {P} (r : rule P) s s' : newest r s -> newest r s' -> s = s'.
Proof. rewrite !newest_last. congruence. Qed.

Lemma set_nth_split {A} (a : list A) x y b : set_nth (length a) y (a ++ x :: b) = a ++ y :: b.
Proof. induction a; simpl; congruence. Qed.

Lemma nth_error_split_at {A} (l : list A) i x : nth_error l i = Some x ->
  exists a b, l = a ++ x :: b /\ length a = i.
Proof. intros H. apply nth_error_split in H as (a & b & -> & <-). eauto. Qed.

Lemma rule_name_spec {P} (r : rule P) n : rule_name r = Some n <-> latest_name r n.
Proof.
  unfold rule_name, latest_name. destruct (last_opt (ru_snapshots r)) as [s|] eqn:E; simpl.
  - split.
    + intros H. injection H as <-. exists s; split; auto. now apply newest_last.
    + intros (s' & Hs & <-). apply newest_last in Hs. congruence.
  - split; [discriminate|]. intros (s' & Hs & _). apply newest_last in Hs. congruence.
Qed.

Lemma rule_name_none {P} (r : rule P) : rule_name r = None <-> ru_snapshots r = [].
Proof.
  unfold rule_name. rewrite <- last_opt_none. destruct (last_opt _); simpl; split; congruence.
Qed.

Lemma rule_tombstoned_spec {P} (r : rule P) : rule_tombstoned r = false <-> is_live r.
Proof.
  unfold rule_tombstoned, is_live. destruct (last_opt (ru_snapshots r)) as [s|] eqn:E.
  - split; [intros H; exists s; split; auto; now apply newest_last|].
    intros (s' & Hs & H). apply newest_last in Hs. congruence.
  - split; [discriminate|]. intros (s' & Hs & _). apply newest_last in Hs. congruence.
Qed.

Section Generic.
  Context {P : Type} (cl : P -> P) (empty : P).
  Implicit Types (r : rule P) (l : list (rule P)) (m : update_meta).

  Lemma add_snapshot_some r name raw body m r' : add_snapshot r name raw body m = Some r' ->
    filter_text_ok raw /\
    appended m r r' (mk_snap name false (um_cutover m) None raw body (um_at m) (um_by m)).
  Proof.
    unfold add_snapshot, new_snapshot_from_fields, filter_text_ok.
    destruct (validate_tags_filter raw) as [v|] eqn:E; [|discriminate]. intros H. injection H as <-.
    split; [eauto|]. repeat split.
  Qed.

  Lemma add_snapshot_ok r name raw body m : filter_text_ok raw -> exists r', add_snapshot r name raw body m = Some r'.
  Proof. intros (v & H). unfold add_snapshot, new_snapshot_from_fields. rewrite H. eauto. Qed.

  Lemma mark_tombstoned_some r m r' : mark_tombstoned cl empty r m = Some r' ->
    exists s, newest r s /\ sn_tomb s = false /\
      appended m r r' (mk_snap (sn_name s) true (um_cutover m) (sn_filter s) (sn_raw s) empty (um_at m) (um_by m)).
  Proof.
    unfold mark_tombstoned. destruct (last_opt (ru_snapshots r)) as [s|] eqn:E; [|discriminate].
    destruct (sn_tomb s) eqn:Et; [discriminate|]. intros H. injection H as <-.
    exists s. split; [now apply newest_last|]. split; auto. repeat split.
  Qed.

  Lemma mark_tombstoned_none r m : mark_tombstoned cl empty r m = None <-> ~ is_live r.
  Proof.
    rewrite <- rule_tombstoned_spec. unfold mark_tombstoned, rule_tombstoned.
    destruct (last_opt (ru_snapshots r)) as [s|]; [destruct (sn_tomb s)|]; split; congruence.
  Qed.

  Lemma rule_by_name_found skip name : forall l i j, rule_by_name skip i l name = Found j ->
    exists a r b, l = a ++ r :: b /\ (j = i + length a)%nat /\ rule_name r = Some name /\
      Forall (fun r' => rule_name r' <> Some name) a.
  Proof.
    induction l as [|r l IH]; intros i j H; simpl in H; [discriminate|].
    destruct (rule_name r) as [n|] eqn:E.
    - destruct (beqb n name) eqn:En.
      + injection H as <-. apply beqb_eq in En; subst. exists [], r, l. repeat split; auto; try (simpl; lia).
      + apply IH in H as (a & r' & b & -> & -> & Hn & Ha). exists (r :: a), r', b. repeat split; auto; try (simpl; lia).
        constructor; auto. rewrite E. intros Hc. injection Hc as ->. rewrite beqb_refl in En. discriminate.
    - destruct skip; [|discriminate].
      apply IH in H as (a & r' & b & -> & -> & Hn & Ha). exists (r :: a), r', b. repeat split; auto; try (simpl; lia).
      constructor; auto. congruence.
  Qed.

  Lemma rule_by_name_not_found skip name : forall l i, rule_by_name skip i l name = NotFound ->
    Forall (fun r => rule_name r <> Some name) l.
  Proof.
    induction l as [|r l IH]; intros i H; simpl in H; constructor.
    - destruct (rule_name r) as [n|] eqn:E; [|congruence]. destruct (beqb n name) eqn:En; [discriminate|].
      intros Hc. injection Hc as ->. rewrite beqb_refl in En. discriminate.
    - destruct (rule_name r) as [n|] eqn:E; [destruct (beqb n name); [discriminate|eauto]|destruct skip; [eauto|discriminate]].
  Qed.

  Lemma rule_by_name_absent skip name : forall l i,
    (skip = true \/ Forall (fun r => ru_snapshots r <> []) l) ->
    Forall (fun r => rule_name r <> Some name) l -> rule_by_name skip i l name = NotFound.
  Proof.
    induction l as [|r l IH]; intros i Hs H; simpl; auto. inversion H as [|? ? Hr Hl]; subst.
    destruct (rule_name r) as [n|] eqn:E.
    - destruct (beqb n name) eqn:En; [apply beqb_eq in En; congruence|]. apply IH; auto.
      destruct Hs as [Hs|Hs]; auto. right. now inversion Hs.
    - destruct Hs as [->|Hs]; [apply IH; auto|]. inversion Hs; subst. now apply rule_name_none in E.
  Qed.

  Lemma rule_by_id_some id : forall l i j, rule_by_id i l id = Some j ->
    exists a r b, l = a ++ r :: b /\ (j = i + length a)%nat /\ ru_uuid r = id /\ Forall (fun r' => ru_uuid r' <> id) a.
  Proof.
    induction l as [|r l IH]; intros i j H; simpl in H; [discriminate|].
    destruct (beqb (ru_uuid r) id) eqn:E.
    - injection H as <-. apply beqb_eq in E. exists [], r, l. repeat split; auto; try (simpl; lia).
    - apply IH in H as (a & r' & b & -> & -> & Hn & Ha). exists (r :: a), r', b. repeat split; auto; try (simpl; lia).
      constructor; auto. intros Hc. rewrite Hc, beqb_refl in E. discriminate.
  Qed.

  Lemma rule_by_id_none id : forall l i, rule_by_id i l id = None <-> Forall (fun r => ru_uuid r <> id) l.
  Proof.
    induction l as [|r l IH]; intros i; simpl; [split; auto|]. destruct (beqb (ru_uuid r) id) eqn:E.
    - apply beqb_eq in E. split; [discriminate|]. intros H; inversion H; contradiction.
    - rewrite IH. split; intros H; [constructor|inversion H]; auto.
      intros Hc. rewrite Hc, beqb_refl in E. discriminate.
  Qed.

  (** What an addition, an update and a deletion do. *)
  Lemma rules_add_some skip fresh l e m l' id : rules_add skip fresh l e m = Some (l', id) ->
    let s := mk_snap (re_name e) false (um_cutover m) None (re_filter e) (re_body e) (um_at m) (um_by m) in
    filter_text_ok (re_filter e) /\
    ((l' = l ++ [mk_rule fresh [s]] /\ id = fresh /\ Forall (fun r => ~ latest_name r (re_name e)) l) \/
     (exists a r r' b, l = a ++ r :: b /\ l' = a ++ r' :: b /\ id = ru_uuid r /\ latest_name r (re_name e) /\ ~ is_live r /\
        Forall (fun r' => ~ latest_name r' (re_name e)) a /\ appended m r r' s)).
  Proof.
    unfold rules_add. destruct (rule_by_name skip 0 l (re_name e)) as [i| |] eqn:E; [| |discriminate].
    - apply rule_by_name_found in E as (a & r & b & -> & -> & Hn & Ha). simpl.
      rewrite nth_error_app2, Nat.sub_diag by lia. simpl. unfold revive_rule. rewrite Hn.
      destruct (rule_tombstoned r) eqn:Et; simpl; [|discriminate].
      destruct (add_snapshot r _ _ _ m) as [r'|] eqn:Ea; [|discriminate]. intros H. injection H as <- <-.
      apply add_snapshot_some in Ea as [Hf Hap]. split; auto. right. exists a, r, r', b.
      rewrite set_nth_split. repeat split; auto; try apply Hap.
      + now apply rule_name_spec.
      + intros Hl. apply rule_tombstoned_spec in Hl. congruence.
      + eapply Forall_impl; [|exact Ha]. intros x Hx Hc. now apply Hx, rule_name_spec.
    - apply rule_by_name_not_found in E.
      destruct (add_snapshot _ _ _ _ m) as [r'|] eqn:Ea; [|discriminate]. intros H. injection H as <- <-.
      apply add_snapshot_some in Ea as [Hf (Hu & Hs & _)]. split; auto. left. simpl in Hu, Hs.
      destruct r' as [u ss]; simpl in *; subst. repeat split.
      eapply Forall_impl; [|exact E]. intros x Hx Hc. now apply Hx, rule_name_spec.
  Qed.

  Lemma rules_update_some l e m l' : rules_update l e m = Some l' ->
    filter_text_ok (re_filter e) /\ exists a r r' b, l = a ++ r :: b /\ l' = a ++ r' :: b /\ ru_uuid r = re_id e /\
      Forall (fun r' => ru_uuid r' <> re_id e) a /\
      appended m r r' (mk_snap (re_name e) false (um_cutover m) None (re_filter e) (re_body e) (um_at m) (um_by m)).
  Proof.
    unfold rules_update. destruct (rule_by_id 0 l (re_id e)) as [i|] eqn:E; [|discriminate].
    apply rule_by_id_some in E as (a & r & b & -> & -> & Hu & Ha). simpl.
    rewrite nth_error_app2, Nat.sub_diag by lia. simpl.
    destruct (add_snapshot r _ _ _ m) as [r'|] eqn:Ea; [|discriminate]. simpl. intros H. injection H as <-.
    apply add_snapshot_some in Ea as [Hf Hap]. split; auto. exists a, r, r', b. rewrite set_nth_split.
    repeat split; auto; apply Hap.
  Qed.

  Lemma rules_delete_some l id m l' : rules_delete cl empty l id m = Some l' ->
    exists a r r' b s, l = a ++ r :: b /\ l' = a ++ r' :: b /\ ru_uuid r = id /\ Forall (fun r' => ru_uuid r' <> id) a /\
      newest r s /\ sn_tomb s = false /\
      appended m r r' (mk_snap (sn_name s) true (um_cutover m) (sn_filter s) (sn_raw s) empty (um_at m) (um_by m)).
  Proof.
    unfold rules_delete. destruct (rule_by_id 0 l id) as [i|] eqn:E; [|discriminate].
    apply rule_by_id_some in E as (a & r & b & -> & -> & Hu & Ha). simpl.
    rewrite nth_error_app2, Nat.sub_diag by lia. simpl.
    destruct (mark_tombstoned cl empty r m) as [r'|] eqn:Ea; [|discriminate]. simpl. intros H. injection H as <-.
    apply mark_tombstoned_some in Ea as (s & Hs & Ht & Hap). exists a, r, r', b, s. rewrite set_nth_split.
    repeat split; auto; apply Hap.
  Qed.

  Lemma rules_add_change skip fresh l e m l' id : rules_add skip fresh l e m = Some (l', id) -> one_change m l l'.
  Proof.
    intros H. apply rules_add_some in H as [_ [(-> & _)|(a & r & r' & b & -> & -> & _ & _ & _ & _ & Hap)]].
    - right; right. eexists; split; eauto. eexists; split; [reflexivity|]. repeat split.
    - right; left. exists a, r, r', b. eauto.
  Qed.

  Lemma rules_update_change l e m l' : rules_update l e m = Some l' -> one_change m l l'.
  Proof. intros H. apply rules_update_some in H as (_ & a & r & r' & b & -> & -> & _ & _ & Hap). right; left. exists a, r, r', b. eauto. Qed.

  Lemma rules_delete_change l id m l' : rules_delete cl empty l id m = Some l' -> one_change m l l'.
  Proof. intros H. apply rules_delete_some in H as (a & r & r' & b & s & -> & -> & _ & _ & _ & _ & Hap). right; left. exists a, r, r', b. eauto. Qed.

  Lemma grown_refl m l : Forall2 (grown m) l l.
  Proof. induction l; constructor; auto. now left. Qed.

  Lemma one_change_grown m l l' : one_change m l l' -> rules_grown m l l'.
  Proof.
    intros [->|[(a & r & r' & b & s & -> & -> & H)|(r & -> & H)]].
    - exists l, []. rewrite app_nil_r. split; auto. split; [apply grown_refl|auto].
    - exists (a ++ r' :: b), []. rewrite app_nil_r. split; auto. split; auto.
      apply Forall2_app; [apply grown_refl|]. constructor; [right; eauto|apply grown_refl].
    - exists l, [r]. split; auto. split; [apply grown_refl|]. right; eauto.
  Qed.

  Definition deleted_rule m r r' : Prop :=
    (~ is_live r /\ r' = r) \/
    exists s, newest r s /\ sn_tomb s = false /\
      appended m r r' (mk_snap (sn_name s) true (um_cutover m) (sn_filter s) (sn_raw s) empty (um_at m) (um_by m)).

  Lemma rules_delete_all_spec l m : Forall2 (deleted_rule m) l (rules_delete_all cl empty l m).
  Proof.
    unfold rules_delete_all. induction l as [|r l IH]; simpl; constructor; auto.
    destruct (rule_tombstoned r) eqn:Et; simpl.
    - left. split; auto. intros H. apply rule_tombstoned_spec in H. congruence.
    - destruct (mark_tombstoned cl empty r m) as [r'|] eqn:E.
      + right. now apply mark_tombstoned_some.
      + apply mark_tombstoned_none in E. apply rule_tombstoned_spec in Et. contradiction.
  Qed.

  Lemma deleted_grown m r r' : deleted_rule m r r' -> grown m r r'.
  Proof. intros [[_ ->]|(s & _ & _ & H)]; [now left|right; eauto]. Qed.

  Lemma Forall2_imp {A C} (R S : A -> C -> Prop) (l : list A) (l' : list C) : (forall x y, R x y -> S x y) -> Forall2 R l l' -> Forall2 S l l'.
  Proof. induction 2; constructor; auto. Qed.

  Lemma delete_all_grown l m : rules_grown m l (rules_delete_all cl empty l m).
  Proof.
    exists (rules_delete_all cl empty l m), []. rewrite app_nil_r. split; auto. split; auto.
    eapply Forall2_imp; [|apply rules_delete_all_spec]. apply deleted_grown.
  Qed.
End Generic.

(** ** One edit *)

Lemma run_edit_failed rs e m rs' : run_edit rs e m = (rs', false) -> rs' = rs.
Proof.
  destruct e; simpl; intros H;
    repeat match type of H with
           | (match ?o with _ => _ end) = _ => destruct o; [|]
           | (if ?o then _ else _) = _ => destruct o
           end; congruence.
Qed.

Ltac edit_cases H :=
  unfold run_edit in H;
  repeat match type of H with
         | (match ?o with _ => _ end) = _ => destruct o eqn:?
         end; try discriminate; injection H as <-.

Lemma run_edit_meta rs e m rs' : run_edit rs e m = (rs', true) ->
  rs_uuid rs' = rs_uuid rs /\ rs_version rs' = rs_version rs /\ rs_namespace rs' = rs_namespace rs /\
  rs_created_at rs' = rs_created_at rs /\ rs_opts rs' = rs_opts rs /\ rs_new_id rs' = rs_new_id rs /\
  rs_is_rollup rs' = rs_is_rollup rs /\
  rs_cutover rs' = um_cutover m /\ rs_updated_at rs' = um_at m /\ rs_updated_by rs' = um_by m /\
  rs_tomb rs' = match e with DeleteSet => true | ReviveSet => false | _ => rs_tomb rs end.
Proof. intros H. destruct e; edit_cases H; repeat split. Qed.

Lemma one_refl {P} m (l : list (rule P)) : one_change m l l.
Proof. now left. Qed.

Lemma run_edit_one rs e m rs' ok : e <> DeleteSet -> run_edit rs e m = (rs', ok) ->
  one_change m (rs_mapping rs) (rs_mapping rs') /\ one_change m (rs_rollup rs) (rs_rollup rs') /\
  (touches_mapping e = false -> rs_mapping rs' = rs_mapping rs) /\
  (touches_rollup e = false -> rs_rollup rs' = rs_rollup rs).
Proof.
  intros Hd H. destruct ok; [|apply run_edit_failed in H as ->; auto using one_refl].
  destruct e; try contradiction; edit_cases H; simpl; repeat split; auto using one_refl; try discriminate;
    try (destruct (rules_add _ _ _ _ _) as [[? ?]|] eqn:E; [|discriminate];
         match goal with H : option_map fst _ = _ |- _ => injection H as <- end; eapply rules_add_change; eauto);
    eauto using rules_update_change, rules_delete_change.
Qed.

Lemma run_edit_grown rs e m rs' ok : run_edit rs e m = (rs', ok) ->
  rules_grown m (rs_mapping rs) (rs_mapping rs') /\ rules_grown m (rs_rollup rs) (rs_rollup rs').
Proof.
  intros H. assert (De : e = DeleteSet \/ e <> DeleteSet) by (destruct e; auto; right; discriminate).
  destruct De as [->|Hd].
  - destruct ok; [|apply run_edit_failed in H as ->; split; apply one_change_grown, one_refl].
    edit_cases H. split; apply delete_all_grown.
  - apply run_edit_one in H as (H1 & H2 & _); auto. split; now apply one_change_grown.
Qed.

(** ** Sequences *)

Lemma histories_kept_refl {P} (l : list (rule P)) : histories_kept l l.
Proof.
  exists l, []. rewrite app_nil_r. split; auto. induction l; constructor; auto. split; auto. exists []. now rewrite app_nil_r.
Qed.

Lemma Forall2_app_r_inv {A C} (R : A -> C -> Prop) l l1 l2 : Forall2 R l (l1 ++ l2) ->
  exists a b, l = a ++ b /\ Forall2 R a l1 /\ Forall2 R b l2.
Proof. intros H. apply Forall2_app_inv_r in H as (a & b & ? & ? & ->). eauto. Qed.

Lemma histories_kept_trans {P} (l1 l2 l3 : list (rule P)) : histories_kept l1 l2 -> histories_kept l2 l3 -> histories_kept l1 l3.
Proof.
  intros (k1 & n1 & -> & H1) (k2 & n2 & -> & H2). apply Forall2_app_inv_l in H2 as (a & b & Ha & Hb & ->).
  exists a, (b ++ n2). split; [now rewrite app_assoc|]. clear Hb. revert l1 H1. induction Ha as [|x y k1 a (Hu & more & Hs) Ha IH]; intros l1 H1.
  - inversion H1; constructor.
  - inversion H1 as [|x0 ? l0 ? (Hu0 & more0 & Hs0) H0]; subst. constructor; auto. split; [congruence|].
    exists (more0 ++ more). rewrite Hs, Hs0. now rewrite app_assoc.
Qed.

Lemma rules_grown_kept {P} m (l l' : list (rule P)) : rules_grown m l l' -> histories_kept l l'.
Proof.
  intros (k & n & -> & H & _). exists k, n. split; auto. eapply Forall2_imp; [|exact H].
  intros r r' [->|(s & Hu & Hs & _)]; split; auto; [exists []; now rewrite app_nil_r|eauto].
Qed.

Lemma run_edits_kept es : forall rs,
  histories_kept (rs_mapping rs) (rs_mapping (run_edits rs es)) /\ histories_kept (rs_rollup rs) (rs_rollup (run_edits rs es)).
Proof.
  unfold run_edits. induction es as [|[e m] es IH]; intros rs; simpl; [split; apply histories_kept_refl|].
  destruct (run_edit rs e m) as [rs1 ok] eqn:E. simpl. apply run_edit_grown in E as [H1 H2]. destruct (IH rs1) as [I1 I2].
  split; eapply histories_kept_trans; eauto using rules_grown_kept.
Qed.

(** Cutovers stay in order when the edits come in order. *)
Lemma ascending_snoc {P} (h : list (snapshot P)) s : ascending h -> (forall x, In x h -> sn_cutover x <= sn_cutover s) -> ascending (h ++ [s]).
Proof.
  unfold ascending. induction h as [|x h IH]; intros Ha Hb; simpl; [repeat constructor|].
  inversion Ha; subst. constructor; [apply IH; auto; intros; apply Hb; now right|].
  apply Forall_app; split; auto. constructor; auto. apply Hb. now left.
Qed.

Lemma grown_ascending {P} m (l l' : list (rule P)) : rules_grown m l l' -> dated_by (um_cutover m) l -> all_ascending l ->
  all_ascending l' /\ dated_by (um_cutover m) l'.
Proof.
  intros (k & n & -> & Hk & Hn) Hd Ha. unfold all_ascending in *.
  assert (Hnew : Forall (fun r => ascending (ru_snapshots r)) n /\ dated_by (um_cutover m) n).
  { destruct Hn as [->|(r & -> & s & Hs & Hst)]; [split; auto; intros r s []|]. split.
    - constructor; auto. rewrite Hs. repeat constructor.
    - intros r' s' [<-|[]] Hin. rewrite Hs in Hin. destruct Hin as [<-|[]]. destruct Hst; lia. }
  enough (Hkept : Forall (fun r => ascending (ru_snapshots r)) k /\ dated_by (um_cutover m) k).
  { split; [apply Forall_app; tauto|]. intros r s Hr Hs. apply in_app_or in Hr as [Hr|Hr]; [now apply (proj2 Hkept r)|now apply (proj2 Hnew r)]. }
  clear Hn Hnew. induction Hk as [|r r' l k Hg Hk IH]; [split; auto; intros r s []|].
  inversion Ha as [|? ? Har Hal]; subst. destruct IH as [I1 I2]; auto; [intros x s Hx; apply Hd; now right|].
  assert (Hr : ascending (ru_snapshots r') /\ forall s, In s (ru_snapshots r') -> sn_cutover s <= um_cutover m).
  { assert (Hd0 : forall s, In s (ru_snapshots r) -> sn_cutover s <= um_cutover m) by (intros s Hs; apply (Hd r); auto; now left).
    destruct Hg as [->|(s & _ & Hs & Hst & _)]; auto. rewrite Hs. split.
    - apply ascending_snoc; auto. intros x Hx. rewrite Hst. auto.
    - intros x Hx. apply in_app_or in Hx as [Hx|[<-|[]]]; auto. lia. }
  split; [constructor; tauto|]. intros x s [<-|Hx] Hs; [now apply Hr|now apply (I2 x)].
Qed.

Lemma dated_by_weaken {P} c c' (l : list (rule P)) : c <= c' -> dated_by c l -> dated_by c' l.
Proof. intros Hc H r s Hr Hs. specialize (H r s Hr Hs). lia. Qed.

(** ** Names *)

Lemma names_distinct_split {P} (a : list (rule P)) r b : names_distinct (a ++ r :: b) <->
  names_distinct (a ++ b) /\ forall n, latest_name r n -> forall r', In r' (a ++ b) -> ~ latest_name r' n.
Proof.
  unfold names_distinct. split.
  - intros H. split.
    + intros i j x y n Hx Hy Hnx Hny.
      set (up := fun k => if (k <? length a)%nat then k else S k).
      assert (Hup : forall k z, nth_error (a ++ b) k = Some z -> nth_error (a ++ r :: b) (up k) = Some z).
      { intros k z Hz. unfold up. destruct (Nat.ltb_spec k (length a)).
        - rewrite nth_error_app1 in * by lia. auto.
        - rewrite nth_error_app2 in * by lia. replace (S k - length a)%nat with (S (k - length a)) by lia. auto. }
      specialize (H _ _ _ _ n (Hup _ _ Hx) (Hup _ _ Hy) Hnx Hny). unfold up in H.
      destruct (Nat.ltb_spec i (length a)), (Nat.ltb_spec j (length a)); lia.
    + intros n Hn r' Hin Hn'. apply In_nth_error in Hin as (k & Hk).
      destruct (Nat.ltb_spec k (length a)) as [Hlt|Hge].
      * rewrite nth_error_app1 in Hk by lia.
        specialize (H k (length a) r' r n). rewrite nth_error_app1 in H by lia. rewrite nth_error_app2, Nat.sub_diag in H by lia.
        specialize (H Hk eq_refl Hn' Hn). lia.
      * rewrite nth_error_app2 in Hk by lia.
        specialize (H (S k) (length a) r' r n). rewrite !nth_error_app2, Nat.sub_diag in H by lia.
        replace (S k - length a)%nat with (S (k - length a)) in H by lia. specialize (H Hk eq_refl Hn' Hn). lia.
  - intros [H Hr] i j x y n Hx Hy Hnx Hny.
    assert (Hcase : forall k z, nth_error (a ++ r :: b) k = Some z -> (k = length a /\ z = r) \/
              (k <> length a /\ nth_error (a ++ b) (if (k <? length a)%nat then k else pred k) = Some z)).
    { intros k z Hz. destruct (Nat.ltb_spec k (length a)).
      - rewrite nth_error_app1 in * by lia. right; split; auto; lia.
      - rewrite nth_error_app2 in * by lia. destruct (k - length a)%nat as [|d] eqn:Ed.
        + left. split; [lia|]. now injection Hz as ->.
        + right. split; [lia|]. rewrite nth_error_app2 by lia. replace (pred k - length a)%nat with d by lia. auto. }
    destruct (Hcase _ _ Hx) as [[-> ->]|[Hi Hx']], (Hcase _ _ Hy) as [[-> ->]|[Hj Hy']]; auto.
    + exfalso. apply nth_error_In in Hy'. eapply Hr; eauto.
    + exfalso. apply nth_error_In in Hx'. eapply Hr; eauto.
    + specialize (H _ _ _ _ n Hx' Hy' Hnx Hny).
      destruct (Nat.ltb_spec i (length a)), (Nat.ltb_spec j (length a)); lia.
Qed.

Lemma names_distinct_same {P} (l l' : list (rule P)) :
  Forall2 (fun r r' => forall n, latest_name r' n -> latest_name r n) l l' -> names_distinct l -> names_distinct l'.
Proof.
  intros H Hd i j r r' n Hi Hj Hn Hn'.
  assert (Hback : forall k x, nth_error l' k = Some x -> exists y, nth_error l k = Some y /\ forall n, latest_name x n -> latest_name y n).
  { clear - H. induction H as [|y x l l' Hxy H IH]; intros [|k] z Hz; try discriminate; simpl in *.
    - injection Hz as <-. eauto.
    - eauto. }
  destruct (Hback _ _ Hi) as (x & Hx & Hx'), (Hback _ _ Hj) as (y & Hy & Hy'). eapply Hd; eauto.
Qed.

Lemma appended_newest {P} m (r r' : rule P) s : appended m r r' s -> newest r' s.
Proof. intros (_ & H & _). exists (ru_snapshots r); auto. Qed.

Lemma appended_name {P} m (r r' : rule P) s n : appended m r r' s -> latest_name r' n <-> sn_name s = n.
Proof.
  intros H. apply appended_newest in H. split.
  - intros (s' & Hs & <-). now rewrite (newest_unique _ _ _ H Hs).
  - intros <-. exists s; auto.
Qed.

Section Names.
  Context {P : Type} (cl : P -> P) (empty : P).
  Implicit Types (r : rule P) (l : list (rule P)) (m : update_meta).

  Lemma rules_add_names skip fresh l e m l' id : rules_add skip fresh l e m = Some (l', id) -> names_distinct l -> names_distinct l'.
  Proof.
    intros H Hd. apply rules_add_some in H as [_ [(-> & _ & Hno)|(a & r & r' & b & -> & -> & _ & Hn & _ & _ & Hap)]].
    - apply names_distinct_split. rewrite app_nil_r. split; auto. intros n (s & (h & Hs) & <-) r' Hr' Hn.
      simpl in Hs. destruct h as [|? [|]]; try discriminate. injection Hs as <-. simpl in Hn.
      rewrite Forall_forall in Hno. eapply Hno; eauto.
    - apply names_distinct_split in Hd as [Hd Hr]. apply names_distinct_split. split; auto. intros n' Hn' x Hx.
      apply (appended_name _ _ _ _ _ Hap) in Hn'. simpl in Hn'. subst. eauto.
  Qed.

  Lemma rules_update_names l e m l' : rules_update l e m = Some l' -> ids_distinct l ->
    (forall r, In r l -> latest_name r (re_name e) -> ru_uuid r = re_id e) -> names_distinct l -> names_distinct l'.
  Proof.
    intros H Hi Hc Hd. apply rules_update_some in H as (_ & a & r & r' & b & -> & -> & Hu & _ & Hap).
    apply names_distinct_split in Hd as [Hd Hr]. apply names_distinct_split. split; auto. intros n Hn x Hx Hx'.
    apply (appended_name _ _ _ _ _ Hap) in Hn. simpl in Hn. subst n.
    assert (E : ru_uuid x = re_id e). { apply Hc; auto. apply in_or_app. apply in_app_or in Hx as [|]; [now left|right; now right]. }
    unfold ids_distinct in Hi. rewrite map_app in Hi. simpl in Hi. apply NoDup_remove_2 in Hi.
    apply Hi. rewrite Hu, <- E. rewrite <- map_app. now apply in_map.
  Qed.

  Lemma rules_delete_names l id m l' : rules_delete cl empty l id m = Some l' -> names_distinct l -> names_distinct l'.
  Proof.
    intros H Hd. apply rules_delete_some in H as (a & r & r' & b & s & -> & -> & _ & _ & Hs & _ & Hap).
    apply names_distinct_split in Hd as [Hd Hr]. apply names_distinct_split. split; auto. intros n Hn x Hx.
    apply (appended_name _ _ _ _ _ Hap) in Hn. simpl in Hn. apply Hr; auto. exists s; auto.
  Qed.

  Lemma rules_delete_all_names l m : names_distinct l -> names_distinct (rules_delete_all cl empty l m).
  Proof.
    apply names_distinct_same. eapply Forall2_imp; [|apply rules_delete_all_spec].
    intros r r' [[_ ->]|(s & Hs & _ & Hap)] n Hn; auto. apply (appended_name _ _ _ _ _ Hap) in Hn. simpl in Hn. exists s; auto.
  Qed.

  Lemma add_live_fails skip fresh l e m r : names_distinct l -> In r l -> latest_name r (re_name e) -> is_live r ->
    rules_add skip fresh l e m = None.
  Proof.
    intros Hd Hr Hn Hl. destruct (rules_add skip fresh l e m) as [[l' id]|] eqn:E; auto. exfalso.
    apply rules_add_some in E as [_ [(_ & _ & Hno)|(a & r0 & r' & b & -> & _ & _ & Hn0 & Hl0 & _ & _)]].
    - rewrite Forall_forall in Hno. now apply (Hno r).
    - apply names_distinct_split in Hd as [_ Hd]. apply in_app_or in Hr as [Hr|[->|Hr]].
      + apply (Hd (re_name e) Hn0 r); auto. apply in_or_app; auto.
      + contradiction.
      + apply (Hd (re_name e) Hn0 r); auto. apply in_or_app; auto.
  Qed.

  Lemma add_bad_filter skip fresh l e m : ~ filter_text_ok (re_filter e) -> rules_add skip fresh l e m = None.
  Proof.
    intros H. destruct (rules_add skip fresh l e m) as [[l' id]|] eqn:E; auto. apply rules_add_some in E as [Hf _]. contradiction.
  Qed.

  Lemma no_name_fails skip l name : forall i, rule_by_name skip i l name = Failed -> skip = false /\ exists r, In r l /\ ru_snapshots r = [].
  Proof.
    induction l as [|r l IH]; intros i H; simpl in H; [discriminate|]. destruct (rule_name r) as [n|] eqn:E.
    - destruct (beqb n name); [discriminate|]. apply IH in H as (-> & x & Hx & Hs). split; auto. exists x; split; auto; now right.
    - destruct skip.
      + apply IH in H as (H & _). discriminate H.
      + split; auto. exists r; split; [now left|]. now apply rule_name_none.
  Qed.

  Lemma add_absent skip fresh l e m : (skip = true \/ Forall (fun r => ru_snapshots r <> []) l) -> filter_text_ok (re_filter e) ->
    (forall r, In r l -> ~ latest_name r (re_name e)) ->
    rules_add skip fresh l e m =
      Some (l ++ [mk_rule fresh [mk_snap (re_name e) false (um_cutover m) None (re_filter e) (re_body e) (um_at m) (um_by m)]], fresh).
  Proof.
    intros Hs (v & Hf) Hn. unfold rules_add. rewrite rule_by_name_absent; auto.
    - unfold add_snapshot, new_snapshot_from_fields. now rewrite Hf.
    - apply Forall_forall. intros r Hr Hc. apply rule_name_spec in Hc. now apply (Hn r).
  Qed.

  Lemma add_revives skip fresh a r b e m : (skip = true \/ Forall (fun r => ru_snapshots r <> []) a) -> filter_text_ok (re_filter e) ->
    names_distinct (a ++ r :: b) -> latest_name r (re_name e) -> ~ is_live r ->
    rules_add skip fresh (a ++ r :: b) e m =
      Some (a ++ mk_rule (ru_uuid r) (ru_snapshots r ++ [mk_snap (re_name e) false (um_cutover m) None (re_filter e) (re_body e) (um_at m) (um_by m)]) :: b,
            ru_uuid r).
  Proof.
    intros Hs (v & Hf) Hd Hn Hl. apply names_distinct_split in Hd as [_ Hd].
    assert (E : forall i, rule_by_name skip i (a ++ r :: b) (re_name e) = Found (i + length a)%nat).
    { assert (Ha : forall x, In x a -> ~ latest_name x (re_name e)) by (intros x Hx; eapply Hd; eauto; apply in_or_app; auto).
      clear Hd. induction a as [|x a IH]; intros i; simpl.
      - apply rule_name_spec in Hn. rewrite Hn, beqb_refl. f_equal; lia.
      - destruct (rule_name x) as [n|] eqn:Ex.
        + destruct (beqb n (re_name e)) eqn:En.
          * apply beqb_eq in En; subst. exfalso. apply (Ha x); [now left|]. now apply rule_name_spec.
          * rewrite IH; [f_equal; lia| |intros y Hy; apply Ha; now right]. destruct Hs as [Hs|Hs]; auto. right. now inversion Hs.
        + destruct Hs as [->|Hs].
          * rewrite IH; [f_equal; lia|auto|intros y Hy; apply Ha; now right].
          * inversion Hs; subst. now apply rule_name_none in Ex. }
    unfold rules_add. rewrite E. simpl. rewrite nth_error_app2, Nat.sub_diag by lia. simpl. unfold revive_rule.
    rewrite (proj2 (rule_name_spec r (re_name e)) Hn).
    destruct (rule_tombstoned r) eqn:Et; [|apply rule_tombstoned_spec in Et; contradiction]. simpl.
    unfold add_snapshot, new_snapshot_from_fields. rewrite Hf. now rewrite set_nth_split.
  Qed.

  Lemma names_live l : names_distinct l -> live_names_distinct l.
  Proof. intros H i j r r' n Hi Hj _ _. now apply H. Qed.

  Lemma add_ids skip fresh l e m l' id : rules_add skip fresh l e m = Some (l', id) -> ids_distinct l -> ~ In fresh (map ru_uuid l) -> ids_distinct l'.
  Proof.
    intros H Hi Hf. apply rules_add_some in H as [_ [(-> & _)|(a & r & r' & b & -> & -> & _ & _ & _ & _ & (Hu & _))]]; unfold ids_distinct in *.
    - rewrite map_app. simpl. apply NoDup_Add with (a := fresh) (l := map ru_uuid l); [|auto].
      rewrite <- (app_nil_r (map ru_uuid l)) at 1. apply Add_app.
    - rewrite map_app in *. simpl in *. now rewrite Hu.
  Qed.

  Lemma change_ids l l' m : (exists a r r' b s, l = a ++ r :: b /\ l' = a ++ r' :: b /\ appended m r r' s) -> map ru_uuid l' = map ru_uuid l.
  Proof. intros (a & r & r' & b & s & -> & -> & Hu & _). rewrite !map_app. simpl. now rewrite Hu. Qed.
End Names.
