(** Proofs that edits keep rule sets storable. *)
From Coq Require Import Ascii String Arith NArith ZArith Bool Lia Permutation Sorting.Sorted List.
From Verif.Base Require Import Bytes BytesFacts.
From Verif.Proof Require Import AggProof PolicyProof MetadataProof EditProof EditMatchProof RuleSetProtoProof.
From Verif.Model Require Import AggType Policy Transformation Pipeline Metadata Filter Rules RuleSet RuleSetProto.
From Verif.Spec Require Import AggSpec PolicySpec MetadataSpec EditSpec RuleSetProtoSpec.
Import ListNotations.
Open Scope Z_scope.

Lemma compile_tags_some key m : forall fs name tags, map_opt (fun e => new_filter_from_value (snd e)) m = Some fs ->
  exists r, compile_tags key m name tags = Some r.
Proof.
  induction m as [|[n v] m IH]; intros fs name tags H; [simpl; eauto|]. apply map_opt_some in H. inversion H as [|? f ? fs' Hf H']; subst.
  apply map_opt_some in H'. cbn in Hf. cbn [compile_tags]. rewrite Hf. destruct (beqb key n); eapply IH; eauto.
Qed.

Lemma filter_text_compiles opts raw : filter_text_ok raw -> exists f, compiles_to opts raw f.
Proof.
  intros (m & H). unfold validate_tags_filter in H. destruct (parse_tag_filter_value_map raw) as [m'|] eqn:E; [|discriminate].
  destruct (map_opt (fun e => new_filter_from_value (snd e)) m') as [fs|] eqn:F; [|discriminate]. injection H as ->.
  destruct (compile_tags_some (tfo_name_tag_key opts) m fs None [] F) as [[name tags] C].
  exists (mk_tf name (isort by_name_leb tags) Conjunction opts). exists m. split; auto. unfold new_tags_filter. now rewrite C.
Qed.

Section Keep.
  Context {P : Type} (K : snapshot P -> Prop) (empty : P).
  Hypothesis Ktomb : forall s c a b, K s -> K (mk_snap (sn_name s) true c (sn_filter s) (sn_raw s) empty a b).

  Lemma every_app (a b : list (rule P)) : every_snapshot K (a ++ b) <-> every_snapshot K a /\ every_snapshot K b.
  Proof.
    unfold every_snapshot. split.
    - intros H. split; intros r s Hr; apply (H r s); apply in_app_iff; auto.
    - intros [H1 H2] r s Hr. apply in_app_iff in Hr as [Hr|Hr]; [apply (H1 r s)|apply (H2 r s)]; auto.
  Qed.

  Lemma every_cons (r : rule P) l : every_snapshot K (r :: l) <-> Forall K (ru_snapshots r) /\ every_snapshot K l.
  Proof.
    unfold every_snapshot. split.
    - intros H. split; [apply Forall_forall; intros s; apply (H r s); now left|intros r' s Hr; apply (H r' s); now right].
    - intros [H1 H2] r' s [<-|Hr] Hs; [rewrite Forall_forall in H1; auto|apply (H2 r' s); auto].
  Qed.

  Lemma adds_keeps fresh e m (l l' : list (rule P)) id : (filter_text_ok (re_filter e) -> K (edited e m)) ->
    adds fresh e m l l' id -> every_snapshot K l -> every_snapshot K l'.
  Proof.
    intros Ke H. inversion H; subst; rewrite !every_app, !every_cons; cbn; intros HK.
    - split; auto. split; [constructor; auto|intros ? ? []].
    - destruct HK as (H4 & H5 & H6). split; auto. split; auto. apply Forall_app; auto.
  Qed.

  Lemma updates_keeps e m (l l' : list (rule P)) : (filter_text_ok (re_filter e) -> K (edited e m)) ->
    updates e m l l' -> every_snapshot K l -> every_snapshot K l'.
  Proof.
    intros Ke H. inversion H; subst; rewrite !every_app, !every_cons; cbn; intros (H4 & H5 & H6).
    split; auto. split; auto. apply Forall_app; auto.
  Qed.

  Lemma newest_in (r : rule P) s : newest r s -> In s (ru_snapshots r).
  Proof. intros (h & E). rewrite E. apply in_app_iff. right. now left. Qed.

  Lemma deletes_keeps id m (l l' : list (rule P)) : deletes empty id m l l' -> every_snapshot K l -> every_snapshot K l'.
  Proof.
    intros H. inversion H; subst; rewrite !every_app, !every_cons; cbn; intros (H4 & H5 & H6).
    split; auto. split; auto. apply Forall_app; split; auto. constructor; [|constructor]. apply Ktomb.
    rewrite Forall_forall in H5. apply H5. now apply newest_in.
  Qed.

  Lemma delete_all_keeps cl m (l : list (rule P)) : every_snapshot K l -> every_snapshot K (rules_delete_all cl empty l m).
  Proof.
    unfold rules_delete_all. induction l as [|r l IH]; cbn [map]; [auto|]. rewrite !every_cons. intros [H1 H2]. split; auto.
    destruct (negb (rule_tombstoned r)); auto. unfold mark_tombstoned.
    destruct (last_opt (ru_snapshots r)) as [s|] eqn:E; auto. destruct (sn_tomb s); auto. cbn. apply Forall_app; split; auto.
    constructor; [|constructor]. apply (Ktomb s). rewrite Forall_forall in H1. apply H1.
    apply last_opt_some in E as (h & ->). apply in_app_iff. right. now left.
  Qed.
End Keep.

Lemma view_targets_id e : view_targets e = e.
Proof.
  destruct e as [i n f b]. unfold view_targets, targets_from_view. cbn. f_equal. rewrite <- (map_id b) at 2. apply map_ext.
  intros [p s]. reflexivity.
Qed.

Lemma run_edit_storable o rs e m : content_ok e -> storable o rs -> storable o (fst (run_edit rs e m)).
Proof.
  intros Hc Hs. destruct (run_edit rs e m) as [rs' ok] eqn:E. cbn. destruct ok; [|apply run_edit_failed in E as ->; auto].
  destruct Hs as [Hm Hr].
  assert (Tm : forall s c a b, (mapping_fits s /\ mapping_readable s /\ exists f, compiles_to (ropt_tags o) (sn_raw s) f) ->
    let s' := mk_snap (sn_name s) true c (sn_filter s) (sn_raw s) mb_empty a b in
    mapping_fits s' /\ mapping_readable s' /\ exists f, compiles_to (ropt_tags o) (sn_raw s') f).
  { intros s c a b (_ & _ & F). cbn. unfold mapping_fits, mapping_readable, mb_empty, DropNone. cbn. split; [split; [reflexivity|lia]|]. split; [|exact F].
    split; [split; [reflexivity|intros k Hk; rewrite N.bits_0 in Hk; discriminate]|]. split; [constructor|]. split; [lia|]. split; [discriminate|].
    intros X; now elim X. }
  assert (Tr : forall s c a b, (rollup_fits s /\ rollup_readable s /\ exists f, compiles_to (ropt_tags o) (sn_raw s) f) ->
    let s' := mk_snap (sn_name s) true c (sn_filter s) (sn_raw s) targets_empty a b in
    rollup_fits s' /\ rollup_readable s' /\ exists f, compiles_to (ropt_tags o) (sn_raw s') f).
  { intros s c a b (_ & _ & F). cbn. unfold rollup_fits, rollup_readable. cbn. split; [intros ? ? []|]. split; [|exact F].
    split; [constructor|discriminate]. }
  assert (Em : forall e0, (let s := mk_snap (re_name e0) false 0 None (re_filter e0) (re_body e0) 0 [] in mapping_fits s /\ mapping_readable s) ->
    filter_text_ok (re_filter e0) ->
    mapping_fits (edited e0 m) /\ mapping_readable (edited e0 m) /\ exists f, compiles_to (ropt_tags o) (sn_raw (edited e0 m)) f).
  { intros e0 [H1 H2] F. split; [exact H1|]. split; [exact H2|]. now apply filter_text_compiles. }
  assert (Er : forall e0, (let s := mk_snap (re_name e0) false 0 None (re_filter e0) (re_body e0) 0 [] in rollup_fits s /\ rollup_readable s) ->
    filter_text_ok (re_filter e0) ->
    rollup_fits (edited e0 m) /\ rollup_readable (edited e0 m) /\ exists f, compiles_to (ropt_tags o) (sn_raw (edited e0 m)) f).
  { intros e0 [H1 H2] F. split; [exact H1|]. split; [exact H2|]. now apply filter_text_compiles. }
  unfold storable, run_edit in *. destruct e; cbn [content_ok] in Hc.
  - destruct (rules_add true fresh (rs_mapping rs) e m) as [[l id]|] eqn:A; [|discriminate]. injection E as <-. cbn.
    split; [|exact Hr]. apply rules_add_adds in A. exact (adds_keeps _ _ _ _ _ _ _ (Em e Hc) A Hm).
  - destruct (rules_update (rs_mapping rs) e m) as [l|] eqn:A; [|discriminate]. injection E as <-. cbn.
    split; [|exact Hr]. apply rules_update_updates in A. exact (updates_keeps _ _ _ _ _ (Em e Hc) A Hm).
  - destruct (rules_delete mb_clone mb_empty (rs_mapping rs) id m) as [l|] eqn:A; [|discriminate]. injection E as <-. cbn.
    split; [|exact Hr]. apply rules_delete_deletes in A. exact (deletes_keeps _ _ Tm _ _ _ _ A Hm).
  - rewrite view_targets_id in E. destruct (rules_add false fresh (rs_rollup rs) e m) as [[l id]|] eqn:A; [|discriminate]. injection E as <-. cbn.
    split; [exact Hm|]. apply rules_add_adds in A. exact (adds_keeps _ _ _ _ _ _ _ (Er e Hc) A Hr).
  - rewrite view_targets_id in E. destruct (rules_update (rs_rollup rs) e m) as [l|] eqn:A; [|discriminate]. injection E as <-. cbn.
    split; [exact Hm|]. apply rules_update_updates in A. exact (updates_keeps _ _ _ _ _ (Er e Hc) A Hr).
  - destruct (rules_delete targets_clone targets_empty (rs_rollup rs) id m) as [l|] eqn:A; [|discriminate]. injection E as <-. cbn.
    split; [exact Hm|]. apply rules_delete_deletes in A. exact (deletes_keeps _ _ Tr _ _ _ _ A Hr).
  - destruct (rs_tomb rs); [discriminate|]. injection E as <-. cbn. split; [apply (delete_all_keeps _ _ Tm)|apply (delete_all_keeps _ _ Tr)]; auto.
  - destruct (negb (rs_tomb rs)); [discriminate|]. injection E as <-. auto.
Qed.

Lemma run_edits_storable o es : forall rs, Forall (fun em => content_ok (fst em)) es -> storable o rs -> storable o (run_edits rs es).
Proof.
  unfold run_edits. induction es as [|[e m] es IH]; intros rs Hc Hs; [auto|]. inversion Hc; subst. cbn. apply IH; auto.
  now apply run_edit_storable.
Qed.

Lemma every_weaken {P} (K K' : snapshot P -> Prop) (l : list (rule P)) : (forall s, K s -> K' s) -> every_snapshot K l -> every_snapshot K' l.
Proof. intros H Hk r s Hr Hs. apply H. apply (Hk r s); auto. Qed.

Lemma rule_rel_exists {P} (K : snapshot P -> Prop) (Q : snapshot P -> snapshot P -> Prop) (l : list (rule P)) :
  (forall s, K s -> exists s', Q s s') -> every_snapshot K l -> exists l', Forall2 (rule_rel Q) l l'.
Proof.
  intros H. induction l as [|r l IH]; [intros; exists []; constructor|]. rewrite every_cons. intros [H1 H2].
  destruct (IH H2) as (l' & F). assert (G : exists ss, Forall2 Q (ru_snapshots r) ss).
  { clear - H H1. induction H1 as [|s ss Hs _ (ss' & IHs)]; [exists []; constructor|]. destruct (H s Hs) as (s' & Hs'). exists (s' :: ss'); auto. }
  destruct G as (ss & G). exists (mk_rule (ru_uuid r) ss :: l'). constructor; auto. split; auto.
Qed.

Lemma target_read_exists t : target_readable t -> exists t', target_read_back t t'.
Proof.
  intros [H1 H2]. destruct (pipeline_proto_roundtrip _ H1) as (pb & q & _ & _ & F & C). exists (mk_target q (tg_sps t)).
  split; auto.
Qed.

Lemma storable_reads v o rs : storable o rs ->
  exists pb rs', rule_set_proto rs = Some pb /\ rule_set_from_proto v (Some pb) o = Some rs' /\ read_back v o rs rs'.
Proof.
  intros [Hm Hr].
  assert (Xm : exists ms, Forall2 (rule_rel (mapping_read_back (ropt_tags o))) (rs_mapping rs) ms).
  { eapply rule_rel_exists; [|exact Hm]. intros s (_ & _ & f & F). eexists. exists f, (match mb_sps (sn_body s) with [] => 0%N | _ => mb_agg (sn_body s) end).
    split; [exact F|]. split; [|split; [|reflexivity]]; destruct (mb_sps (sn_body s)); auto; [intros X; now elim X|discriminate]. }
  assert (Xr : exists rr, Forall2 (rule_rel (rollup_read_back (ropt_tags o))) (rs_rollup rs) rr).
  { eapply rule_rel_exists; [|exact Hr]. intros s (_ & [Ht _] & f & F). assert (G : exists ts, Forall2 target_read_back (sn_body s) ts).
    { induction Ht as [|t ts H _ (ts' & IH)]; [exists []; constructor|]. destruct (target_read_exists t H) as (t' & H'). exists (t' :: ts'); auto. }
    destruct G as (ts & G). eexists. exists f, ts. repeat (split; auto). }
  destruct Xm as (ms & Fm), Xr as (rr & Fr).
  set (rs' := mk_rs (rs_uuid rs) v (rs_namespace rs) (rs_created_at rs) (rs_updated_at rs) (rs_updated_by rs) (rs_tomb rs)
                (rs_cutover rs) ms rr (ropt_tags o) (ropt_new_id o) (ropt_is_rollup o)).
  assert (R : read_back v o rs rs') by (unfold read_back; cbn; repeat (split; auto)).
  destruct (proj2 (rule_set_stored_iff v o rs rs' (every_weaken _ _ _ (fun s H => proj1 H) Hm) (every_weaken _ _ _ (fun s H => proj1 H) Hr)))
    as (pb & E1 & E2).
  - split; [|split; [|exact R]]; eapply every_weaken; try eassumption; cbn; intros s (_ & H & _); exact H.
  - exists pb, rs'. auto.
Qed.

Lemma storable_iff o rs : every_snapshot mapping_fits (rs_mapping rs) -> every_snapshot rollup_fits (rs_rollup rs) ->
  forall v, (storable o rs <-> exists pb rs', rule_set_proto rs = Some pb /\ rule_set_from_proto v (Some pb) o = Some rs').
Proof.
  intros Fm Fr v. split.
  - intros H. destruct (storable_reads v o rs H) as (pb & rs' & E1 & E2 & _). eauto.
  - intros (pb & rs' & E1 & E2). destruct (proj1 (rule_set_stored_iff v o rs rs' Fm Fr)) as (H1 & H2 & R); [eauto|].
    destruct R as (_ & _ & _ & _ & _ & _ & _ & _ & Rm & Rr & _).
    split; intros r s Hin Hs.
    + split; [apply (Fm r s); auto|]. split; [apply (H1 r s); auto|].
      clear - Rm Hin Hs. induction Rm as [|x x' l l' [_ Hx] _ IH]; [destruct Hin|]. destruct Hin as [->|Hin]; [|auto].
      clear IH. induction Hx as [|y y' ys ys' (f & agg & F & _) _ IH]; [destruct Hs|]. destruct Hs as [->|Hs]; [eauto|auto].
    + split; [apply (Fr r s); auto|]. split; [apply (H2 r s); auto|].
      clear - Rr Hin Hs. induction Rr as [|x x' l l' [_ Hx] _ IH]; [destruct Hin|]. destruct Hin as [->|Hin]; [|auto].
      clear IH. induction Hx as [|y y' ys ys' (f & ts & F & _) _ IH]; [destruct Hs|]. destruct Hs as [->|Hs]; [eauto|auto].
Qed.
