(** What rules read from the store decide can be sent. *)
From Coq Require Import Ascii String Arith NArith ZArith Bool Lia Permutation List.
From Verif.Base Require Import Bytes BytesFacts Slice.
From Verif.Model Require Import ProtoStream.
From Verif.Model Require Import AggType Policy Transformation Pipeline Metadata Filter MetricID Rules RuleSetProto Namespace
  ProtoWire Messages RuleWire.
From Verif.Spec Require Import AggSpec PolicySpec MetadataSpec ProtoStreamSpec RuleWireSpec SystemSpec DeliverySpec.
From Verif.Proof Require Import AggProof PolicyProof ProtoPure RulesProof.
Import ListNotations.
Local Open Scope Z_scope.

(** * Rules whose content can be sent *)

Definition op_ready (o : op) : Prop :=
  (op_kind o = TransformationOp -> valid_tf (op_tf o)) /\ (op_kind o = RollupOp -> is_agg_id (ro_agg (op_rollup o))).
Definition target_ready (t : target) : Prop := Forall sp_sendable (tg_sps t) /\ Forall op_ready (tg_pipeline t).
Definition mapping_ready (s : snapshot mapping_body) : Prop :=
  is_int64 (sn_cutover s) /\ is_agg_id (mb_agg (sn_body s)) /\ Forall sp_sendable (mb_sps (sn_body s)) /\
  0 <= mb_drop (sn_body s) < 2 ^ 31.
Definition rollup_ready (s : snapshot (list target)) : Prop :=
  is_int64 (sn_cutover s) /\ Forall target_ready (sn_body s).
Definition rules_ready {P} (Q : snapshot P -> Prop) (rs : list (rule P)) : Prop :=
  Forall (fun r => Forall Q (ru_snapshots r)) rs.

(** * Reading gives ready rules *)

Lemma compress_word64 ts id : compress_types ts = (id, false) -> is_agg_id id.
Proof.
  intros E. unfold compress_types in E. destruct (valid_types_dec ts) as [V|V].
  - destruct (compressor_valid 0 ts V) as (w & Ew & Hw). rewrite Ew in E. cbn [snd] in E. injection E as <-.
    exact (word_bits_valid_word w (compress_word ts w V Hw)).
  - pose proof (compress_loop_invalid 0 ts V) as Hs. unfold compressor_compress in E.
    destruct (compress_loop 0 ts) as [bs err]. cbn [snd] in *. destruct err; [|discriminate]. injection E as _ E. discriminate.
Qed.
Lemma types_word64 zs id : id_from_proto_types zs = (id, false) -> is_agg_id id.
Proof.
  unfold id_from_proto_types. destruct (types_from_proto zs) as [ts|]; [apply compress_word64|]. intros E. discriminate.
Qed.
Lemma default_word64 : is_agg_id default_id.
Proof. unfold is_agg_id, default_id. lia. Qed.

Lemma sp_read o p : if_set sp_typed o -> new_sp_from_proto o = Some p -> sp_sendable p.
Proof.
  destruct o as [pb|]; [|discriminate]. cbn [if_set]. intros (T1 & T2). unfold new_sp_from_proto, sp_from_proto.
  unfold resolution_from_proto. destruct (spp_resolution pb) as [r|]; [|discriminate].
  destruct (unit_from_duration (rp_precision r)) as [u|] eqn:E; [|discriminate].
  destruct (spp_retention pb) as [t|]; [|discriminate]. intros [= <-]. apply unit_from_duration_valid in E as [E _].
  cbn [if_set] in *. unfold int64 in *. split; [exact E|]. split; cbn [sp_resolution sp_retention r_window]; [exact (proj1 T1)|exact T2].
Qed.
Lemma sps_read l ps : each sp_typed l -> new_sps_from_proto l = Some ps -> Forall sp_sendable ps.
Proof.
  intros T. unfold new_sps_from_proto. apply (map_opt_Forall _ (if_set sp_typed)).
  - intros o p. apply sp_read.
  - eapply Forall_impl; [|exact T]. intros o (a & -> & H). exact H.
Qed.
Lemma legacy_read : forall ps agg sps agg' sps', each (policy_typed int32) ps ->
  match agg with None => True | Some a => is_agg_id a end -> Forall sp_sendable sps ->
  legacy_loop ps agg sps = Some (agg', sps') ->
  match agg' with None => True | Some a => is_agg_id a end /\ Forall sp_sendable sps'.
Proof.
  induction ps as [|[p|] ps IH]; intros agg sps agg' sps' T A F E; cbn [legacy_loop] in E; [injection E as <- <-; auto| |discriminate].
  inversion T as [|x l (p' & Ep & Tp) T']; subst. injection Ep as <-.
  destruct (new_sp_from_proto (pp_storage p)) as [sp|] eqn:Es; [|discriminate].
  destruct (id_from_proto_types (pp_types p)) as [id err] eqn:Ei. destruct err; [discriminate|].
  assert (Forall sp_sendable (sps ++ [sp])) as F'.
  { apply Forall_app. split; [exact F|]. constructor; [exact (sp_read _ _ (proj1 Tp) Es)|constructor]. }
  destruct agg as [a|].
  - destruct (N.eqb a id); [|discriminate]. exact (IH (Some a) _ _ _ T' A F' E).
  - exact (IH (Some id) _ _ _ T' (types_word64 _ _ Ei) F' E).
Qed.
Lemma Forall_perm {A} (P : A -> Prop) l l' : Permutation l l' -> Forall P l -> Forall P l'.
Proof. intros Hp F. rewrite Forall_forall in *. intros x Hx. apply F. exact (Permutation_in x (Permutation_sym Hp) Hx). Qed.
Lemma policies_read ps id sps : each (policy_typed int32) ps -> to_aggregation_id_and_storage_policies ps = Some (id, sps) ->
  is_agg_id id /\ Forall sp_sendable sps.
Proof.
  intros T. unfold to_aggregation_id_and_storage_policies. destruct (legacy_loop ps None []) as [[agg l]|] eqn:E; [|discriminate].
  intros [= <- <-]. destruct (legacy_read ps None [] agg l T Logic.I (Forall_nil _) E) as (H1 & H2). split.
  - destruct agg; [exact H1|exact default_word64].
  - unfold sp_sort. eapply Forall_perm; [apply isort_perm|]. rewrite Forall_forall in *. intros x Hx. apply H2. now apply nodup_In in Hx.
Qed.

Lemma mapping_read o r s : if_set (mapping_snapshot_typed int32) r -> mapping_snapshot_from_proto o r = Some s -> mapping_ready s.
Proof.
  destruct r as [r|]; [|discriminate]. cbn [if_set mapping_snapshot_from_proto]. intros (T1 & T2 & T3 & T4 & T5 & T6).
  destruct (mapping_policies_from_proto r) as [[agg sps]|] eqn:Ep; [|discriminate].
  assert (is_agg_id agg /\ Forall sp_sendable sps) as (Ha & Hs).
  { unfold mapping_policies_from_proto in Ep. destruct (msp_policies r) as [|p ps] eqn:Em.
    - destruct (msp_sps r) as [|q qs] eqn:Eq; [injection Ep as <- <-; split; [exact default_word64|constructor]|].
      destruct (id_from_proto_types (msp_types r)) as [id err] eqn:Ei. destruct err; [discriminate|].
      destruct (new_sps_from_proto (q :: qs)) as [l|] eqn:El; [|discriminate]. injection Ep as <- <-.
      split; [exact (types_word64 _ _ Ei)|exact (sps_read _ _ T5 El)].
    - exact (policies_read _ _ _ T2 Ep). }
  cbv zeta. destruct (negb (msp_drop r =? 0) && _) eqn:Ed; [discriminate|]. do 2 match goal with |- (if ?b then _ else _) = _ -> _ => destruct b; [discriminate|] end. destruct (compile_filter o (msp_filter r)) as [f|]; [|discriminate]. intros [= <-].
  repeat split; cbn [sn_cutover sn_body mb_agg mb_sps mb_drop]; try apply T1; auto.
  - unfold drop_of_code. apply Z.mod_pos_bound. lia.
  - destruct (msp_drop r =? 0) eqn:E0; [apply Z.eqb_eq in E0; rewrite E0; unfold drop_of_code; rewrite Z.mod_0_l by lia; lia|].
    cbn [negb andb] in Ed. apply negb_false_iff in Ed. unfold drop_is_valid in Ed. apply existsb_exists in Ed as (q & Hq & Eq).
    apply Z.eqb_eq in Eq. rewrite <- Eq. unfold valid_drop_policies in Hq. cbn [In] in Hq.
    unfold DropNone, DropMust, DropIfOnlyMatch in Hq. lia.
Qed.
Lemma op_read pb o : op_typed int32 pb -> new_op_from_proto pb = Some o -> op_ready o.
Proof.
  intros _. unfold new_op_from_proto, op_ready. destruct (_ =? 1).
  { destruct (opp_agg pb); [|discriminate]. destruct (type_from_proto _); [|discriminate]. intros [= <-].
    cbn [op_kind]. split; discriminate. }
  destruct (_ =? 2).
  { destruct (opp_tf pb) as [z|]; [|discriminate]. destruct (tf_from_proto z) as [t|] eqn:E; [|discriminate]. intros [= <-].
    cbn [op_kind op_tf]. split; [|discriminate]. intros _. unfold tf_from_proto in E. unfold valid_tf.
    destruct (z =? 1); [injection E as <-; left; reflexivity|]. destruct (z =? 2); [injection E as <-; right; reflexivity|discriminate]. }
  destruct (_ =? 3); [|discriminate].
  destruct (opp_rollup pb) as [r|]; [|discriminate]. cbn [new_rollup_op_from_proto].
  destruct (id_from_proto_types (rop_types r)) as [id err] eqn:E. destruct err; [discriminate|]. intros [= <-].
  cbn [op_kind op_rollup ro_agg]. split; [discriminate|]. intros _. exact (types_word64 _ _ E).
Qed.
Lemma target_v1_read t tg : if_set (target_v1_typed int32) t -> target_from_v1 t = Some tg -> target_ready tg.
Proof.
  destruct t as [t|]; [|discriminate]. cbn [if_set target_from_v1]. intros T.
  destruct (to_aggregation_id_and_storage_policies (t1p_policies t)) as [[agg sps]|] eqn:E; [|discriminate]. intros [= <-].
  destruct (policies_read _ _ _ T E) as (H1 & H2). split; cbn [tg_sps tg_pipeline]; [exact H2|].
  constructor; [|constructor]. split; cbn [op_kind op_rollup ro_agg]; [discriminate|auto].
Qed.
Lemma target_v2_read t tg : if_set (target_v2_typed int32) t -> target_from_v2 t = Some tg -> target_ready tg.
Proof.
  destruct t as [t|]; [|discriminate]. cbn [if_set target_from_v2]. intros (T1 & T2).
  destruct (t2p_pipeline t) as [ops|]; [|discriminate]. cbn [if_set new_pipeline_from_proto] in *.
  destruct (map_opt new_op_from_proto ops) as [p|] eqn:E; [|discriminate].
  destruct (new_sps_from_proto (t2p_sps t)) as [sps|] eqn:E2; [|discriminate]. intros [= <-].
  split; cbn [tg_sps tg_pipeline]; [exact (sps_read _ _ T2 E2)|].
  exact (map_opt_Forall _ _ _ _ _ op_read T1 E).
Qed.
Lemma each_if_set {A} (P : A -> Prop) l : each P l -> Forall (if_set P) l.
Proof. intros T. eapply Forall_impl; [|exact T]. intros o (a & -> & H). exact H. Qed.
Lemma rollup_read o r s : if_set (rollup_snapshot_typed int32) r -> rollup_snapshot_from_proto o r = Some s -> rollup_ready s.
Proof.
  destruct r as [r|]; [|discriminate]. cbn [if_set rollup_snapshot_from_proto]. intros (T1 & T2 & T3 & T4).
  destruct (targets_from_proto r) as [ts|] eqn:Et; [|discriminate].
  destruct (compile_filter o (rsp_filter r)) as [f|]; [|discriminate]. intros [= <-].
  split; cbn [sn_cutover sn_body]; [exact T1|]. unfold targets_from_proto in Et. destruct (rsp_targets r) as [|x l] eqn:E1.
  - destruct (rsp_targets_v2 r) as [|x l] eqn:E2.
    + destruct (negb _); [discriminate|]. injection Et as <-. constructor.
    + exact (map_opt_Forall _ _ _ _ _ target_v2_read (each_if_set _ _ T4) Et).
  - exact (map_opt_Forall _ _ _ _ _ target_v1_read (each_if_set _ _ T2) Et).
Qed.
Lemma rule_read {S P} (T : S -> Prop) (Q : snapshot P -> Prop) read r (x : rule P) :
  (forall r s, if_set T r -> read r = Some s -> Q s) ->
  if_set (rule_typed T) r -> rule_from_proto read r = Some x -> Forall Q (ru_snapshots x).
Proof.
  intros H. destruct r as [r|]; [|discriminate]. cbn [if_set rule_from_proto]. intros Tr.
  destruct (map_opt read (rp_snapshots r)) as [l|] eqn:E; [|discriminate]. cbn [option_map]. intros [= <-]. cbn [ru_snapshots].
  exact (map_opt_Forall _ _ _ _ _ H (each_if_set _ _ Tr) E).
Qed.
Lemma rule_set_read v pb o rs : rule_set_typed int32 pb -> rule_set_from_proto v (Some pb) o = Some rs ->
  rules_ready mapping_ready (rs_mapping rs) /\ rules_ready rollup_ready (rs_rollup rs).
Proof.
  intros (_ & _ & _ & T1 & T2). cbn [rule_set_from_proto].
  destruct (map_opt _ (rsetp_mapping pb)) as [ms|] eqn:E1; [|discriminate].
  destruct (map_opt _ (rsetp_rollup pb)) as [rr|] eqn:E2; [|discriminate]. intros [= <-]. cbn [rs_mapping rs_rollup]. split.
  - refine (map_opt_Forall _ _ _ _ _ _ (each_if_set _ _ T1) E1). intros r x. apply (rule_read _ _ _ r x). apply mapping_read.
  - refine (map_opt_Forall _ _ _ _ _ _ (each_if_set _ _ T2) E2). intros r x. apply (rule_read _ _ _ r x). apply rollup_read.
Qed.

(** * Matching against ready rules gives stages that can be sent *)

Definition active_ready (a : active_ruleset) : Prop :=
  rules_ready mapping_ready (as_mapping a) /\ rules_ready rollup_ready (as_rollup a) /\ Forall is_int64 (as_cutovers a).

Lemma is_int64_0 : is_int64 0.
Proof. unfold is_int64. lia. Qed.
Lemma match_rules_ready {P} (Q : snapshot P -> Prop) : (forall s, Q s -> is_int64 (sn_cutover s)) ->
  forall rs id t c c' ss, rules_ready Q rs -> is_int64 c -> match_rules rs id t c = (c', ss) -> is_int64 c' /\ Forall Q ss.
Proof.
  intros HQ. induction rs as [|r rs IH]; intros id t c c' ss F Hc E; cbn [match_rules] in E.
  { injection E as <- <-. split; [exact Hc|constructor]. }
  inversion F as [|? ? Fr F']; subst. destruct (active_snapshot r t) as [s|] eqn:Es; [|exact (IH _ _ _ _ _ F' Hc E)].
  assert (Q s) as Qs.
  { unfold active_snapshot in Es. destruct (active_index _ _); [|discriminate]. apply nth_error_In in Es.
    rewrite Forall_forall in Fr. exact (Fr s Es). }
  destruct (snapshot_matches s id); [|exact (IH _ _ _ _ _ F' Hc E)].
  assert (is_int64 (if c <? sn_cutover s then sn_cutover s else c)) as Hc' by (destruct (_ <? _); auto).
  cbv zeta in E. destruct (sn_tomb s); [exact (IH _ _ _ _ _ F' Hc' E)|].
  destruct (match_rules rs id t _) as [c1 ss1] eqn:Er. injection E as <- <-.
  destruct (IH _ _ _ _ _ F' Hc' Er) as (H1 & H2). split; [exact H1|constructor; auto].
Qed.

Lemma remove_at_Forall {A} (P : A -> Prop) i l : Forall P l -> Forall P (remove_at i l).
Proof.
  intros F. rewrite Forall_forall in *. intros x Hx. apply F. unfold remove_at in Hx.
  destruct (Nat.eqb _ _).
  - rewrite <- (firstn_skipn i l). apply in_or_app. now left.
  - apply in_app_or in Hx as [Hx|Hx].
    + rewrite <- (firstn_skipn i l). apply in_or_app. now left.
    + rewrite <- (firstn_skipn (S i) l). apply in_or_app. now right.
Qed.
Lemma remove_drops_Forall (P : pipeline_metadata -> Prop) n : forall l, Forall P l -> Forall P (remove_drops n l).
Proof.
  induction n as [|n IH]; intros l F; cbn [remove_drops]; [exact F|]. apply IH.
  destruct (nth_error l n) as [m|]; [|exact F]. destruct (negb _); [now apply remove_at_Forall|exact F].
Qed.
Lemma default_pm_sendable : pm_sendable default_pipeline_metadata.
Proof. split; [exact default_word64|]. split; [constructor|]. split; [constructor|]. cbn [default_pipeline_metadata drop_pipeline_metadata pm_drop]. unfold DropNone, DropMust. lia. Qed.
Lemma drop_pm_sendable : pm_sendable drop_pipeline_metadata.
Proof. split; [exact default_word64|]. split; [constructor|]. split; [constructor|]. cbn [default_pipeline_metadata drop_pipeline_metadata pm_drop]. unfold DropNone, DropMust. lia. Qed.
Lemma apply_drop_sendable ms : Forall pm_sendable ms -> Forall pm_sendable (fst (pms_apply_drop ms)).
Proof.
  intros F. unfold pms_apply_drop. destruct (count_drops 0 0 ms) as [[a b]|]; cbn [fst].
  2: constructor; [exact drop_pm_sendable|constructor].
  destruct (Nat.eqb a 0); [exact F|]. destruct (Nat.eqb b 0); cbn [fst].
  - constructor; [exact drop_pm_sendable|constructor].
  - now apply remove_drops_Forall.
Qed.

Definition rm_sendable (r : rule_match) : Prop := is_int64 (rm_cutover r) /\ Forall pm_sendable (rm_pipelines r).

Lemma mappings_sendable a id t : active_ready a -> rm_sendable (mappings_for_non_rollup_id a id t).
Proof.
  intros (R & _). unfold mappings_for_non_rollup_id. destruct (match_rules (as_mapping a) id t 0) as [c ss] eqn:E.
  destruct (match_rules_ready mapping_ready (fun s H => proj1 H) _ _ _ _ _ _ R is_int64_0 E) as (Hc & Hs).
  assert (Forall pm_sendable (fst (pms_apply_drop (map mapping_pipeline ss)))) as F.
  { apply apply_drop_sendable. apply Forall_map. eapply Forall_impl; [|exact Hs]. intros s (H1 & H2 & H3 & H4).
    repeat split; cbn [mapping_pipeline pm_agg pm_sps pm_pipeline pm_drop]; auto; try apply H4. }
  cbv zeta. split; cbn [rm_cutover rm_pipelines]; [exact Hc|].
  destruct (fst _) as [|p ps]; [|exact F]. constructor; [exact default_pm_sendable|constructor].
Qed.

Lemma apply_id_sendable a section o ao : op_ready o -> apply_id_to_op a section o = Some ao -> applied_sendable ao.
Proof.
  intros (H1 & H2). unfold apply_id_to_op. destruct (op_kind o =? TransformationOp) eqn:E1.
  { intros [= <-]. apply Z.eqb_eq in E1. split; [left|]; cbn [ao_kind ao_tf ao_rollup].
    - split; [reflexivity|]. split; [auto|reflexivity].
    - exact default_word64. }
  destruct (op_kind o =? RollupOp) eqn:E2; [|discriminate]. apply Z.eqb_eq in E2.
  destruct (match_rollup_target _ _ _); [|discriminate]. intros [= <-].
  split; [right; split; reflexivity|]. cbn [ao_rollup ar_agg]. auto.
Qed.
Lemma apply_pipeline_sendable a section p ap : Forall op_ready p -> apply_id_to_pipeline a section p = Some ap ->
  Forall applied_sendable ap.
Proof. unfold apply_id_to_pipeline. intros F. apply (map_opt_Forall _ op_ready); [|exact F]. intros o ao. apply apply_id_sendable. Qed.
Lemma apply_target_sendable a section tg r : target_ready tg -> apply_target a section tg = Some r -> pm_sendable (snd r).
Proof.
  intros (S & F). unfold apply_target. destruct (tg_pipeline tg) as [|o rest] eqn:Ep; [discriminate|].
  inversion F as [|? ? Ho Fr]; subst.
  assert (forall id agg ops, is_agg_id agg -> Forall op_ready ops ->
    match apply_id_to_pipeline a section ops with None => None | Some ap => Some (id, mk_pm agg (tg_sps tg) ap DropNone) end = Some r ->
    pm_sendable (snd r)) as Fin.
  { intros id agg ops Ha Fo. destruct (apply_id_to_pipeline a section ops) as [ap|] eqn:E; [|discriminate]. intros [= <-].
    cbn [snd]. split; [exact Ha|]. split; [exact S|]. split; [exact (apply_pipeline_sendable _ _ _ _ Fo E)|]. cbn [pm_drop].
    unfold DropNone. lia. }
  cbv zeta. destruct (op_kind o =? AggregationOp) eqn:E1.
  { destruct (compress_types [op_agg o]) as [agg err] eqn:Ec. destruct err; [discriminate|].
    apply Fin; [exact (compress_word64 _ _ Ec)|exact Fr]. }
  destruct (op_kind o =? TransformationOp); [apply Fin; [exact default_word64|constructor; auto]|].
  destruct (op_kind o =? RollupOp) eqn:E3; [|discriminate]. apply Z.eqb_eq in E3.
  destruct (match_rollup_target _ _ _); [|discriminate]. apply Fin; [exact (proj2 Ho E3)|exact Fr].
Qed.
Lemma op_clone_ready o : op_ready o -> op_ready (op_clone o).
Proof.
  intros (H1 & H2). split; cbn [op_clone op_kind op_tf op_rollup]; intros E; rewrite E; cbn; auto.
Qed.
Lemma target_clone_ready t : target_ready t -> target_ready (target_clone t).
Proof.
  intros (H1 & H2). split; [exact H1|]. cbn [target_clone tg_pipeline]. unfold pipeline_clone. apply Forall_map.
  eapply Forall_impl; [|exact H2]. exact op_clone_ready.
Qed.
Lemma rollups_sendable a id t own news : active_ready a -> rollup_results_for a id t = (own, news) ->
  rm_sendable own /\ Forall (fun r => rm_sendable (snd r)) news.
Proof.
  intros (_ & R & _). unfold rollup_results_for. destruct (match_rules (as_rollup a) id t 0) as [c ss] eqn:E.
  destruct (match_rules_ready rollup_ready (fun s H => proj1 H) _ _ _ _ _ _ R is_int64_0 E) as (Hc & Hs).
  set (ts := flat_map _ ss).
  assert (Forall target_ready ts) as Ft.
  { unfold ts. rewrite Forall_forall in *. intros x Hx. apply in_flat_map in Hx as (s & H1 & H2). apply in_map_iff in H2 as (y & <- & H2).
    apply target_clone_ready. specialize (Hs s H1) as (_ & Hb). rewrite Forall_forall in Hb. auto. }
  clearbody ts. unfold to_rollup_results. destruct ts as [|t0 ts0]; [intros [= <- <-]; split; [split; [exact is_int64_0|constructor]|constructor]|].
  destruct (tfo_name_and_tags _ id) as [[name section]|]; [|intros [= <- <-]; split; [split; [exact is_int64_0|constructor]|constructor]].
  cbv zeta. set (rs := flat_map _ _).
  assert (Forall (fun r => pm_sendable (snd r)) rs) as Fr.
  { unfold rs. rewrite Forall_forall in *. intros x Hx. apply in_flat_map in Hx as (tg & H1 & H2).
    destruct (apply_target a section tg) as [r|] eqn:Ea; [|destruct H2]. destruct H2 as [<-|[]].
    exact (apply_target_sendable _ _ _ _ (Ft tg H1) Ea). }
  clearbody rs. intros [= <- <-]. rewrite Forall_forall in Fr. split.
  - split; [exact Hc|]. cbn [rm_pipelines]. unfold own_results. apply Forall_forall. intros x Hx. apply in_flat_map in Hx as (r & H1 & H2).
    destruct (fst r); [destruct H2|]. destruct H2 as [<-|[]]. auto.
  - unfold new_id_results. apply Forall_forall. intros x Hx. apply in_flat_map in Hx as (r & H1 & H2).
    destruct (fst r); [|destruct H2]. destruct H2 as [<-|[]]. split; [exact Hc|]. cbn [snd rm_pipelines]. constructor; auto.
Qed.

Lemma dedup_sendable ps : forall kept, Forall pm_sendable kept -> Forall pm_sendable ps -> Forall pm_sendable (dedup_loop kept ps).
Proof.
  induction ps as [|p ps IH]; intros kept Fk Fp; cbn [dedup_loop]; [exact Fk|]. inversion Fp; subst.
  destruct (existsb _ kept); apply IH; auto. apply Forall_app. split; auto.
Qed.
Lemma unique_sendable x : rm_sendable x -> rm_sendable (rm_unique x).
Proof.
  intros (Hc & F). unfold rm_unique. destruct (rm_pipelines x) as [|p0 ps0] eqn:E; [split; [exact Hc|rewrite E; constructor]|].
  rewrite <- E in *. pose proof (apply_drop_sendable _ F) as H.
  destruct (pms_apply_drop (rm_pipelines x)) as [ps [|]]; cbn [fst] in H; [destruct ps; split; [exact Hc|exact H|exact Hc|exact H]|].
  destruct ps as [|p ps]; [split; [exact Hc|constructor]|]. split; [exact Hc|]. cbn [rm_pipelines]. inversion H; subst.
  apply dedup_sendable; auto.
Qed.
Lemma staged_sendable x : rm_sendable x -> sm_sendable (rm_to_staged x).
Proof.
  intros (Hc & F). split; [exact Hc|]. cbn [rm_to_staged sm_pipelines]. destruct (rm_pipelines x); [|exact F].
  constructor; [exact default_pm_sendable|constructor].
Qed.
Lemma merge_sendable x y : rm_sendable x -> rm_sendable y -> rm_sendable (rm_merge x y).
Proof.
  intros (H1 & H2) (H3 & H4). split; cbn [rm_merge rm_cutover rm_pipelines]; [destruct (_ <? _); auto|]. apply Forall_app. auto.
Qed.

Definition news_sendable (l : list id_with_metadatas) : Prop := Forall (fun e => Forall sm_sendable (snd e)) l.

Lemma match_at_sendable a id t e n : active_ready a -> forward_match_at a id t = (e, n) -> sm_sendable e /\ news_sendable n.
Proof.
  intros R. unfold forward_match_at. destruct (rollup_results_for a id t) as [own news] eqn:E. intros [= <- <-].
  destruct (rollups_sendable a id t own news R E) as (H1 & H2). split.
  - apply staged_sendable, unique_sendable, merge_sendable; [apply mappings_sendable; exact R|exact H1].
  - eapply Forall_perm; [apply isort_perm|]. apply Forall_map. eapply Forall_impl; [|exact H2]. intros r Hr. cbn [snd].
    constructor; [|constructor]. apply staged_sendable, unique_sendable, Hr.
Qed.
Lemma merge_existing_sendable curr next c : Forall sm_sendable curr -> sm_sendable next -> is_int64 c ->
  Forall sm_sendable (merge_existing curr next c).
Proof.
  intros F N C. unfold merge_existing. destruct (rev curr) as [|last l]; [constructor; auto|]. cbv zeta. apply Forall_app.
  split; [exact F|]. constructor; [|constructor]. destruct (_ <? _); [|exact N]. split; [exact C|exact (proj2 N)].
Qed.
Lemma tombstone_sendable c : is_int64 c -> sm_sendable (tombstone_stage c).
Proof. intros C. split; [exact C|constructor]. Qed.
Lemma merge_news_loop_sendable c : is_int64 c -> forall curr next u n, news_sendable curr -> news_sendable next ->
  merge_news_loop c curr next = (u, n) -> news_sendable u /\ news_sendable n.
Proof.
  intros C. induction curr as [|[i ms] curr IH]; intros next u n Fc Fn E.
  { destruct next as [|[j ns] next]; cbn [merge_news_loop] in E; injection E as <- <-; split; [constructor|exact Fn|constructor|exact Fn]. }
  inversion Fc as [|? ? Hm Fc']; subst. cbn [snd] in Hm.
  assert (Forall sm_sendable (ms ++ [tombstone_stage c])) as Ht
    by (apply Forall_app; split; [exact Hm|constructor; [now apply tombstone_sendable|constructor]]).
  revert u n E. induction next as [|[j ns] next IHn]; intros u n E; cbn [merge_news_loop] in E.
  { destruct (merge_news_loop c curr []) as [u' n'] eqn:E'. injection E as <- <-.
    destruct (IH [] u' n' Fc' (Forall_nil _) E') as (H1 & H2). split; [constructor; auto|exact H2]. }
  inversion Fn as [|? ? Hn Fn']; subst. cbn [snd] in Hn. destruct (bcompare i j).
  - destruct (merge_news_loop c curr next) as [u' n'] eqn:E'. injection E as <- <-.
    destruct (IH next u' n' Fc' Fn' E') as (H1 & H2). split; [|exact H2]. constructor; [|exact H1]. cbn [snd]. apply Forall_app.
    split; [exact Hm|]. destruct ns as [|x ns]; [constructor|]. inversion Hn; subst. constructor; [assumption|constructor].
  - destruct (merge_news_loop c curr ((j, ns) :: next)) as [u' n'] eqn:E'. injection E as <- <-.
    destruct (IH _ u' n' Fc' Fn E') as (H1 & H2). split; [constructor; auto|exact H2].
  - match type of E with (let (_, _) := ?X in _) = _ => destruct X as [u' n'] eqn:E' end. injection E as <- <-.
    destruct (IHn Fn' u' n' E') as (H1 & H2). split; [exact H1|constructor; auto].
Qed.
Lemma merge_news_sendable curr next c : is_int64 c -> news_sendable curr -> news_sendable next -> news_sendable (merge_news curr next c).
Proof.
  intros C F1 F2. unfold merge_news. destruct (merge_news_loop c curr next) as [u n] eqn:E.
  destruct (merge_news_loop_sendable c C curr next u n F1 F2 E) as (H1 & H2).
  eapply Forall_perm; [apply isort_perm|]. apply Forall_app. auto.
Qed.
Lemma cutover_at_int64 a idx : active_ready a -> is_int64 (cutover_at a idx).
Proof.
  intros (_ & _ & F). unfold cutover_at. destruct (nth_error _ idx) as [c|] eqn:E; [|unfold is_int64, time_max; lia].
  apply nth_error_In in E. rewrite Forall_forall in F. auto.
Qed.
Lemma forward_loop_sendable a id to : active_ready a -> forall fuel idx ex nw idx' ex' nw',
  Forall sm_sendable ex -> news_sendable nw -> forward_loop fuel a id to idx ex nw = (idx', ex', nw') ->
  Forall sm_sendable ex' /\ news_sendable nw'.
Proof.
  intros R. induction fuel as [|fuel IH]; intros idx ex nw idx' ex' nw' F1 F2 E; cbn [forward_loop] in E; [injection E as _ <- <-; auto|].
  cbv zeta in E. destruct (_ && _); [|injection E as _ <- <-; auto].
  destruct (forward_match_at a id (cutover_at a idx)) as [e n] eqn:Em.
  destruct (match_at_sendable a id _ e n R Em) as (He & Hn). pose proof (cutover_at_int64 a idx R) as C.
  refine (IH _ _ _ _ _ _ _ _ E); [apply merge_existing_sendable; auto|apply merge_news_sendable; auto].
Qed.
Lemma forward_sendable a id from to : active_ready a -> result_sendable (forward_match a id from to).
Proof.
  intros R. unfold forward_match. destruct (forward_match_at a id from) as [e n] eqn:E.
  destruct (match_at_sendable a id from e n R E) as (He & Hn).
  destruct (forward_loop _ a id to _ [e] n) as [[idx ex] nw] eqn:El.
  exact (forward_loop_sendable a id to R _ _ _ _ _ _ _ ltac:(constructor; [exact He|constructor]) Hn El).
Qed.

(** Reverse matches *)
Lemma filter_by_agg_sendable ps mt t opts : Forall pm_sendable ps -> Forall pm_sendable (filter_by_agg_type ps mt t opts).
Proof. intros F. unfold filter_by_agg_type. rewrite Forall_forall in *. intros x Hx. apply filter_In in Hx as [Hx _]. auto. Qed.
Lemma reverse_non_rollup_sendable a id t mt at_ opts s : active_ready a ->
  reverse_for_non_rollup_id a id t mt at_ opts = Some s -> sm_sendable s.
Proof.
  intros R. unfold reverse_for_non_rollup_id. destruct (mappings_sendable a id t R) as (Hc & F). cbv zeta.
  pose proof (filter_by_agg_sendable _ mt at_ opts F) as F'. destruct (filter_by_agg_type _ _ _ _); [discriminate|].
  intros [= <-]. split; assumption.
Qed.
Lemma reverse_ops_sendable a name section c sps mt at_ multi opts : is_int64 c -> Forall sp_sendable sps ->
  forall ops s, Forall op_ready ops -> reverse_ops a name section c sps mt at_ multi opts ops = Some (Some s) -> sm_sendable s.
Proof.
  intros C S. induction ops as [|o ops IH]; intros s F E; cbn [reverse_ops] in E; [discriminate|]. inversion F as [|? ? Ho F']; subst.
  destruct (op_kind o =? RollupOp) eqn:Ek; cbn [negb] in E; [|exact (IH _ F' E)].
  destruct (negb _); [exact (IH _ F' E)|]. destruct (match_tags _ _); [|exact (IH _ F' E)]. apply Z.eqb_eq in Ek.
  cbv zeta in E. set (ps := if multi then _ else _) in E.
  assert (Forall pm_sendable ps) as Fp.
  { assert (Forall pm_sendable [mk_pm (F := list) (ro_agg (op_rollup o)) sps [] DropNone]) as H.
    { constructor; [|constructor]. split; [exact (proj2 Ho Ek)|]. split; [exact S|]. split; [constructor|cbn [pm_drop]; unfold DropNone; lia]. }
    unfold ps. destruct multi; [now apply filter_by_agg_sendable|exact H]. }
  clearbody ps. destruct ps as [|p ps]; [discriminate|]. injection E as <-. split; assumption.
Qed.
Lemma reverse_targets_sendable a name section c mt at_ multi opts : is_int64 c ->
  forall ts s, Forall target_ready ts -> reverse_targets a name section c mt at_ multi opts ts = Some (Some s) -> sm_sendable s.
Proof.
  intros C. induction ts as [|t ts IH]; intros s F E; cbn [reverse_targets] in E; [discriminate|]. inversion F as [|? ? (H1 & H2) F']; subst.
  destruct (reverse_ops _ _ _ _ _ _ _ _ _ _) as [r|] eqn:Eo; [|exact (IH _ F' E)]. injection E as ->.
  exact (reverse_ops_sendable _ _ _ _ _ _ _ _ _ C H1 _ _ H2 Eo).
Qed.
Lemma reverse_rules_sendable a name section t mt at_ multi opts :
  forall rs s, rules_ready rollup_ready rs -> reverse_rules a rs name section t mt at_ multi opts = Some s -> sm_sendable s.
Proof.
  induction rs as [|r rs IH]; intros s F E; cbn [reverse_rules] in E; [discriminate|]. inversion F as [|? ? Fr F']; subst.
  destruct (active_snapshot r t) as [sn|] eqn:Es; [|exact (IH _ F' E)].
  assert (rollup_ready sn) as (H1 & H2).
  { unfold active_snapshot in Es. destruct (active_index _ _); [|discriminate]. apply nth_error_In in Es.
    rewrite Forall_forall in Fr. exact (Fr sn Es). }
  destruct (sn_tomb sn); [exact (IH _ F' E)|].
  destruct (reverse_targets _ _ _ _ _ _ _ _ _) as [res|] eqn:Et; [|exact (IH _ F' E)]. subst res.
  exact (reverse_targets_sendable _ _ _ _ _ _ _ _ H1 _ _ H2 Et).
Qed.
Lemma reverse_mappings_sendable a id t mt at_ multi opts s : active_ready a ->
  reverse_mappings_for a id t mt at_ multi opts = Some s -> sm_sendable s.
Proof.
  intros R. unfold reverse_mappings_for. destruct (tfo_name_and_tags _ id) as [[name section]|].
  - destruct (as_is_rollup a name section); [|now apply reverse_non_rollup_sendable].
    apply reverse_rules_sendable. exact (proj1 (proj2 R)).
  - now apply reverse_non_rollup_sendable.
Qed.
Lemma merge_found_sendable curr next c : Forall sm_sendable curr -> (forall s, next = Some s -> sm_sendable s) -> is_int64 c ->
  Forall sm_sendable (merge_found curr next c).
Proof. intros F N C. unfold merge_found. destruct next as [s|]; [|exact F]. apply merge_existing_sendable; auto. Qed.
Lemma reverse_loop_sendable a id to mt at_ multi opts : active_ready a -> forall fuel idx ex idx' ex',
  Forall sm_sendable ex -> reverse_loop fuel a id to idx mt at_ multi opts ex = (idx', ex') -> Forall sm_sendable ex'.
Proof.
  intros R. induction fuel as [|fuel IH]; intros idx ex idx' ex' F E; cbn [reverse_loop] in E; [injection E as _ <-; exact F|].
  cbv zeta in E. destruct (_ && _); [|injection E as _ <-; exact F]. refine (IH _ _ _ _ _ E).
  apply merge_found_sendable; [exact F| |exact (cutover_at_int64 a idx R)]. intros s. now apply reverse_mappings_sendable.
Qed.
Lemma reverse_sendable a id from to mt at_ multi opts : active_ready a -> result_sendable (reverse_match a id from to mt at_ multi opts).
Proof.
  intros R. unfold reverse_match. cbv zeta. destruct (reverse_loop _ a id to _ mt at_ multi opts _) as [idx ex] eqn:E.
  split; cbn [mr_existing mr_news]; [|constructor]. refine (reverse_loop_sendable _ _ _ _ _ _ _ R _ _ _ _ _ _ E).
  destruct (reverse_mappings_for _ _ _ _ _ _ _) as [s|] eqn:Em; [|constructor]. constructor; [|constructor].
  exact (reverse_mappings_sendable _ _ _ _ _ _ _ _ R Em).
Qed.

(** * Active sets of ready rules are ready *)

Lemma cutovers_int64 (ms : list mapping_rule) (rs : list rollup_rule) : rules_ready mapping_ready ms -> rules_ready rollup_ready rs ->
  Forall is_int64 (isort Z.leb (nodup Z.eq_dec (all_cutovers ms rs))).
Proof.
  intros F1 F2. eapply Forall_perm; [apply isort_perm|]. apply Forall_forall. intros c Hc. apply nodup_In in Hc.
  unfold all_cutovers in Hc. unfold rules_ready in *. rewrite Forall_forall in F1, F2.
  apply in_app_or in Hc as [Hc|Hc]; apply in_flat_map in Hc as (r & H1 & H2); apply in_map_iff in H2 as (s & <- & H2).
  - specialize (F1 r H1). rewrite Forall_forall in F1. exact (proj1 (F1 s H2)).
  - specialize (F2 r H1). rewrite Forall_forall in F2. exact (proj1 (F2 s H2)).
Qed.
Lemma new_active_ready v ms rs opts ni ir : rules_ready mapping_ready ms -> rules_ready rollup_ready rs ->
  active_ready (new_active_ruleset v ms rs opts ni ir).
Proof. intros F1 F2. split; [exact F1|]. split; [exact F2|]. now apply cutovers_int64. Qed.
Lemma active_rule_ready {P} (Q : snapshot P -> Prop) (rs : list (rule P)) t : rules_ready Q rs ->
  rules_ready Q (map (fun r => active_rule r t) rs).
Proof.
  intros F. apply Forall_map. eapply Forall_impl; [|exact F]. intros r Fr. unfold active_rule.
  destruct (active_index _ t) as [i|]; [|exact Fr]. cbn [ru_snapshots]. rewrite Forall_forall in *. intros x Hx. apply Fr.
  rewrite <- (firstn_skipn i (ru_snapshots r)). apply in_or_app. now right.
Qed.

Theorem read_forward v pb o rs t id from to : rule_set_typed int32 pb -> rule_set_from_proto v (Some pb) o = Some rs ->
  result_sendable (forward_match (active_set rs t) id from to) /\ result_sendable (full_match rs id from to).
Proof.
  intros T E. destruct (rule_set_read v pb o rs T E) as (H1 & H2). split; apply forward_sendable, new_active_ready; auto.
  - now apply active_rule_ready.
  - now apply active_rule_ready.
Qed.
Theorem read_reverse v pb o rs t id from to mt at_ multi opts : rule_set_typed int32 pb ->
  rule_set_from_proto v (Some pb) o = Some rs -> result_sendable (reverse_match (active_set rs t) id from to mt at_ multi opts).
Proof.
  intros T E. destruct (rule_set_read v pb o rs T E) as (H1 & H2). apply reverse_sendable, new_active_ready; now apply active_rule_ready.
Qed.

(** * The messages sent *)

Lemma active_stages_sendable l : Forall sm_sendable l -> forall n t, Forall sm_sendable (active_stages_from l n t).
Proof.
  intros F. induction n as [|n IH]; intros t; cbn [active_stages_from]; [exact F|]. destruct (nth_error l n) as [s|]; [|exact F].
  destruct (_ <=? t); [|apply IH]. rewrite Forall_forall in *. intros x Hx. apply F. rewrite <- (firstn_skipn n l). apply in_or_app. now right.
Qed.
Lemma message_sendable x id ms : sample_ok x -> Forall sm_sendable ms -> sendable (message_of x id ms).
Proof. destruct x; cbn [sample_ok message_of sendable]; auto. Qed.
Lemma to_send_sendable r t id x : result_sendable r -> sample_ok x -> Forall sendable (to_send r t id x).
Proof.
  intros (H1 & H2) Hx. constructor; [apply message_sendable; [exact Hx|]; apply active_stages_sendable, H1|].
  apply Forall_map. eapply Forall_impl; [|exact H2]. intros e He. cbn beta in *. apply message_sendable; [exact Hx|]. now apply active_stages_sendable.
Qed.
