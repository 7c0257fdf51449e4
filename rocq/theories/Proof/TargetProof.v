(** Proofs about what rollup targets and mapping rules contribute at an instant. *)
From Coq Require Import Ascii String Arith NArith ZArith Bool Lia Permutation Sorting.Sorted List.
From Verif.Base Require Import Bytes BytesFacts.
From Verif.Model Require Import AggType Policy Transformation Pipeline Metadata Filter MetricID Rules.
From Verif.Spec Require Import AggSpec MetadataSpec FilterSpec RulesSpec.
From Verif.Proof Require Import AggProof MetadataProof TagProof RulesProof MatchProof.
From Verif.Spec Require Import RulesSpec.
Import ListNotations.
Open Scope Z_scope.

(** ** Tags of a target *)

Lemma filter_none_wanted (pairs : list (bytes * bytes)) wanted :
  (forall p w, In p pairs -> In w wanted -> fst p <> w) ->
  List.filter (fun p => existsb (beqb (fst p)) wanted) pairs = [].
Proof.
  intros H. apply filter_false. intros p Hp. destruct (existsb _ wanted) eqn:E; auto.
  apply existsb_exists in E as (w & Hw & Ew). apply beqb_eq in Ew. elim (H p w Hp Hw Ew).
Qed.

Lemma match_tags_spec pairs : forall tags sel,
  names_strict (map fst pairs) -> names_strict tags ->
  match_tags pairs tags = Some sel <-> selects pairs tags sel.
Proof.
  induction pairs as [|[n v] pairs IH]; intros tags sel Hp Ht.
  - destruct tags as [|tag tags]; cbn [match_tags]; unfold selects.
    + split; [intros [= <-]; split; [intros ? []|reflexivity]|intros [_ ->]; reflexivity].
    + split; [discriminate|]. intros [H _]. elim (H tag); now left.
  - destruct tags as [|tag tags]; cbn [match_tags]; unfold selects.
    + split; [intros [= <-]; split; [intros ? []|]|intros [_ ->]];
        rewrite filter_none_wanted; auto; intros ? ? _ [].
    + cbn [map fst] in Hp. inversion Hp as [|? ? Hp' Hn]; inversion Ht as [|? ? Ht' Htag]; subst.
      rewrite Forall_forall in Hn, Htag.
      destruct (bcompare n tag) eqn:E.
      * apply bcompare_eq in E; subst n.
        assert (Hw : List.filter (fun p => existsb (beqb (fst p)) (tag :: tags)) ((tag, v) :: pairs)
                     = (tag, v) :: List.filter (fun p => existsb (beqb (fst p)) tags) pairs).
        { simpl. rewrite beqb_refl; simpl. f_equal. apply filter_ext_in_list. intros [m x] Hm; simpl.
          assert (bltb tag m = true) by (apply Hn; apply in_map_iff; exists (m, x); auto).
          rewrite (proj2 (beqb_neq m tag)); auto. intros ->; rewrite bltb_irrefl in *; discriminate. }
        rewrite Hw. destruct (match_tags pairs tags) as [l|] eqn:El; simpl.
        -- apply IH in El as [H1 H2]; auto. split.
           ++ intros [= <-]; split; [|now rewrite H2]. intros w [<-|Hw']; [now left|right; auto].
           ++ intros [_ ->]; now rewrite H2.
        -- split; [discriminate|]. intros [H _].
           assert (F : selects pairs tags (List.filter (fun p => existsb (beqb (fst p)) tags) pairs)).
           { split; auto. intros w Hw'. destruct (H w (or_intror Hw')) as [E|]; auto. simpl in E.
             specialize (Htag w Hw'). rewrite <- E, bltb_irrefl in Htag; discriminate. }
           apply IH in F; auto. congruence.
      * apply bltb_lt in E.
        assert (Hw : List.filter (fun p => existsb (beqb (fst p)) (tag :: tags)) ((n, v) :: pairs)
                     = List.filter (fun p => existsb (beqb (fst p)) (tag :: tags)) pairs).
        { cbn [List.filter fst]. destruct (existsb (beqb n) (tag :: tags)) eqn:Ex; auto.
          apply existsb_exists in Ex as (w & Hw & Ew). apply beqb_eq in Ew; subst w. exfalso.
          destruct Hw as [<-|Hw]; [now rewrite bltb_irrefl in E|].
          specialize (Htag n Hw). rewrite (bltb_asym _ _ E) in Htag; discriminate. }
        rewrite Hw, IH by auto. unfold selects. split; intros [H1 H2]; split; auto.
        -- intros w Hw'; right; auto.
        -- intros w Hw'. destruct (H1 w Hw') as [Ew|]; auto. simpl in Ew; subst w. exfalso.
           destruct Hw' as [<-|Hw']; [now rewrite bltb_irrefl in E|].
           specialize (Htag n Hw'). rewrite (bltb_asym _ _ E) in Htag; discriminate.
      * apply bcompare_gt in E. split; [discriminate|]. intros [H _]. exfalso.
        destruct (H tag (or_introl eq_refl)) as [Ew|Ew]; simpl in Ew.
        -- subst n; now rewrite bltb_irrefl in E.
        -- specialize (Hn tag Ew). rewrite (bltb_asym _ _ E) in Hn; discriminate.
Qed.

(** ** Clones change nothing that is read *)

Lemma apply_id_to_op_clone a section o : apply_id_to_op a section (op_clone o) = apply_id_to_op a section o.
Proof.
  unfold apply_id_to_op, op_clone; cbn [op_kind op_tf op_rollup].
  destruct (Z.eqb_spec (op_kind o) TransformationOp) as [E|E]; auto.
  destruct (Z.eqb_spec (op_kind o) RollupOp) as [E'|E']; auto.
Qed.

Lemma apply_id_to_pipeline_clone a section p :
  apply_id_to_pipeline a section (pipeline_clone p) = apply_id_to_pipeline a section p.
Proof.
  unfold apply_id_to_pipeline, pipeline_clone. induction p as [|o p IH]; cbn [map map_opt]; auto.
  now rewrite apply_id_to_op_clone, IH.
Qed.

Lemma apply_target_clone a section tg : apply_target a section (target_clone tg) = apply_target a section tg.
Proof.
  destruct tg as [p sps]. unfold apply_target, target_clone. cbn [tg_pipeline tg_sps].
  destruct p as [|o p]; auto. cbn [pipeline_clone map]. fold (pipeline_clone p).
  change (op_clone o :: pipeline_clone p) with (pipeline_clone (o :: p)).
  rewrite !apply_id_to_pipeline_clone. cbn [op_clone op_kind op_agg op_rollup].
  destruct (Z.eqb_spec (op_kind o) AggregationOp); auto.
  destruct (Z.eqb_spec (op_kind o) TransformationOp); auto.
  destruct (Z.eqb_spec (op_kind o) RollupOp); auto.
Qed.

(** ** Contributions of a target *)

Lemma compress_one z : compress_types [z] = ((2 ^ Z.to_N z)%N, false) /\ valid_type z
  \/ compress_types [z] = (default_id, true) /\ ~ valid_type z.
Proof.
  unfold compress_types. destruct (Z_le_dec 1 z) as [H1|H1]; [destruct (Z_le_dec z 22) as [H2|H2]|].
  - left. assert (Hv : Forall valid_type [z]) by (constructor; auto; split; auto).
    destruct (compressor_valid 0 [z] Hv) as (w & E & Hw). rewrite E; simpl. split; [|split; auto].
    f_equal. apply N.bits_inj. intros k. rewrite N.pow2_bits_eqb.
    apply eq_true_iff_eq. rewrite Hw, N.eqb_eq. simpl. split; [intros [E2|[]]; rewrite E2; apply N2Z.id|].
    intros <-; left. now rewrite Z2N.id by lia.
  - right. rewrite compressor_invalid; [split; auto; unfold valid_type; lia|]. intros F; inversion F; unfold valid_type in *; lia.
  - right. rewrite compressor_invalid; [split; auto; unfold valid_type; lia|]. intros F; inversion F; unfold valid_type in *; lia.
Qed.

Section Contribution.
  Variables (a : active_ruleset) (section : bytes).
  Let tags := fst (tfo_sorted_tags (as_opts a) section).
  Hypothesis Htags : names_strict (map fst tags).

  Lemma match_rollup_target_spec r id : names_strict (ro_tags r) ->
    match_rollup_target a section r = Some id <-> exists sel, selects tags (ro_tags r) sel /\ id = as_new_id a (ro_name r) sel.
  Proof.
    intros Hr. unfold match_rollup_target. fold tags. destruct (match_tags tags (ro_tags r)) as [sel|] eqn:E; simpl.
    - pose proof (proj1 (match_tags_spec _ _ _ Htags Hr) E) as Hsel. split.
      + intros [= <-]; eauto.
      + intros (sel' & Hs & ->). apply (match_tags_spec _ _ _ Htags Hr) in Hs. congruence.
    - split; [discriminate|]. intros (sel & Hs & _). apply (match_tags_spec _ _ _ Htags Hr) in Hs. congruence.
  Qed.

  Lemma apply_id_to_op_spec o ao : (op_kind o = RollupOp -> names_strict (ro_tags (op_rollup o))) ->
    apply_id_to_op a section o = Some ao <-> applies (as_new_id a) tags o ao.
  Proof.
    intros Hr. unfold apply_id_to_op.
    destruct (Z.eqb_spec (op_kind o) TransformationOp) as [E|E].
    - split; [intros [= <-]; now constructor|]. intros H; inversion H; subst; auto.
      unfold TransformationOp, RollupOp in *; congruence.
    - destruct (Z.eqb_spec (op_kind o) RollupOp) as [E'|E'].
      + destruct (match_rollup_target a section (op_rollup o)) as [id|] eqn:Em.
        * apply (match_rollup_target_spec _ _ (Hr E')) in Em as (sel & Hsel & ->). split.
          -- intros [= <-]. now apply Applies_rollup.
          -- intros H; inversion H; subst; [congruence|].
             assert (sel0 = sel) by (destruct Hsel as [_ ->]; match goal with h : selects _ _ sel0 |- _ => now destruct h end).
             now subst.
        * split; [discriminate|]. intros H; inversion H; subst; [congruence|].
          exfalso. assert (X : match_rollup_target a section (op_rollup o) = Some (as_new_id a (ro_name (op_rollup o)) sel))
            by (apply match_rollup_target_spec; eauto). congruence.
      + split; [discriminate|]. intros H; inversion H; subst; congruence.
  Qed.

  Lemma apply_id_to_pipeline_spec p ap :
    (forall o, In o p -> op_kind o = RollupOp -> names_strict (ro_tags (op_rollup o))) ->
    apply_id_to_pipeline a section p = Some ap <-> Forall2 (applies (as_new_id a) tags) p ap.
  Proof.
    intros H. unfold apply_id_to_pipeline. etransitivity; [apply map_opt_some|].
    revert ap; induction p as [|o p IH]; intros ap.
    - split; intros F; inversion F; constructor.
    - split; intros F; inversion F; subst; constructor.
      + apply apply_id_to_op_spec; auto. apply H; now left.
      + apply IH; auto. intros; apply H; auto; now right.
      + apply apply_id_to_op_spec; auto. apply H; now left.
      + apply IH; auto. intros; apply H; auto; now right.
  Qed.

  Lemma apply_target_spec tg c : target_strict tg ->
    apply_target a section tg = Some c <-> contributes (as_new_id a) tags tg c.
  Proof.
    intros Hst. unfold apply_target. destruct (tg_pipeline tg) as [|o rest] eqn:Ep.
    { split; [discriminate|]. intros H; inversion H; congruence. }
    assert (Hrest : forall o', In o' rest -> op_kind o' = RollupOp -> names_strict (ro_tags (op_rollup o'))).
    { intros o' Ho; apply Hst. rewrite Ep; now right. }
    assert (Hall : forall o', In o' (o :: rest) -> op_kind o' = RollupOp -> names_strict (ro_tags (op_rollup o'))).
    { intros o' Ho; apply Hst. now rewrite Ep. }
    destruct (Z.eqb_spec (op_kind o) AggregationOp) as [E1|E1].
    { destruct (compress_one (op_agg o)) as [[-> Hv]|[-> Hv]].
      - destruct (apply_id_to_pipeline a section rest) as [ap|] eqn:Ea.
        + pose proof (proj1 (apply_id_to_pipeline_spec _ _ Hrest) Ea) as Ha. split.
          * intros [= <-]. eapply Contributes_agg; eauto.
          * intros H; inversion H as [o1 r1 ap1 P1 K1 V1 F1|o1 r1 ap1 P1 K1 F1|o1 r1 sel ap1 P1 K1 S1 F1];
              rewrite Ep in P1; injection P1 as <- <-; try (rewrite E1 in K1; discriminate).
            apply (apply_id_to_pipeline_spec _ _ Hrest) in F1. rewrite Ea in F1; (discriminate F1 || (injection F1 as <-; reflexivity)).
        + split; [discriminate|]. intros H; inversion H as [o1 r1 ap1 P1 K1 V1 F1|o1 r1 ap1 P1 K1 F1|o1 r1 sel ap1 P1 K1 S1 F1];
              rewrite Ep in P1; injection P1 as <- <-; try (rewrite E1 in K1; discriminate).
            apply (apply_id_to_pipeline_spec _ _ Hrest) in F1. rewrite Ea in F1; (discriminate F1 || (injection F1 as <-; reflexivity)).
      - split; [discriminate|]. intros H; inversion H as [o1 r1 ap1 P1 K1 V1 F1|o1 r1 ap1 P1 K1 F1|o1 r1 sel ap1 P1 K1 S1 F1];
              rewrite Ep in P1; injection P1 as <- <-; try (rewrite E1 in K1; discriminate). contradiction. }
    destruct (Z.eqb_spec (op_kind o) TransformationOp) as [E2|E2].
    { destruct (apply_id_to_pipeline a section (o :: rest)) as [ap|] eqn:Ea.
      - pose proof (proj1 (apply_id_to_pipeline_spec _ _ Hall) Ea) as Ha. split.
        + intros [= <-]. eapply Contributes_tf; eauto.
        + intros H; inversion H as [o1 r1 ap1 P1 K1 V1 F1|o1 r1 ap1 P1 K1 F1|o1 r1 sel ap1 P1 K1 S1 F1];
            rewrite Ep in P1; injection P1 as <- <-; try (rewrite E2 in K1; discriminate).
          apply (apply_id_to_pipeline_spec _ _ Hall) in F1. rewrite Ea in F1; (discriminate F1 || (injection F1 as <-; reflexivity)).
      - split; [discriminate|]. intros H; inversion H as [o1 r1 ap1 P1 K1 V1 F1|o1 r1 ap1 P1 K1 F1|o1 r1 sel ap1 P1 K1 S1 F1];
            rewrite Ep in P1; injection P1 as <- <-; try (rewrite E2 in K1; discriminate).
          apply (apply_id_to_pipeline_spec _ _ Hall) in F1. rewrite Ea in F1; (discriminate F1 || (injection F1 as <-; reflexivity)). }
    destruct (Z.eqb_spec (op_kind o) RollupOp) as [E3|E3].
    { assert (Hro : names_strict (ro_tags (op_rollup o))) by (apply Hall; auto; now left).
      destruct (match_rollup_target a section (op_rollup o)) as [id|] eqn:Em.
      - apply (match_rollup_target_spec _ _ Hro) in Em as (sel & Hsel & ->).
        destruct (apply_id_to_pipeline a section rest) as [ap|] eqn:Ea.
        + pose proof (proj1 (apply_id_to_pipeline_spec _ _ Hrest) Ea) as Ha. split.
          * intros [= <-]. eapply Contributes_rollup; eauto.
          * intros H; inversion H as [o1 r1 ap1 P1 K1 V1 F1|o1 r1 ap1 P1 K1 F1|o1 r1 sel1 ap1 P1 K1 S1 F1];
              rewrite Ep in P1; injection P1 as <- <-; try (rewrite E3 in K1; discriminate).
            apply (apply_id_to_pipeline_spec _ _ Hrest) in F1.
            assert (sel1 = sel) by (destruct S1 as [_ ->], Hsel as [_ ->]; auto). subst sel1. rewrite Ea in F1; injection F1 as <-; reflexivity.
        + split; [discriminate|]. intros H; inversion H as [o1 r1 ap1 P1 K1 V1 F1|o1 r1 ap1 P1 K1 F1|o1 r1 sel1 ap1 P1 K1 S1 F1];
              rewrite Ep in P1; injection P1 as <- <-; try (rewrite E3 in K1; discriminate).
            apply (apply_id_to_pipeline_spec _ _ Hrest) in F1. rewrite Ea in F1; (discriminate F1 || (injection F1 as <-; reflexivity)).
      - split; [discriminate|]. intros H; inversion H as [o1 r1 ap1 P1 K1 V1 F1|o1 r1 ap1 P1 K1 F1|o1 r1 sel1 ap1 P1 K1 S1 F1];
              rewrite Ep in P1; injection P1 as <- <-; try (rewrite E3 in K1; discriminate).
        exfalso. assert (X : match_rollup_target a section (op_rollup o) = Some (as_new_id a (ro_name (op_rollup o)) sel1))
            by (apply match_rollup_target_spec; eauto). congruence. }
    split; [discriminate|]. intros H; inversion H as [o1 r1 ap1 P1 K1 V1 F1|o1 r1 ap1 P1 K1 F1|o1 r1 sel1 ap1 P1 K1 S1 F1];
      rewrite Ep in P1; injection P1 as <- <-; congruence.
  Qed.
End Contribution.

Definition opt_list {A} (o : option A) : list A := match o with None => [] | Some x => [x] end.

Lemma collect_flat {A C} (R : A -> C -> Prop) (f : A -> option C) l m :
  collect R l m -> (forall x c, In x l -> (f x = Some c <-> R x c)) -> flat_map (fun x => opt_list (f x)) l = m.
Proof.
  induction 1 as [|x c l m Hr H IH|x l m Hr H IH]; intros Hf; simpl; auto.
  - rewrite (proj2 (Hf x c (or_introl eq_refl)) Hr). simpl. f_equal. apply IH; intros; apply Hf; now right.
  - destruct (f x) as [c|] eqn:E; [apply Hf in E; [elim (Hr c E)|now left]|]. simpl. apply IH; intros; apply Hf; now right.
Qed.

Lemma flat_collect {A C} (R : A -> C -> Prop) (f : A -> option C) l :
  (forall x c, In x l -> (f x = Some c <-> R x c)) -> collect R l (flat_map (fun x => opt_list (f x)) l).
Proof.
  induction l as [|x l IH]; intros Hf; simpl; [constructor|].
  assert (IH' : collect R l (flat_map (fun x => opt_list (f x)) l)) by (apply IH; intros; apply Hf; now right).
  destruct (f x) as [c|] eqn:E; simpl.
  - apply collect_take; auto. apply Hf; auto; now left.
  - apply collect_skip; auto. intros c Hc. apply Hf in Hc; [congruence|now left].
Qed.

(** ** Own pipelines *)

Lemma own_results_part rs : own_results rs = own_part rs.
Proof. unfold own_results, own_part. induction rs as [|[[id|] p] rs IH]; simpl; auto. now rewrite IH. Qed.

Lemma pm_equal_sym x y : pm_equal x y = true -> pm_equal y x = true.
Proof.
  rewrite !pm_equal_spec. intros (H1 & H2 & H3 & H4). repeat split; auto; [now symmetry|].
  clear - H3. induction H3 as [|p q l l' (K & Ht & Hr) _ IH]; constructor; auto.
  split; [congruence|]. split; intros; symmetry; [apply Ht|apply Hr]; congruence.
Qed.

Lemma pm_equal_trans x y z : pm_equal x y = true -> pm_equal y z = true -> pm_equal x z = true.
Proof.
  rewrite !pm_equal_spec. intros (H1 & H2 & H3 & H4) (G1 & G2 & G3 & G4). repeat split; try congruence.
  - etransitivity; eauto.
  - revert G3; generalize (pm_pipeline z). induction H3 as [|p q l l' (K & Ht & Hr) _ IH]; intros l'' G3; inversion G3 as [|? r ? ? (K' & Ht' & Hr') G]; subst; constructor; auto.
    split; [congruence|]. split; intros; (etransitivity; [apply Ht; congruence|apply Ht'; congruence]) ||
      (etransitivity; [apply Hr; congruence|apply Hr'; congruence]).
Qed.

Lemma dedup_loop_firsts ps : forall kept,
  dedup_loop kept ps = kept ++ List.filter (fun y => negb (existsb (fun k => pm_equal k y) kept)) (firsts pm_equal ps).
Proof.
  induction ps as [|p ps IH]; intros kept; cbn [dedup_loop firsts]; [now rewrite app_nil_r|].
  cbn [List.filter]. destruct (existsb (fun k => pm_equal k p) kept) eqn:E; cbn [negb].
  - rewrite IH. f_equal. apply existsb_exists in E as (k & Hk & Ek).
    clear IH. induction (firsts pm_equal ps) as [|q l IHl]; cbn [List.filter]; auto.
    destruct (pm_equal p q) eqn:Eq; cbn [negb].
    + assert (K : existsb (fun k => pm_equal k q) kept = true).
      { apply existsb_exists; exists k; split; auto. eapply pm_equal_trans; eauto. }
      rewrite K; cbn [negb]; exact IHl.
    + cbn [List.filter]. rewrite IHl. reflexivity.
  - rewrite IH, <- app_assoc. cbn [app]. f_equal. f_equal.
    clear IH. induction (firsts pm_equal ps) as [|q l IHl]; cbn [List.filter]; auto.
    rewrite existsb_app. cbn [existsb]. rewrite orb_false_r.
    destruct (pm_equal p q) eqn:Eq; cbn [negb].
    + rewrite orb_true_r; cbn [negb]; auto.
    + rewrite orb_false_r. cbn [List.filter]. destruct (negb (existsb (fun k => pm_equal k q) kept)); auto. now rewrite IHl.
Qed.

Lemma rm_unique_plain c p ps : Forall (fun m => pm_drop m = 0) (p :: ps) ->
  rm_unique (mk_rm c (p :: ps)) = mk_rm c (firsts pm_equal (p :: ps)).
Proof.
  intros H. unfold rm_unique. cbn [rm_pipelines rm_cutover].
  assert (Hv : valid_drops (p :: ps)) by (intros m Hm; rewrite Forall_forall in H; rewrite (H m Hm); lia).
  rewrite Forall_forall in H.
  rewrite pms_apply_drop_ineffective; auto.
  2:{ intros [(m & Hm & E)|[_ E]]; [rewrite (H m Hm) in E; discriminate|].
      specialize (E p (or_introl eq_refl)). rewrite (H p (or_introl eq_refl)) in E; discriminate. }
  rewrite filter_all. 2:{ intros m Hm; now rewrite (H m Hm). }
  f_equal. rewrite dedup_loop_firsts. cbn [app firsts]. f_equal. apply filter_ext_in_list; intros y _.
  cbn [existsb]. now rewrite orb_false_r.
Qed.

Lemma firsts_single {A} (eqb : A -> A -> bool) x : firsts eqb [x] = [x].
Proof. reflexivity. Qed.

(** ** The match at an instant *)

Section Instant.
  Variables (a : active_ruleset) (id : bytes) (t : Z).

  Lemma mappings_cutover_eq : rm_cutover (mappings_for_non_rollup_id a id t) = fst (match_rules (as_mapping a) id t 0).
  Proof. unfold mappings_for_non_rollup_id. now destruct (match_rules (as_mapping a) id t 0). Qed.

  Lemma mappings_pipelines ss : collect (live id t) (as_mapping a) ss -> valid_drops (map pipeline_of ss) ->
    rm_pipelines (mappings_for_non_rollup_id a id t) =
    if match snd (pms_apply_drop (map pipeline_of ss)) with AppliedEffectiveDropPolicy => true | _ => false end
    then [mk_pm 0%N [] [] 1] else kept_or_default ss.
  Proof.
    intros Hss Hv. unfold mappings_for_non_rollup_id.
    pose proof (match_rules_eq _ _ _ 0 _ Hss) as E.
    destruct (match_rules (as_mapping a) id t 0) as [c ss']. simpl in E; subst ss'. cbn [rm_pipelines].
    change (map mapping_pipeline ss) with (map pipeline_of ss).
    destruct (drop_effective_dec (map pipeline_of ss)) as [H|H].
    - rewrite pms_apply_drop_effective by auto. reflexivity.
    - rewrite pms_apply_drop_ineffective by auto. cbn [fst snd]. unfold kept_or_default.
      destruct (List.filter _ _); reflexivity.
  Qed.

  Definition rollup_targets : list target :=
    flat_map sn_body (snd (match_rules (as_rollup a) id t 0)).

  Lemma rollup_results_eq : rollup_results_for a id t =
    match rollup_targets with
    | [] => (mk_rm 0 [], [])
    | ts => match tfo_name_and_tags (as_opts a) id with
            | None => (mk_rm 0 [], [])
            | Some (_, section) =>
                let rs := flat_map (fun tg => opt_list (apply_target a section tg)) ts in
                (mk_rm (fst (match_rules (as_rollup a) id t 0)) (own_part rs),
                 new_id_results (fst (match_rules (as_rollup a) id t 0)) rs)
            end
    end.
  Proof.
    unfold rollup_results_for, rollup_targets. destruct (match_rules (as_rollup a) id t 0) as [c ss]. cbn [fst snd].
    assert (Em : flat_map (fun s : snapshot (list target) => map target_clone (sn_body s)) ss = map target_clone (flat_map sn_body ss)).
    { induction ss as [|s ss IH]; simpl; auto. now rewrite map_app, IH. }
    rewrite Em. unfold to_rollup_results. destruct (flat_map sn_body ss) as [|tg ts]; auto.
    cbn [map]. destruct (tfo_name_and_tags (as_opts a) id) as [[n section]|]; auto.
    change (target_clone tg :: map target_clone ts) with (map target_clone (tg :: ts)).
    assert (Ef : flat_map (fun tg => match apply_target a section tg with None => [] | Some r => [r] end) (map target_clone (tg :: ts))
                 = flat_map (fun tg => opt_list (apply_target a section tg)) (tg :: ts)).
    { clear. generalize (tg :: ts); intros l. induction l as [|x l IH]; cbn [map flat_map]; auto. rewrite apply_target_clone, IH. reflexivity. }
    rewrite Ef. cbv zeta. now rewrite own_results_part.
  Qed.

  Lemma apply_target_drop section tg c : apply_target a section tg = Some c -> pm_drop (snd c) = 0.
  Proof.
    unfold apply_target. destruct (tg_pipeline tg) as [|o rest]; [discriminate|].
    destruct (op_kind o =? AggregationOp).
    { destruct (compress_types [op_agg o]) as [g e]; destruct e; [discriminate|].
      destruct (apply_id_to_pipeline a section rest); [|discriminate]. now intros [= <-]. }
    destruct (op_kind o =? TransformationOp).
    { destruct (apply_id_to_pipeline a section (o :: rest)); [|discriminate]. now intros [= <-]. }
    destruct (op_kind o =? RollupOp); [|discriminate].
    destruct (match_rollup_target a section (op_rollup o)); [|discriminate].
    destruct (apply_id_to_pipeline a section rest); [|discriminate]. now intros [= <-].
  Qed.

  Lemma own_no_drop : Forall (fun m => pm_drop m = 0) (rm_pipelines (fst (rollup_results_for a id t))).
  Proof.
    rewrite rollup_results_eq. destruct rollup_targets as [|tg ts]; [constructor|].
    destruct (tfo_name_and_tags (as_opts a) id) as [[n section]|]; [|constructor]. cbv zeta; cbn [fst rm_pipelines].
    unfold own_part. apply Forall_forall; intros m Hm. apply in_map_iff in Hm as (c & <- & Hc).
    apply filter_In in Hc as [Hc _]. apply in_flat_map in Hc as (x & _ & Hx).
    destruct (apply_target a section x) eqn:E; [|destruct Hx]. destruct Hx as [<-|[]]. eapply apply_target_drop; eauto.
  Qed.

  Lemma rm_unique_cutover x : rm_cutover (rm_unique x) = rm_cutover x.
  Proof.
    unfold rm_unique. destruct (rm_pipelines x) as [|p ps]; auto.
    destruct (pms_apply_drop (p :: ps)) as [[|q qs] []]; auto.
  Qed.

  (** The stage of the metric itself, in terms of the live mapping rules and the rollup targets. *)
  Lemma existing_stage ss : collect (live id t) (as_mapping a) ss -> valid_drops (map pipeline_of ss) ->
    let own := rm_pipelines (fst (rollup_results_for a id t)) in
    sm_tombstoned (fst (forward_match_at a id t)) = false /\
    (drop_effective (map pipeline_of ss) ->
       sm_pipelines (fst (forward_match_at a id t)) = [mk_pm 0%N [] [] 1]) /\
    (~ drop_effective (map pipeline_of ss) ->
       sm_pipelines (fst (forward_match_at a id t)) = firsts pm_equal (kept_or_default ss ++ own)).
  Proof.
    intros Hss Hv. cbv zeta. pose proof own_no_drop as Hown. unfold forward_match_at.
    pose proof (mappings_pipelines ss Hss Hv) as Hm.
    destruct (mappings_for_non_rollup_id a id t) as [mc mp]. cbn [rm_pipelines] in Hm.
    destruct (rollup_results_for a id t) as [[oc op_] news]. cbn [fst rm_pipelines] in *.
    split; [reflexivity|]. unfold rm_merge; cbn [rm_cutover rm_pipelines]. split; intros H.
    - rewrite pms_apply_drop_effective in Hm by auto. cbn [snd] in Hm. subst mp.
      unfold rm_unique; cbn [rm_pipelines app].
      rewrite pms_apply_drop_effective; [reflexivity|].
      left; eexists; split; [now left|reflexivity].
    - rewrite pms_apply_drop_ineffective in Hm by auto. cbn [snd] in Hm. subst mp.
      assert (Hk : Forall (fun m => pm_drop m = 0) (kept_or_default ss)).
      { unfold kept_or_default. destruct (List.filter _ _) as [|p l] eqn:E; [repeat constructor|].
        rewrite <- E. apply Forall_forall; intros m Hm. apply filter_In in Hm as [_ Hm]. now apply Z.eqb_eq. }
      assert (Hne : exists p l, kept_or_default ss ++ op_ = p :: l).
      { unfold kept_or_default. destruct (List.filter _ _); simpl; eauto. }
      destruct Hne as (p & l & E). assert (Hall : Forall (fun m => pm_drop m = 0) (p :: l))
        by (rewrite <- E; apply Forall_app; auto).
      rewrite E, rm_unique_plain by auto. cbn [firsts rm_to_staged rm_pipelines sm_pipelines]. reflexivity.
  Qed.

  Lemma existing_cutover : sm_cutover (fst (forward_match_at a id t)) =
    Z.max (fst (match_rules (as_mapping a) id t 0)) (rm_cutover (fst (rollup_results_for a id t))).
  Proof.
    unfold forward_match_at. pose proof mappings_cutover_eq as E.
    destruct (rollup_results_for a id t) as [own news]. cbn [fst]. unfold rm_to_staged; cbn [sm_cutover].
    rewrite rm_unique_cutover. unfold rm_merge; cbn [rm_cutover]. rewrite E.
    destruct (Z.ltb_spec (fst (match_rules (as_mapping a) id t 0)) (rm_cutover own)); lia.
  Qed.

  Lemma hit_le {P} (r : rule P) s : hit id t r s -> sn_cutover s <= t.
  Proof. intros [(b & x & _ & H & _) _]; auto. Qed.

  Lemma match_rules_bounds {P} (rules : list (rule P)) : 0 <= fst (match_rules rules id t 0) <= Z.max 0 t.
  Proof.
    destruct (match_rules_cutover rules id t 0) as (H1 & H2 & [H3|(r & s & _ & Hh & He)]); [lia|].
    apply hit_le in Hh; lia.
  Qed.

  Lemma existing_cutover_bounds : 0 <= sm_cutover (fst (forward_match_at a id t)) <= Z.max 0 t.
  Proof.
    rewrite existing_cutover. pose proof (match_rules_bounds (as_mapping a)).
    assert (0 <= rm_cutover (fst (rollup_results_for a id t)) <= Z.max 0 t); [|lia].
    rewrite rollup_results_eq. pose proof (match_rules_bounds (as_rollup a)).
    destruct rollup_targets; [simpl; lia|]. destruct (tfo_name_and_tags (as_opts a) id) as [[n s]|]; simpl; lia.
  Qed.

  Lemma existing_not_tomb : sm_tombstoned (fst (forward_match_at a id t)) = false.
  Proof. unfold forward_match_at. destruct (rollup_results_for a id t). reflexivity. Qed.
End Instant.
