(** Proofs about forward matches. *)
From Coq Require Import Ascii String Arith NArith ZArith Bool Lia Permutation Sorting.Sorted List.
From Verif.Base Require Import Bytes BytesFacts.
From Verif.Model Require Import AggType Policy Transformation Pipeline Metadata Filter MetricID Rules.
From Verif.Spec Require Import AggSpec MetadataSpec RulesSpec.
From Verif.Proof Require Import AggProof MetadataProof RulesProof.
Import ListNotations.
Open Scope Z_scope.

(** ** The rules that match *)

Section Rules.
  Context {P : Type}.
  Implicit Types (r : rule P) (s : snapshot P) (rules : list (rule P)).

  Lemma accepts_iff s id : accepts s id <-> snapshot_matches s id = true.
  Proof.
    unfold accepts, snapshot_matches. destruct (sn_filter s) as [f|]; [|split; [intros (f & E & _); discriminate|discriminate]].
    split; [intros (g & [= <-] & H); exact H|intros H; now exists f].
  Qed.
  Lemma steady_iff id r : steady id r ->
    forall s s', In s (ru_snapshots r) -> In s' (ru_snapshots r) -> snapshot_matches s id = snapshot_matches s' id.
  Proof.
    intros H s s' I I'. specialize (H s s' I I'). rewrite !accepts_iff in H.
    destruct (snapshot_matches s id), (snapshot_matches s' id); try reflexivity; [symmetry; now apply H|now apply H].
  Qed.
  Lemma live_spec id t r s :
    live id t r s <-> active_snapshot r t = Some s /\ snapshot_matches s id = true /\ sn_tomb s = false.
  Proof. unfold live, hit; rewrite active_snapshot_some, accepts_iff; tauto. Qed.

  Lemma match_rules_live rules id t : forall c, collect (live id t) rules (snd (match_rules rules id t c)).
  Proof.
    induction rules as [|r rules IH]; intros c; cbn [match_rules]; [constructor|].
    destruct (active_snapshot r t) as [s|] eqn:E.
    - destruct (snapshot_matches s id) eqn:M.
      + destruct (sn_tomb s) eqn:T.
        * apply collect_skip; auto. intros s' H; apply live_spec in H as (H1 & _ & H2). congruence.
        * specialize (IH (if c <? sn_cutover s then sn_cutover s else c)).
          destruct (match_rules rules id t _) as [c' ss]. simpl in *. apply collect_take; auto.
          apply live_spec; auto.
      + apply collect_skip; auto. intros s' H; apply live_spec in H as (H1 & H2 & _). congruence.
    - apply collect_skip; auto. intros s' H; apply live_spec in H as (H1 & _). congruence.
  Qed.

  Lemma collect_fun {A C} (R : A -> C -> Prop) : (forall a c c', R a c -> R a c' -> c = c') ->
    forall l m m', collect R l m -> collect R l m' -> m = m'.
  Proof.
    intros HR l m m' H; revert m'; induction H as [|a c l m Hr H IH|a l m Hr H IH]; intros m' H';
      inversion H' as [|? c' ? m0 Hr' H0|? ? m0 Hr' H0]; subst; auto.
    - rewrite (HR a c c' Hr Hr'), (IH m0 H0); reflexivity.
    - elim (Hr' c Hr).
    - elim (Hr c' Hr').
  Qed.

  Lemma live_unique id t r s s' : live id t r s -> live id t r s' -> s = s'.
  Proof. rewrite !live_spec; intros (H & _) (H' & _); congruence. Qed.

  Lemma match_rules_eq rules id t c ss : collect (live id t) rules ss -> snd (match_rules rules id t c) = ss.
  Proof. intros H; eapply collect_fun; [apply live_unique|apply match_rules_live|auto]. Qed.

  (** The cutover: the greatest among the given one and those of the snapshots in effect that match. *)
  Lemma match_rules_cutover rules id t : forall c,
    c <= fst (match_rules rules id t c) /\
    (forall r s, In r rules -> hit id t r s -> sn_cutover s <= fst (match_rules rules id t c)) /\
    (fst (match_rules rules id t c) = c \/
     exists r s, In r rules /\ hit id t r s /\ sn_cutover s = fst (match_rules rules id t c)).
  Proof.
    induction rules as [|r rules IH]; intros c; cbn [match_rules].
    - simpl; split; [lia|]. split; [intros ? ? []|auto].
    - destruct (active_snapshot r t) as [s|] eqn:E.
      + destruct (snapshot_matches s id) eqn:M.
        * set (c' := if c <? sn_cutover s then sn_cutover s else c).
          assert (Hh : hit id t r s) by (split; [now apply active_snapshot_some|now apply accepts_iff]).
          assert (Hc' : c <= c' /\ sn_cutover s <= c' /\ (c' = c \/ c' = sn_cutover s)).
          { unfold c'; destruct (Z.ltb_spec c (sn_cutover s)); lia. }
          destruct (IH c') as (H1 & H2 & H3).
          assert (Hf : fst (if sn_tomb s then match_rules rules id t c'
                    else let (c0, ss) := match_rules rules id t c' in (c0, s :: ss))
                  = fst (match_rules rules id t c')).
          { destruct (sn_tomb s); auto. now destruct (match_rules rules id t c'). }
          rewrite Hf. split; [lia|]. split.
          -- intros r' s' [<-|Hr] Hh'; [|eauto]. destruct Hh' as [He _]. apply active_snapshot_some in He.
             assert (s = s') by congruence; subst; lia.
          -- destruct H3 as [H3|(r' & s' & Hr & Hh' & He)].
             ++ destruct Hc' as (_ & _ & [Hc'|Hc']); [left; congruence|right].
                exists r, s; split; [now left|]; split; auto; congruence.
             ++ right; exists r', s'; split; [now right|auto].
        * destruct (IH c) as (H1 & H2 & H3). split; auto. split.
          -- intros r' s' [<-|Hr] Hh'; [|eauto]. destruct Hh' as [He Hm].
             apply active_snapshot_some in He. apply accepts_iff in Hm; congruence.
          -- destruct H3 as [H3|(r' & s' & Hr & Hh' & He)]; auto. right; exists r', s'; split; [now right|auto].
      + destruct (IH c) as (H1 & H2 & H3). split; auto. split.
        * intros r' s' [<-|Hr] Hh'; [|eauto]. destruct Hh' as [He Hm]. apply active_snapshot_some in He; congruence.
        * destruct H3 as [H3|(r' & s' & Hr & Hh' & He)]; auto. right; exists r', s'; split; [now right|auto].
  Qed.

  Lemma match_rules_ext rules rules' id t t' c :
    Forall2 (fun r r' => active_snapshot r t = active_snapshot r' t') rules rules' ->
    match_rules rules id t c = match_rules rules' id t' c.
  Proof.
    intros H; revert c; induction H as [|r r' rules rules' Hr H IH]; intros c; cbn [match_rules]; auto.
    rewrite Hr. destruct (active_snapshot r' t') as [s|]; auto.
    destruct (snapshot_matches s id); auto. destruct (sn_tomb s); auto. now rewrite IH.
  Qed.

  Lemma active_snapshot_constant r t u :
    (forall s, In s (ru_snapshots r) -> (sn_cutover s <= t <-> sn_cutover s <= u)) ->
    active_snapshot r t = active_snapshot r u.
  Proof.
    intros H. destruct (active_snapshot r u) as [s|] eqn:E.
    - apply active_snapshot_some in E. apply active_snapshot_some.
      apply in_effect_move with (t := u); auto.
      + apply H; destruct E as (b & a & Eq & Hc & _); auto. rewrite Eq; apply in_elt.
      + intros s' Hs' Hlt. destruct (Z.le_gt_cases (sn_cutover s') t) as [Hle|]; [|lia]. apply H in Hle; auto; lia.
    - apply active_snapshot_none in E; apply active_snapshot_none. rewrite Forall_forall in *; intros s Hs.
      destruct (Z.le_gt_cases (sn_cutover s) t) as [Hle|]; [|lia]. apply H in Hle; auto. apply E in Hs; lia.
  Qed.
End Rules.

Lemma Forall2_map_r {A C} (R : A -> C -> Prop) (f : A -> C) l : (forall x, In x l -> R x (f x)) -> Forall2 R l (map f l).
Proof. intros H; induction l as [|x l IH]; simpl; constructor; auto. apply H; now left. apply IH; intros; apply H; now right. Qed.
Lemma Forall2_same {A} (R : A -> A -> Prop) l : (forall x, In x l -> R x x) -> Forall2 R l l.
Proof. intros H; rewrite <- (map_id l) at 2; now apply Forall2_map_r. Qed.

(** ** Matches at an instant depend on the snapshots in effect only *)

Definition same_view (a b : active_ruleset) (t u : Z) : Prop :=
  Forall2 (fun r r' => active_snapshot r t = active_snapshot r' u) (as_mapping a) (as_mapping b) /\
  Forall2 (fun r r' => active_snapshot r t = active_snapshot r' u) (as_rollup a) (as_rollup b) /\
  as_opts a = as_opts b /\ as_new_id a = as_new_id b /\ as_is_rollup a = as_is_rollup b.

Section View.
  Variables (a b : active_ruleset) (t u : Z).
  Hypothesis V : same_view a b t u.

  Lemma match_rollup_target_ext section r : match_rollup_target a section r = match_rollup_target b section r.
  Proof. destruct V as (_ & _ & Ho & Hn & _). unfold match_rollup_target. now rewrite Ho, Hn. Qed.

  Lemma apply_id_to_op_ext section o : apply_id_to_op a section o = apply_id_to_op b section o.
  Proof. unfold apply_id_to_op. now rewrite match_rollup_target_ext. Qed.

  Lemma apply_id_to_pipeline_ext section p : apply_id_to_pipeline a section p = apply_id_to_pipeline b section p.
  Proof.
    unfold apply_id_to_pipeline. induction p as [|o p IH]; cbn [map_opt]; auto. now rewrite apply_id_to_op_ext, IH.
  Qed.

  Lemma apply_target_ext section tg : apply_target a section tg = apply_target b section tg.
  Proof.
    unfold apply_target. destruct (tg_pipeline tg) as [|o rest]; auto.
    now rewrite !apply_id_to_pipeline_ext, match_rollup_target_ext.
  Qed.

  Lemma mappings_ext id : mappings_for_non_rollup_id a id t = mappings_for_non_rollup_id b id u.
  Proof. destruct V as (Hm & _). unfold mappings_for_non_rollup_id. now rewrite (match_rules_ext _ _ id t u 0 Hm). Qed.

  Lemma forward_match_at_ext id : forward_match_at a id t = forward_match_at b id u.
  Proof.
    unfold forward_match_at. rewrite mappings_ext.
    assert (E : rollup_results_for a id t = rollup_results_for b id u).
    { pose proof V as (_ & Hr & Ho & _). unfold rollup_results_for. rewrite (match_rules_ext _ _ id t u 0 Hr).
      destruct (match_rules (as_rollup b) id u 0) as [c ss]. unfold to_rollup_results. rewrite Ho.
      destruct (flat_map _ ss) as [|tg ts]; auto. destruct (tfo_name_and_tags (as_opts b) id) as [[n section]|]; auto.
      assert (Ef : forall l, flat_map (fun tg => match apply_target a section tg with None => [] | Some r => [r] end) l
                           = flat_map (fun tg => match apply_target b section tg with None => [] | Some r => [r] end) l).
      { intros l; apply flat_map_ext; intros x; now rewrite apply_target_ext. }
      now rewrite Ef. }
    now rewrite E.
  Qed.

  Lemma reverse_ops_ext name section c sps mt at_ multi opts ops :
    reverse_ops a name section c sps mt at_ multi opts ops = reverse_ops b name section c sps mt at_ multi opts ops.
  Proof.
    pose proof V as (_ & _ & Ho & _). induction ops as [|o ops IH]; cbn [reverse_ops]; auto. rewrite Ho, IH. reflexivity.
  Qed.

  Lemma reverse_targets_ext name section c mt at_ multi opts ts :
    reverse_targets a name section c mt at_ multi opts ts = reverse_targets b name section c mt at_ multi opts ts.
  Proof. induction ts as [|tg ts IH]; cbn [reverse_targets]; auto. now rewrite reverse_ops_ext, IH. Qed.

  Lemma reverse_rules_ext name section mt at_ multi opts rules rules' :
    Forall2 (fun r r' => active_snapshot r t = active_snapshot r' u) rules rules' ->
    reverse_rules a rules name section t mt at_ multi opts = reverse_rules b rules' name section u mt at_ multi opts.
  Proof.
    induction 1 as [|r r' rules rules' Hr H IH]; cbn [reverse_rules]; auto.
    rewrite Hr, IH. destruct (active_snapshot r' u) as [s|]; auto. now rewrite reverse_targets_ext.
  Qed.

  Lemma reverse_mappings_ext id mt at_ multi opts :
    reverse_mappings_for a id t mt at_ multi opts = reverse_mappings_for b id u mt at_ multi opts.
  Proof.
    pose proof V as (_ & Hr & Ho & _ & Hi). unfold reverse_mappings_for, reverse_for_non_rollup_id.
    rewrite Ho, Hi, mappings_ext. destruct (tfo_name_and_tags (as_opts b) id) as [[n section]|]; auto.
    now rewrite (reverse_rules_ext _ _ _ _ _ _ _ _ Hr).
  Qed.
End View.

Section Built.
  Variables (v : Z) (ms : list mapping_rule) (rs : list rollup_rule) (opts : tags_filter_options)
    (nid : bytes -> list (bytes * bytes) -> bytes) (isr : bytes -> bytes -> bool).
  Let a := new_active_ruleset v ms rs opts nid isr.

  Lemma built_sorted : StronglySorted Z.lt (as_cutovers a).
  Proof. apply cutovers_sorted. Qed.

  Lemma built_in c : In c (as_cutovers a) <-> is_change ms rs c.
  Proof. apply cutovers_in. Qed.

  Lemma sorted_filter {A} (R : A -> A -> Prop) f l : StronglySorted R l -> StronglySorted R (List.filter f l).
  Proof.
    induction 1 as [|x l Hs IH Hf]; simpl; [constructor|]. destruct (f x); auto. constructor; auto.
    rewrite Forall_forall in *; intros y Hy; apply filter_In in Hy as [Hy _]; auto.
  Qed.

  Lemma window_changes from to : changes_between ms rs from to (window a from to).
  Proof.
    split; [apply sorted_filter, built_sorted|]. intros c. unfold window. rewrite filter_In, built_in, andb_true_iff.
    rewrite !Z.ltb_lt; tauto.
  Qed.

  Lemma expiry_first from to : first_of (fun c => is_change ms rs c /\ from < c /\ to <= c) (expiry a from to).
  Proof.
    unfold expiry, first_of. pose proof (sorted_filter Z.lt (fun c => (from <? c) && (to <=? c)) _ built_sorted) as Hs.
    assert (Hin : forall c, In c (List.filter (fun c => (from <? c) && (to <=? c)) (as_cutovers a)) <->
                            is_change ms rs c /\ from < c /\ to <= c).
    { intros c. rewrite filter_In, built_in, andb_true_iff, Z.ltb_lt, Z.leb_le; tauto. }
    destruct (List.filter _ _) as [|c l].
    - right; split; auto. intros c' H'; now apply Hin in H'.
    - left; split; [apply Hin; now left|]. intros c' H'. apply Hin in H' as [<-|H']; [lia|].
      inversion Hs as [|? ? _ Hf]; subst. rewrite Forall_forall in Hf; apply Hf in H'; lia.
  Qed.

  Lemma no_change_view t u : (forall c, is_change ms rs c -> (c <= t <-> c <= u)) -> same_view a a t u.
  Proof.
    intros H. split; [|split; [|auto]]; apply Forall2_same; intros r Hr; apply active_snapshot_constant; intros s Hs;
      apply H; [left|right]; exists r, s; auto.
  Qed.

  Lemma constant_at id t u : t <= u -> (forall c, is_change ms rs c -> ~ (t < c <= u)) ->
    forward_match_at a id t = forward_match_at a id u.
  Proof.
    intros Htu H. apply forward_match_at_ext, no_change_view. intros c Hc; specialize (H c Hc); lia.
  Qed.

  Lemma instant id t : forward_match a id t t =
    mk_mr v (expiry a t t) [fst (forward_match_at a id t)] (snd (forward_match_at a id t)).
  Proof.
    rewrite forward_match_shape by apply built_sorted.
    assert (window a t t = []) as ->; [|reflexivity].
    apply filter_false. intros x _. destruct (Z.ltb_spec t x), (Z.ltb_spec x t); auto; lia.
  Qed.

  Lemma sorted_unique l l' : StronglySorted Z.lt l -> StronglySorted Z.lt l' -> (forall x, In x l <-> In x l') -> l = l'.
  Proof.
    intros Hs; revert l'; induction Hs as [|x l Hs IH Hf]; intros l' Hs' H.
    - destruct l' as [|y l']; auto. exfalso; apply (H y); now left.
    - destruct l' as [|y l']; [exfalso; apply (H x); now left|].
      inversion Hs' as [|? ? Hs'' Hf']; subst. rewrite Forall_forall in Hf, Hf'.
      assert (x = y).
      { destruct (proj1 (H x) (or_introl eq_refl)) as [E|E]; auto.
        destruct (proj2 (H y) (or_introl eq_refl)) as [E'|E']; auto. apply Hf' in E; apply Hf in E'; lia. }
      subst y; f_equal. apply IH; auto. intros z; split; intros Hz.
      + destruct (proj1 (H z) (or_intror Hz)) as [<-|]; auto. apply Hf in Hz; lia.
      + destruct (proj2 (H z) (or_intror Hz)) as [<-|]; auto. apply Hf' in Hz; lia.
  Qed.

  Lemma changes_between_unique from to cs : changes_between ms rs from to cs -> cs = window a from to.
  Proof.
    intros [Hs Hi]. destruct (window_changes from to) as [Hs' Hi']. apply sorted_unique; auto.
    intros x; now rewrite Hi, Hi'.
  Qed.
End Built.

(** ** Trimming *)

Lemma first_of_unique S S' c c' : (forall x, S x <-> S' x) -> first_of S c -> first_of S' c' -> c = c'.
Proof.
  intros H [[H1 H2]|[H1 H2]] [[H3 H4]|[H3 H4]].
  - apply H in H1; apply H in H3. specialize (H4 _ H1); specialize (H2 _ H3); lia.
  - exfalso; now apply (H3 c), H.
  - exfalso; now apply (H1 c'), H.
  - congruence.
Qed.

Section Trim.
  Variables (v : Z) (ms : list mapping_rule) (rs : list rollup_rule) (opts : tags_filter_options)
    (nid : bytes -> list (bytes * bytes) -> bytes) (isr : bytes -> bytes -> bool) (t0 : Z).
  Let full := new_active_ruleset v ms rs opts nid isr.
  Let trimmed := new_active_ruleset v (map (fun r => active_rule r t0) ms) (map (fun r => active_rule r t0) rs) opts nid isr.
  Hypothesis Hms : Forall (fun r => ascending (ru_snapshots r)) ms.
  Hypothesis Hrs : Forall (fun r => ascending (ru_snapshots r)) rs.

  Lemma trim_changes c : t0 < c ->
    (is_change (map (fun r => active_rule r t0) ms) (map (fun r => active_rule r t0) rs) c <-> is_change ms rs c).
  Proof.
    intros Hc. unfold is_change. rewrite Forall_forall in Hms, Hrs.
    split; (intros [(r & s & Hr & Hs & He)|(r & s & Hr & Hs & He)]; [left|right]).
    - apply in_map_iff in Hr as (r' & <- & Hr). destruct (proj1 (active_rule_changes r' t0 c (Hms _ Hr) Hc)) as (s' & ? & ?);
        [eauto|]. exists r', s'; auto.
    - apply in_map_iff in Hr as (r' & <- & Hr). destruct (proj1 (active_rule_changes r' t0 c (Hrs _ Hr) Hc)) as (s' & ? & ?);
        [eauto|]. exists r', s'; auto.
    - destruct (proj2 (active_rule_changes r t0 c (Hms _ Hr) Hc)) as (s' & ? & ?); [eauto|].
      exists (active_rule r t0), s'; split; auto. apply in_map_iff; eauto.
    - destruct (proj2 (active_rule_changes r t0 c (Hrs _ Hr) Hc)) as (s' & ? & ?); [eauto|].
      exists (active_rule r t0), s'; split; auto. apply in_map_iff; eauto.
  Qed.

  Lemma trim_view t : t0 <= t -> same_view full trimmed t t.
  Proof.
    intros H. split; [|split; [|auto]]; apply Forall2_map_r; intros r _; symmetry; now apply active_rule_snapshot.
  Qed.

  Lemma trim_window from to : t0 <= from -> window trimmed from to = window full from to.
  Proof.
    intros H. apply changes_between_unique. destruct (window_changes v (map (fun r => active_rule r t0) ms) (map (fun r => active_rule r t0) rs) opts nid isr from to) as [Hs Hi].
    split; auto. intros c. fold trimmed in Hi. rewrite Hi. split; intros [Hc Hr]; split; auto; apply trim_changes; auto; lia.
  Qed.

  Lemma trim_expiry from to : t0 <= from -> expiry trimmed from to = expiry full from to.
  Proof.
    intros H. eapply first_of_unique; [|apply expiry_first|apply expiry_first].
    intros c; cbv beta. split; intros (Hc & Hr); split; auto; apply trim_changes; auto; lia.
  Qed.

  Lemma fold_left_ext {A C} (f g : A -> C -> A) l x : (forall y c, In c l -> f y c = g y c) -> fold_left f l x = fold_left g l x.
  Proof. revert x; induction l as [|c l IH]; intros x H; simpl; auto. rewrite H by now left. apply IH; intros; apply H; now right. Qed.

  Lemma window_above b from to c : In c (window b from to) -> from < c.
  Proof. intros H; apply filter_In in H as [_ H]. apply andb_true_iff in H as [H _]; now apply Z.ltb_lt. Qed.

  Lemma trim_forward id from to : t0 <= from -> forward_match trimmed id from to = forward_match full id from to.
  Proof.
    intros H. rewrite !forward_match_shape by apply built_sorted. rewrite trim_window, trim_expiry by auto.
    rewrite <- (forward_match_at_ext full trimmed from from (trim_view from H)). f_equal; apply fold_left_ext; intros y c Hc;
      apply window_above in Hc; unfold step_existing, step_news;
      now rewrite (forward_match_at_ext full trimmed c c (trim_view c ltac:(lia))).
  Qed.

  Lemma trim_reverse id from to mt at_ multi topts : t0 <= from ->
    reverse_match trimmed id from to mt at_ multi topts = reverse_match full id from to mt at_ multi topts.
  Proof.
    intros H. rewrite !reverse_match_shape by apply built_sorted. rewrite trim_window, trim_expiry by auto.
    rewrite <- (reverse_mappings_ext full trimmed from from (trim_view from H)). f_equal; apply fold_left_ext; intros y c Hc;
      apply window_above in Hc; unfold step_reverse;
      now rewrite (reverse_mappings_ext full trimmed c c (trim_view c ltac:(lia))).
  Qed.
End Trim.

(** ** Stages of the metric itself over a window *)

Lemma merge_existing_snoc l x s c :
  merge_existing (l ++ [x]) s c =
  (l ++ [x]) ++ [if sm_cutover s <? sm_cutover x then mk_sm (sm_pipelines s) c (sm_tombstoned s) else s].
Proof. unfold merge_existing. rewrite rev_app_distr; simpl. reflexivity. Qed.

Section Existing.
  Variables (f : Z -> staged_metadata).
  Let step e c := merge_existing e (f c) c.

  Lemma fold_existing cs : forall l x t,
    (forall c, In c (t :: cs) -> 0 <= sm_cutover (f c) <= Z.max 0 c) -> StronglySorted Z.lt (t :: cs) ->
    sm_cutover x <= Z.max 0 t ->
    exists ss, fold_left step cs (l ++ [x]) = l ++ x :: ss /\
      Forall2 (fun c s => sm_pipelines s = sm_pipelines (f c) /\ sm_tombstoned s = sm_tombstoned (f c) /\
                          sm_cutover s <= Z.max 0 c /\ (s = f c \/ sm_cutover s = c)) cs ss /\
      StronglySorted (fun s s' => sm_cutover s <= sm_cutover s') (x :: ss).
  Proof.
    induction cs as [|c cs IH]; intros l x t Hle Hs Hx.
    - exists []; simpl; split; auto. split; [constructor|]. constructor; constructor.
    - inversion Hs as [|? ? Hs' Hf]; subst. inversion Hf as [|? ? Htc Hf']; subst.
      assert (Hc : 0 <= sm_cutover (f c) <= Z.max 0 c) by (apply Hle; right; now left).
      assert (E1 : step (l ++ [x]) c = (l ++ [x]) ++ [if sm_cutover (f c) <? sm_cutover x
                     then mk_sm (sm_pipelines (f c)) c (sm_tombstoned (f c)) else f c])
        by (unfold step; apply merge_existing_snoc).
      cbn [fold_left]. rewrite E1.
      match goal with |- context [ [?z] ] => match z with (if _ then _ else _) => set (y := z) end end.
      assert (Hy : sm_pipelines y = sm_pipelines (f c) /\ sm_tombstoned y = sm_tombstoned (f c) /\
                   sm_cutover y <= Z.max 0 c /\ (y = f c \/ sm_cutover y = c)).
      { unfold y. destruct (_ <? _); simpl; repeat split; auto; lia. }
      assert (Hxy : sm_cutover x <= sm_cutover y).
      { unfold y. destruct (Z.ltb_spec (sm_cutover (f c)) (sm_cutover x)) as [Hlt|]; simpl; lia. }
      destruct (IH (l ++ [x]) y c) as (ss & E & F & S); auto.
      { intros c' Hc'; apply Hle; now right. }
      { apply Hy. }
      exists (y :: ss). rewrite E, <- app_assoc. split; auto. split; [constructor; auto|].
      constructor; auto. constructor; auto. inversion S as [|? ? _ Hall]; subst.
      eapply Forall_impl; [|exact Hall]. intros s Hs0; cbv beta in Hs0; lia.
  Qed.
End Existing.
