(** Proofs about matches at an instant, stated for the matching interface. *)
From Coq Require Import Ascii String Arith NArith ZArith Bool Lia Permutation Sorting.Sorted List.
From Verif.Base Require Import Bytes BytesFacts.
From Verif.Model Require Import AggType Policy Transformation Pipeline Metadata Filter MetricID Rules.
From Verif.Spec Require Import AggSpec MetadataSpec FilterSpec.
From Verif.Proof Require Import AggProof MetadataProof TagProof RulesProof MatchProof TargetProof WindowProof ServeProof ReverseProof.
From Verif.Spec Require Import RulesSpec.
Import ListNotations.
Open Scope Z_scope.

Lemma firsts_sub {A} (eqb : A -> A -> bool) l x : In x (firsts eqb l) -> In x l.
Proof. induction l as [|y l IH]; cbn [firsts]; [auto|]. intros [->|H]; [now left|]. right. apply IH. now apply filter_In in H. Qed.

Section Instant.
  Variables (a : active_ruleset) (id : bytes) (t : Z).

  (** The rollup part of the match of a metric with tags. *)
  Lemma rollup_contributions name section ts rps :
    tfo_name_and_tags (as_opts a) id = Some (name, section) ->
    names_strict (map fst (fst (tfo_sorted_tags (as_opts a) section))) ->
    collect (live id t) (as_rollup a) ts -> Forall target_strict (flat_map sn_body ts) ->
    collect (contributes (as_new_id a) (fst (tfo_sorted_tags (as_opts a) section))) (flat_map sn_body ts) rps ->
    rm_pipelines (fst (rollup_results_for a id t)) = own_part rps /\
    (rps = [] -> snd (rollup_results_for a id t) = []) /\
    (rps <> [] -> snd (rollup_results_for a id t) = new_id_results (fst (match_rules (as_rollup a) id t 0)) rps).
  Proof.
    intros Hid Hst Hts Hs Hc. rewrite rollup_results_eq. unfold rollup_targets. rewrite (match_rules_eq _ id t 0 ts Hts), Hid.
    assert (E : flat_map (fun tg => opt_list (apply_target a section tg)) (flat_map sn_body ts) = rps).
    { eapply collect_flat; eauto. intros tg c Hin. apply apply_target_spec; auto. rewrite Forall_forall in Hs; auto. }
    destruct (flat_map sn_body ts) as [|tg tgs].
    - simpl in E; subst. cbn [fst snd rm_pipelines]. repeat split; auto.
    - rewrite E. cbv zeta; cbn [fst snd rm_pipelines]. repeat split; auto. now intros ->.
  Qed.

  Lemma rollup_untagged : tfo_name_and_tags (as_opts a) id = None ->
    rollup_results_for a id t = (mk_rm 0 [], []).
  Proof. intros H. rewrite rollup_results_eq, H. now destruct (rollup_targets a id t). Qed.

  Lemma apply_target_sps section tg c : apply_target a section tg = Some c -> pm_sps (snd c) = tg_sps tg.
  Proof.
    unfold apply_target. destruct (tg_pipeline tg) as [|o rest]; [discriminate|].
    destruct (op_kind o =? AggregationOp).
    { destruct (compress_types [op_agg o]) as [g e]; destruct e; [discriminate|].
      destruct (apply_id_to_pipeline a section rest); [|discriminate]. now intros [= <-]. }
    destruct (op_kind o =? TransformationOp).
    { destruct (apply_id_to_pipeline a section (o :: rest)); [|discriminate]. now intros [= <-]. }
    destruct (op_kind o =? RollupOp); [|discriminate].
    destruct (match_rollup_target a section (op_rollup o)); [|discriminate].
    destruct (apply_id_to_pipeline a section rest); [|discriminate]. now intros [= <-].
  Qed.

  Lemma own_from p : In p (rm_pipelines (fst (rollup_results_for a id t))) ->
    exists r s tg, In r (as_rollup a) /\ live id t r s /\ In tg (sn_body s) /\ pm_sps p = tg_sps tg.
  Proof.
    rewrite rollup_results_eq. intros H.
    destruct (rollup_targets a id t) as [|tg0 ts] eqn:Et; [destruct H|].
    destruct (tfo_name_and_tags (as_opts a) id) as [[n section]|]; [|destruct H].
    cbv zeta in H; cbn [fst rm_pipelines] in H. unfold own_part in H. apply in_map_iff in H as (c & <- & Hc).
    apply filter_In in Hc as [Hc _]. apply in_flat_map in Hc as (tg & Htg & Hx).
    destruct (apply_target a section tg) eqn:E; [|destruct Hx]. destruct Hx as [<-|[]].
    rewrite <- Et in Htg. apply in_targets in Htg as (r & s & Hr & Hl & Hb).
    exists r, s, tg. repeat split; try apply Hl; auto. eapply apply_target_sps; eauto.
  Qed.

  Lemma existing_from ss p : collect (live id t) (as_mapping a) ss -> valid_drops (map pipeline_of ss) ->
    In p (sm_pipelines (fst (forward_match_at a id t))) ->
    p = mk_pm 0%N [] [] 0 \/ (p = mk_pm 0%N [] [] 1 /\ drop_effective (map pipeline_of ss)) \/
    (exists r s, In r (as_mapping a) /\ live id t r s /\ p = pipeline_of s) \/
    (exists r s tg, In r (as_rollup a) /\ live id t r s /\ In tg (sn_body s) /\ pm_sps p = tg_sps tg).
  Proof.
    intros Hss Hv Hp. destruct (existing_stage a id t ss Hss Hv) as (_ & H1 & H2).
    destruct (drop_effective_dec (map pipeline_of ss)) as [E|E].
    - rewrite (H1 E) in Hp. destruct Hp as [<-|[]]. auto.
    - rewrite (H2 E) in Hp. apply firsts_sub, in_app_or in Hp as [Hp|Hp].
      + unfold kept_or_default in Hp. destruct (List.filter _ _) as [|x l] eqn:Ef; [destruct Hp as [<-|[]]; auto|].
        rewrite <- Ef in Hp. apply filter_In in Hp as [Hp _]. apply in_map_iff in Hp as (s & <- & Hs).
        destruct (collect_in _ _ _ _ Hss Hs) as (r & Hr & Hl). right; right; left. eauto.
      + right; right; right. now apply own_from.
  Qed.

  (** The news of an instant: the contributions to new IDs, in the order of IDs. *)
  Lemma news_permutation c rps : snd (rollup_results_for a id t) = new_id_results c rps ->
    Permutation (map (fun e => (fst e, map sm_pipelines (snd e))) (snd (forward_match_at a id t)))
      (flat_map (fun r => match fst r with None => [] | Some X => [(X, [[snd r]])] end) rps) \/
    exists r, In r rps /\ pm_drop (snd r) <> 0.
  Proof.
    intros E. destruct (Forall_Exists_dec (fun r : option bytes * pipeline_metadata => pm_drop (snd r) = 0)
      (fun r => Z.eq_dec (pm_drop (snd r)) 0) rps) as [Hf|Hx].
    2:{ right. apply Exists_exists in Hx as (r & Hr & Hn). exists r; auto. }
    left. unfold forward_match_at. destruct (rollup_results_for a id t) as [own news]. cbn [snd] in *. subst news.
    eapply Permutation_trans; [apply Permutation_map; symmetry; apply isort_perm|].
    rewrite map_map. cbn [fst snd map].
    induction rps as [|[[X|] p] rps IH]; cbn [new_id_results flat_map fst snd app map]; auto.
    - inversion Hf; subst. constructor 2 || idtac.
      cbn [fst snd] in *. rewrite rm_unique_plain by (constructor; auto).
      cbn [rm_to_staged rm_pipelines firsts List.filter sm_pipelines]. apply perm_skip. now apply IH.
    - inversion Hf; subst. now apply IH.
  Qed.
End Instant.

(** ** IDs of rollup targets *)

Lemma selects_incl tags wanted sel : selects tags wanted sel -> forall p, In p sel -> In p tags.
Proof. intros [_ ->] p H. now apply filter_In in H. Qed.

Lemma selects_names tags wanted sel : selects tags wanted sel -> forall w, In w wanted <-> In w (map fst sel).
Proof.
  intros [Hw ->] w. rewrite in_map_iff. split.
  - intros H. destruct (proj1 (in_map_iff _ _ _) (Hw w H)) as (p & <- & Hp). exists p; split; auto.
    apply filter_In; split; auto. apply existsb_exists; exists (fst p); split; auto. now apply beqb_eq.
  - intros (p & <- & Hp). apply filter_In in Hp as [_ Hp]. apply existsb_exists in Hp as (x & Hx & E).
    apply beqb_eq in E. now rewrite E.
Qed.

Lemma strict_nodup ns : names_strict ns -> NoDup ns.
Proof.
  induction 1 as [|x l Hs IH Hf]; constructor; auto. intros H. rewrite Forall_forall in Hf.
  specialize (Hf x H). now rewrite bltb_irrefl in Hf.
Qed.

Lemma sorted_nodup_strict (ps : list (bytes * bytes)) : names_sorted ps -> NoDup (map fst ps) -> names_strict (map fst ps).
Proof.
  induction 1 as [|p ps Hs IH Hf]; intros Hn; cbn [map]; [constructor|]. inversion Hn; subst.
  constructor; [now apply IH|]. apply Forall_forall; intros x Hx. apply in_map_iff in Hx as (q & <- & Hq).
  rewrite Forall_forall in Hf. specialize (Hf q Hq).
  destruct (bltb (fst p) (fst q)) eqn:E; auto. exfalso. apply H1.
  assert (fst p = fst q) as ->; [|now apply in_map].
  apply bcompare_eq. unfold bleb in Hf. unfold bltb in E. destruct (bcompare (fst p) (fst q)); try discriminate; auto.
Qed.

(** The tags of a rollup ID select the target's own tags again. *)
Lemma rollup_id_selects name tags wanted sel :
  name_ok name -> Forall tag_ok sel -> NoDup (map fst sel) -> names_strict wanted -> ~ In (B "m3_rollup") wanted ->
  selects tags wanted sel ->
  exists section, name_and_tags (new_rollup_id name sel) = Some (name, section) /\
    is_rollup_id name section = true /\ match_tags (fst (MetricID.sorted_tags section)) wanted <> None.
Proof.
  intros Hn Ht Hnd Hw Hm Hsel. destruct (rollup_id_parse name sel Hn Ht) as (section & ps & E1 & E2 & Hp & Hs & Hr).
  exists section. split; auto. split; auto. rewrite E2; cbn [fst].
  assert (Hnp : NoDup (map fst ps)).
  { eapply Permutation_NoDup; [apply Permutation_map; symmetry; exact Hp|]. cbn [map]. constructor; auto.
    intros H. apply Hm. apply (selects_names _ _ _ Hsel). exact H. }
  pose proof (match_tags_spec ps wanted (List.filter (fun p => existsb (beqb (fst p)) wanted) ps)
    (sorted_nodup_strict ps Hs Hnp) Hw) as H.
  rewrite (proj2 H); [discriminate|]. split; auto. intros w Hin.
  apply (selects_names _ _ _ Hsel) in Hin. apply in_map_iff in Hin as (p & <- & Hpin). apply in_map.
  eapply Permutation_in; [symmetry; exact Hp|]. now right.
Qed.

(** Reverse match at an instant. *)
Lemma reverse_instant v ms rs opts nid isr id t mt at_ multi topts :
  let a := new_active_ruleset v ms rs opts nid isr in
  mr_existing (reverse_match a id t t mt at_ multi topts) =
  match reverse_mappings_for a id t mt at_ multi topts with None => [] | Some s => [s] end.
Proof.
  intros a. rewrite reverse_match_shape by apply built_sorted. cbn [mr_existing].
  assert (E : window a t t = []).
  { destruct (window a t t) as [|c l] eqn:E; auto. exfalso.
    destruct (window_changes v ms rs opts nid isr t t) as [_ H]. fold a in H. rewrite E in H.
    specialize (proj1 (H c) (or_introl eq_refl)). lia. }
  rewrite E. cbn [fold_left]. unfold merge_found, merge_existing.
  now destruct (reverse_mappings_for a id t mt at_ multi topts).
Qed.

Lemma sorted_skipn {A} (R : A -> A -> Prop) l : forall n, StronglySorted R l -> StronglySorted R (skipn n l).
Proof. induction l as [|x l IH]; intros [|n] H; auto. inversion H; subst. now apply IH. Qed.

Lemma next_change v ms rs opts nid isr t :
  let a := new_active_ruleset v ms rs opts nid isr in
  first_of (fun c => is_change ms rs c /\ t < c) (cutover_at a (next_cutover_idx a t)).
Proof.
  intros a. destruct (next_cutover_idx_spec a t) as (Hx & Hl & Hr); [apply built_sorted|].
  set (x := next_cutover_idx a t) in *. unfold first_of, cutover_at.
  destruct (nth_error (as_cutovers a) x) as [c|] eqn:E.
  - left. assert (Hc : In c (skipn x (as_cutovers a))) by (rewrite skipn_nth_error, E; now left).
    split; [split; [apply (built_in v ms rs opts nid isr); eapply nth_error_In; eauto|auto]|].
    intros c' [Hc' Hlt]. apply (built_in v ms rs opts nid isr) in Hc'. fold a in Hc'.
    rewrite <- (firstn_skipn x (as_cutovers a)) in Hc'. apply in_app_or in Hc' as [Hc'|Hc']; [apply Hl in Hc'; lia|].
    pose proof (sorted_skipn Z.lt _ x (built_sorted v ms rs opts nid isr)) as Hs. fold a in Hs.
    rewrite skipn_nth_error, E in Hs, Hc'. destruct Hc' as [<-|Hc']; [lia|].
    inversion Hs as [|? ? _ Hf]; subst. rewrite Forall_forall in Hf. specialize (Hf _ Hc'). lia.
  - right. split; auto. apply nth_error_None in E. intros c' [Hc' Hlt].
    apply (built_in v ms rs opts nid isr) in Hc'. fold a in Hc'.
    rewrite <- (firstn_skipn x (as_cutovers a)), skipn_all2, app_nil_r in Hc' by auto. apply Hl in Hc'. lia.
Qed.

Lemma match_rules_collect {P} (rules : list (rule P)) id t ss :
  snd (match_rules rules id t 0) = ss -> collect (live id t) rules ss.
Proof. intros <-. apply match_rules_live. Qed.

Section Api.
  Variables (v : Z) (ms : list mapping_rule) (rs : list rollup_rule) (opts : tags_filter_options)
    (nid : bytes -> list (bytes * bytes) -> bytes) (isr : bytes -> bytes -> bool).
  Let a := new_active_ruleset v ms rs opts nid isr.

  Lemma contributes_drop tags tg c : contributes nid tags tg c -> pm_drop (snd c) = 0.
  Proof. now destruct 1. Qed.

  Lemma instant_tagged id t tags ss ts cs :
    metric_tags opts id tags -> names_strict (map fst tags) ->
    collect (live id t) ms ss -> valid_drops (map pipeline_of ss) ->
    collect (live id t) rs ts -> Forall target_strict (flat_map sn_body ts) ->
    collect (contributes nid tags) (flat_map sn_body ts) cs ->
    exists st news, forward_match a id t t = mk_mr v (mr_expire (forward_match a id t t)) [st] news /\
      sm_tombstoned st = false /\
      (drop_effective (map pipeline_of ss) -> sm_pipelines st = [mk_pm 0%N [] [] 1]) /\
      (~ drop_effective (map pipeline_of ss) -> sm_pipelines st = firsts pm_equal (kept_or_default ss ++ own_part cs)) /\
      Permutation (map (fun e => (fst e, map sm_pipelines (snd e))) news)
        (flat_map (fun c => match fst c with None => [] | Some X => [(X, [[snd c]])] end) cs).
  Proof.
    intros (name & section & Hid & Hsec) Hst Hss Hv Hts Hstrict Hc. subst tags.
    destruct (rollup_contributions a id t name section ts cs Hid Hst Hts Hstrict Hc) as (Ho & Hn0 & Hn1).
    destruct (existing_stage a id t ss Hss Hv) as (H1 & H2 & H3). cbv zeta in *.
    exists (fst (forward_match_at a id t)), (snd (forward_match_at a id t)).
    split; [unfold a; rewrite instant; reflexivity|]. split; auto. split; auto. split; [now rewrite <- Ho|].
    assert (Hn : exists c, snd (rollup_results_for a id t) = new_id_results c cs).
    { destruct cs as [|x cs']; [exists 0; now rewrite Hn0|]. eexists; apply Hn1; discriminate. }
    destruct Hn as (c & Hn). destruct (news_permutation a id t c cs Hn) as [H|(r & Hr & Hd)]; auto.
    exfalso. destruct (collect_in _ _ _ _ Hc Hr) as (tg & _ & Hcon). apply contributes_drop in Hcon. congruence.
  Qed.

  Lemma instant_untagged id t ss :
    tfo_name_and_tags opts id = None -> collect (live id t) ms ss -> valid_drops (map pipeline_of ss) ->
    exists st, forward_match a id t t = mk_mr v (mr_expire (forward_match a id t t)) [st] [] /\
      sm_tombstoned st = false /\
      (drop_effective (map pipeline_of ss) -> sm_pipelines st = [mk_pm 0%N [] [] 1]) /\
      (~ drop_effective (map pipeline_of ss) -> sm_pipelines st = firsts pm_equal (kept_or_default ss)).
  Proof.
    intros Hid Hss Hv. destruct (existing_stage a id t ss Hss Hv) as (H1 & H2 & H3). cbv zeta in *.
    pose proof (rollup_untagged a id t Hid) as Hr. rewrite Hr in H3. cbn [fst rm_pipelines] in H3. rewrite app_nil_r in H3.
    exists (fst (forward_match_at a id t)). split; [|auto]. unfold a; rewrite instant. cbn [mr_expire]. f_equal.
    fold a. unfold forward_match_at. now rewrite Hr.
  Qed.

  Lemma instant_provenance id t ss st p :
    collect (live id t) ms ss -> valid_drops (map pipeline_of ss) ->
    In st (mr_existing (forward_match a id t t)) -> In p (sm_pipelines st) ->
    p = mk_pm 0%N [] [] 0 \/ (p = mk_pm 0%N [] [] 1 /\ drop_effective (map pipeline_of ss)) \/
    (exists r s, In r ms /\ live id t r s /\ p = pipeline_of s) \/
    (exists r s tg, In r rs /\ live id t r s /\ In tg (sn_body s) /\ pm_sps p = tg_sps tg).
  Proof.
    intros Hss Hv Hst Hp. unfold a in Hst. rewrite instant in Hst. destruct Hst as [<-|[]].
    exact (existing_from a id t ss p Hss Hv Hp).
  Qed.

  Lemma pm_equal_refl x : pm_equal x x = true.
  Proof. apply pm_equal_spec. repeat split; auto. induction (pm_pipeline x) as [|o l IH]; constructor; auto. repeat split; auto. Qed.

  Lemma firsts_has (l : list pipeline_metadata) x : In x l -> exists y, In y (firsts pm_equal l) /\ pm_equal y x = true.
  Proof.
    induction l as [|y l IH]; [destruct 1|]. intros [->|Hin]; cbn [firsts].
    - exists x; split; [now left|]. apply pm_equal_refl.
    - destruct (IH Hin) as (z & Hz & E). destruct (pm_equal y z) eqn:Eyz.
      + exists y; split; [now left|]. eapply pm_equal_trans; eauto.
      + exists z; split; auto. right. apply filter_In; split; auto. now rewrite Eyz.
  Qed.

  Lemma only_match_mapping id t ss :
    collect (live id t) ms ss -> valid_drops (map pipeline_of ss) ->
    exists st, mr_existing (forward_match a id t t) = [st] /\
      (forall s, In s ss -> mb_drop (sn_body s) = 0 -> (forall s', In s' ss -> mb_drop (sn_body s') <> 1) ->
         (forall p, In p (sm_pipelines st) -> pm_drop p = 0) /\
         exists p, In p (sm_pipelines st) /\ pm_equal p (pipeline_of s) = true) /\
      (ss <> [] -> (forall s, In s ss -> mb_drop (sn_body s) = 2) -> sm_pipelines st = [mk_pm 0%N [] [] 1]).
  Proof.
    intros Hss Hv. destruct (existing_stage a id t ss Hss Hv) as (H1 & H2 & H3). cbv zeta in *.
    exists (fst (forward_match_at a id t)). split; [unfold a; rewrite instant; reflexivity|]. split.
    - intros s Hs Hd Hno.
      assert (Hne : ~ drop_effective (map pipeline_of ss)).
      { intros [(m & Hm & E)|[_ Hall]].
        - apply in_map_iff in Hm as (s' & <- & Hs'). exact (Hno s' Hs' E).
        - specialize (Hall (pipeline_of s) (in_map _ _ _ Hs)). cbn in Hall. congruence. }
      rewrite (H3 Hne).
      assert (Hk : kept_or_default ss = List.filter (fun m => pm_drop m =? 0) (map pipeline_of ss) /\
                   In (pipeline_of s) (kept_or_default ss)).
      { assert (Hin : In (pipeline_of s) (List.filter (fun m => pm_drop m =? 0) (map pipeline_of ss))).
        { apply filter_In; split; [now apply in_map|]. cbn. now rewrite Hd. }
        unfold kept_or_default. destruct (List.filter _ _) eqn:E; [destruct Hin|]. auto. }
      destruct Hk as [Hk Hin]. split.
      + intros p Hp. apply firsts_sub, in_app_or in Hp as [Hp|Hp].
        * rewrite Hk in Hp. apply filter_In in Hp as [_ Hp]. now apply Z.eqb_eq.
        * pose proof (own_no_drop a id t) as Hf. rewrite Forall_forall in Hf. now apply Hf.
      + apply firsts_has. apply in_or_app; now left.
    - intros Hne Hall. apply H2. right. split; [destruct ss; [congruence|discriminate]|].
      intros m Hm. apply in_map_iff in Hm as (s & <- & Hs). exact (Hall s Hs).
  Qed.

  Lemma window_result id from to : exists cs, changes_between ms rs from to cs /\
    map (fun s => [sm_pipelines s]) (mr_existing (forward_match a id from to)) =
      map (fun t => map sm_pipelines (mr_existing (forward_match a id t t))) (from :: cs) /\
    firstn 1 (mr_existing (forward_match a id from to)) = mr_existing (forward_match a id from from) /\
    StronglySorted (fun s s' => sm_cutover s <= sm_cutover s') (mr_existing (forward_match a id from to)) /\
    Forall (fun s => sm_tombstoned s = false) (mr_existing (forward_match a id from to)) /\
    first_of (fun c => is_change ms rs c /\ from < c /\ to <= c) (mr_expire (forward_match a id from to)).
  Proof.
    pose proof (window_changes v ms rs opts nid isr from to) as W. fold a in W.
    exists (window a from to). split; auto.
    pose proof (map_pipelines v ms rs opts nid isr id from to _ W) as M. fold a in M.
    destruct (existing_stages v ms rs opts nid isr id from to _ W) as (ss & El & HF & Hs). fold a in El, HF, Hs.
    split.
    { transitivity (map (fun p => [p]) (map sm_pipelines (mr_existing (forward_match a id from to)))); [now rewrite map_map|].
      rewrite M, map_map. apply map_ext. intros t. unfold a; rewrite instant. reflexivity. }
    split; [rewrite El; unfold a; rewrite instant; reflexivity|].
    split; [now rewrite El|]. split.
    - rewrite El. constructor; [apply existing_not_tomb|]. clear - HF.
      induction HF as [|c s cs ss (_ & H & _) HF IH]; constructor; auto.
    - rewrite forward_match_shape by apply built_sorted. cbn [mr_expire]. apply expiry_first.
  Qed.
End Api.

Section Api2.
  Variables (v : Z) (ms : list mapping_rule) (rs : list rollup_rule) (opts : tags_filter_options)
    (nid : bytes -> list (bytes * bytes) -> bytes) (isr : bytes -> bytes -> bool).
  Let a := new_active_ruleset v ms rs opts nid isr.

  Lemma news_instant id u : mr_news (forward_match a id u u) = snd (forward_match_at a id u).
  Proof. unfold a; now rewrite instant. Qed.

  Section Distinct.
    Variables (id : bytes) (from to : Z).
    Hypothesis Hd : forall u, from <= u < to \/ u = from -> NoDup (map fst (mr_news (forward_match a id u u))).

    Lemma distinct_raw : forall u, from <= u < to \/ u = from -> NoDup (map fst (snd (forward_match_at a id u))).
    Proof. intros u Hu. rewrite <- news_instant. auto. Qed.

    Lemma news_served_api t X idx l : 0 <= from -> from <= t < to ->
      mr_news_at (forward_match a id from to) idx t = Some (X, l) ->
      exists s rest, l = s :: rest /\
        (forall st, In (X, [st]) (mr_news (forward_match a id t t)) -> sm_pipelines s = sm_pipelines st /\ sm_tombstoned s = false) /\
        (~ In X (map fst (mr_news (forward_match a id t t))) -> sm_tombstoned s = true \/ t < sm_cutover s).
    Proof.
      intros H0 Ht H. rewrite news_instant. unfold mr_news_at in H.
      destruct (nth_error (mr_news (forward_match a id from to)) idx) as [[Y l0]|] eqn:E; [|discriminate].
      cbn [option_map fst snd] in H. injection H as <- <-. apply nth_error_In in E.
      exact (new_id_served v ms rs opts nid isr id from to _ (window_changes v ms rs opts nid isr from to) distinct_raw Y l0 t H0 E Ht).
    Qed.

    Lemma stage_of_ext at1 at2 X u st : (forall u, at1 u = at2 u) -> stage_of at1 X u st -> stage_of at2 X u st.
    Proof. intros E [H|[H ->]]; [left|right; split; auto]; now rewrite <- E. Qed.

    Lemma accounts_api : exists cs, changes_between ms rs from to cs /\
      accounts_for (fun u => mr_news (forward_match a id u u)) (from :: cs) (mr_news (forward_match a id from to)).
    Proof.
      exists (window a from to). split; [apply window_changes|].
      destruct (news_accounts v ms rs opts nid isr id from to _ (window_changes v ms rs opts nid isr from to) distinct_raw) as [Hs Hi].
      fold a in Hs, Hi. split; [exact Hs|]. intros X l. rewrite Hi. split.
      - intros (T1 & t & T2 & E & H1 & H2 & H3). exists T1, t, T2. split; auto. split; [intros; rewrite news_instant; auto|].
        split; [now rewrite news_instant|]. eapply Forall2_weaken; [|exact H3]. intros u st. apply stage_of_ext. intros; now rewrite news_instant.
      - intros (T1 & t & T2 & E & H1 & H2 & H3). rewrite news_instant in H2. exists T1, t, T2. split; auto.
        split; [intros u Hu; rewrite <- news_instant; auto|]. split; auto.
        eapply Forall2_weaken; [|exact H3]. intros u st. apply stage_of_ext. intros; now rewrite news_instant.
    Qed.

    Lemma introduced_api cs before t after X st : 0 <= from -> changes_between ms rs from to cs ->
      from :: cs = before ++ t :: after -> before <> [] ->
      (forall u, In u before -> ~ In X (map fst (mr_news (forward_match a id u u)))) ->
      In (X, [st]) (mr_news (forward_match a id t t)) -> sm_cutover st = t.
    Proof.
      intros H0 Hcs E Hb Hno Hin. rewrite news_instant in Hin.
      apply (first_stage_new v ms rs opts nid isr id from to cs Hcs distinct_raw before t after X st E Hb); auto.
      - intros u Hu. fold a. rewrite <- news_instant. auto.
      - left. exact Hin.
    Qed.
  End Distinct.

  Lemma produced_api id t X tags :
    metric_tags opts id tags -> names_strict (map fst tags) ->
    (forall r s, In r rs -> In s (ru_snapshots r) -> Forall target_strict (sn_body s)) ->
    In X (map fst (mr_news (forward_match a id t t))) <->
    exists r s tg p, In r rs /\ live id t r s /\ In tg (sn_body s) /\ contributes nid tags tg (Some X, p).
  Proof.
    intros (name & section & Hid & <-) Hst Hstrict. rewrite news_instant.
    assert (Hin : forall r s tg, In r rs -> live id t r s -> In tg (sn_body s) -> target_strict tg).
    { intros r s tg Hr [[He _] _] Htg. specialize (Hstrict r s Hr (in_effect_in _ _ _ He)). rewrite Forall_forall in Hstrict; auto. }
    split.
    - intros H. apply in_map_iff in H as ([Y l] & E & H). cbn [fst] in E; subst.
      apply news_in in H as (n & sec & r & s & tg & p & Hid' & Hr & Hl & Htg & Ha & _).
      change (as_opts a) with opts in Hid'. rewrite Hid in Hid'. injection Hid' as <- <-.
      exists r, s, tg, p. split; auto. split; auto. split; auto.
      apply (apply_target_spec a section Hst tg _ (Hin r s tg Hr Hl Htg)). exact Ha.
    - intros (r & s & tg & p & Hr & Hl & Htg & Hc). apply in_map_iff.
      eexists (X, _); split; [reflexivity|]. apply news_in. exists name, section, r, s, tg, p.
      split; [exact Hid|]. split; auto. split; auto. split; auto. split; [|reflexivity].
      apply (apply_target_spec a section Hst tg _ (Hin r s tg Hr Hl Htg)). exact Hc.
  Qed.

  Lemma reverse_non_rollup id t ss mt at_ multi topts ps :
    (forall name section, tfo_name_and_tags opts id = Some (name, section) -> isr name section = false) ->
    collect (live id t) ms ss -> valid_drops (map pipeline_of ss) ->
    (drop_effective (map pipeline_of ss) -> ps = [mk_pm 0%N [] [] 1]) ->
    (~ drop_effective (map pipeline_of ss) -> ps = kept_or_default ss) ->
    map sm_pipelines (mr_existing (reverse_match a id t t mt at_ multi topts)) =
    match List.filter (fun p => if (pm_agg p =? 0)%N then is_contained_in_default topts at_ mt else id_contains (pm_agg p) at_) ps with
    | [] => []
    | l => [l]
    end.
  Proof.
    intros Hno Hss Hv Hp1 Hp2. unfold a; rewrite reverse_instant; fold a.
    assert (E : reverse_mappings_for a id t mt at_ multi topts = reverse_for_non_rollup_id a id t mt at_ topts).
    { unfold reverse_mappings_for. change (as_opts a) with opts. change (as_is_rollup a) with isr.
      destruct (tfo_name_and_tags opts id) as [[n sec]|]; auto. now rewrite (Hno n sec eq_refl). }
    rewrite E. unfold reverse_for_non_rollup_id. rewrite (mappings_pipelines a id t ss Hss Hv).
    assert (Ed : (if match snd (pms_apply_drop (map pipeline_of ss)) with AppliedEffectiveDropPolicy => true | RemovedIneffectiveDropPolicies => false end
        then [mk_pm 0%N [] [] 1] else kept_or_default ss) =
        ps).
    { destruct (drop_effective_dec (map pipeline_of ss)) as [H|H].
      - rewrite (Hp1 H). now rewrite (pms_apply_drop_effective _ H).
      - rewrite (Hp2 H). now rewrite (pms_apply_drop_ineffective _ Hv H). }
    rewrite Ed. unfold filter_by_agg_type.
    change (fun p : pipeline_metadata => if id_is_default (pm_agg p) then is_contained_in_default topts at_ mt else id_contains (pm_agg p) at_)
      with (fun p : pipeline_metadata => if (pm_agg p =? 0)%N then is_contained_in_default topts at_ mt else id_contains (pm_agg p) at_).
    now destruct (List.filter _ _).
  Qed.
End Api2.

Lemma reverse_recovers v ms rs key t r s tg o tags sel mt at_ multi topts :
  let a := new_active_ruleset v ms rs (mk_tfo key name_and_tags MetricID.sorted_tags) new_rollup_id is_rollup_id in
  let wanted := if (ro_agg (op_rollup o) =? 0)%N then is_contained_in_default topts at_ mt
                else id_contains (ro_agg (op_rollup o)) at_ in
  In r rs -> in_effect (ru_snapshots r) t s -> sn_tomb s = false -> In tg (sn_body s) ->
  In o (tg_pipeline tg) -> op_kind o = RollupOp ->
  (forall r' s' tg' o', In r' rs -> in_effect (ru_snapshots r') t s' -> sn_tomb s' = false -> In tg' (sn_body s') ->
     In o' (tg_pipeline tg') -> op_kind o' = RollupOp -> ro_name (op_rollup o') = ro_name (op_rollup o) ->
     s' = s /\ tg' = tg /\ o' = o) ->
  selects tags (ro_tags (op_rollup o)) sel -> NoDup (map fst tags) -> Forall tag_ok tags ->
  name_ok (ro_name (op_rollup o)) -> names_strict (ro_tags (op_rollup o)) -> ~ In (B "m3_rollup") (ro_tags (op_rollup o)) ->
  mr_existing (reverse_match a (new_rollup_id (ro_name (op_rollup o)) sel) t t mt at_ multi topts) =
  if multi && negb wanted then []
  else [mk_sm [mk_pm (ro_agg (op_rollup o)) (tg_sps tg) [] 0] (sn_cutover s) false].
Proof.
  intros a wanted Hr He Ht Htg Ho Hk Hu Hsel Hnd Htags Hn Hs Hm.
  assert (Hseltags : Forall tag_ok sel).
  { rewrite Forall_forall in *. intros p Hp. apply Htags. eapply selects_incl; eauto. }
  assert (Hselnd : NoDup (map fst sel)).
  { destruct Hsel as [_ ->]. clear - Hnd. induction tags as [|p tags IH]; [constructor|]. inversion Hnd; subst.
    cbn [List.filter]. destruct (existsb _ _); [|auto]. cbn [map]. constructor; auto.
    intros H. apply H1. apply in_map_iff in H as (q & <- & Hq). apply filter_In in Hq as [Hq _]. now apply in_map. }
  destruct (rollup_id_selects (ro_name (op_rollup o)) tags (ro_tags (op_rollup o)) sel Hn Hseltags Hselnd Hs Hm Hsel) as (section & E1 & E2 & E3).
  unfold a; rewrite reverse_instant; fold a.
  unfold reverse_mappings_for. change (tfo_name_and_tags (as_opts a)) with name_and_tags. change (as_is_rollup a) with is_rollup_id.
  rewrite E1, E2. change (as_rollup a) with rs.
  rewrite (reverse_rules_unique a (ro_name (op_rollup o)) section mt at_ multi topts t rs r s tg o); auto.
  - unfold answer, wanted, filter_by_agg_type. cbn [List.filter pm_agg]. unfold id_is_default. change default_id with 0%N.
    destruct multi; cbn [andb]; [|reflexivity].
    destruct (if (ro_agg (op_rollup o) =? 0)%N then is_contained_in_default topts at_ mt else id_contains (ro_agg (op_rollup o)) at_); reflexivity.
  - split; auto.
  - intros r' s' tg' o' H1 H2 H3 H4 (H5 & H6 & H7 & _). eapply Hu; eauto.
Qed.
