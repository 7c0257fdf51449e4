(** Forward matches in memory. *)
From Coq Require Import Ascii String Arith NArith ZArith Bool Lia Permutation List.
From Verif.Proof Require Import MemProof MemSep RuleMemCopy RuleMemRules RuleMemViews MatchMemSep MatchMemSlice MatchMemPm MatchMemMatch MatchMemStage.
From Verif.Base Require Import Bytes BytesFacts Mem.
From Verif.Model Require Import AggType Policy Transformation Pipeline Metadata Filter MetricID Rules RuleSet
  RuleMem MatchMem.
From Verif.Spec Require Import RuleMemSpec MatchMemSpec.
Import ListNotations.
Open Scope nat_scope.

Lemma rm_unique_cut c ps : rm_unique (mk_rm c ps) = mk_rm c (rm_pipelines (rm_unique (mk_rm 0 ps))).
Proof.
  unfold rm_unique. cbn [rm_pipelines rm_cutover]. destruct ps as [|p ps]; [reflexivity|].
  destruct (pms_apply_drop (p :: ps)) as [[|q qs] []]; reflexivity.
Qed.

Lemma no_if_only_mappings a id t : Forall no_if_only (rm_pipelines (mappings_for_non_rollup_id a id t)).
Proof.
  unfold mappings_for_non_rollup_id. destruct (match_rules (as_mapping a) id t 0) as [c ss]. cbn [rm_pipelines].
  pose proof (apply_drop_clean (map mapping_pipeline ss)) as H. destruct (fst (pms_apply_drop (map mapping_pipeline ss))); [|exact H].
  repeat constructor.
Qed.

Section Forward.
  Context (m0 : memory) (G : list look) (HG : Forall (fun l => addr l < m_next m0) G).
  Context (g : globals) (Hg : globals_are m0 g G).
  Notation ok := (ok m0 G).
  Notation run := (run m0 G).
  Notation pslice := (slice frozen_pm).
  Notation pipes := (pipes g).
  Notation run_enter := (run_enter m0 G HG).
  Notation run_perm := (run_perm m0 G HG).
  Notation run_part := (run_part m0 G HG).
  Notation frozen_stage := (frozen t_stage).
  Notation sslice := (slice frozen_stage).
  Notation eslice := (slice T_entry).

  Lemma pipes_frame m m' v ps W F : pipes m v ps W F -> same m m' W F -> pipes m' v ps W F.
  Proof.
    intros [(L & Hs & <- & -> & ->)|H] K; [left; exists L|right; exact H]. split; [|auto].
    exact (slice_frame frozen_pm (frozen_frame t_pm) m m' v L Hs K).
  Qed.

  Context (x : mem_active) (a : active_ruleset) (Ha : active_is m0 x a).

  Lemma seen_mapping : seen m0 (ma_mapping x) (t_rules t_mbody (as_mapping a)).
  Proof.
    destruct Ha as (_ & _ & _ & _ & _ & f1 & f2 & H1 & H2 & Hb). exists f1. split; [exact H1|].
    apply Forall_app in Hb. apply Hb.
  Qed.
  Lemma seen_rollup : seen m0 (ma_rollup x) (t_rules t_rbody (as_rollup a)).
  Proof.
    destruct Ha as (_ & _ & _ & _ & _ & f1 & f2 & H1 & H2 & Hb). exists f2. split; [exact H2|].
    apply Forall_app in Hb. apply Hb.
  Qed.
  Lemma cutovers_eq : ma_cutovers x = as_cutovers a. Proof. apply Ha. Qed.
  Lemma cutover_at_eq i : cutover_at (without_rules x) i = cutover_at a i.
  Proof. unfold cutover_at, without_rules. cbn [as_cutovers]. rewrite cutovers_eq. reflexivity. Qed.
  Lemma next_idx_eq t : next_cutover_idx (without_rules x) t = next_cutover_idx a t.
  Proof. unfold next_cutover_idx, without_rules. cbn [as_cutovers]. rewrite cutovers_eq. reflexivity. Qed.

  Definition matched (r : val * val) (e : staged_metadata) (n : list id_with_metadatas) (m : memory) (W : list nat) (F : list look) : Prop :=
    exists si LX, fst r = it_v si /\ frozen_stage m si /\ it_x si = e /\ eslice m (snd r) LX /\ xs LX = n /\
      Forall (fun p => length (snd p) = 1) (xs LX) /\ W = arr (snd r) ++ own LX /\ F = looks LX ++ it_f si.

  Lemma forward_at_run grow id t m : ok m [] [] ->
    run [] [] (forward_at_in_memory g grow x id t) m
      (fun r m' W F => matched r (fst (forward_match_at a id t)) (snd (forward_match_at a id t)) m' W F).
  Proof.
    intro Hok. unfold forward_at_in_memory.
    eapply run_bind; [exact (mappings_run m0 G HG g Hg grow x a id t m seen_mapping Hok)|].
    intros mr m1 W1 F1 _ Hok1 (Emr & Hmr).
    eapply run_bind.
    { apply (run_part [] [] W1 F1); [exact Hok1|reflexivity|intros ? []|apply incl_refl|].
      intro Hok2. apply (rollups_run m0 G HG grow x a id t m1 seen_rollup); [symmetry; apply Ha|symmetry; apply Ha|exact Hok2]. }
    intros rr m2 W2 F2 _ Hok2 (Wr & Fr & -> & -> & _ & (c & P & c' & news & LP & N & -> & HP & HN & Enews & Eown & Enew & Hd1 & Hd2 & -> & ->) & Hs2).
    pose proof (pipes_frame _ _ _ _ _ _ Hmr Hs2) as Hmr2. cbv zeta.
    set (cut := if (fst mr <? c)%Z then c else fst mr).
    eapply run_bind.
    { apply (run_part (W1 ++ arr P ++ own LP) (F1 ++ looks LP) (own N) (looks N)); [exact Hok2|perm|inc|inc|].
      intro Hok3. exact (merge_run m0 G HG g Hg grow m2 (snd mr) _ W1 F1 P LP Hmr2 HP Hok3). }
    intros merged m3 W3 F3 _ Hok3 (Wm & Fm & -> & -> & _ & Hmg & Hs3).
    assert (Forall no_if_only (rm_pipelines (mappings_for_non_rollup_id a id t) ++ xs LP)) as Hno.
    { apply Forall_app. split; [apply no_if_only_mappings|]. eapply Forall_impl; [|exact Hd1]. intros p Hp. unfold no_if_only. rewrite Hp. reflexivity. }
    eapply run_bind.
    { apply (run_part Wm Fm (own N) (looks N)); [exact Hok3|reflexivity|inc|inc|].
      intro Hok4. exact (unique_run m0 G HG g Hg m3 merged _ Wm Fm Hmg Hok4 Hno). }
    intros u m4 W4 F4 _ Hok4 (Wu & Fu & -> & -> & _ & Hu & Hs4).
    eapply run_bind.
    { apply (run_part Wu Fu (own N) (looks N)); [exact Hok4|reflexivity|inc|inc|].
      intro Hok5. exact (to_staged_run m0 G HG g Hg cut m4 u _ Wu Fu Hu Hok5). }
    intros s m5 W5 F5 _ Hok5 (Ws & Fs & -> & -> & _ & (-> & Hst) & Hs5). cbn [app] in Hok5 |- *.
    set (si := mk_it s (rm_to_staged (mk_rm cut (rm_pipelines (rm_unique (mk_rm 0 (rm_pipelines (mappings_for_non_rollup_id a id t) ++ xs LP)))))) [] Fs) in *.
    assert (Forall (T_new m5) N) as HN5.
    { apply (items_frame T_new T_new_frame m2); [exact HN|]. intros p Hp. rewrite (Hs5 p Hp), (Hs4 p Hp). exact (Hs3 p Hp). }
    eapply run_bind; [exact (make_empty_run m0 G T_entry (length news) m5 _ _ Hok5)|].
    intros ids m6 W6 F6 _ Hok6 (Hids & -> & -> & Hold).
    assert (same m5 m6 (own N) (Fs ++ looks N)) as Hs6 by exact (old_same m0 G m5 m6 _ _ Hok5 Hold).
    eapply run_bind.
    { apply (run_part (arr ids ++ own (@nil (item id_with_metadatas)) ++ own N) (looks (@nil (item id_with_metadatas)) ++ looks N) [] Fs); [exact Hok6|perm'|inc|inc|].
      intro Hok7. apply (new_ids_run m0 G HG g Hg grow c' N news m6 ids []); auto.
      apply (items_frame T_new T_new_frame m5); [exact HN5|]. apply (same_incl _ _ _ _ _ _ Hs6); inc. }
    intros ids' m7 W7 F7 _ Hok7 (Wn & Fn & -> & -> & _ & (LX & HX & EX & -> & ->) & Hs7). cbn [map app] in EX.
    eapply run_bind.
    { apply (run_part (arr ids' ++ own LX) (looks LX) [] Fs); [exact Hok7|perm'|inc|inc|].
      intro Hok8. exact (sort_run m0 G m7 ids' LX HX Hok8). }
    intros ? m8 W8 F8 _ Hok8 (Wo & Fo & -> & -> & _ & (LX' & HX' & EX' & -> & ->) & Hs8).
    apply run_ret; [exact Hok8|]. exists si, LX'. cbn [fst snd]. split; [reflexivity|].
    split.
    { apply (frozen_frame t_stage m5); [exact Hst|]. unfold si. cbn [it_w it_f]. intros p Hp.
      rewrite (Hs8 p Hp), (Hs7 p Hp). apply Hs6. destruct Hp as [[]|Hp]. right. rewrite map_app. apply in_or_app. auto. }
    unfold forward_match_at. destruct (rollup_results_for a id t) as [own0 news0] eqn:Er. cbn [fst snd] in *.
    split.
    { unfold si. cbn [it_x]. rewrite <- Eown. unfold rm_merge. cbn [rm_cutover rm_pipelines]. rewrite <- Emr. fold cut.
      symmetry. f_equal. apply rm_unique_cut. }
    split; [exact HX'|]. split.
    { rewrite EX', EX, <- Enew, (map_map _ _ (xs N)). reflexivity. }
    split; [|split; [rewrite app_nil_r; reflexivity|reflexivity]].
    rewrite EX', EX. apply Forall_forall. intros e He. apply isort_in in He. apply in_map_iff in He. destruct He as (p & <- & _). reflexivity.
  Qed.

  Lemma forward_loop_run grow id to : forall fuel idx E LE X LX m,
    sslice m E LE -> eslice m X LX -> ok m (arr E ++ own LE ++ arr X ++ own LX) (looks LE ++ looks LX) ->
    run (arr E ++ own LE ++ arr X ++ own LX) (looks LE ++ looks LX) (forward_loop_in_memory fuel g grow x id to idx E X) m
      (fun r m' W F => exists E' LE' X' LX',
         r = (fst (fst (forward_loop fuel a id to idx (xs LE) (xs LX))), E', X') /\ sslice m' E' LE' /\ eslice m' X' LX' /\
         xs LE' = snd (fst (forward_loop fuel a id to idx (xs LE) (xs LX))) /\
         xs LX' = snd (forward_loop fuel a id to idx (xs LE) (xs LX)) /\
         W = arr E' ++ own LE' ++ arr X' ++ own LX' /\ F = looks LE' ++ looks LX').
  Proof.
    induction fuel as [|fuel IH]; intros idx E LE X LX m HE HX Hok; cbn [forward_loop_in_memory forward_loop].
    { apply run_ret; [exact Hok|]. exists E, LE, X, LX. auto 10. }
    cbv zeta. rewrite cutover_at_eq, cutovers_eq.
    destruct ((idx <? length (as_cutovers a)) && (cutover_at a idx <? to)%Z)%bool.
    2:{ apply run_ret; [exact Hok|]. exists E, LE, X, LX. auto 10. }
    set (c := cutover_at a idx).
    eapply run_bind.
    { apply (run_part [] [] (arr E ++ own LE ++ arr X ++ own LX) (looks LE ++ looks LX)); [exact Hok|reflexivity|intros ? []|apply incl_refl|].
      intro Hok2. exact (forward_at_run grow id c m Hok2). }
    intros r m1 W1 F1 _ Hok1 (Wr & Fr & -> & -> & _ & (si & LR & Er & Hsi & Esi & HR & ER & H1 & -> & ->) & Hs1).
    destruct (forward_match_at a id c) as [e n] eqn:Efm. cbn [fst snd] in *. rewrite Er.
    assert (sslice m1 E LE) as HE1.
    { apply (slice_frame frozen_stage (frozen_frame t_stage) m); [exact HE|]. apply (same_incl _ _ _ _ _ _ Hs1); inc. }
    assert (eslice m1 X LX) as HX1.
    { apply (slice_frame T_entry T_entry_frame m); [exact HX|]. apply (same_incl _ _ _ _ _ _ Hs1); inc. }
    eapply run_bind.
    { apply (run_part (arr E ++ own LE) (looks LE ++ it_f si) (arr X ++ own LX ++ arr (snd r) ++ own LR) (looks LX ++ looks LR)); [exact Hok1|perm|inc|inc|].
      intro Hok2. exact (merge_existing_run m0 G HG grow c m1 E LE si HE1 Hsi Hok2). }
    intros E' m2 W2 F2 _ Hok2 (We & Fe & -> & -> & _ & (LE' & HE' & EE' & -> & ->) & Hs2).
    eapply run_bind.
    { apply (run_part (arr X ++ own LX ++ arr (snd r) ++ own LR) (looks LX ++ looks LR) (arr E' ++ own LE') (looks LE')); [exact Hok2|perm|inc|inc|].
      intro Hok3. apply (merge_ids_run m0 G HG grow c m2 X LX (snd r) LR); [| |exact H1|exact Hok3].
      - apply (slice_frame T_entry T_entry_frame m1); [exact HX1|]. apply (same_incl _ _ _ _ _ _ Hs2); inc.
      - apply (slice_frame T_entry T_entry_frame m1); [exact HR|]. apply (same_incl _ _ _ _ _ _ Hs2); inc. }
    intros X' m3 W3 F3 _ Hok3 (Wx & Fx & -> & -> & _ & (LX' & HX' & EX' & -> & ->) & Hs3).
    apply (run_perm _ _ (arr E' ++ own LE' ++ arr X' ++ own LX') (looks LE' ++ looks LX')); [exact Hok3|perm|inc|].
    intro Hok4. eapply run_impl; [apply (IH (S idx) E' LE' X' LX' m3); [|exact HX'|exact Hok4]|].
    - apply (slice_frame frozen_stage (frozen_frame t_stage) m2); [exact HE'|]. apply (same_incl _ _ _ _ _ _ Hs3); inc.
    - intros r' m4 W4 F4 _ _ K. rewrite EE', EX', Esi, ER in K. exact K.
  Qed.

  Lemma result_shows m version expire E LE X LX r :
    sslice m E LE -> eslice m X LX -> ok m (arr E ++ own LE ++ arr X ++ own LX) (looks LE ++ looks LX) ->
    r = mk_mr version expire (xs LE) (xs LX) ->
    exists f, shows m (VStruct [VInt version; VInt expire; E; X]) (t_result r) f /\ own_or_global m0 m G f.
  Proof.
    intros HE HX (Hold & Hnd & HW & HF) ->.
    destruct (slice_shows frozen_stage t_stage m E LE (frozen_displays t_stage m) HE) as (f1 & Hf1 & Hl1).
    destruct (slice_shows T_entry t_entry m X LX (T_entry_displays m) HX) as (f2 & Hf2 & Hl2).
    exists ([] ++ [] ++ f1 ++ f2 ++ []). split.
    - unfold t_result. cbn [mr_version mr_expire mr_existing mr_news]. flat. constructor. repeat (constructor; try assumption).
    - cbn [app]. rewrite app_nil_r. apply Forall_forall. intros l Hl. apply in_app_or in Hl.
      assert (In (addr l) (arr E ++ own LE ++ arr X ++ own LX) \/ In l (looks LE ++ looks LX)) as [K|K].
      { destruct Hl as [Hl|Hl]; [apply Hl1 in Hl|apply Hl2 in Hl]; rewrite !in_app_iff in *; tauto. }
      + left. apply (HW _ K).
      + destruct (HF _ K) as (K1 & [K2|K2] & _); [left; auto|right; exact K2].
  Qed.

  Lemma forward_run grow id from to :
    run [] [] (forward_in_memory g grow x id from to) m0
      (fun v m' W F => exists f, shows m' v (t_result (forward_match a id from to)) f /\ own_or_global m0 m' G f).
  Proof.
    assert (ok m0 [] []) as Hok.
    { split; [apply old_refl|]. split; [constructor|]. split; intros ? []. }
    unfold forward_in_memory. eapply run_bind; [exact (forward_at_run grow id from m0 Hok)|].
    intros r m1 W1 F1 _ Hok1 (si & LX & Er & Hsi & Esi & HX & EX & _ & -> & ->). rewrite Er.
    destruct (stage_shape m1 si Hsi) as (ps & _ & _). pose proof (proj1 Hsi) as Ew.
    eapply run_bind.
    { apply (run_part (own [si]) (looks [si]) (arr (snd r) ++ own LX) (looks LX)); [exact Hok1|cbn [flat_map]; rewrite Ew; reflexivity|inc|inc|].
      intro Hok2. apply (make_slice_run m0 G frozen_stage (frozen_frame t_stage) m1 [si]); [constructor; [exact Hsi|constructor]|exact Hok2]. }
    intros E m2 W2 F2 _ Hok2 (We & Fe & -> & -> & _ & (HE & -> & ->) & Hs2).
    assert (eslice m2 (snd r) LX) as HX2.
    { apply (slice_frame T_entry T_entry_frame m1); [exact HX|]. apply (same_incl _ _ _ _ _ _ Hs2); inc. }
    rewrite cutovers_eq, next_idx_eq.
    eapply run_bind.
    { apply (run_perm _ _ (arr E ++ own [si] ++ arr (snd r) ++ own LX) (looks [si] ++ looks LX)); [exact Hok2|perm'|inc|].
      intro Hok3. exact (forward_loop_run grow id to _ _ E [si] (snd r) LX m2 HE HX2 Hok3). }
    intros l m3 W3 F3 _ Hok3 (E' & LE' & X' & LX' & -> & HE' & HX' & EE' & EX' & -> & ->).
    apply run_ret; [exact Hok3|]. rewrite cutover_at_eq.
    apply (result_shows m3 _ _ E' LE' X' LX'); auto.
    unfold forward_match. destruct (forward_match_at a id from) as [e n]. cbn [fst snd map] in *. rewrite Esi, EX in *.
    destruct (forward_loop (length (as_cutovers a)) a id to (next_cutover_idx a from) [e] n) as [[i es] ns]. cbn [fst snd] in *.
    rewrite EE', EX'. f_equal. symmetry. apply Ha.
  Qed.
End Forward.
