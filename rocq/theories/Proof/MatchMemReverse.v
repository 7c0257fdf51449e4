(** Reverse matches in memory. *)
From Coq Require Import Ascii String Arith NArith ZArith Bool Lia Permutation List.
From Verif.Proof Require Import MemProof MemSep RuleMemCopy RuleMemRules RuleMemViews MatchMemSep MatchMemSlice MatchMemPm MatchMemMatch MatchMemStage MatchMemForward.
From Verif.Base Require Import Bytes BytesFacts Mem.
From Verif.Model Require Import AggType Policy Transformation Pipeline Metadata Filter MetricID Rules RuleSet
  RuleMem MatchMem.
From Verif.Spec Require Import RuleMemSpec MatchMemSpec.
Import ListNotations.
Open Scope nat_scope.

Lemma map_filter {A C} (h : A -> C) (p : C -> bool) l : map h (List.filter (fun x => p (h x)) l) = List.filter p (map h l).
Proof. induction l as [|x l IH]; [reflexivity|]. cbn [List.filter map]. destruct (p (h x)); cbn [map]; rewrite IH; reflexivity. Qed.
Lemma nodup_app_right {A} (l l' : list A) : NoDup (l ++ l') -> NoDup l'.
Proof. induction l as [|q l IH]; intro H; [exact H|]. inversion H; subst. auto. Qed.
Lemma nodup_own_filter {X} (p : item X -> bool) (L : list (item X)) : NoDup (own L) -> NoDup (own (List.filter p L)).
Proof.
  induction L as [|i L IH]; intro H; [exact H|]. cbn [List.filter flat_map] in *. pose proof (nodup_app_right _ _ H) as H2. specialize (IH H2).
  destruct (p i); [|exact IH]. cbn [flat_map].
  assert (forall q, In q (own (List.filter p L)) -> In q (own L)) as Hi.
  { intros q Hq. apply in_flat_map in Hq. destruct Hq as (j & Hj & Hq). apply filter_In in Hj. apply in_flat_map. exists j. tauto. }
  revert H. generalize (it_w i). intro w. induction w as [|q w IHw]; intro H; [exact IH|]. cbn [app] in *. inversion H; subst.
  constructor; [|apply IHw; assumption]. intro K. apply H3. apply in_app_or in K. apply in_or_app. destruct K as [K|K]; auto.
Qed.

Section Reverse.
  Context (m0 : memory) (G : list look) (HG : Forall (fun l => addr l < m_next m0) G).
  Context (g : globals) (Hg : globals_are m0 g G).
  Notation ok := (ok m0 G).
  Notation run := (run m0 G).
  Notation pslice := (slice frozen_pm).
  Notation pipes := (pipes g).
  Notation run_enter := (run_enter m0 G HG).
  Notation run_perm := (run_perm m0 G HG).
  Notation run_part := (run_part m0 G HG).
  Notation frozen_stage := (frozen t_stage).
  Notation sslice := (slice frozen_stage).
  Context (x : mem_active) (a : active_ruleset) (Ha : active_is m0 x a).
  Context (mt : metric_type) (at_ : agg_type) (opts : types_options).

  Definition kept_pipes (v : val) (ps : list pipeline_metadata) (m : memory) (W : list nat) (F : list look) : Prop :=
    (ps = [] /\ slice_len v m = Some (0, m)) \/ (ps <> [] /\ pipes m v ps W F).

  Lemma filter_slice_run m s L : pslice m s L -> ok m (arr s ++ own L) (looks L) ->
    run (arr s ++ own L) (looks L) (filter_in_place (length L) 0 0 mt at_ opts s) m
      (fun v' m' W F => kept_pipes v' (filter_by_agg_type (xs L) mt at_ opts) m' W F).
  Proof.
    intros [Hl Hf] Hok. set (L' := List.filter (fun i : pmi => has_type mt at_ opts (it_x i)) L).
    eapply run_impl; [apply (slice_edit m0 G frozen_pm (frozen_frame t_pm) _ m s L L' Hok Hf)|].
    - apply (filter_ok mt at_ opts s L [] [] m); [exact Hl|]. intros i Hi. apply (proj1 (Forall_forall _ _) Hf) in Hi.
      destruct (pm_shape m i Hi) as (u & o & E). eexists _, _, _. exact E.
    - intros i Hi. apply filter_In in Hi. apply Hi.
    - apply nodup_own_filter. exact (ok_nodup m0 G _ _ _ _ Hok).
    - intros s' m' W F _ _ (Hs & -> & ->).
      assert (xs L' = filter_by_agg_type (xs L) mt at_ opts) as E by exact (map_filter it_x (has_type mt at_ opts) L).
      rewrite <- E. destruct L' as [|i L'].
      + left. split; [reflexivity|]. exact (layout_len _ _ _ (proj1 Hs)).
      + right. split; [discriminate|]. left. exists (i :: L'). auto.
  Qed.

  Lemma filter_pipes_run m v ps W F : pipes m v ps W F -> ok m W F ->
    run W F (filter_in_place (length ps) 0 0 mt at_ opts v) m
      (fun v' m' W' F' => kept_pipes v' (filter_by_agg_type ps mt at_ opts) m' W' F').
  Proof.
    intros [(L & Hs & <- & -> & ->)|(-> & -> & -> & ->)] Hok.
    - rewrite map_length. exact (filter_slice_run m v L Hs Hok).
    - cbn [length drop_pipeline_metadatas filter_in_place].
      destruct (drop_item m0 G HG g Hg m _ _ Hok) as (i & [Hl Hf] & Ex & _). inversion Hf as [|? ? Hi _]; subst.
      eapply run_read; [apply (layout_index m (g_drop g) _ 0 (it_v i) Hl); reflexivity|].
      destruct (pm_shape m i Hi) as (s & o & E). rewrite E, Ex. unfold filter_by_agg_type, drop_pipeline_metadatas. cbn [List.filter].
      destruct (drop_shows m0 G HG g Hg m _ _ Hok) as (b & off & f & Eg & Hsh & _).
      destruct (if id_is_default (pm_agg drop_pipeline_metadata) then is_contained_in_default opts at_ mt else id_contains (pm_agg drop_pipeline_metadata) at_).
      + cbn [Nat.eqb]. eapply run_read; [reflexivity|]. rewrite Eg. cbn [upto Nat.leb]. apply run_ret; [exact Hok|].
        right. split; [discriminate|]. right. rewrite Eg. auto.
      + rewrite Eg. cbn [upto Nat.leb]. apply run_ret; [exact Hok|]. left. split; reflexivity.
  Qed.

  Definition found (r : option val) (e : option staged_metadata) (m : memory) (W : list nat) (F : list look) : Prop :=
    W = [] /\
    match r, e with
    | None, None => F = []
    | Some v, Some s => exists i, it_v i = v /\ it_x i = s /\ frozen_stage m i /\ F = it_f i
    | _, _ => False
    end.

  Lemma finish_run m v ps W F c : kept_pipes v ps m W F -> ok m W F ->
    run W F (k <- slice_len v ;; if Nat.eqb k 0 then ret None else ret (Some (VStruct [v; VInt c; VBool false]))) m
      (fun r m' W' F' => found r (match ps with [] => None | _ => Some (mk_sm ps c false) end) m' W' F').
  Proof.
    intros [(-> & E)|(Hn & Hp)] Hok.
    - eapply run_read; [exact E|]. cbn [Nat.eqb].
      apply (run_enter W F W [] []); [exact Hok|reflexivity|intros ? []|]. intro Hok2. apply run_ret; [exact Hok2|]. split; reflexivity.
    - eapply run_read; [exact (pipes_len m0 G HG g Hg _ _ _ _ _ Hp Hok)|]. destruct ps as [|p ps]; [contradiction|]. cbn [length Nat.eqb].
      destruct (pipes_shows m0 G HG g Hg _ _ _ _ _ Hp Hok) as (f & Hs & Hf).
      apply (run_enter W F W [] f); [exact Hok|reflexivity|exact Hf|]. intro Hok2. apply run_ret; [exact Hok2|].
      split; [reflexivity|]. exists (mk_it (VStruct [v; VInt c; VBool false]) (mk_sm (p :: ps) c false) [] f). split; [reflexivity|]. split; [reflexivity|].
      split; [|reflexivity]. split; [reflexivity|]. cbn [it_v it_x it_f]. unfold t_stage. cbn [sm_pipelines sm_cutover sm_tombstoned]. flat. constructor.
      replace f with (f ++ [] ++ [] ++ []) by (rewrite !app_nil_r; reflexivity). repeat (constructor; try assumption).
  Qed.

  Lemma reverse_non_rollup_run grow id t m : ok m [] [] ->
    run [] [] (reverse_non_rollup_in_memory g grow x id t mt at_ opts) m
      (fun r m' W F => found r (reverse_for_non_rollup_id a id t mt at_ opts) m' W F).
  Proof.
    intro Hok. unfold reverse_non_rollup_in_memory, reverse_for_non_rollup_id.
    eapply run_bind; [exact (mappings_run m0 G HG g Hg grow x a id t m (seen_mapping m0 x a Ha) Hok)|].
    intros r m1 W1 F1 _ Hok1 (Er & Hr). eapply run_read; [exact (pipes_len m0 G HG g Hg _ _ _ _ _ Hr Hok1)|].
    eapply run_bind; [exact (filter_pipes_run m1 (snd r) _ W1 F1 Hr Hok1)|].
    intros v m2 W2 F2 _ Hok2 Hv. rewrite Er.
    eapply run_impl; [exact (finish_run m2 v _ W2 F2 _ Hv Hok2)|]. intros ? ? ? ? _ _ K.
    destruct (filter_by_agg_type (rm_pipelines (mappings_for_non_rollup_id a id t)) mt at_ opts); exact K.
  Qed.

  Definition found_op (r : option (option val)) (e : option (option staged_metadata)) (m : memory) (W : list nat) (F : list look) : Prop :=
    match r, e with
    | None, None => W = [] /\ F = []
    | Some v, Some s => found v s m W F
    | _, _ => False
    end.

  Lemma reverse_ops_run name section cutover sps lsps multi : seen m0 sps (t_sps lsps) ->
    forall l ops m, Forall2 (seen m0) ops (map t_op l) -> ok m [] [] ->
    run [] [] (reverse_ops_in_memory x name section cutover sps mt at_ multi opts ops) m
      (fun r m' W F => found_op r (reverse_ops a name section cutover lsps mt at_ multi opts l) m' W F).
  Proof.
    intro Hsps. induction l as [|o l IH]; intros ops m Hops Hok; cbn [map] in Hops; inversion Hops; subst; cbn [reverse_ops_in_memory reverse_ops].
    { apply run_ret; [exact Hok|]. split; reflexivity. }
    match goal with K : seen m0 _ (t_op o) |- _ => destruct (seen_now m0 G _ _ m _ _ K Hok) as (f & Hs & _) end.
    eapply run_read; [exact (read_op_ok _ _ _ _ Hs)|].
    destruct (negb (op_kind o =? RollupOp)%Z); [apply IH; assumption|].
    destruct (negb (beqb (ro_name (op_rollup o)) name)); [apply IH; assumption|].
    assert (ma_opts x = as_opts a) as -> by apply Ha.
    destruct (match_tags (fst (tfo_sorted_tags (as_opts a) section)) (ro_tags (op_rollup o))); [|apply IH; assumption].
    destruct (seen_now m0 G _ _ m _ _ Hsps Hok) as (fs & Hsp & Hbl).
    eapply run_bind; [exact (run_shown m0 G _ _ _ _ _ Hok (sps_copy_shown _ _ _ _ Hsp Hbl))|].
    intros sps' m1 W1 F1 _ Hok1 (f1 & -> & -> & _ & Hsh). cbn [app] in Hok1 |- *.
    set (i := mk_it (VStruct [VAtom (AId (ro_agg (op_rollup o))); sps'; VNil; VInt DropNone]) (mk_pm (ro_agg (op_rollup o)) lsps [] DropNone) [] f1).
    assert (frozen_pm m1 i) as Hi.
    { split; [reflexivity|]. cbn [i it_v it_x it_f]. unfold t_pm. cbn [pm_agg pm_sps pm_pipeline pm_drop map]. flat.
      constructor. replace f1 with ([] ++ f1 ++ [] ++ [] ++ []) by (rewrite !app_nil_r; reflexivity). repeat constructor. exact Hsh. }
    eapply run_bind.
    { apply (run_perm _ _ (own [i]) (looks [i])); [exact Hok1|unfold i; perm'|unfold i; inc|]. intro Hok2.
      apply (make_slice_run m0 G frozen_pm (frozen_frame t_pm) m1 [i]); [constructor; [exact Hi|constructor]|exact Hok2]. }
    intros s m2 W2 F2 _ Hok2 (Hsl & -> & ->). cbv zeta.
    set (ps := if multi then filter_by_agg_type [mk_pm (ro_agg (op_rollup o)) lsps [] DropNone] mt at_ opts else [mk_pm (ro_agg (op_rollup o)) lsps [] DropNone]).
    assert (run (arr s ++ own [i]) (looks [i]) (if multi then filter_in_place 1 0 0 mt at_ opts s else ret s) m2
              (fun v' m' W' F' => kept_pipes v' ps m' W' F')) as Hfil.
    { unfold ps. destruct multi.
      - exact (filter_slice_run m2 s [i] Hsl Hok2).
      - apply run_ret; [exact Hok2|]. right. split; [discriminate|]. left. exists [i]. auto. }
    eapply run_bind; [exact Hfil|]. intros v m3 W3 F3 _ Hok3 Hv.
    destruct (finish_run m3 v ps W3 F3 cutover Hv Hok3) as (r & m4 & W4 & F4 & E & K1 & K2 & K3 & K4 & K5).
    exists (Some r), m4, W4, F4. split; [|auto].
    unfold bind, ret in E |- *. destruct (slice_len v m3) as [[k m']|]; [|discriminate].
    destruct (k =? 0); injection E as <- <-; reflexivity.
  Qed.

  Lemma reverse_targets_run name section cutover multi : forall l ts m, Forall2 (seen m0) ts (map t_target l) -> ok m [] [] ->
    run [] [] (reverse_targets_in_memory x name section cutover mt at_ multi opts ts) m
      (fun r m' W F => found_op r (reverse_targets a name section cutover mt at_ multi opts l) m' W F).
  Proof.
    induction l as [|tg l IH]; intros ts m Hts Hok; cbn [map] in Hts; inversion Hts as [|v ? ts' ? Hv Hts']; subst; cbn [reverse_targets_in_memory reverse_targets].
    { apply run_ret; [exact Hok|]. split; reflexivity. }
    destruct (seen_struct m0 _ _ Hv) as (vs & -> & Hf). inversion Hf as [|p ? vs1 ? Hp Hf1]; subst. inversion Hf1 as [|sps ? vs2 ? Hsps Hf2]; subst. inversion Hf2; subst.
    destruct (seen_list m0 _ _ Hp) as (ops & El & Hops). eapply run_read; [exact (El m (proj1 Hok))|].
    eapply run_bind; [exact (reverse_ops_run name section cutover sps (tg_sps tg) multi Hsps (tg_pipeline tg) ops m Hops Hok)|].
    intros r m1 W1 F1 _ Hok1 Hr. unfold found_op in Hr.
    destruct r as [r|], (reverse_ops a name section cutover (tg_sps tg) mt at_ multi opts (tg_pipeline tg)) as [e|]; try contradiction.
    - apply run_ret; [exact Hok1|exact Hr].
    - destruct Hr as [-> ->]. apply IH; assumption.
  Qed.

  Lemma reverse_rules_run name section t multi : forall rs vs m, Forall2 (seen m0) vs (map (t_rule t_rbody) rs) -> ok m [] [] ->
    run [] [] (reverse_rules_in_memory x vs name section t mt at_ multi opts) m
      (fun r m' W F => found r (reverse_rules a rs name section t mt at_ multi opts) m' W F).
  Proof.
    induction rs as [|r rs IH]; intros vs m Hvs Hok; cbn [map] in Hvs; inversion Hvs as [|v ? vs' ? Hv Hvs']; subst; cbn [reverse_rules_in_memory reverse_rules].
    { apply run_ret; [exact Hok|]. split; reflexivity. }
    destruct (active_snapshot_ok m0 t_rbody m v r t (proj1 Hok) Hv) as (o & E & Ho). eapply run_read; [exact E|].
    destruct o as [cells|], (active_snapshot r t) as [s|]; try contradiction; [|apply IH; assumption].
    destruct Ho as (body & -> & Hb). flat. destruct (sn_tomb s); [apply IH; assumption|].
    destruct (seen_list m0 _ _ Hb) as (ts & El & Hts). eapply run_read; [exact (El m (proj1 Hok))|].
    eapply run_bind; [exact (reverse_targets_run name section (sn_cutover s) multi (sn_body s) ts m Hts Hok)|].
    intros y m1 W1 F1 _ Hok1 Hy. unfold found_op in Hy.
    destruct y as [y|], (reverse_targets a name section (sn_cutover s) mt at_ multi opts (sn_body s)) as [e|]; try contradiction.
    - apply run_ret; [exact Hok1|exact Hy].
    - destruct Hy as [-> ->]. apply IH; assumption.
  Qed.

  Lemma reverse_at_run grow id t multi m : ok m [] [] ->
    run [] [] (reverse_at_in_memory g grow x id t mt at_ multi opts) m
      (fun r m' W F => found r (reverse_mappings_for a id t mt at_ multi opts) m' W F).
  Proof.
    intro Hok. unfold reverse_at_in_memory, reverse_mappings_for.
    assert (ma_opts x = as_opts a) as -> by apply Ha. assert (ma_is_rollup x = as_is_rollup a) as -> by apply Ha.
    destruct (tfo_name_and_tags (as_opts a) id) as [[name section]|]; [|exact (reverse_non_rollup_run grow id t m Hok)].
    destruct (as_is_rollup a name section); [|exact (reverse_non_rollup_run grow id t m Hok)].
    destruct (seen_list m0 _ _ (seen_rollup m0 x a Ha)) as (vs & El & Hvs). eapply run_read; [exact (El m (proj1 Hok))|].
    exact (reverse_rules_run name section t multi (as_rollup a) vs m Hvs Hok).
  Qed.

  Lemma merge_found_run grow c m E LE r e W F : sslice m E LE -> found r e m W F ->
    ok m (arr E ++ own LE) (looks LE ++ F) ->
    run (arr E ++ own LE) (looks LE ++ F) (merge_found_in_memory grow E r c) m
      (fun E' m' W' F' => exists LE', sslice m' E' LE' /\ xs LE' = merge_found (xs LE) e c /\ W' = arr E' ++ own LE' /\ F' = looks LE').
  Proof.
    intros HE (-> & Hr) Hok. unfold merge_found_in_memory, merge_found. destruct r as [v|], e as [s|]; try contradiction.
    - destruct Hr as (i & <- & <- & Hi & ->). exact (merge_existing_run m0 G HG grow c m E LE i HE Hi Hok).
    - subst F. rewrite app_nil_r in *. apply run_ret; [exact Hok|]. exists LE. auto.
  Qed.

  Lemma reverse_loop_run grow id to multi : forall fuel idx E LE m,
    sslice m E LE -> ok m (arr E ++ own LE) (looks LE) ->
    run (arr E ++ own LE) (looks LE) (reverse_loop_in_memory fuel g grow x id to idx mt at_ multi opts E) m
      (fun r m' W F => exists E' LE',
         r = (fst (reverse_loop fuel a id to idx mt at_ multi opts (xs LE)), E') /\ sslice m' E' LE' /\
         xs LE' = snd (reverse_loop fuel a id to idx mt at_ multi opts (xs LE)) /\
         W = arr E' ++ own LE' /\ F = looks LE').
  Proof.
    induction fuel as [|fuel IH]; intros idx E LE m HE Hok; cbn [reverse_loop_in_memory reverse_loop].
    { apply run_ret; [exact Hok|]. exists E, LE. auto 10. }
    cbv zeta. rewrite (cutover_at_eq m0 x a Ha), (cutovers_eq m0 x a Ha).
    destruct ((idx <? length (as_cutovers a)) && (cutover_at a idx <? to)%Z)%bool.
    2:{ apply run_ret; [exact Hok|]. exists E, LE. auto 10. }
    set (c := cutover_at a idx).
    eapply run_bind.
    { apply (run_part [] [] (arr E ++ own LE) (looks LE)); [exact Hok|reflexivity|intros ? []|apply incl_refl|].
      intro Hok2. exact (reverse_at_run grow id c multi m Hok2). }
    intros r m1 W1 F1 _ Hok1 (Wr & Fr & -> & -> & _ & Hr & Hs1). pose proof (proj1 Hr) as ->. cbn [app] in Hok1 |- *.
    assert (sslice m1 E LE) as HE1 by exact (slice_frame frozen_stage (frozen_frame t_stage) m m1 E LE HE Hs1).
    eapply run_bind.
    { apply (run_perm _ _ (arr E ++ own LE) (looks LE ++ Fr)); [exact Hok1|reflexivity|inc|].
      intro Hok2. exact (merge_found_run grow c m1 E LE r _ [] Fr HE1 Hr Hok2). }
    intros E' m2 W2 F2 _ Hok2 (LE' & HE' & EE' & -> & ->).
    eapply run_impl; [exact (IH (S idx) E' LE' m2 HE' Hok2)|]. intros r' m3 W3 F3 _ _ K. rewrite EE' in K. exact K.
  Qed.

  Lemma reverse_run grow id from to multi :
    run [] [] (reverse_in_memory g grow x id from to mt at_ multi opts) m0
      (fun v m' W F => exists f, shows m' v (t_result (reverse_match a id from to mt at_ multi opts)) f /\ own_or_global m0 m' G f).
  Proof.
    assert (ok m0 [] []) as Hok.
    { split; [apply old_refl|]. split; [constructor|]. split; intros ? []. }
    unfold reverse_in_memory. eapply run_bind; [exact (reverse_at_run grow id from multi m0 Hok)|].
    intros r m1 W1 F1 _ Hok1 Hr. pose proof (proj1 Hr) as ->.
    assert (sslice m1 VNil []) as HN by (split; [reflexivity|constructor]).
    eapply run_bind; [exact (merge_found_run grow from m1 VNil [] r _ [] F1 HN Hr Hok1)|].
    intros E m2 W2 F2 _ Hok2 (LE & HE & EE & -> & ->).
    rewrite (cutovers_eq m0 x a Ha), (next_idx_eq m0 x a Ha).
    eapply run_bind; [exact (reverse_loop_run grow id to multi _ _ E LE m2 HE Hok2)|].
    intros l m3 W3 F3 _ Hok3 (E' & LE' & -> & HE' & EE' & -> & ->). rewrite (cutover_at_eq m0 x a Ha).
    apply run_ret; [exact Hok3|].
    apply (result_shows m0 G m3 _ _ E' LE' VNil []); [exact HE'|split; [reflexivity|constructor]| |].
    - cbn [flat_map arr]. rewrite !app_nil_r. exact Hok3.
    - unfold reverse_match. cbn [map] in EE. rewrite EE in *.
      destruct (reverse_loop (length (as_cutovers a)) a id to (next_cutover_idx a from) mt at_ multi opts (merge_found [] (reverse_mappings_for a id from mt at_ multi opts) from)) as [i es].
      cbn [fst snd] in *. rewrite EE'. f_equal. symmetry. apply Ha.
  Qed.
End Reverse.
