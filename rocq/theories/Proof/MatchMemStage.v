(** Stages and new IDs in memory, and their merging. *)
From Coq Require Import Ascii String Arith NArith ZArith Bool Lia Permutation List.
From Verif.Proof Require Import MemProof MemSep RuleMemCopy RuleMemRules RuleMemViews MatchMemSep MatchMemSlice MatchMemPm MatchMemMatch.
From Verif.Base Require Import Bytes Mem.
From Verif.Model Require Import AggType Policy Transformation Pipeline Metadata Filter MetricID Rules RuleSet
  RuleMem MatchMem.
From Verif.Spec Require Import RuleMemSpec MatchMemSpec.
Import ListNotations.
Open Scope nat_scope.

Lemma each_map {A C D} (f : C -> prog D) (k : A -> C) (h : A -> D) m L :
  (forall i, In i L -> f (k i) m = Some (h i, m)) -> each f (map k L) m = Some (map h L, m).
Proof.
  induction L as [|i L IH]; intro H; [reflexivity|]. cbn [map each]. unfold bind at 1. rewrite (H i (or_introl eq_refl)).
  unfold bind at 1. rewrite (IH (fun j Hj => H j (or_intror Hj))). reflexivity.
Qed.

Section Stage.
  Context (m0 : memory) (G : list look) (HG : Forall (fun l => addr l < m_next m0) G).
  Context (g : globals) (Hg : globals_are m0 g G).
  Notation ok := (ok m0 G).
  Notation run := (run m0 G).
  Notation pslice := (slice frozen_pm).
  Notation pipes := (pipes g).
  Notation run_enter := (run_enter m0 G HG).
  Notation run_perm := (run_perm m0 G HG).
  Notation run_part := (run_part m0 G HG).
  Notation frozen_stage := (frozen t_stage).
  Notation sslice := (slice frozen_stage).
  Notation pair_value := (fun e : val * val => VStruct [fst e; snd e]).

  Lemma pipes_shows m v ps W F : pipes m v ps W F -> ok m W F ->
    exists f, shows m v (t_pms ps) f /\ forall l, In l f -> In l F \/ In (addr l) W \/ In l G.
  Proof.
    intros [(L & Hs & <- & -> & ->)|(-> & -> & -> & ->)] Hok.
    - destruct (slice_shows frozen_pm t_pm m v L (frozen_displays t_pm m) Hs) as (f & Hf & Hl). exists f. split; [exact Hf|].
      intros l Hin. destruct (Hl l Hin); auto.
    - destruct (drop_shows m0 G HG g Hg m _ _ Hok) as (a & b & f & _ & Hs & Hi). exists f. auto.
  Qed.

  Lemma to_staged_run c m v ps W F : pipes m v ps W F -> ok m W F ->
    run W F (to_staged_in_memory g c v) m
      (fun s m' W' F' => W' = [] /\ frozen_stage m' (mk_it s (rm_to_staged (mk_rm c ps)) [] F')).
  Proof.
    intros Hp Hok. unfold to_staged_in_memory. eapply run_read; [exact (pipes_len m0 G HG g Hg _ _ _ _ _ Hp Hok)|].
    assert (exists f, shows m (if length ps =? 0 then g_default g else v)
                        (t_pms (match ps with [] => [default_pipeline_metadata] | _ => ps end)) f /\
                      forall l, In l f -> In l F \/ In (addr l) W \/ In l G) as (f & Hs & Hf).
    { destruct ps as [|p ps].
      - destruct (default_shows m0 G HG g Hg m _ _ Hok) as (a & b & f & _ & Hs & Hi). exists f. cbn [length Nat.eqb]. auto.
      - cbn [length Nat.eqb]. exact (pipes_shows _ _ _ _ _ Hp Hok). }
    apply (run_enter W F W [] f); [exact Hok|reflexivity|exact Hf|]. intro Hok2. apply run_ret; [exact Hok2|].
    split; [reflexivity|]. split; [reflexivity|]. cbn [it_v it_x it_f]. unfold t_stage, rm_to_staged.
    cbn [sm_pipelines sm_cutover sm_tombstoned rm_pipelines rm_cutover]. flat. constructor.
    replace f with (f ++ [] ++ [] ++ []) by (rewrite !app_nil_r; reflexivity). repeat (constructor; try assumption).
    destruct ps; exact Hs.
  Qed.

  (** * New IDs *)

  Definition T_entry (m : memory) (i : item id_with_metadatas) : Prop :=
    exists id ms f1 Ls, it_v i = VStruct [id; ms] /\ shows m id (t_bytes (fst (it_x i))) f1 /\ sslice m ms Ls /\
      xs Ls = snd (it_x i) /\ it_w i = arr ms /\ it_f i = f1 ++ looks Ls.
  Lemma T_entry_frame m m' i : T_entry m i -> same m m' (it_w i) (it_f i) -> T_entry m' i.
  Proof.
    intros (id & ms & f1 & Ls & E1 & E2 & E3 & E4 & E5 & E6) Hs. exists id, ms, f1, Ls. split; [exact E1|]. split; [|split; [|auto]].
    - apply (same_shows m m' [] f1); [|exact E2]. apply (same_incl _ _ _ _ _ _ Hs); [intros p []|rewrite E6; inc].
    - apply (slice_frame frozen_stage (frozen_frame t_stage) m); [exact E3|]. rewrite (frozen_own _ _ _ (proj2 E3)), app_nil_r.
      apply (same_incl _ _ _ _ _ _ Hs); [rewrite E5; apply incl_refl|rewrite E6; inc].
  Qed.
  Lemma T_entry_displays m i : T_entry m i ->
    exists f, shows m (it_v i) (t_entry (it_x i)) f /\ forall l, In l f -> In (addr l) (it_w i) \/ In l (it_f i).
  Proof.
    intros (id & ms & f1 & Ls & E1 & E2 & E3 & E4 & E5 & E6).
    destruct (slice_shows frozen_stage t_stage m ms Ls (frozen_displays t_stage m) E3) as (f & Hf & Hl).
    exists (f1 ++ f ++ []). split.
    - rewrite E1. unfold t_entry, t_stages. rewrite <- E4. constructor. repeat (constructor; try assumption).
    - intros l Hin. rewrite !in_app_iff in Hin. rewrite E5, E6, in_app_iff. rewrite (frozen_own _ _ _ (proj2 E3)), app_nil_r in Hl.
      destruct Hin as [Hin|[Hin|[]]]; [auto|]. destruct (Hl l Hin); auto.
  Qed.
  Notation eslice := (slice T_entry).

  Lemma slice_edit_unit {X Y} (T : memory -> item X -> Prop)
    (T_frame : forall m m' i, T m i -> same m m' (it_w i) (it_f i) -> T m' i) (e : prog Y) m s L L' :
    ok m (arr s ++ own L) (looks L) -> Forall (T m) L ->
    edits (arr s) e m (fun _ m' => layout m' s (vals L')) -> incl L' L -> NoDup (own L') ->
    run (arr s ++ own L) (looks L) e m
      (fun _ m2 W F => slice T m2 s L' /\ W = arr s ++ own L' /\ F = looks L').
  Proof.
    intros Hok Hf (y & m1 & E & N & S' & Hl) Hi Hnd.
    destruct (slice_edit m0 G T T_frame (bind e (fun _ => ret s)) m s L L' Hok Hf) as (x & m2 & W & F & E2 & H); auto.
    { exists s, m1. split; [unfold bind; rewrite E; reflexivity|]. auto. }
    unfold bind in E2. rewrite E in E2. injection E2 as <- <-. exists y, m1, W, F. split; [exact E|exact H].
  Qed.

  Lemma new_id_run grow c m ids LX e ni :
    eslice m ids LX -> T_new m ni -> pair_value e = it_v ni -> pm_drop (snd (it_x ni)) = DropNone ->
    ok m (arr ids ++ own LX ++ it_w ni) (looks LX ++ it_f ni) ->
    run (arr ids ++ own LX ++ it_w ni) (looks LX ++ it_f ni) (new_id_in_memory g grow c ids e) m
      (fun ids' m' W F => exists en, eslice m' ids' (LX ++ [en]) /\
         it_x en = (fst (it_x ni), [rm_to_staged (rm_unique (mk_rm c [snd (it_x ni)]))]) /\
         W = arr ids' ++ own (LX ++ [en]) /\ F = looks (LX ++ [en])).
  Proof.
    intros HX (id & ps & f1 & j & E1 & Hid & Hps & Exj & Ew & Ef) Ee Hd Hok. destruct e as [e1 e2]. cbn [fst snd] in Ee.
    rewrite E1 in Ee. injection Ee as -> ->. unfold new_id_in_memory. cbn [fst snd]. rewrite Ew, Ef in *.
    pose proof (frozen_own _ _ _ (proj2 Hps)) as Eoj.
    eapply run_bind.
    { apply (run_part (arr ps ++ own [j]) (looks [j]) (arr ids ++ own LX) (looks LX ++ f1)); [exact Hok| | | |].
      - rewrite Eoj. perm'.
      - inc.
      - inc.
      - intro Hok2. apply (unique_run m0 G HG g Hg m ps [snd (it_x ni)]); [|exact Hok2|].
        + left. exists [j]. cbn [map]. rewrite Exj. auto.
        + repeat constructor. unfold no_if_only. rewrite Hd. reflexivity. }
    intros x m1 W1 F1 _ Hok1 (Wx & Fx & -> & -> & Hokx & Hx & Hs1).
    eapply run_bind.
    { apply (run_part Wx Fx (arr ids ++ own LX) (looks LX ++ f1)); [exact Hok1|reflexivity|inc|inc|].
      intro Hok2. exact (to_staged_run c m1 x _ Wx Fx Hx Hok2). }
    intros s m2 W2 F2 _ Hok2 (Ws & Fs & -> & -> & Hoks & (-> & Hst) & Hs2).
    set (si := mk_it s (rm_to_staged (mk_rm c (rm_pipelines (rm_unique (mk_rm 0 [snd (it_x ni)]))))) [] Fs) in *.
    eapply run_bind.
    { apply (run_part (own [si]) (looks [si]) (arr ids ++ own LX) (looks LX ++ f1)); [exact Hok2|unfold si; perm'|unfold si; inc|inc|].
      intro Hok3. apply (make_slice_run m0 G frozen_stage (frozen_frame t_stage) m2 [si]); [constructor; [exact Hst|constructor]|exact Hok3]. }
    intros ms m3 W3 F3 _ Hok3 (Wm & Fm & -> & -> & Hokm & (Hms & -> & ->) & Hs3).
    set (en := mk_it (VStruct [id; ms]) (fst (it_x ni), [it_x si]) (arr ms) (f1 ++ Fs)).
    assert (same m m3 (arr ids ++ own LX) (looks LX ++ f1)) as Hs.
    { intros p Hp. rewrite (Hs3 p Hp), (Hs2 p Hp). exact (Hs1 p Hp). }
    assert (T_entry m3 en) as Hen.
    { exists id, ms, f1, [si]. split; [reflexivity|]. split; [|split; [exact Hms|split; [reflexivity|split; [reflexivity|]]]].
      - apply (same_shows m m3 [] f1); [|exact Hid]. apply (same_incl _ _ _ _ _ _ Hs); [intros p []|inc].
      - unfold en, si. cbn [it_f flat_map]. rewrite app_nil_r. reflexivity. }
    assert (eslice m3 ids LX) as HX3.
    { apply (slice_frame T_entry T_entry_frame m); [exact HX|]. apply (same_incl _ _ _ _ _ _ Hs); inc. }
    apply (run_perm _ _ (arr ids ++ own (LX ++ [en])) (looks (LX ++ [en]))); [exact Hok3|unfold en, si; perm'|unfold en, si; inc|].
    intro Hok4. eapply run_impl; [exact (append_run m0 G T_entry T_entry_frame grow m3 ids LX en HX3 Hen Hok4)|].
    intros ids' m4 W4 F4 _ _ (H1 & -> & ->). exists en. split; [exact H1|]. split; [|auto].
    unfold en, si. cbn [it_x]. do 3 f_equal. unfold rm_unique. cbn [rm_pipelines rm_cutover].
    destruct (pms_apply_drop [snd (it_x ni)]) as [[|] []]; reflexivity.
  Qed.

  Lemma new_ids_run grow c : forall N news m ids LX,
    eslice m ids LX -> Forall (T_new m) N -> map pair_value news = vals N -> Forall (fun p => pm_drop (snd p) = DropNone) (xs N) ->
    ok m (arr ids ++ own LX ++ own N) (looks LX ++ looks N) ->
    run (arr ids ++ own LX ++ own N) (looks LX ++ looks N) (new_ids_in_memory g grow c ids news) m
      (fun ids' m' W F => exists LX', eslice m' ids' LX' /\
         xs LX' = xs LX ++ map (fun p => (fst p, [rm_to_staged (rm_unique (mk_rm c [snd p]))])) (xs N) /\
         W = arr ids' ++ own LX' /\ F = looks LX').
  Proof.
    induction N as [|ni N IH]; intros news m ids LX HX HN En Hd Hok; destruct news as [|e news]; try discriminate; cbn [new_ids_in_memory].
    - cbn [flat_map] in *. rewrite ?app_nil_r in Hok |- *. apply run_ret; [exact Hok|]. exists LX. cbn [map]. rewrite app_nil_r. auto.
    - cbn [map] in En, Hd. injection En as Ee En. inversion HN as [|? ? Hni HN']; subst. inversion Hd as [|? ? Hdi Hd']; subst.
      eapply run_bind.
      { apply (run_part (arr ids ++ own LX ++ it_w ni) (looks LX ++ it_f ni) (own N) (looks N)); [exact Hok|perm'|inc|inc|].
        intro Hok2. exact (new_id_run grow c m ids LX e ni HX Hni Ee Hdi Hok2). }
      intros ids' m1 W1 F1 _ Hok1 (Wx & Fx & -> & -> & Hokx & (en & HX1 & Ex & -> & ->) & Hs1).
      apply (run_perm _ _ (arr ids' ++ own (LX ++ [en]) ++ own N) (looks (LX ++ [en]) ++ looks N)); [exact Hok1|rewrite app_assoc; reflexivity|apply incl_refl|].
      intro Hok2. eapply run_impl; [apply (IH news m1 ids' (LX ++ [en])); auto|].
      + apply (items_frame (T_new) T_new_frame m); assumption.
      + intros ids2 m2 W2 F2 _ _ (LX' & A & C & D & E). exists LX'. split; [exact A|]. split; [|auto].
        rewrite C, map_app, <- app_assoc. cbn [map app]. rewrite Ex. reflexivity.
  Qed.

  (** * Sorting *)

  Lemma sort_run m x L : eslice m x L -> ok m (arr x ++ own L) (looks L) ->
    run (arr x ++ own L) (looks L) (sort_by_id x) m
      (fun _ m' W F => exists L', eslice m' x L' /\ xs L' = isort id_leb (xs L) /\ W = arr x ++ own L' /\ F = looks L').
  Proof.
    intros [Hl Hf] Hok. unfold sort_by_id. eapply run_read; [exact (layout_elems _ _ _ Hl)|].
    eapply run_read with (x := map (fun i => (fst (it_x i), it_v i)) L).
    { apply each_map. intros i Hi. apply (proj1 (Forall_forall _ _) Hf) in Hi.
      destruct Hi as (id & ms & f1 & Ls & E1 & E2 & _). rewrite E1. unfold bind. rewrite (read_bytes_ok _ _ _ _ E2). reflexivity. }
    set (L' := isort (fun i j => id_leb (it_x i) (it_x j)) L).
    rewrite (isort_map (fun i : item id_with_metadatas => (fst (it_x i), it_v i)) (fun i j => id_leb (it_x i) (it_x j))) by reflexivity.
    fold L'. rewrite map_map. cbn [snd].
    pose proof (isort_permutation (fun i j => id_leb (it_x i) (it_x j)) L) as HP. fold L' in HP.
    eapply run_bind.
    { eapply (slice_edit_unit T_entry T_entry_frame _ m x L L' Hok Hf).
      - replace (seq 0 (length (vals L))) with (seq (length (@nil val)) (length (vals L'))).
        + apply (write_all_ok (vals L') (vals L) x [] m Hl). rewrite !map_length. symmetry. exact (Permutation_length HP).
        + rewrite !map_length, (Permutation_length HP). reflexivity.
      - intros i Hi. exact (Permutation_in _ (Permutation_sym HP) Hi).
      - apply (Permutation_NoDup (l := own L)); [|exact (ok_nodup m0 G m _ _ _ Hok)]. apply Permutation_flat_map. exact HP. }
    intros ? m1 W1 F1 _ Hok1 (H1 & -> & ->). apply run_ret; [exact Hok1|]. exists L'. split; [exact H1|]. split; [|auto].
    symmetry. apply isort_map. reflexivity.
  Qed.

  (** * Merging *)

  Lemma stage_shape m (i : item staged_metadata) : frozen_stage m i ->
    exists ps, it_v i = VStruct [ps; VInt (sm_cutover (it_x i)); VBool (sm_tombstoned (it_x i))] /\
               shows m ps (t_pms (sm_pipelines (it_x i))) (it_f i).
  Proof.
    intros [_ H]. unfold t_stage in H. destruct i as [v x w f]. cbn [it_v it_x it_f] in *. flat. inv_shows.
    eexists. split; [reflexivity|]. rewrite !app_nil_r. assumption.
  Qed.

  Lemma merge_existing_run grow c m E LE i :
    sslice m E LE -> frozen_stage m i -> ok m (arr E ++ own LE) (looks LE ++ it_f i) ->
    run (arr E ++ own LE) (looks LE ++ it_f i) (merge_existing_in_memory grow E (it_v i) c) m
      (fun E' m' W F => exists LE', sslice m' E' LE' /\ xs LE' = merge_existing (xs LE) (it_x i) c /\
         W = arr E' ++ own LE' /\ F = looks LE').
  Proof.
    intros [Hl Hf] Hi Hok. unfold merge_existing_in_memory, merge_existing.
    eapply run_read; [exact (layout_len _ _ _ Hl)|]. rewrite map_length.
    destruct LE as [|last LE0 _] using rev_ind.
    - cbn [length Nat.eqb map rev].
      apply (run_enter _ _ (arr E) (own [i]) (looks [i])); [exact Hok| |intro l; cbn [flat_map app]; rewrite app_nil_r; auto|].
      { cbn [flat_map]. rewrite (proj1 Hi). perm'. }
      intro Hok2. eapply run_impl; [apply (make_slice_run m0 G frozen_stage (frozen_frame t_stage) m [i]); [constructor; [exact Hi|constructor]|exact Hok2]|].
      intros E' m1 W1 F1 _ _ (H1 & -> & ->). exists [i]. auto.
    - rewrite app_length. cbn [length]. rewrite Nat.add_1_r. cbn [Nat.eqb]. replace (S (length LE0) - 1) with (length LE0) by lia.
      eapply run_read.
      { apply (layout_index m E _ _ (it_v last) Hl). rewrite map_app, nth_error_app2 by (rewrite map_length; lia).
        rewrite map_length, Nat.sub_diag. reflexivity. }
      assert (frozen_stage m last) as Hlast by (apply Forall_app in Hf; destruct Hf as [_ Hf]; inversion Hf; assumption).
      destruct (stage_shape m last Hlast) as (lps & El & _). rewrite El. cbn [stage_cutover].
      eapply run_read; [reflexivity|]. destruct (stage_shape m i Hi) as (ps & Ei & Hps). rewrite Ei. unfold VInt at 1.
      rewrite map_app, rev_app_distr. cbn [map rev app].
      set (nx := if (sm_cutover (it_x i) <? sm_cutover (it_x last))%Z then mk_sm (sm_pipelines (it_x i)) c (sm_tombstoned (it_x i)) else it_x i).
      set (j := mk_it (VStruct [ps; VInt (if (sm_cutover (it_x i) <? sm_cutover (it_x last))%Z then c else sm_cutover (it_x i)); VBool (sm_tombstoned (it_x i))]) nx [] (it_f i)).
      assert (frozen_stage m j) as Hj.
      { split; [reflexivity|]. unfold j, nx. cbn [it_v it_x it_f]. unfold t_stage. flat. constructor.
        replace (it_f i) with (it_f i ++ [] ++ [] ++ []) by (rewrite !app_nil_r; reflexivity).
        destruct (sm_cutover (it_x i) <? sm_cutover (it_x last))%Z; cbn [sm_pipelines sm_cutover sm_tombstoned]; repeat (constructor; try assumption). }
      apply (run_perm _ _ (arr E ++ own ((LE0 ++ [last]) ++ [j])) (looks ((LE0 ++ [last]) ++ [j]))); [exact Hok|unfold j; perm'|unfold j; inc|].
      intro Hok2. eapply run_impl; [exact (append_run m0 G frozen_stage (frozen_frame t_stage) grow m E (LE0 ++ [last]) j (conj Hl Hf) Hj Hok2)|].
      intros E' m1 W1 F1 _ _ (H1 & -> & ->). exists ((LE0 ++ [last]) ++ [j]). split; [exact H1|]. split; [|auto].
      rewrite !map_app. reflexivity.
  Qed.

  Lemma push_run grow m x L1 i L2 s :
    eslice m x (L1 ++ i :: L2) -> frozen_stage m s -> ok m (arr x ++ own (L1 ++ i :: L2)) (looks (L1 ++ i :: L2) ++ it_f s) ->
    run (arr x ++ own (L1 ++ i :: L2)) (looks (L1 ++ i :: L2) ++ it_f s) (push_stage grow x (length L1) (it_v s)) m
      (fun _ m' W F => exists i', eslice m' x (L1 ++ i' :: L2) /\ it_x i' = (fst (it_x i), snd (it_x i) ++ [it_x s]) /\
         W = arr x ++ own (L1 ++ i' :: L2) /\ F = looks (L1 ++ i' :: L2)).
  Proof.
    intros [Hl Hf] Hs Hok. unfold push_stage. eapply run_read.
    { apply (layout_index m x _ _ (it_v i) Hl). rewrite map_app, nth_error_app2 by (rewrite map_length; lia).
      rewrite map_length, Nat.sub_diag. reflexivity. }
    pose proof (proj1 (Forall_forall _ _) Hf i ltac:(apply in_or_app; right; left; reflexivity)) as Hi.
    destruct Hi as (id & ms & f1 & Ls & E1 & E2 & E3 & E4 & E5 & E6). rewrite E1.
    pose proof (frozen_own _ _ _ (proj2 E3)) as Eo. pose proof (proj1 Hs) as Ews.
    eapply run_bind.
    { apply (run_part (arr ms ++ own (Ls ++ [s])) (looks (Ls ++ [s])) (arr x ++ own L1 ++ own L2) (looks L1 ++ looks L2 ++ f1)).
      - exact Hok.
      - rewrite !flat_map_app. cbn [flat_map]. rewrite Eo, Ews, E5, !app_nil_r. cbn [app]. perm.
      - intro l. rewrite !flat_map_app. cbn [flat_map]. rewrite E6, !in_app_iff. cbn [In]. tauto.
      - intro l. rewrite !flat_map_app. cbn [flat_map]. rewrite E6, !in_app_iff. tauto.
      - intro Hok2. exact (append_run m0 G frozen_stage (frozen_frame t_stage) grow m ms Ls s E3 Hs Hok2). }
    intros ms' m1 W1 F1 _ Hok1 (Wx & Fx & -> & -> & Hokx & (Hms & -> & ->) & Hs1).
    set (i' := mk_it (VStruct [id; ms']) (fst (it_x i), snd (it_x i) ++ [it_x s]) (arr ms') (f1 ++ looks (Ls ++ [s]))).
    assert (T_entry m1 i') as Hi'.
    { exists id, ms', f1, (Ls ++ [s]). split; [reflexivity|]. split; [|split; [exact Hms|split; [|auto]]].
      - apply (same_shows m m1 [] f1); [|exact E2]. apply (same_incl _ _ _ _ _ _ Hs1); [intros p []|inc].
      - unfold i'. cbn [it_x snd]. rewrite map_app, E4. reflexivity. }
    pose proof (frozen_own _ _ _ (proj2 Hms)) as Eo2.
    apply (run_perm _ _ (arr x ++ own (L1 ++ i' :: L2)) (looks (L1 ++ i' :: L2))); [exact Hok1| | |].
    { rewrite Eo2, !flat_map_app. cbn [flat_map]. unfold i' at 1. cbn [it_w]. rewrite app_nil_r. perm. }
    { intro l. rewrite (flat_map_app _ L1). cbn [flat_map]. unfold i' at 1. cbn [it_f]. rewrite !in_app_iff. tauto. }
    intro Hok2.
    assert (Forall (T_entry m1) (L1 ++ i' :: L2)) as Hf1.
    { apply Forall_app in Hf. destruct Hf as [Hf1 Hf2]. inversion Hf2; subst. apply Forall_app. split; [|constructor; [exact Hi'|]];
        (apply (items_frame T_entry T_entry_frame m); [assumption|apply (same_incl _ _ _ _ _ _ Hs1); inc]). }
    assert (layout m1 x (vals (L1 ++ i :: L2))) as Hl1.
    { apply (layout_same m); [exact Hl|]. intros p Hp. apply Hs1. left. apply in_or_app. auto. }
    eapply run_impl; [apply (slice_edit_unit T_entry T_entry_frame _ m1 x (L1 ++ i' :: L2) (L1 ++ i' :: L2) Hok2 Hf1)|].
    - rewrite map_app in Hl1 |- *. cbn [map] in Hl1 |- *. pose proof (layout_set _ _ _ _ _ (it_v i') Hl1) as K.
      rewrite map_length in K. exact K.
    - apply incl_refl.
    - exact (ok_nodup m0 G _ _ _ _ Hok2).
    - intros ? m2 W2 F2 _ _ (H1 & -> & ->). exists i'. auto.
  Qed.

  Lemma merge_nil change R : merge_news_loop change [] R = ([], R).
  Proof. destruct R; reflexivity. Qed.

  Lemma id_at_ok m x L n i : layout m x (vals L) -> nth_error L n = Some i -> T_entry m i -> id_at x n m = Some (fst (it_x i), m).
  Proof.
    intros Hl En (id & ms & f1 & Ls & E1 & E2 & _). unfold id_at, bind.
    rewrite (layout_index m x _ n (it_v i) Hl) by (apply nth_items; exact En). rewrite E1. exact (read_bytes_ok _ _ _ _ E2).
  Qed.
  Lemma tombstone_frozen m c : frozen_stage m (mk_it (VStruct [VNil; VInt c; VBool true]) (tombstone_stage c) [] []).
  Proof.
    split; [reflexivity|]. cbn [it_v it_x it_f]. unfold t_stage, tombstone_stage. cbn [sm_pipelines sm_cutover sm_tombstoned]. flat.
    unfold t_pms. cbn [map]. constructor. change (@nil look) with ((@nil look) ++ [] ++ [] ++ []). repeat constructor.
  Qed.

  Lemma merge_news_run grow change y : forall fuel C R D A LN1 m x,
    length C + length R <= fuel ->
    eslice m x (D ++ C ++ A) -> layout m y (vals (LN1 ++ R)) -> Forall (T_entry m) R ->
    Forall (fun e => length (snd e) = 1) (xs R) ->
    ok m (arr x ++ own (D ++ C ++ A) ++ arr y ++ own R) (looks (D ++ C ++ A) ++ looks R) ->
    run (arr x ++ own (D ++ C ++ A) ++ arr y ++ own R) (looks (D ++ C ++ A) ++ looks R)
      (merge_news_in_memory fuel grow change x y (length D + length C) (length LN1 + length R) (length D) (length LN1)) m
      (fun x' m' W F => exists L', eslice m' x' L' /\
         xs L' = xs D ++ fst (merge_news_loop change (xs C) (xs R)) ++ xs A ++ snd (merge_news_loop change (xs C) (xs R)) /\
         W = arr x' ++ own L' /\ F = looks L').
  Proof.
    assert (forall C R D A m x, C = [] -> R = [] -> eslice m x (D ++ C ++ A) ->
      ok m (arr x ++ own (D ++ C ++ A) ++ arr y ++ own R) (looks (D ++ C ++ A) ++ looks R) ->
      run (arr x ++ own (D ++ C ++ A) ++ arr y ++ own R) (looks (D ++ C ++ A) ++ looks R) (ret x) m
      (fun x' m' W F => exists L', eslice m' x' L' /\
         xs L' = xs D ++ fst (merge_news_loop change (xs C) (xs R)) ++ xs A ++ snd (merge_news_loop change (xs C) (xs R)) /\
         W = arr x' ++ own L' /\ F = looks L')) as Hend.
    { intros C R D A m x -> -> Hx Hok. apply (run_enter _ _ (arr y) (arr x ++ own (D ++ A)) (looks (D ++ A))); [exact Hok|perm'|intro l; cbn [flat_map app]; rewrite app_nil_r; auto|].
      intro Hok2. apply run_ret; [exact Hok2|]. exists (D ++ A). split; [exact Hx|]. split; [|auto].
      cbn [map]. rewrite merge_nil. cbn [fst snd app]. rewrite app_nil_r, map_app. reflexivity. }
    induction fuel as [|fuel IH]; intros C R D A LN1 m x Hn Hx Hy HR H1 Hok.
    { destruct C, R; cbn [length] in Hn; try lia. apply (Hend [] [] D A); auto. }
    cbn [merge_news_in_memory].
    destruct C as [|c C].
    - destruct R as [|r R].
      { cbn [length]. rewrite !Nat.add_0_r, !Nat.ltb_irrefl. cbn [orb]. apply (Hend [] [] D A); auto. }
      rewrite (proj2 (Nat.ltb_lt (length LN1) _)) by (cbn [length]; lia). rewrite orb_true_r.
      cbn [length app]. rewrite Nat.add_0_r, Nat.ltb_irrefl. cbn [negb].
      eapply run_read; [reflexivity|]. cbn beta iota.
      inversion HR as [|? ? Hr HR']; subst. cbn [map] in H1. inversion H1 as [|? ? Hr1 HR1]; subst.
      eapply run_read.
      { apply (layout_index m y _ _ (it_v r) Hy). rewrite map_app, nth_error_app2 by (rewrite map_length; lia). rewrite map_length, Nat.sub_diag. reflexivity. }
      cbn [app] in Hx, Hok.
      eapply run_bind.
      { apply (run_part (arr x ++ own ((D ++ A) ++ [r])) (looks ((D ++ A) ++ [r])) (arr y ++ own R) (looks R)); [exact Hok|perm'|inc|inc|].
        intro Hok2. exact (append_run m0 G T_entry T_entry_frame grow m x (D ++ A) r Hx Hr Hok2). }
      intros x' m1 W1 F1 _ Hok1 (Wx & Fx & -> & -> & Hokx & (Hx1 & -> & ->) & Hs1).
      specialize (IH [] R D (A ++ [r]) (LN1 ++ [r]) m1 x'). cbn [app length] in IH. rewrite app_length in IH. cbn [length] in IH.
      replace (length LN1 + S (length R)) with (length LN1 + 1 + length R) by lia. replace (S (length LN1)) with (length LN1 + 1) by lia.
      rewrite Nat.add_0_r in IH. rewrite <- app_assoc in Hx1.
      apply (run_perm _ _ (arr x' ++ own (D ++ A ++ [r]) ++ arr y ++ own R) (looks (D ++ A ++ [r]) ++ looks R)); [exact Hok1|perm'|inc|].
      intro Hok2. eapply run_impl; [apply IH; auto|].
      + cbn [length] in Hn. lia.
      + rewrite <- app_assoc. cbn [app]. apply (layout_same m); [exact Hy|]. intros p Hp. apply Hs1. left. apply in_or_app. auto.
      + apply (items_frame T_entry T_entry_frame m); [assumption|apply (same_incl _ _ _ _ _ _ Hs1); inc].
      + intros x2 m2 W2 F2 _ _ (L' & K1 & K2 & K3). exists L'. split; [exact K1|]. split; [|exact K3]. rewrite K2.
        cbn [map]. rewrite !merge_nil. cbn [fst snd app]. rewrite map_app, <- app_assoc. reflexivity.
    - rewrite (proj2 (Nat.ltb_lt (length D) _)) by (cbn [length]; lia). cbn [orb negb].
      assert (T_entry m c) as Hc.
      { destruct Hx as [_ Hx]. apply (proj1 (Forall_forall _ _) Hx). apply in_or_app. right. left. reflexivity. }
      assert (eslice m x (D ++ c :: (C ++ A))) as Hx2 by exact Hx.
      (* the step that ends the current ID *)
      assert (forall s, frozen_stage m s ->
        forall R2 F2 LN2, incl R2 R -> incl F2 (looks R) -> length R2 <= length R ->
        (exists Wd, Permutation (arr y ++ own R) ((arr y ++ own R2) ++ Wd)) -> incl (it_f s) (looks R) ->
        layout m y (vals (LN2 ++ R2)) -> Forall (fun e => length (snd e) = 1) (xs R2) -> length LN2 + length R2 = length LN1 + length R ->
        F2 = looks R2 ->
        (forall u n, merge_news_loop change (xs C) (xs R2) = (u, n) ->
           merge_news_loop change (xs (c :: C)) (xs R) = ((fst (it_x c), snd (it_x c) ++ [it_x s]) :: u, n)) ->
        run (arr x ++ own (D ++ (c :: C) ++ A) ++ arr y ++ own R) (looks (D ++ (c :: C) ++ A) ++ looks R)
          (bind (push_stage grow x (length D) (it_v s)) (fun _ =>
             merge_news_in_memory fuel grow change x y (length D + length (c :: C)) (length LN1 + length R) (S (length D)) (length LN2))) m
          (fun x' m' W F => exists L', eslice m' x' L' /\
             xs L' = xs D ++ fst (merge_news_loop change (xs (c :: C)) (xs R)) ++ xs A ++ snd (merge_news_loop change (xs (c :: C)) (xs R)) /\
             W = arr x' ++ own L' /\ F = looks L')) as Hstep.
      { intros s Hs R2 F2 LN2 Hi2 HiF HlR (Wd & HPd) Hsi Hy2 H12 Elen -> Hmerge.
        eapply run_bind.
        { apply (run_part (arr x ++ own (D ++ c :: (C ++ A))) (looks (D ++ c :: (C ++ A)) ++ it_f s) (arr y ++ own R) (looks R)).
          - exact Hok.
          - cbn [app]. rewrite !app_assoc. reflexivity.
          - apply incl_app; [apply incl_appl, incl_refl|apply incl_appr; exact Hsi].
          - apply incl_appr, incl_refl.
          - intro Hok2. exact (push_run grow m x D c (C ++ A) s Hx2 Hs Hok2). }
        intros ? m1 W1 F1 _ Hok1 (Wx & Fx & -> & -> & Hokx & (c' & Hx1 & Ec' & -> & ->) & Hs1).
        apply (run_enter _ _ Wd (arr x ++ own ((D ++ [c']) ++ C ++ A) ++ arr y ++ own R2) (looks ((D ++ [c']) ++ C ++ A) ++ looks R2)); [exact Hok1| | |].
        { rewrite HPd. perm'. }
        { intros l. rewrite <- (app_assoc D [c']). cbn [app]. rewrite !in_app_iff. intros [K|K]; [auto|]. left. right. exact (HiF l K). }
        intro Hok2. specialize (IH C R2 (D ++ [c']) A LN2 m1 x). rewrite app_length in IH. cbn [length] in IH.
        replace (length D + length (c :: C)) with (length D + 1 + length C) by (cbn [length]; lia).
        rewrite <- Elen. replace (S (length D)) with (length D + 1) by lia.
        eapply run_impl; [apply IH; auto|].
        - cbn [length] in Hn. lia.
        - rewrite <- app_assoc. exact Hx1.
        - apply (layout_same m); [exact Hy2|]. intros p Hp. apply Hs1. left. apply in_or_app. auto.
        - pose proof (items_frame T_entry T_entry_frame m m1 R HR) as K. 
          assert (Forall (T_entry m1) R) as K2 by (apply K; apply (same_incl _ _ _ _ _ _ Hs1); inc).
          apply Forall_forall. intros i Hi. exact (proj1 (Forall_forall _ _) K2 i (Hi2 i Hi)).
        - intros x2 m2 W2 F2' _ _ (L' & K1 & K2 & K3). exists L'. split; [exact K1|]. split; [|exact K3]. rewrite K2.
          destruct (merge_news_loop change (xs C) (xs R2)) as [u n] eqn:Em. rewrite (Hmerge u n eq_refl). cbn [fst snd].
          rewrite map_app, <- !app_assoc. cbn [map app]. rewrite Ec'. reflexivity. }
      destruct R as [|r R].
      + cbn [length]. rewrite Nat.add_0_r, Nat.ltb_irrefl. cbn [negb]. eapply run_read; [reflexivity|]. cbn beta iota.
        pose proof (Hstep (mk_it (VStruct [VNil; VInt change; VBool true]) (tombstone_stage change) [] []) (tombstone_frozen m change)
          [] [] LN1 (incl_refl _) (incl_refl _) (le_n _) ltac:(exists []; rewrite (app_nil_r (_ ++ own _)); reflexivity) (incl_refl _) Hy ltac:(constructor) eq_refl eq_refl) as K.
        cbn [length] in K. rewrite Nat.add_0_r in K. apply K. intros u n E. cbn [map]. destruct (it_x c) as [ci cms] eqn:Exc.
        cbn [merge_news_loop]. cbn [map] in E. rewrite E. reflexivity.
      + rewrite (proj2 (Nat.ltb_lt (length LN1) _)) by (cbn [length]; lia). cbn [negb].
        inversion HR as [|? ? Hr HR']; subst. cbn [map] in H1. inversion H1 as [|? ? Hr1 HR1]; subst.
        eapply run_read.
        { unfold bind. rewrite (id_at_ok m x (D ++ c :: (C ++ A)) (length D) c (proj1 Hx2)); [|rewrite nth_error_app2 by lia; rewrite Nat.sub_diag; reflexivity|exact Hc].
          rewrite (id_at_ok m y (LN1 ++ r :: R) (length LN1) r Hy); [|rewrite nth_error_app2 by lia; rewrite Nat.sub_diag; reflexivity|exact Hr].
          reflexivity. }
        assert (nth_error (vals (LN1 ++ r :: R)) (length LN1) = Some (it_v r)) as Enr.
        { rewrite map_app, nth_error_app2 by (rewrite map_length; lia). rewrite map_length, Nat.sub_diag. reflexivity. }
        destruct (bcompare (fst (it_x c)) (fst (it_x r))) eqn:Ecmp.
        * eapply run_read; [exact (layout_index m y _ _ _ Hy Enr)|].
          destruct Hr as (id & ms & f1 & Ls & E1 & E2 & E3 & E4 & E5 & E6). rewrite E1.
          destruct Ls as [|s [|s2 Ls]]; [rewrite <- E4 in Hr1; discriminate| |rewrite <- E4 in Hr1; discriminate].
          eapply run_read; [apply (layout_index m ms _ 0 (it_v s) (proj1 E3)); reflexivity|].
          pose proof (Hstep s ltac:(destruct E3 as [_ K]; inversion K; assumption) R (looks R) (LN1 ++ [r])) as K.
          rewrite app_length in K. cbn [length] in K. rewrite Nat.add_1_r in K. apply K.
          { inc. }
          { inc. }
          { lia. }
          { exists (it_w r). cbn [flat_map]. perm'. }
          { intro l. cbn [flat_map]. rewrite E6. cbn [flat_map]. rewrite !in_app_iff. tauto. }
          { rewrite <- app_assoc. exact Hy. }
          { exact HR1. }
          { lia. }
          { reflexivity. }
          intros u n E. cbn [map]. destruct (it_x c) as [ci cms], (it_x r) as [ri rms]. cbn [fst snd] in *. cbn [map] in E4. rewrite <- E4.
          cbn [merge_news_loop]. rewrite Ecmp, E. reflexivity.
        * pose proof (Hstep (mk_it (VStruct [VNil; VInt change; VBool true]) (tombstone_stage change) [] []) (tombstone_frozen m change)
            (r :: R) (looks (r :: R)) LN1 (incl_refl _) (incl_refl _) (le_n _) ltac:(exists []; rewrite (app_nil_r (_ ++ own _)); reflexivity) ltac:(intros l []) Hy ltac:(constructor; assumption) eq_refl eq_refl) as K.
          apply K. intros u n E. cbn [map] in E |- *. destruct (it_x c) as [ci cms], (it_x r) as [ri rms]. cbn [fst snd] in *.
          cbn [merge_news_loop]. rewrite Ecmp. rewrite E. reflexivity.
        * eapply run_read; [exact (layout_index m y _ _ _ Hy Enr)|].
          eapply run_bind.
          { apply (run_part (arr x ++ own ((D ++ (c :: C) ++ A) ++ [r])) (looks ((D ++ (c :: C) ++ A) ++ [r])) (arr y ++ own R) (looks R)); [exact Hok| | | |].
            - rewrite (flat_map_app _ (D ++ (c :: C) ++ A)). cbn [flat_map]. rewrite app_nil_r. perm.
            - intro l. rewrite (flat_map_app _ (D ++ (c :: C) ++ A)). cbn [flat_map]. rewrite !in_app_iff. cbn [In]. tauto.
            - intro l. cbn [flat_map]. rewrite !in_app_iff. tauto.
            - intro Hok2. exact (append_run m0 G T_entry T_entry_frame grow m x _ r Hx Hr Hok2). }
          intros x' m1 W1 F1 _ Hok1 (Wx & Fx & -> & -> & Hokx & (Hx1 & -> & ->) & Hs1).
          specialize (IH (c :: C) R D (A ++ [r]) (LN1 ++ [r]) m1 x'). rewrite app_length in IH. cbn [length] in IH.
          cbn [length]. replace (length LN1 + S (length R)) with (length LN1 + 1 + length R) by lia. replace (S (length LN1)) with (length LN1 + 1) by lia.
          assert ((D ++ (c :: C) ++ A) ++ [r] = D ++ (c :: C) ++ A ++ [r]) as Eap by (rewrite <- !app_assoc; reflexivity).
          rewrite Eap in *.
          apply (run_perm _ _ (arr x' ++ own (D ++ (c :: C) ++ A ++ [r]) ++ arr y ++ own R) (looks (D ++ (c :: C) ++ A ++ [r]) ++ looks R)); [exact Hok1|rewrite !app_assoc; reflexivity|apply incl_refl|].
          intro Hok2. eapply run_impl; [apply IH; auto|].
          -- cbn [length] in Hn. lia.
          -- rewrite <- app_assoc. cbn [app]. apply (layout_same m); [exact Hy|]. intros p Hp. apply Hs1. left. apply in_or_app. auto.
          -- apply (items_frame T_entry T_entry_frame m); [assumption|apply (same_incl _ _ _ _ _ _ Hs1); inc].
          -- intros x2 m2 W2 F2 _ _ (L' & K1 & K2 & K3). exists L'. split; [exact K1|]. split; [|exact K3]. rewrite K2.
             assert (merge_news_loop change (xs (c :: C)) (xs (r :: R)) =
               (fst (merge_news_loop change (xs (c :: C)) (xs R)), it_x r :: snd (merge_news_loop change (xs (c :: C)) (xs R)))) as ->.
             { cbn [map]. destruct (it_x c) as [ci cms], (it_x r) as [ri rms]. cbn [fst snd] in *.
               change (merge_news_loop change ((ci, cms) :: xs C) ((ri, rms) :: xs R)) with
                 (match bcompare ci ri with
                  | Eq => let (u, n) := merge_news_loop change (xs C) (xs R) in ((ci, cms ++ firstn 1 rms) :: u, n)
                  | Lt => let (u, n) := merge_news_loop change (xs C) ((ri, rms) :: xs R) in ((ci, cms ++ [tombstone_stage change]) :: u, n)
                  | Gt => let (u, n) := merge_news_loop change ((ci, cms) :: xs C) (xs R) in (u, (ri, rms) :: n)
                  end).
               rewrite Ecmp. destruct (merge_news_loop change ((ci, cms) :: xs C) (xs R)) as [u n]. reflexivity. }
             cbn [fst snd]. rewrite map_app, <- app_assoc. reflexivity.
  Qed.

  Lemma merge_ids_run grow change m x L y R :
    eslice m x L -> eslice m y R -> Forall (fun e => length (snd e) = 1) (xs R) ->
    ok m (arr x ++ own L ++ arr y ++ own R) (looks L ++ looks R) ->
    run (arr x ++ own L ++ arr y ++ own R) (looks L ++ looks R) (merge_ids_in_memory grow x y change) m
      (fun x' m' W F => exists L', eslice m' x' L' /\ xs L' = merge_news (xs L) (xs R) change /\ W = arr x' ++ own L' /\ F = looks L').
  Proof.
    intros Hx [Hy HR] H1 Hok. unfold merge_ids_in_memory. eapply run_read; [exact (layout_len _ _ _ (proj1 Hx))|].
    eapply run_read; [exact (layout_len _ _ _ Hy)|]. rewrite !map_length.
    eapply run_bind.
    { pose proof (merge_news_run grow change y (length L + length R) L R [] [] [] m x (le_n _)) as K. cbn [app length plus] in K.
      rewrite app_nil_r in K. exact (K Hx Hy HR H1 Hok). }
    intros x' m1 W1 F1 _ Hok1 (L' & Hx' & Ex & -> & ->). cbn [map app] in Ex.
    eapply run_bind; [exact (sort_run m1 x' L' Hx' Hok1)|]. intros ? m2 W2 F2 _ Hok2 (L2 & Hx2 & Ex2 & -> & ->).
    apply run_ret; [exact Hok2|]. exists L2. split; [exact Hx2|]. split; [|auto]. rewrite Ex2, Ex. unfold merge_news.
    destruct (merge_news_loop change (xs L) (xs R)) as [u n]. reflexivity.
  Qed.
End Stage.
