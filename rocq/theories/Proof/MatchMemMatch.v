(** Matching in memory: mapping rules, rollup rules, one point in time. *)
From Coq Require Import Ascii String Arith NArith ZArith Bool Lia Permutation List.
From Verif.Proof Require Import MemProof MemSep RuleMemCopy RuleMemRules RuleMemViews MatchMemSep MatchMemSlice MatchMemPm.
From Verif.Base Require Import Bytes Mem.
From Verif.Model Require Import AggType Policy Transformation Pipeline Metadata Filter MetricID Rules RuleSet
  RuleMem MatchMem.
From Verif.Spec Require Import RuleMemSpec MatchMemSpec.
Import ListNotations.
Open Scope nat_scope.

Ltac inc := let l := fresh "l" in intro l; rewrite ?flat_map_app; cbn [flat_map it_f it_w app]; rewrite ?flat_map_app; cbn [flat_map it_f it_w app]; rewrite ?in_app_iff; cbn [In]; tauto.
Ltac perm' := rewrite ?flat_map_app; cbn [flat_map it_f it_w app]; rewrite ?flat_map_app; cbn [flat_map it_f it_w app]; rewrite ?app_nil_r; perm.

Section Match.
  Context (m0 : memory) (G : list look) (HG : Forall (fun l => addr l < m_next m0) G).
  Context (g : globals) (Hg : globals_are m0 g G).
  Notation ok := (ok m0 G).
  Notation run := (run m0 G).
  Notation pslice := (slice frozen_pm).
  Notation pipes := (pipes g).

  (** * Choosing what to go on with *)

  Lemma ok_enter m W F Wd W2 F2 :
    ok m W F -> Permutation W (W2 ++ Wd) -> (forall l, In l F2 -> In l F \/ In (addr l) Wd \/ In l G) -> ok m W2 F2.
  Proof.
    intros (A & B & C & D) HP HF. pose proof (Permutation_NoDup HP B) as Hn.
    assert (forall p, In p W2 -> In p W) as H2 by (intros p Hp; apply (Permutation_in _ (Permutation_sym HP)), in_or_app; auto).
    assert (forall p, In p Wd -> In p W) as Hd by (intros p Hp; apply (Permutation_in _ (Permutation_sym HP)), in_or_app; auto).
    split; [exact A|]. split; [|split; [intros p Hp; exact (C p (H2 p Hp))|]].
    - clear - Hn. induction W2 as [|p W2 IH]; [constructor|]. cbn [app] in Hn. inversion Hn; subst. constructor; [|auto].
      intro K. apply H1. apply in_or_app. auto.
    - intros l Hl. destruct (HF l Hl) as [K|[K|K]].
      + destruct (D l K) as (D1 & D2 & D3). split; [exact D1|]. split; [exact D2|]. intro J. apply D3. auto.
      + pose proof (C _ (Hd _ K)). split; [lia|]. split; [left; lia|]. intro J. clear - Hn J K.
        induction W2 as [|p W2 IH]; [contradiction|]. cbn [app] in Hn. inversion Hn; subst. destruct J as [->|J]; [|auto].
        apply H1. apply in_or_app. auto.
      + pose proof (HG' m0 G HG l K). pose proof (proj1 A). split; [lia|]. split; [auto|]. intro J. specialize (C _ (H2 _ J)). lia.
  Qed.
  Lemma run_enter {X} W F Wd W2 F2 (e : prog X) m Q :
    ok m W F -> Permutation W (W2 ++ Wd) -> (forall l, In l F2 -> In l F \/ In (addr l) Wd \/ In l G) ->
    (ok m W2 F2 -> run W2 F2 e m Q) -> run W F e m Q.
  Proof.
    intros Hok HP HF K. destruct (K (ok_enter _ _ _ _ _ _ Hok HP HF)) as (x & m' & W' & F' & E & Hk & Ho & HW & HF' & HQ).
    assert (forall p, In p W2 -> In p W) as H2 by (intros p Hp; apply (Permutation_in _ (Permutation_sym HP)), in_or_app; auto).
    assert (forall p, In p Wd -> In p W) as Hd by (intros p Hp; apply (Permutation_in _ (Permutation_sym HP)), in_or_app; auto).
    exists x, m', W', F'. split; [exact E|]. split; [|split; [exact Ho|split; [|split; [|exact HQ]]]].
    - destruct Hk as [N H]. split; [exact N|]. intros p Hp Hn. apply H; auto.
    - intros p Hp. destruct (HW p Hp); auto.
    - intros l Hl. destruct (HF' l Hl) as [J|[J|J]]; auto. destruct (HF l J) as [J2|[J2|J2]]; auto.
  Qed.
  (** the same with nothing given up *)
  Lemma run_perm {X} W F W2 F2 (e : prog X) m Q :
    ok m W F -> Permutation W W2 -> incl F2 F -> (ok m W2 F2 -> run W2 F2 e m Q) -> run W F e m Q.
  Proof. intros Hok HP HF. apply (run_enter W F [] W2 F2); [exact Hok|rewrite app_nil_r; exact HP|auto]. Qed.
  (** a part of what is owned is used *)
  Lemma run_part {X} W F W2 F2 WW FF (e : prog X) m Q :
    ok m WW FF -> Permutation WW (W ++ W2) -> incl F FF -> incl F2 FF -> (ok m W F -> run W F e m Q) ->
    run WW FF e m (fun x m' W' F' => exists W1 F1, W' = W1 ++ W2 /\ F' = F1 ++ F2 /\ ok m' W1 F1 /\
      Q x m' W1 F1 /\ same m m' W2 F2).
  Proof.
    intros Hok HP HF HF2 K. apply (run_frame m0 G HG W F W2 F2).
    - apply K. apply (ok_enter m WW FF W2 W F Hok HP). auto.
    - exact Hok.
    - exact HP.
    - apply incl_app; assumption.
  Qed.

  (** * Rules that were there before *)

  Definition seen (v : val) (t : tree) : Prop := exists f, shows m0 v t f /\ below (m_next m0) f.
  Lemma seen_now v t m W F : seen v t -> ok m W F -> exists f, shows m v t f /\ below (m_next m) f.
  Proof.
    intros (f & Hs & Hb) (Ho & _). exists f. split; [exact (shows_old _ _ _ _ _ Ho Hb Hs)|].
    exact (below_old _ _ _ Hb (proj1 Ho)).
  Qed.
  Lemma seen_list ts v : seen v (TList ts) -> exists vs, (forall m, old m0 m -> elems v m = Some (vs, m)) /\ Forall2 seen vs ts.
  Proof.
    intros (f & Hs & Hb). destruct (elems_shows _ _ _ _ Hs) as (vs & h & E & Hvs & Hi). exists vs. split.
    - intros m Ho. destruct (elems_shows _ _ _ _ (shows_old _ _ _ _ _ Ho Hb Hs)) as (vs' & h' & E' & _).
      inversion Hs; subst; cbn [elems] in E, E' |- *.
      + injection E as <-. reflexivity.
      + assert (m_at m a = m_at m0 a) as Ea by (apply (proj2 Ho); inversion Hb; assumption).
        rewrite Ea. destruct (off + len <=? length (m_at m0 a)); [|discriminate]. injection E as <-. reflexivity.
    - pose proof (below_incl _ _ _ Hb Hi) as Hbh. clear - Hvs Hbh. induction Hvs as [|v t f vs ts fs H1 H2 IH]; constructor.
      + apply below_app in Hbh. exists f. split; [exact H1|]. apply Hbh.
      + apply IH. apply below_app in Hbh. apply Hbh.
  Qed.
  Lemma seen_fields ts v : seen v (TRef ts) -> exists p, v = VPtr p /\ (forall m, old m0 m -> m_at m p = m_at m0 p) /\ Forall2 seen (m_at m0 p) ts.
  Proof.
    intros (f & Hs & Hb). inversion Hs as [| | |p ts' f' Hall|]; subst. exists p. split; [reflexivity|]. inversion Hb; subst. split.
    - intros m Ho. apply (proj2 Ho). assumption.
    - clear - Hall H2. induction Hall as [|v t f vs ts fs K1 K2 IH]; constructor.
      + apply below_app in H2. exists f. split; [exact K1|]. apply H2.
      + apply IH. apply below_app in H2. apply H2.
  Qed.
  Lemma seen_struct ts v : seen v (TStruct ts) -> exists vs, v = VStruct vs /\ Forall2 seen vs ts.
  Proof.
    intros (f & Hs & Hb). inversion Hs as [| |l ts' f' Hall| |]; subst. exists l. split; [reflexivity|].
    clear Hs. induction Hall as [|v t f vs ts fs K1 K2 IH]; constructor.
    - apply below_app in Hb. exists f. split; [exact K1|]. apply Hb.
    - apply IH. apply below_app in Hb. apply Hb.
  Qed.
  Lemma seen_atom a v : seen v (TAtom a) -> v = VAtom a.
  Proof. intros (f & Hs & _). inversion Hs. reflexivity. Qed.

  Ltac inv2 := repeat match goal with
    | H : Forall2 _ _ (_ :: _) |- _ => inversion H; clear H; subst
    | H : Forall2 _ _ [] |- _ => inversion H; clear H; subst
    | H : seen _ (TAtom _) |- _ => apply seen_atom in H; subst
    end.

  Section Kind.
    Context {P : Type} (tb : P -> tree).
    Definition snapshot_cells (s : snapshot P) (c : list val) : Prop :=
      exists body, c = [VStr (sn_name s); VBool (sn_tomb s); VInt (sn_cutover s); VAtom (AFilter (sn_filter s)); VStr (sn_raw s);
                        body; VInt (sn_at s); VStr (sn_by s)] /\ seen body (tb (sn_body s)).
    Lemma snapshot_deref m v s : old m0 m -> seen v (t_snapshot tb s) -> exists c, deref v m = Some (c, m) /\ snapshot_cells s c.
    Proof.
      intros Ho H. destruct (seen_fields _ _ H) as (p & -> & E & Hf). cbn [deref]. rewrite (E m Ho). exists (m_at m0 p).
      split; [reflexivity|]. revert Hf. generalize (m_at m0 p) as c. intros c Hf. flat. inv2. eexists. split; [reflexivity|assumption].
    Qed.
    Lemma active_snapshot_ok m v r t : old m0 m -> seen v (t_rule tb r) ->
      exists o, active_snapshot_of v t m = Some (o, m) /\
        match o, active_snapshot r t with
        | None, None => True | Some c, Some s => snapshot_cells s c | _, _ => False
        end.
    Proof.
      intros Ho H. destruct (seen_fields _ _ H) as (p & -> & E & Hf). unfold active_snapshot_of, bind. cbn [deref].
      rewrite (E m Ho). revert Hf. generalize (m_at m0 p) as c. intros c Hf. flat. inv2.
      match goal with K : seen _ (TList _) |- _ => destruct (seen_list _ _ K) as (vs & El & Hvs) end.
      rewrite (El m Ho).
      assert (exists F, shows_all m vs (map (t_snapshot tb) (ru_snapshots r)) F) as (F & Hall).
      { clear - Hvs Ho. induction Hvs as [|v t vs ts (f & Hs & Hb) _ (F & IH)]; [exists []; constructor|].
        exists (f ++ F). constructor; [|exact IH]. exact (shows_old _ _ _ _ _ Ho Hb Hs). }
      assert (length vs = length (ru_snapshots r)) as Ln by (rewrite (shows_all_length _ _ _ _ Hall), map_length; reflexivity).
      rewrite Ln, (active_index_ok tb m vs _ F t Hall _ (le_n _)). unfold active_snapshot, active_index.
      destruct (active_index_from _ _ t) as [i|] eqn:Ei.
      - pose proof (active_index_lt _ _ _ _ Ei) as Hi. destruct (nth_error (ru_snapshots r) i) as [s|] eqn:Es.
        2:{ apply nth_error_None in Es. lia. }
        assert (exists w, nth_error vs i = Some w /\ seen w (t_snapshot tb s)) as (w & Ew & Hw).
        { clear - Hvs Es. revert i Es. remember (map (t_snapshot tb) (ru_snapshots r)) as ts eqn:Et. generalize dependent (ru_snapshots r).
          induction Hvs as [|v t vs ts H1 H2 IH]; intros l Et i Es; destruct l as [|x l]; try discriminate.
          - destruct i; discriminate.
          - injection Et as -> ->. destruct i as [|i]; [injection Es as ->; exists v; auto|]. exact (IH l eq_refl i Es). }
        rewrite Ew. destruct (snapshot_deref m w s Ho Hw) as (c' & Ec & Hc). unfold bind. rewrite Ec. exists (Some c'). split; [reflexivity|exact Hc].
      - exists None. split; [reflexivity|exact I].
    Qed.

    Lemma match_run {X} (f : X -> val -> prog X) (I : X -> list (snapshot P) -> memory -> list nat -> list look -> Prop) id t :
      (forall acc ss s body m W F, I acc ss m W F -> ok m W F -> seen body (tb (sn_body s)) ->
         run W F (f acc body) m (fun acc' m' W' F' => I acc' (ss ++ [s]) m' W' F')) ->
      forall rs vs, Forall2 seen vs (map (t_rule tb) rs) ->
      forall cutover acc ss m W F, I acc ss m W F -> ok m W F ->
        run W F (match_in_memory f vs id t cutover acc) m
          (fun r m' W' F' => fst r = fst (match_rules rs id t cutover) /\
                             I (snd r) (ss ++ snd (match_rules rs id t cutover)) m' W' F').
    Proof.
      intro Hf. induction rs as [|r rs IH]; intros vs Hvs cutover acc ss m W F HI Hok; cbn [map] in Hvs; inversion Hvs; subst;
        cbn [match_in_memory match_rules].
      - apply run_ret; [exact Hok|]. cbn [fst snd]. rewrite app_nil_r. auto.
      - match goal with K : seen _ (t_rule tb r) |- _ => destruct (active_snapshot_ok m _ r t (proj1 Hok) K) as (o & Eo & Ho) end.
        eapply run_read; [exact Eo|].
        match goal with K : Forall2 seen _ (map (t_rule tb) rs) |- _ => specialize (IH _ K) end.
        destruct o as [c|], (active_snapshot r t) as [s|]; try contradiction; [|apply IH; assumption].
        destruct Ho as (body & -> & Hb). unfold VStr, VBool, VInt.
        change (match sn_filter s with Some fl => tags_matches fl id | None => false end) with (snapshot_matches s id).
        replace (if match sn_filter s with Some fl => tags_matches fl id | None => false end then _ else _) with
          (if snapshot_matches s id then
            let cutover' := if (cutover <? sn_cutover s)%Z then sn_cutover s else cutover in
            if sn_tomb s then match_in_memory f l id t cutover' acc
            else bind (f acc body) (fun acc' => match_in_memory f l id t cutover' acc')
           else match_in_memory f l id t cutover acc) by reflexivity.
        destruct (snapshot_matches s id); [|apply IH; assumption]. cbv zeta.
        destruct (sn_tomb s); [apply IH; assumption|].
        eapply run_bind; [exact (Hf _ _ _ _ _ _ _ HI Hok Hb)|]. intros acc' m1 W1 F1 _ Hok1 HI1.
        eapply run_impl; [apply (IH _ _ (ss ++ [s])); assumption|]. intros q m2 W2 F2 _ _ (E1 & E2).
        destruct (match_rules rs id t _) as [c' ss']. cbn [fst snd] in *. split; [exact E1|]. rewrite <- app_assoc in E2. exact E2.
    Qed.
  End Kind.

  (** * Mapping rules *)

  Definition mapped (acc : val) (ss : list (snapshot mapping_body)) (m : memory) (W : list nat) (F : list look) : Prop :=
    exists L, pslice m acc L /\ xs L = map mapping_pipeline ss /\ W = arr acc ++ own L /\ F = looks L.

  Lemma take_mapping_run grow acc ss s body m W F :
    mapped acc ss m W F -> ok m W F -> seen body (t_mbody (sn_body s)) ->
    run W F (take_mapping grow acc body) m (fun acc' m' W' F' => mapped acc' (ss ++ [s]) m' W' F').
  Proof.
    intros (L & Hs & Ex & -> & ->) Hok Hb. destruct (seen_struct _ _ Hb) as (vs & -> & Hf). flat. inv2. cbn [take_mapping].
    match goal with K : seen _ (t_sps _) |- _ => destruct (seen_now _ _ m _ _ K Hok) as (fs & Hsp & Hbl) end.
    eapply run_bind; [exact (run_shown m0 G _ _ _ _ _ Hok (sps_copy_shown _ _ _ _ Hsp Hbl))|].
    intros sps' m1 W1 F1 _ Hok1 (f & -> & -> & Ho & Hsh).
    set (i := mk_it (VStruct [VAtom (AId (mb_agg (sn_body s))); sps'; VNil; VAtom (AInt (mb_drop (sn_body s)))]) (mapping_pipeline s) [] f).
    assert (frozen_pm m1 i) as Hi.
    { split; [reflexivity|]. cbn [i it_v it_x it_f]. unfold t_pm, mapping_pipeline. cbn [pm_agg pm_sps pm_pipeline pm_drop map]. flat.
      constructor. replace f with ([] ++ f ++ [] ++ [] ++ []) by (rewrite !app_nil_r; reflexivity). repeat constructor. exact Hsh. }
    assert (pslice m1 acc L) as Hs1.
    { apply (slice_frame frozen_pm (frozen_frame t_pm) m); [exact Hs|]. exact (old_same m0 G _ _ _ _ Hok Ho). }
    eapply (run_perm _ _ (arr acc ++ own (L ++ [i])) (looks (L ++ [i]))); [exact Hok1|perm'|inc|].
    intro Hok2. eapply run_impl; [exact (append_run m0 G frozen_pm (frozen_frame t_pm) grow m1 acc L i Hs1 Hi Hok2)|].
    intros s2 m2 W2 F2 _ _ (H1 & -> & ->). exists (L ++ [i]). split; [exact H1|]. split; [|auto].
    rewrite !map_app, Ex. reflexivity.
  Qed.

  Lemma applied_op_copy_shown o v f m : shows m v (t_applied_op o) f -> below (m_next m) f ->
    makes (applied_op_copy v) m (shown m (t_applied_op (applied_op_clone o))).
  Proof.
    unfold t_applied_op at 1. intros H Hb. inv_shows. cbn [applied_op_copy].
    repeat match goal with H : below _ (_ ++ _) |- _ => apply below_app in H; destruct H end.
    unfold t_applied_op, applied_op_clone. cbn [ao_kind ao_tf ao_rollup].
    destruct (ao_kind o =? RollupOp)%Z eqn:E.
    - match goal with H : shows m ?v (t_bytes _) ?g |- _ =>
        eapply makes_bind; [apply (bytes_copy_shown _ v g m H); assumption|] end.
      intros id' m3 Ho3 Hid. apply makes_ret. cbn [ar_id ar_agg]. flat.
      apply Z.eqb_eq in E. rewrite E. cbn [Z.eqb Pos.eqb RollupOp TransformationOp].
      repeat (apply struct_shown || apply all_shown_cons || apply all_shown_nil || apply atom_shown || assumption).
    - apply makes_ret. cbn [ar_id ar_agg empty_applied_rollup]. flat. unfold t_bytes. cbn [map].
      destruct (ao_kind o =? TransformationOp)%Z;
      repeat (apply struct_shown || apply all_shown_cons || apply all_shown_nil || apply atom_shown || apply nil_shown || assumption).
  Qed.
  Lemma pms_copy_shown p v f m : shows m v (t_pm p) f -> below (m_next m) f -> makes (pm_copy v) m (shown m (t_pm (pm_clone p))).
  Proof.
    unfold t_pm at 1. intros H Hb. inv_shows. cbn [pm_copy].
    repeat match goal with H : below _ (_ ++ _) |- _ => apply below_app in H; destruct H end.
    match goal with H : shows m ?v (t_sps _) ?g |- _ =>
      eapply makes_bind; [apply (sps_copy_shown _ v g m H); assumption|] end.
    intros s' m1 Ho1 Hs.
    match goal with H : shows m ?v (TList (map t_applied_op _)) ?g, Hb : below _ ?g |- _ =>
      pose proof (shows_old _ _ _ _ _ Ho1 Hb H) as K1; pose proof (below_old _ _ _ Hb (proj1 Ho1)) as K2 end.
    eapply makes_bind; [eapply (copy_slice_shown _ t_applied_op (fun o => t_applied_op (applied_op_clone o)) (pm_pipeline p)); [|exact K1|exact K2]|].
    { intros x w h m2 _ Hw Hbw. exact (applied_op_copy_shown x w h m2 Hw Hbw). }
    intros o' m2 Ho2 Hops. apply makes_ret. unfold t_pm, pm_clone. cbn [pm_agg pm_sps pm_pipeline pm_drop].
    unfold applied_clone. rewrite map_map. apply struct_shown. pose proof (shown_later _ _ _ _ _ Ho1 Ho2 Hs).
    pose proof (shown_earlier _ _ _ _ _ Ho1 Hops). all_atoms.
  Qed.

  Lemma default_copy_run m W F : ok m W F ->
    run W F (copy_slice pm_copy (g_default g)) m
      (fun v m' W' F' => pipes m' v (pms_clone [default_pipeline_metadata]) W' F').
  Proof.
    intro Hok. apply (run_enter W F W [] []); [exact Hok|reflexivity|intros l []|]. clear Hok. intro Hok.
    destruct (default_shows m0 G HG g Hg m _ _ Hok) as (a & b & f & _ & Hs & Hi). unfold copy_slice.
    destruct (elems_shows _ _ _ _ Hs) as (vs & h & El & Hvs & Hih). eapply run_read; [exact El|].
    assert (below (m_next m) h) as Hbh.
    { apply Forall_forall. intros l Hl. pose proof (HG' m0 G HG l (Hi l (Hih l Hl))). pose proof (proj1 (proj1 Hok)). lia. }
    destruct (each_copy pm_copy t_pm (fun p => t_pm (pm_clone p)) [default_pipeline_metadata]
      (fun x v f m _ H1 H2 => pms_copy_shown x v f m H1 H2) vs h m Hvs Hbh) as (ws & m1 & E & Ho & fw & Hw & Hwi).
    rewrite <- (map_map pm_clone t_pm) in Hw. destruct (shows_items t_pm m1 _ _ _ Hw) as (L & EL & EX & HL & EF).
    eapply run_bind with (Q1 := fun x m' W' F' => x = ws /\ m' = m1 /\ W' = [] /\ F' = fw).
    { exists ws, m1, [], fw. split; [exact E|]. split; [exact (old_kept _ _ _ Ho)|].
      split; [exact (ok_fresh m0 G _ _ _ [] _ Hok Ho Hwi)|]. split; [auto|]. split; [|auto].
      intros l Hl. right. right. left. exact (proj1 (proj1 (Forall_forall _ _) Hwi l Hl)). }
    intros x m2 W2 F2 _ Hok2 (-> & -> & -> & ->). rewrite <- EL.
    pose proof (frozen_own t_pm m1 L HL) as Eo.
    apply (run_perm _ _ (own L) (looks L)); [exact Hok2|rewrite Eo; reflexivity|rewrite EF; apply incl_refl|]. intro Hok3.
    eapply run_impl; [exact (make_slice_run m0 G frozen_pm (frozen_frame t_pm) m1 L HL Hok3)|].
    intros v m3 W3 F3 _ _ (H1 & -> & ->). left. exists L. auto.
  Qed.

  Lemma pipes_len m v ps W F : pipes m v ps W F -> ok m W F -> slice_len v m = Some (length ps, m).
  Proof.
    intros [(L & [Hl _] & <- & _)|(-> & -> & _)] Hok.
    - rewrite (layout_len _ _ _ Hl), !map_length. reflexivity.
    - destruct (drop_shows m0 G HG g Hg m _ _ Hok) as (a & b & f & -> & _). reflexivity.
  Qed.

  Lemma mappings_run grow x a id t m :
    seen (ma_mapping x) (t_rules t_mbody (as_mapping a)) -> ok m [] [] ->
    run [] [] (mappings_in_memory g grow x id t) m
      (fun r m' W F => fst r = rm_cutover (mappings_for_non_rollup_id a id t) /\
                       pipes m' (snd r) (rm_pipelines (mappings_for_non_rollup_id a id t)) W F).
  Proof.
    intros Hseen Hok. unfold mappings_in_memory, mappings_for_non_rollup_id.
    destruct (seen_list _ _ Hseen) as (vs & El & Hvs). eapply run_read; [exact (El m (proj1 Hok))|].
    eapply run_bind.
    { apply (match_run t_mbody (take_mapping grow) mapped id t (take_mapping_run grow) _ _ Hvs 0%Z VNil [] m [] []); [|exact Hok].
      exists []. repeat split; constructor. }
    intros r m1 W1 F1 _ Hok1 (E1 & L & Hs & Ex & -> & ->). cbn [app] in Ex.
    destruct (match_rules (as_mapping a) id t 0) as [cutover ss]. cbn [fst snd] in *.
    eapply run_bind; [exact (drop_in_place_run m0 G g m1 (snd r) L Hs Hok1)|].
    intros d m2 W2 F2 _ Hok2 (_ & Hd). rewrite Ex in Hd. cbn [rm_cutover rm_pipelines].
    set (ps := fst (pms_apply_drop (map mapping_pipeline ss))) in *.
    assert (pipes m2 (fst d) ps W2 F2) as Hp.
    { destruct Hd as [(_ & E2 & E3 & -> & ->)|(_ & L' & H1 & H2 & -> & ->)]; [right; auto|left; exists L'; auto]. }
    eapply run_read; [exact (pipes_len _ _ _ _ _ Hp Hok2)|]. destruct ps as [|p ps'] eqn:Eps; cbn [length Nat.eqb].
    - eapply run_bind; [exact (default_copy_run m2 W2 F2 Hok2)|]. intros v m3 W3 F3 _ Hok3 H3.
      apply run_ret; [exact Hok3|]. cbn [fst snd]. auto.
    - apply run_ret; [exact Hok2|]. cbn [fst snd]. auto.
  Qed.

  (** * Rollup rules *)

  Notation frozen_target := (frozen t_target).
  Definition targeted (acc : list val) (ss : list (snapshot (list target))) (m : memory) (W : list nat) (F : list look) : Prop :=
    exists L, vals L = acc /\ xs L = flat_map (fun s => map target_clone (sn_body s)) ss /\ Forall (frozen_target m) L /\
              W = [] /\ F = looks L.

  Lemma take_targets_run acc ss s body m W F :
    targeted acc ss m W F -> ok m W F -> seen body (t_rbody (sn_body s)) ->
    run W F (take_targets acc body) m (fun acc' m' W' F' => targeted acc' (ss ++ [s]) m' W' F').
  Proof.
    intros (L & <- & Ex & Hf & -> & ->) Hok Hb. unfold take_targets. destruct (seen_now _ _ _ _ _ Hb Hok) as (f & Hs & Hbl).
    destruct (elems_shows _ _ _ _ Hs) as (vs & h & El & Hvs & Hi). eapply run_read; [exact El|].
    destruct (each_copy target_copy t_target (fun t => t_target (target_clone t)) (sn_body s)
      (fun x v f m _ H1 H2 => target_copy_shown x v f m H1 H2) vs h m Hvs (below_incl _ _ _ Hbl Hi)) as (ws & m1 & E & Ho & fw & Hw & Hwi).
    rewrite <- (map_map target_clone t_target) in Hw. destruct (shows_items t_target m1 _ _ _ Hw) as (L2 & EL & EX & HL & EF).
    exists (vals L ++ ws), m1, [], (looks L ++ fw). split; [unfold bind; rewrite E; reflexivity|].
    split; [exact (old_kept _ _ _ Ho)|]. split; [exact (ok_fresh m0 G _ _ _ _ _ Hok Ho Hwi)|]. split; [auto|]. split.
    - intros l Hl. apply in_app_or in Hl. destruct Hl as [Hl|Hl]; [auto|]. right. right. left.
      exact (proj1 (proj1 (Forall_forall _ _) Hwi l Hl)).
    - exists (L ++ L2). rewrite !map_app, flat_map_app, flat_map_app, EL, EX, EF, Ex. cbn [flat_map]. rewrite app_nil_r.
      split; [reflexivity|]. split; [reflexivity|]. split; [|auto]. apply Forall_app. split; [|exact HL].
      apply (items_frame (frozen t_target) (frozen_frame t_target) m); [exact Hf|].
      apply (same_incl _ _ [] (looks L)); [exact (old_same m0 G _ _ _ _ Hok Ho)| |apply incl_refl].
      rewrite (frozen_own _ _ _ Hf). apply incl_refl.
  Qed.

  Definition T_new (m : memory) (i : item (bytes * pipeline_metadata)) : Prop :=
    exists id ps f1 j, it_v i = VStruct [id; ps] /\ shows m id (t_bytes (fst (it_x i))) f1 /\ pslice m ps [j] /\
      it_x j = snd (it_x i) /\ it_w i = arr ps /\ it_f i = f1 ++ it_f j.
  Lemma T_new_frame m m' i : T_new m i -> same m m' (it_w i) (it_f i) -> T_new m' i.
  Proof.
    intros (id & ps & f1 & j & E1 & E2 & E3 & E4 & E5 & E6) Hs. exists id, ps, f1, j. split; [exact E1|]. split; [|split; [|auto]].
    - apply (same_shows m m' [] f1); [|exact E2]. apply (same_incl _ _ _ _ _ _ Hs); [intros p []|rewrite E6; inc].
    - apply (slice_frame frozen_pm (frozen_frame t_pm) m); [exact E3|]. rewrite (frozen_own _ _ _ (proj2 E3)), app_nil_r.
      apply (same_incl _ _ _ _ _ _ Hs); [rewrite E5; apply incl_refl|rewrite E6; cbn [flat_map]; rewrite app_nil_r; inc].
  Qed.
  Notation pair_value := (fun e : val * val => VStruct [fst e; snd e]).

  Lemma new_bytes_shown s m : makes (new_bytes s) m (shown m (t_bytes s)).
  Proof.
    unfold new_bytes, t_bytes. eapply makes_impl; [apply (make_slice_shown m m (map (fun c => TAtom (AByte c)) s)); [apply old_refl|]|auto].
    exists []. split; [|constructor]. induction s; cbn [map]; [constructor|].
    change (@nil look) with (@nil look ++ []). constructor; [constructor|assumption].
  Qed.
  Lemma new_applied_shown p m : makes (new_applied p) m (shown m (TList (map t_applied_op p))).
  Proof.
    unfold new_applied. eapply makes_bind.
    { apply (each_new _ t_applied_op). intros o m1. eapply makes_bind; [apply new_bytes_shown|]. intros id m2 Ho Hid.
      apply makes_ret. unfold t_applied_op. flat.
      repeat (apply struct_shown || apply all_shown_cons || apply all_shown_nil || apply atom_shown || assumption). }
    intros l m1 Ho Hl. apply make_slice_shown; assumption.
  Qed.

  Lemma apply_target_ext a b section t : as_opts a = as_opts b -> as_new_id a = as_new_id b -> apply_target a section t = apply_target b section t.
  Proof. destruct a as [? ? ? ? o1 n1 ?], b as [? ? ? ? o2 n2 ?]. cbn [as_opts as_new_id]. intros -> ->. reflexivity. Qed.
  Lemma apply_target_sps a section t o pm : apply_target a section t = Some (o, pm) -> pm_sps pm = tg_sps t /\ pm_drop pm = DropNone.
  Proof.
    unfold apply_target. destruct (tg_pipeline t) as [|first rest]; [discriminate|]. cbv zeta.
    destruct (op_kind first =? AggregationOp)%Z.
    { destruct (compress_types [op_agg first]) as [agg [|]]; [discriminate|]. destruct (apply_id_to_pipeline a section rest); [|discriminate].
      intro H. injection H as <- <-. auto. }
    destruct (op_kind first =? TransformationOp)%Z.
    { destruct (apply_id_to_pipeline a section (first :: rest)); [|discriminate]. intro H. injection H as <- <-. auto. }
    destruct (op_kind first =? RollupOp)%Z; [|discriminate]. destruct (match_rollup_target a section (op_rollup first)); [|discriminate].
    destruct (apply_id_to_pipeline a section rest); [|discriminate]. intro H. injection H as <- <-. auto.
  Qed.

  Definition target_results (a : active_ruleset) (section : bytes) (ts : list target) : list (option bytes * pipeline_metadata) :=
    flat_map (fun tg => match apply_target a section tg with None => [] | Some r => [r] end) ts.
  Definition new_pairs (rs : list (option bytes * pipeline_metadata)) : list (bytes * pipeline_metadata) :=
    flat_map (fun r => match fst r with None => [] | Some id => [(id, snd r)] end) rs.

  Lemma apply_targets_run grow x a section : as_opts a = ma_opts x -> as_new_id a = ma_new_id x ->
    forall TL m P LP news N,
    Forall (frozen_target m) TL -> pslice m P LP -> Forall (T_new m) N -> map pair_value news = vals N ->
    ok m (arr P ++ own LP ++ own N) (looks LP ++ looks N ++ looks TL) ->
    run (arr P ++ own LP ++ own N) (looks LP ++ looks N ++ looks TL) (apply_targets grow x section (vals TL) P news) m
      (fun r m' W F => exists LP' N', pslice m' (fst r) LP' /\ Forall (T_new m') N' /\ map pair_value (snd r) = vals N' /\
         xs LP' = xs LP ++ own_results (target_results a section (xs TL)) /\
         xs N' = xs N ++ new_pairs (target_results a section (xs TL)) /\
         W = arr (fst r) ++ own LP' ++ own N' /\ F = looks LP' ++ looks N').
  Proof.
    intros Eopts Enew. induction TL as [|tl TL IH]; intros m P LP news N HTL HP HN En Hok; cbn [map apply_targets].
    - apply (run_perm _ _ (arr P ++ own LP ++ own N) (looks LP ++ looks N)); [exact Hok|reflexivity|inc|]. intro Hok2.
      apply run_ret; [exact Hok2|]. cbn [fst snd]. exists LP, N.
      unfold target_results, own_results, new_pairs. cbn [flat_map]. rewrite !app_nil_r. auto 10.
    - inversion HTL as [|? ? [Hw Hsh] HTL']; subst. eapply run_read; [exact (read_target_ok _ _ _ _ Hsh)|].
      rewrite (apply_target_ext (without_rules x) a) by (symmetry; assumption).
      unfold target_results in *. cbn [flat_map]. destruct (apply_target a section (it_x tl)) as [[o pm]|] eqn:Eat.
      2:{ cbn [app]. apply (run_perm _ _ (arr P ++ own LP ++ own N) (looks LP ++ looks N ++ looks TL)); [exact Hok|reflexivity|inc|].
          intro Hok2. apply IH; assumption. }
      destruct (apply_target_sps _ _ _ _ _ Eat) as [Esps Edrop].
      destruct tl as [tv tt tw tf]. cbn [it_v it_x it_w it_f] in *. subst tw. unfold t_target in Hsh. inv_shows.
      match goal with K : shows m ?v (t_sps (tg_sps tt)) ?f |- _ => rename v into sps, f into fs; rename K into Hsps end.
      eapply run_bind; [exact (run_shown m0 G _ _ _ _ _ Hok (new_applied_shown (pm_pipeline pm) m))|].
      intros ops m1 W1 F1 _ Hok1 (fo & -> & -> & Ho & Hops). cbv zeta.
      assert (same m m1 (arr P ++ own LP ++ own N) (looks LP ++ looks N ++ looks (mk_it (VStruct [v; sps]) tt [] (f ++ fs ++ []) :: TL))) as Hsame
        by exact (old_same m0 G _ _ _ _ Hok Ho).
      assert (pslice m1 P LP) as HP1.
      { apply (slice_frame frozen_pm (frozen_frame t_pm) m); [exact HP|]. apply (same_incl _ _ _ _ _ _ Hsame); inc. }
      assert (Forall (T_new m1) N) as HN1.
      { apply (items_frame T_new T_new_frame m); [exact HN|]. apply (same_incl _ _ _ _ _ _ Hsame); inc. }
      assert (Forall (frozen_target m1) TL) as HTL1.
      { apply (items_frame (frozen t_target) (frozen_frame t_target) m); [exact HTL'|].
        apply (same_incl _ _ _ _ _ _ Hsame); [rewrite (frozen_own _ _ _ HTL'); intros p []|]. inc. }
      assert (shows m1 sps (t_sps (tg_sps tt)) fs) as Hsps1.
      { apply (same_shows m m1 [] fs); [|exact Hsps]. apply (same_incl _ _ _ _ _ _ Hsame); [intros p []|inc]. }
      set (pv := VStruct [VAtom (AId (pm_agg pm)); sps; ops; VInt (pm_drop pm)]).
      set (i := mk_it pv pm [] (fs ++ fo)).
      assert (frozen_pm m1 i) as Hi.
      { split; [reflexivity|]. cbn [i it_v it_x it_f]. unfold t_pm, pv. rewrite Esps. flat. constructor.
        replace (fs ++ fo) with ([] ++ fs ++ fo ++ [] ++ []) by (cbn [app]; rewrite app_nil_r; reflexivity).
        repeat (constructor; try assumption). }
      destruct o as [nid|].
      + eapply run_bind; [exact (run_shown m0 G _ _ _ _ _ Hok1 (new_bytes_shown nid m1))|].
        intros idv m2 W2 F2 _ Hok2 (fi & -> & -> & Ho2 & Hid).
        pose proof (old_same m0 G _ _ _ _ Hok1 Ho2) as Hsame2.
        set (FF := (looks LP ++ looks N ++ looks (mk_it (VStruct [v; sps]) tt [] (f ++ fs ++ []) :: TL)) ++ fo) in *.
        assert (incl fs FF) as Hfs by (unfold FF; inc).
        assert (incl fo FF) as Hfo by (unfold FF; inc).
        assert (frozen_pm m2 i) as Hi2.
        { apply (frozen_frame t_pm m1); [exact Hi|]. apply (same_incl _ _ _ _ _ _ Hsame2); [intros p []|]. cbn [i it_f].
          apply incl_app; assumption. }
        eapply run_bind.
        { apply (run_part (own [i]) (looks [i]) (arr P ++ own LP ++ own N) (looks LP ++ looks N ++ looks TL ++ fi)); [exact Hok2| | | |].
          - unfold i. perm'.
          - unfold FF, i. inc.
          - unfold FF, i. inc.
          - intro Hok3. apply (make_slice_run m0 G frozen_pm (frozen_frame t_pm) m2 [i]); [constructor; [exact Hi2|constructor]|exact Hok3]. }
        intros ps m3 W3 F3 _ Hok3 (Wp & Fp & -> & -> & _ & (Hps & -> & ->) & Hsame3).
        set (ni := mk_it (VStruct [idv; ps]) (nid, pm) (arr ps) (fi ++ it_f i)).
        assert (T_new m3 ni) as Hni.
        { exists idv, ps, fi, i. split; [reflexivity|]. split; [|split; [exact Hps|auto]].
          apply (same_shows m2 m3 [] fi); [|exact Hid]. apply (same_incl _ _ _ _ _ _ Hsame3); [intros p []|inc]. }
        assert (same m1 m3 (arr P ++ own LP ++ own N) (looks LP ++ looks N ++ looks TL)) as Hsame13.
        { intros p Hp. rewrite (Hsame3 p), (Hsame2 p); [reflexivity| |].
          - destruct Hp as [Hp|Hp]; [left; exact Hp|right]. rewrite in_map_iff in *. destruct Hp as (l & E & Hl). exists l. split; [exact E|].
            revert Hl. unfold FF. cbn [flat_map]. rewrite !in_app_iff. tauto.
          - destruct Hp as [Hp|Hp]; [left; exact Hp|right]. rewrite in_map_iff in *. destruct Hp as (l & E & Hl). exists l. split; [exact E|].
            revert Hl. rewrite !in_app_iff. tauto. }
        apply (run_perm _ _ (arr P ++ own LP ++ own (N ++ [ni])) (looks LP ++ looks (N ++ [ni]) ++ looks TL)); [exact Hok3| | |].
        { unfold ni, i. perm'. }
        { unfold ni, i. inc. }
        intro Hok4. eapply run_impl; [apply (IH m3 P LP (news ++ [(idv, ps)]) (N ++ [ni]))|].
        * apply (items_frame (frozen t_target) (frozen_frame t_target) m1); [exact HTL1|].
          apply (same_incl _ _ _ _ _ _ Hsame13); [rewrite (frozen_own _ _ _ HTL1); intros p []|inc].
        * apply (slice_frame frozen_pm (frozen_frame t_pm) m1); [exact HP1|]. apply (same_incl _ _ _ _ _ _ Hsame13); inc.
        * apply Forall_app. split; [|constructor; [exact Hni|constructor]].
          apply (items_frame T_new T_new_frame m1); [exact HN1|]. apply (same_incl _ _ _ _ _ _ Hsame13); inc.
        * rewrite !map_app, En. reflexivity.
        * exact Hok4.
        * intros r m4 W4 F4 _ _ (LP' & N' & A1 & A2 & A3 & A4 & A5 & A6 & A7). exists LP', N'.
          split; [exact A1|]. split; [exact A2|]. split; [exact A3|]. split; [exact A4|]. split; [|auto].
          rewrite A5, map_app, <- app_assoc. reflexivity.
      + eapply run_bind.
        { apply (run_part (arr P ++ own (LP ++ [i])) (looks (LP ++ [i])) (own N) (looks N ++ looks TL)); [exact Hok1| | | |].
          - unfold i. perm'.
          - unfold i. inc.
          - inc.
          - intro Hok3. exact (append_run m0 G frozen_pm (frozen_frame t_pm) grow m1 P LP i HP1 Hi Hok3). }
        intros P2 m2 W2 F2 _ Hok2 (Wp & Fp & -> & -> & _ & (HP2 & -> & ->) & Hsame2).
        apply (run_perm _ _ (arr P2 ++ own (LP ++ [i]) ++ own N) (looks (LP ++ [i]) ++ looks N ++ looks TL)); [exact Hok2| | |].
        { unfold i. perm'. }
        { unfold i; inc. }
        intro Hok4. eapply run_impl; [apply (IH m2 P2 (LP ++ [i]) news N)|].
        * apply (items_frame (frozen t_target) (frozen_frame t_target) m1); [exact HTL1|].
          apply (same_incl _ _ _ _ _ _ Hsame2); [rewrite (frozen_own _ _ _ HTL1); intros p []|inc].
        * exact HP2.
        * apply (items_frame T_new T_new_frame m1); [exact HN1|]. apply (same_incl _ _ _ _ _ _ Hsame2); inc.
        * exact En.
        * exact Hok4.
        * intros r m4 W4 F4 _ _ (LP' & N' & A1 & A2 & A3 & A4 & A5 & A6 & A7). exists LP', N'.
          split; [exact A1|]. split; [exact A2|]. split; [exact A3|]. split; [|auto].
          rewrite A4, map_app, <- app_assoc. reflexivity.
  Qed.

  (** what the rollup rules give: the cutover, own pipelines and new IDs *)
  Lemma rollups_run grow x a id t m :
    seen (ma_rollup x) (t_rules t_rbody (as_rollup a)) -> as_opts a = ma_opts x -> as_new_id a = ma_new_id x -> ok m [] [] ->
    run [] [] (rollups_in_memory grow x id t) m
      (fun r m' W F => exists c P c' news LP N, r = (c, P, c', news) /\ pslice m' P LP /\ Forall (T_new m') N /\
         map pair_value news = vals N /\
         mk_rm c (xs LP) = fst (rollup_results_for a id t) /\
         map (fun p => (fst p, mk_rm c' [snd p])) (xs N) = snd (rollup_results_for a id t) /\
         Forall (fun p => pm_drop p = DropNone) (xs LP) /\ Forall (fun p => pm_drop (snd p) = DropNone) (xs N) /\
         W = arr P ++ own LP ++ own N /\ F = looks LP ++ looks N).
  Proof.
    intros Hseen Eopts Enew Hok. unfold rollups_in_memory, rollup_results_for.
    destruct (seen_list _ _ Hseen) as (vs & El & Hvs). eapply run_read; [exact (El m (proj1 Hok))|].
    eapply run_bind.
    { apply (match_run t_rbody take_targets targeted id t take_targets_run _ _ Hvs 0%Z [] [] m [] []); [|exact Hok].
      exists []. repeat split; constructor. }
    intros r m1 W1 F1 _ Hok1 (E1 & TL & Ev & Ex & HTL & -> & ->). cbn [app] in Ex.
    destruct (match_rules (as_rollup a) id t 0) as [cutover ss]. cbn [fst snd] in *. rewrite <- Ex.
    unfold to_rollup_results. rewrite <- Ev. rewrite Eopts.
    assert (run [] (looks TL) (ret (0%Z, VNil, 0%Z, [])) m1
      (fun r m' W F => exists c P c' news LP N, r = (c, P, c', news) /\ pslice m' P LP /\ Forall (T_new m') N /\
         map pair_value news = vals N /\
         mk_rm c (xs LP) = mk_rm 0 [] /\ map (fun p => (fst p, mk_rm c' [snd p])) (xs N) = [] /\
         Forall (fun p => pm_drop p = DropNone) (xs LP) /\ Forall (fun p => pm_drop (snd p) = DropNone) (xs N) /\
         W = arr P ++ own LP ++ own N /\ F = looks LP ++ looks N)) as Hnone.
    { apply (run_perm _ _ [] []); [exact Hok1|reflexivity|intros l []|]. intro Hok2. apply run_ret; [exact Hok2|].
      exists 0%Z, VNil, 0%Z, [], [], []. cbn [map flat_map app arr]. split; [reflexivity|]. split; [split; [reflexivity|constructor]|].
      repeat split; constructor. }
    destruct TL as [|tl TL]; [exact Hnone|]. set (TT := tl :: TL) in *.
    change (match vals TT with [] => ret (0%Z, VNil, 0%Z, []) | targets => _ end) with
      (match tfo_name_and_tags (ma_opts x) id with
       | None => ret (0%Z, VNil, 0%Z, [])
       | Some (_, section) =>
          bind (make_empty (length (vals TT))) (fun ps =>
          bind (apply_targets grow x section (vals TT) ps []) (fun y => ret (fst r, fst y, fst r, snd y)))
       end).
    change (match xs TT with [] => (mk_rm 0 [], []) | ts => _ end) with
      (match tfo_name_and_tags (ma_opts x) id with
       | None => (mk_rm 0 [], [])
       | Some (_, section) => (mk_rm cutover (own_results (target_results a section (xs TT))),
                               new_id_results cutover (target_results a section (xs TT)))
       end).
    destruct (tfo_name_and_tags (ma_opts x) id) as [[nm section]|]; [|exact Hnone].
    eapply run_bind; [exact (make_empty_run m0 G frozen_pm (length (vals TT)) m1 _ _ Hok1)|].
    intros P m2 W2 F2 _ Hok2 (HP & -> & -> & Ho).
    assert (Forall (frozen_target m2) TT) as HT2.
    { apply (items_frame (frozen t_target) (frozen_frame t_target) m1); [exact HTL|].
      rewrite (frozen_own _ _ _ HTL). exact (old_same m0 G _ _ _ _ Hok1 Ho). }
    eapply run_bind.
    { exact (apply_targets_run grow x a section Eopts Enew TT m2 P [] [] [] HT2 HP ltac:(constructor) eq_refl Hok2). }
    intros y m3 W3 F3 _ Hok3 (LP & N & A1 & A2 & A3 & A4 & A5 & -> & ->). apply run_ret; [exact Hok3|].
    exists (fst r), (fst y), (fst r), (snd y), LP, N. cbn [map app] in A4, A5. cbn [fst snd]. rewrite E1.
    assert (Forall (fun r => pm_drop (snd r) = DropNone) (target_results a section (xs TT))) as Hd.
    { apply Forall_forall. intros [o p] Hin. unfold target_results in Hin. apply in_flat_map in Hin. destruct Hin as (tg & _ & Hin).
      destruct (apply_target a section tg) as [[o2 p2]|] eqn:Ea; [|contradiction]. destruct Hin as [E|[]]. injection E as -> ->.
      exact (proj2 (apply_target_sps _ _ _ _ _ Ea)). }
    split; [reflexivity|]. split; [exact A1|]. split; [exact A2|]. split; [exact A3|]. split; [rewrite A4; reflexivity|]. split.
    { rewrite A5. unfold new_pairs, new_id_results. clear. induction (target_results a section (xs TT)) as [|[o p] l IH]; [reflexivity|].
      cbn [flat_map fst snd]. rewrite map_app, IH. destruct o; reflexivity. }
    split; [|split; [|auto]].
    - rewrite A4. unfold own_results. apply Forall_forall. intros p Hin. apply in_flat_map in Hin. destruct Hin as (q & Hq & Hin).
      destruct (fst q); [contradiction|]. destruct Hin as [<-|[]]. exact (proj1 (Forall_forall _ _) Hd q Hq).
    - rewrite A5. unfold new_pairs. apply Forall_forall. intros p Hin. apply in_flat_map in Hin. destruct Hin as (q & Hq & Hin).
      destruct (fst q); [|contradiction]. destruct Hin as [<-|[]]. exact (proj1 (Forall_forall _ _) Hd q Hq).
  Qed.
End Match.
