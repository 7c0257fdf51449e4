(** Proofs about stages served for the metric itself, later windows and reverse matches. *)
From Coq Require Import Ascii String Arith NArith ZArith Bool Lia Permutation Sorting.Sorted List.
From Verif.Base Require Import Bytes BytesFacts.
From Verif.Model Require Import AggType Policy Transformation Pipeline Metadata Filter MetricID Rules.
From Verif.Spec Require Import AggSpec MetadataSpec FilterSpec.
From Verif.Proof Require Import AggProof MetadataProof TagProof RulesProof MatchProof TargetProof WindowProof ServeProof.
From Verif.Spec Require Import RulesSpec.
Import ListNotations.
Open Scope Z_scope.

Section Hits.
  Context {P : Type}.
  Definition hit_opt (id : bytes) (t : Z) (r : rule P) : option (snapshot P) :=
    match active_snapshot r t with
    | Some s => if snapshot_matches s id then Some s else None
    | None => None
    end.

  Lemma hit_opt_spec id t r s : hit_opt id t r = Some s <-> hit id t r s.
  Proof.
    unfold hit_opt, hit. rewrite <- active_snapshot_some, accepts_iff.
    destruct (active_snapshot r t) as [s'|]; [|split; [discriminate|intros [? _]; discriminate]].
    destruct (snapshot_matches s' id) eqn:E; split; try discriminate.
    - intros [= <-]; auto.
    - intros [[= <-] _]; auto.
    - intros [[= <-] H]; congruence.
  Qed.

  Lemma match_rules_hits id t u rules : (forall r, In r rules -> hit_opt id t r = hit_opt id u r) ->
    forall c, match_rules rules id t c = match_rules rules id u c.
  Proof.
    induction rules as [|r rules IH]; intros H c; cbn [match_rules]; auto.
    pose proof (H r (or_introl eq_refl)) as Hr. unfold hit_opt in Hr.
    assert (IH' : forall c, match_rules rules id t c = match_rules rules id u c) by (apply IH; intros; apply H; now right).
    destruct (active_snapshot r t) as [s|], (active_snapshot r u) as [s'|]; auto.
    - destruct (snapshot_matches s id) eqn:M, (snapshot_matches s' id) eqn:M'; try discriminate; auto.
      injection Hr as ->. destruct (sn_tomb s'); auto. now rewrite IH'.
    - destruct (snapshot_matches s id); [discriminate|auto].
    - destruct (snapshot_matches s' id); [discriminate|auto].
  Qed.

  Lemma in_effect_in (h : list (snapshot P)) t s : in_effect h t s -> In s h.
  Proof. intros (b & x & -> & _). apply in_elt. Qed.

  Lemma steady_hits id r p q j : steady id r -> p <= q -> q <= j ->
    (forall s, hit id j r s -> sn_cutover s <= p) -> hit_opt id p r = hit_opt id q r.
  Proof.
    intros Hst Hpq Hqj Hj. pose proof (steady_iff id r Hst) as Hst'.
    destruct (hit_opt id j r) as [s|] eqn:Ej.
    - apply hit_opt_spec in Ej. specialize (Hj s Ej). destruct Ej as [He Hm].
      assert (hit_opt id p r = Some s) as ->.
      { apply hit_opt_spec; split; auto. eapply in_effect_earlier; eauto; lia. }
      symmetry; apply hit_opt_spec; split; auto. eapply in_effect_earlier; eauto; lia.
    - assert (Hno : forall w, w <= j -> hit_opt id w r = None).
      { intros w Hw. destruct (hit_opt id w r) as [s|] eqn:Ew; auto. exfalso. apply hit_opt_spec in Ew as [He Hm].
        unfold hit_opt in Ej. destruct (active_snapshot r j) as [s'|] eqn:Ea.
        - apply active_snapshot_some, in_effect_in in Ea. apply in_effect_in in He.
          apply accepts_iff in Hm. rewrite <- (Hst' s s' He Ea), Hm in Ej; discriminate.
        - apply active_snapshot_none in Ea. rewrite Forall_forall in Ea. pose proof (in_effect_in _ _ _ He) as Hin.
          apply Ea in Hin. destruct He as (b & x & _ & Hc & _). lia. }
      rewrite !Hno by lia. reflexivity.
  Qed.
End Hits.

Section Window.
  Variables (v : Z) (ms : list mapping_rule) (rs : list rollup_rule) (opts : tags_filter_options)
    (nid : bytes -> list (bytes * bytes) -> bytes) (isr : bytes -> bytes -> bool).
  Let a := new_active_ruleset v ms rs opts nid isr.
  Variables (id : bytes) (from to : Z) (cs : list Z).
  Hypothesis Hcs : changes_between ms rs from to cs.

  Section Served.
    Hypothesis Hfrom : 0 <= from.
    Hypothesis Hms : forall r, In r ms -> steady id r.
    Hypothesis Hrs : forall r, In r rs -> steady id r.
    Hypothesis Hid : tfo_name_and_tags opts id <> None.
    Hypothesis Hlive : forall r s, In r rs -> In s (ru_snapshots r) -> accepts s id ->
      sn_tomb s = false /\ sn_body s <> [].

    Lemma rollup_hits_counted u r s : In r rs -> hit id u r s ->
      sn_cutover s <= rm_cutover (fst (rollup_results_for a id u)).
    Proof.
      intros Hr Hh. rewrite rollup_results_eq.
      assert (Htg : exists tg, In tg (rollup_targets a id u)).
      { destruct (Hlive r s Hr) as [Ht Hb]; [eapply in_effect_in; apply Hh|apply Hh|].
        destruct (sn_body s) as [|tg ts] eqn:Eb; [congruence|]. exists tg. apply in_targets. exists r, s.
        split; auto. split; [split; auto|]. rewrite Eb; now left. }
      destruct Htg as (tg & Htg). destruct (rollup_targets a id u) as [|tg0 ts]; [destruct Htg|].
      change (as_opts a) with opts. destruct (tfo_name_and_tags opts id) as [[n sec]|]; [|congruence].
      cbv zeta; cbn [fst rm_cutover]. destruct (match_rules_cutover (as_rollup a) id u 0) as (_ & H & _). eapply H; eauto.
    Qed.

    Lemma same_match A p q Bq j c : from :: cs = A ++ p :: q :: Bq -> q <= j ->
      sm_cutover (fst (forward_match_at a id j)) <= c -> c < q -> forward_match_at a id p = forward_match_at a id q.
    Proof.
      intros E Hqj Hc Hlt. destruct (adjacent ms rs from to cs Hcs A p q Bq E) as [Hpq Hadj].
      rewrite existing_cutover in Hc.
      assert (Em : forall c0, match_rules ms id p c0 = match_rules ms id q c0).
      { apply match_rules_hits. intros r Hr. apply (steady_hits id r p q j); auto; try lia. intros s Hh.
        apply Hadj; [left; exists r, s; repeat split; auto; eapply in_effect_in; apply Hh|].
        destruct (match_rules_cutover ms id j 0) as (_ & H & _). specialize (H r s Hr Hh).
        change (as_mapping a) with ms in Hc. lia. }
      assert (Er : forall c0, match_rules rs id p c0 = match_rules rs id q c0).
      { apply match_rules_hits. intros r Hr. apply (steady_hits id r p q j); auto; try lia. intros s Hh.
        apply Hadj; [right; exists r, s; repeat split; auto; eapply in_effect_in; apply Hh|].
        pose proof (rollup_hits_counted j r s Hr Hh). lia. }
      unfold forward_match_at, mappings_for_non_rollup_id, rollup_results_for.
      change (as_mapping a) with ms. change (as_rollup a) with rs. now rewrite Em, Er.
    Qed.

    Lemma existing_served t : from <= t < to ->
      exists s rest, mr_existing_at (forward_match a id from to) t = s :: rest /\
        sm_pipelines s = sm_pipelines (fst (forward_match_at a id t)) /\ sm_tombstoned s = false /\ sm_cutover s <= t.
    Proof.
      intros Ht. destruct (existing_stages v ms rs opts nid isr id from to cs Hcs) as (ss & El & HF & _).
      fold a in El, HF.
      destruct (governing from cs t ltac:(lia)) as (k & Hk & Hkt & Hmax).
      pose proof (governing_match v ms rs opts nid isr id from to cs Hcs t k ltac:(lia) Hk Hkt Hmax) as Hgov. fold a in Hgov.
      unfold mr_existing_at. rewrite El.
      assert (HF' : Forall2 (fun u s => ((sm_pipelines s, sm_tombstoned s) = (sm_pipelines (fst (forward_match_at a id u)), false) /\
                 sm_cutover s <= u) /\ (s = fst (forward_match_at a id u) \/ sm_cutover s = u)) (from :: cs) (fst (forward_match_at a id from) :: ss)).
      { constructor.
        - split; [|auto]. rewrite existing_not_tomb. split; auto.
          pose proof (existing_cutover_bounds a id from). lia.
        - assert (Hpos : forall c, In c cs -> 0 <= c) by (intros c Hc; apply Hcs in Hc; lia).
          clear - HF Hpos. induction HF as [|c s cs ss (H1 & H2 & H3 & H4) HF IH]; constructor.
          + rewrite H1, H2. repeat split; auto. specialize (Hpos c (or_introl eq_refl)); lia.
          + apply IH; intros; apply Hpos; now right. }
      destruct (served (fun u => (sm_pipelines (fst (forward_match_at a id u)), false)) (fun s => (sm_pipelines s, sm_tombstoned s))
                  (from :: cs) (fst (forward_match_at a id from) :: ss) t k) as (s & rest & Ea & Hc & Hle); auto.
      - eapply Forall2_weaken; [|exact HF']. cbv beta. tauto.
      - eapply instants_sorted; eauto.
      - intros A p q Bq s E Hs Hlt.
        destruct (Forall2_skipn_in _ _ _ _ s HF' Hs) as (j & Hj & (_ & _) & Hor).
        rewrite E in Hj. change (A ++ p :: q :: Bq) with (A ++ [p] ++ (q :: Bq)) in Hj. rewrite app_assoc in Hj.
        rewrite skipn_app_exact in Hj by (rewrite app_length; simpl; lia).
        assert (Hqj : q <= j).
        { pose proof (instants_sorted ms rs from to cs Hcs) as Hso. rewrite E in Hso.
          assert (Hsq : StronglySorted Z.lt (q :: Bq)) by (clear - Hso; induction A as [|x A IH]; [now inversion Hso|]; inversion Hso; auto).
          destruct Hj as [<-|Hj]; [lia|]. inversion Hsq as [|? ? _ Hf]; subst. rewrite Forall_forall in Hf; specialize (Hf j Hj); lia. }
        destruct Hor as [->|Hor]; [|lia].
        rewrite (same_match A p q Bq j (sm_cutover (fst (forward_match_at a id j))) E Hqj ltac:(lia) Hlt). reflexivity.
      - exists s, rest. rewrite <- Hgov. injection Hc as -> ->. auto.
    Qed.
  End Served.

  (** ** Later windows *)

  Lemma map_pipelines : map sm_pipelines (mr_existing (forward_match a id from to)) =
    map (fun t => sm_pipelines (fst (forward_match_at a id t))) (from :: cs).
  Proof.
    destruct (existing_stages v ms rs opts nid isr id from to cs Hcs) as (ss & El & HF & _). fold a in El, HF.
    rewrite El. cbn [map]. f_equal. clear - HF. induction HF as [|c s cs0 ss0 (H1 & _) HF IH]; cbn [map]; auto. now rewrite H1, IH.
  Qed.
End Window.

Lemma later_window v ms rs opts nid isr id from to from' to' :
  let a := new_active_ruleset v ms rs opts nid isr in
  from <= from' -> to <= to' -> to' <= mr_expire (forward_match a id from to) -> from' < mr_expire (forward_match a id from to) ->
  mr_expire (forward_match a id from to) < time_max ->
  exists k, map sm_pipelines (mr_existing (forward_match a id from' to')) =
            skipn k (map sm_pipelines (mr_existing (forward_match a id from to))).
Proof.
  intros a Hff Htt He1 He2 Hmaxt.
  assert (Hexp : mr_expire (forward_match a id from to) = expiry a from to)
    by (rewrite forward_match_shape by apply built_sorted; reflexivity).
  rewrite Hexp in *. pose proof (expiry_first v ms rs opts nid isr from to) as Hfirst. fold a in Hfirst.
  assert (Hno : forall c, is_change ms rs c -> from < c -> to <= c -> expiry a from to <= c).
  { destruct Hfirst as [[_ H]|[_ H]]; [intros; apply H; auto|]. unfold time_max in Hmaxt. lia. }
  pose proof (window_changes v ms rs opts nid isr from to) as W. fold a in W.
  pose proof (window_changes v ms rs opts nid isr from' to') as W'. fold a in W'.
  set (cs := window a from to) in *. set (cs' := window a from' to') in *.
  (* cs = those not after from' ++ cs' *)
  assert (Hsplit : cs = List.filter (fun c => c <=? from') cs ++ cs').
  { destruct W as [S I], W' as [S' I'].
    apply sorted_unique; auto.
    - assert (Hall : forall x y, In x (List.filter (fun c => c <=? from') cs) -> In y cs' -> x < y).
      { intros x y Hx Hy. apply filter_In in Hx as [_ Hx]. apply Z.leb_le in Hx. apply I' in Hy. lia. }
      pose proof (sorted_filter Z.lt (fun c => c <=? from') cs S) as Sf.
      revert Sf Hall. generalize (List.filter (fun c => c <=? from') cs) as l. clear - S'.
      induction l as [|x l IH]; simpl; intros Sf Hall; auto. inversion Sf; subst. constructor; [apply IH; auto|].
      apply Forall_app; split; auto. apply Forall_forall; intros y Hy; apply Hall; auto.
    - intros x. rewrite in_app_iff, filter_In, Z.leb_le, I, I'. split.
      + intros (Hc & Hr). destruct (Z_le_dec x from'); [left; auto|]. right; split; auto. lia.
      + intros [[H _]|[Hc Hr]]; auto. split; auto. split; [lia|].
        destruct (Z_lt_dec x to); auto. specialize (Hno x Hc ltac:(lia) ltac:(lia)). lia. }
  exists (length (List.filter (fun c => c <=? from') cs)).
  pose proof (map_pipelines v ms rs opts nid isr id from' to' cs' W') as M'. fold a in M'.
  pose proof (map_pipelines v ms rs opts nid isr id from to cs W) as M. fold a in M.
  etransitivity; [exact M'|]. rewrite M.
  destruct (exists_last (l := from :: List.filter (fun c => c <=? from') cs) ltac:(discriminate)) as (A & k & EA).
  assert (Hk : forward_match_at a id from' = forward_match_at a id k).
  { symmetry. assert (Hin : In k (from :: List.filter (fun c => c <=? from') cs)) by (rewrite EA; apply in_or_app; right; now left).
    apply constant_at.
    - destruct Hin as [<-|Hin]; auto. apply filter_In in Hin as [_ Hin]; now apply Z.leb_le.
    - intros c Hc Hr.
      assert (Hkf : from <= k). { destruct Hin as [<-|Hin]; [lia|]. apply filter_In in Hin as [Hin _]. apply W in Hin; lia. }
      assert (Hct : c < to). { destruct (Z_lt_dec c to); auto. specialize (Hno c Hc ltac:(lia) ltac:(lia)). lia. }
      assert (Hic : In c (from :: List.filter (fun c => c <=? from') cs)).
      { right. apply filter_In; split; [apply W; split; auto; lia|]. apply Z.leb_le; lia. }
      (* k is the last of a sorted list *)
      assert (Sl : StronglySorted Z.lt (from :: List.filter (fun c => c <=? from') cs)).
      { constructor; [apply sorted_filter, W|]. apply Forall_forall; intros x Hx. apply filter_In in Hx as [Hx _]. apply W in Hx; lia. }
      rewrite EA in Sl, Hic. apply in_app_or in Hic as [Hic|[<-|[]]]; [|lia].
      clear - Sl Hic Hr. induction A as [|x A IH]; [destruct Hic|]. inversion Sl as [|? ? Sl' Hf]; subst. destruct Hic as [->|Hic]; auto.
      rewrite Forall_forall in Hf. specialize (Hf k ltac:(apply in_or_app; right; now left)). lia. }
  cbn [map]. rewrite Hk.
  change (map (fun t => sm_pipelines (fst (forward_match_at a id t))) (from :: cs)) with
    (map (fun t => sm_pipelines (fst (forward_match_at a id t))) (from :: cs)).
  change (sm_pipelines (fst (forward_match_at a id from)) :: map (fun t => sm_pipelines (fst (forward_match_at a id t))) cs)
    with (map (fun t => sm_pipelines (fst (forward_match_at a id t))) (from :: cs)).
  assert (Efull : from :: cs = A ++ k :: cs').
  { rewrite Hsplit. change (from :: List.filter (fun c => c <=? from') cs ++ cs') with ((from :: List.filter (fun c => c <=? from') cs) ++ cs').
    rewrite EA, <- app_assoc. reflexivity. }
  rewrite Efull, map_app, skipn_app_exact; auto.
  rewrite map_length. apply (f_equal (@length Z)) in EA. rewrite app_length in EA. simpl in EA. lia.
Qed.

(** ** Reverse matches *)

Section Reverse.
  Variables (a : active_ruleset) (name section : bytes) (mt : metric_type) (at_ : agg_type) (multi : bool) (topts : types_options).
  Let tags := fst (tfo_sorted_tags (as_opts a) section).

  Definition reverse_hit (tg : target) (o : op) : Prop :=
    In o (tg_pipeline tg) /\ op_kind o = RollupOp /\ ro_name (op_rollup o) = name /\ match_tags tags (ro_tags (op_rollup o)) <> None.

  Definition answer (c : Z) (tg : target) (o : op) : option staged_metadata :=
    let p := mk_pm (ro_agg (op_rollup o)) (tg_sps tg) [] DropNone in
    match (if multi then filter_by_agg_type [p] mt at_ topts else [p]) with
    | [] => None
    | ps => Some (mk_sm ps c false)
    end.

  Lemma reverse_ops_some c tg ops res : (forall o, In o ops -> In o (tg_pipeline tg)) ->
    reverse_ops a name section c (tg_sps tg) mt at_ multi topts ops = Some res ->
    exists o, reverse_hit tg o /\ res = answer c tg o.
  Proof.
    induction ops as [|o ops IH]; cbn [reverse_ops]; intros Hin H; [discriminate|].
    assert (Hin' : forall o, In o ops -> In o (tg_pipeline tg)) by (intros; apply Hin; now right).
    destruct (Z.eqb_spec (op_kind o) RollupOp) as [E|E]; cbn [negb] in H; auto.
    destruct (beqb (ro_name (op_rollup o)) name) eqn:En; cbn [negb] in H; auto.
    fold tags in H. destruct (match_tags tags (ro_tags (op_rollup o))) as [sel|] eqn:Em; auto.
    injection H as <-. exists o. split; [split; [apply Hin; now left|]|].
    - split; auto. split; [now apply beqb_eq|congruence].
    - unfold answer. destruct multi; [|reflexivity]. unfold filter_by_agg_type; cbn [List.filter pm_agg].
      match goal with |- context [if ?b then [_] else []] => destruct b end; reflexivity.
  Qed.

  Lemma reverse_ops_none c sps ops :
    reverse_ops a name section c sps mt at_ multi topts ops = None ->
    forall o, In o ops -> op_kind o = RollupOp -> ro_name (op_rollup o) = name -> match_tags tags (ro_tags (op_rollup o)) = None.
  Proof.
    induction ops as [|o ops IH]; cbn [reverse_ops]; intros H o' Hin Hk Hn; [destruct Hin|].
    destruct (Z.eqb_spec (op_kind o) RollupOp) as [E|E]; cbn [negb] in H.
    2:{ destruct Hin as [<-|Hin]; [congruence|auto]. }
    destruct (beqb (ro_name (op_rollup o)) name) eqn:En; cbn [negb] in H.
    2:{ apply beqb_neq in En. destruct Hin as [<-|Hin]; [congruence|auto]. }
    fold tags in H. destruct (match_tags tags (ro_tags (op_rollup o))) as [sel|] eqn:Em; [discriminate|].
    destruct Hin as [<-|Hin]; auto.
  Qed.

  Lemma reverse_targets_some c ts res : reverse_targets a name section c mt at_ multi topts ts = Some res ->
    exists tg o, In tg ts /\ reverse_hit tg o /\ res = answer c tg o.
  Proof.
    induction ts as [|tg ts IH]; cbn [reverse_targets]; intros H; [discriminate|].
    destruct (reverse_ops _ _ _ _ _ _ _ _ _ (tg_pipeline tg)) as [r|] eqn:E.
    - injection H as ->. apply reverse_ops_some in E as (o & Ho & ->); auto. exists tg, o; repeat split; auto; try apply Ho. now left.
    - destruct (IH H) as (tg' & o & Hin & Ho & ->). exists tg', o; split; [now right|auto].
  Qed.

  Lemma reverse_targets_none c ts : reverse_targets a name section c mt at_ multi topts ts = None ->
    forall tg o, In tg ts -> ~ reverse_hit tg o.
  Proof.
    induction ts as [|tg ts IH]; cbn [reverse_targets]; intros H tg' o Hin; [destruct Hin|].
    destruct (reverse_ops _ _ _ _ _ _ _ _ _ (tg_pipeline tg)) as [r|] eqn:E; [discriminate|].
    destruct Hin as [<-|Hin]; [|now apply IH]. intros (Ho & Hk & Hn & Hm). apply Hm.
    eapply reverse_ops_none; eauto.
  Qed.

  (** The answer of the only live operation of that name whose tags fit. *)
  Lemma reverse_rules_unique t rules r s tg o :
    In r rules -> in_effect (ru_snapshots r) t s -> sn_tomb s = false -> In tg (sn_body s) -> reverse_hit tg o ->
    (forall r' s' tg' o', In r' rules -> in_effect (ru_snapshots r') t s' -> sn_tomb s' = false -> In tg' (sn_body s') ->
       reverse_hit tg' o' -> s' = s /\ tg' = tg /\ o' = o) ->
    reverse_rules a rules name section t mt at_ multi topts = answer (sn_cutover s) tg o.
  Proof.
    induction rules as [|r0 rules IH]; intros Hin He Ht Htg Ho Hu; [destruct Hin|]. cbn [reverse_rules].
    assert (IH' : In r rules -> reverse_rules a rules name section t mt at_ multi topts = answer (sn_cutover s) tg o).
    { intros Hr. apply IH; auto. intros r' s' tg' o' Hr'. apply (Hu r' s' tg' o'). now right. }
    clear IH. destruct (active_snapshot r0 t) as [s0|] eqn:Ea.
    - destruct (sn_tomb s0) eqn:Et0.
      + destruct Hin as [->|Hin]; auto. apply active_snapshot_some in Ea.
        rewrite (in_effect_unique _ _ _ _ Ea He) in Et0. congruence.
      + destruct (reverse_targets a name section (sn_cutover s0) mt at_ multi topts (sn_body s0)) as [res|] eqn:Er.
        * apply reverse_targets_some in Er as (tg0 & o0 & H1 & H2 & ->).
          apply active_snapshot_some in Ea.
          destruct (Hu r0 s0 tg0 o0 (or_introl eq_refl) Ea Et0 H1 H2) as (-> & -> & ->). reflexivity.
        * destruct Hin as [->|Hin]; auto. apply active_snapshot_some in Ea.
          rewrite (in_effect_unique _ _ _ _ Ea He) in Er. exfalso. exact (reverse_targets_none _ _ Er tg o Htg Ho).
    - destruct Hin as [->|Hin]; auto. apply active_snapshot_some in He. congruence.
  Qed.

  Lemma reverse_rules_none t rules :
    (forall r s tg o, In r rules -> in_effect (ru_snapshots r) t s -> sn_tomb s = false -> In tg (sn_body s) -> ~ reverse_hit tg o) ->
    reverse_rules a rules name section t mt at_ multi topts = None.
  Proof.
    induction rules as [|r0 rules IH]; intros Hu; auto. cbn [reverse_rules].
    assert (IH' : reverse_rules a rules name section t mt at_ multi topts = None) by (apply IH; intros r s tg o Hr; apply (Hu r s tg o); now right).
    destruct (active_snapshot r0 t) as [s0|] eqn:Ea; auto. destruct (sn_tomb s0) eqn:Et0; auto.
    destruct (reverse_targets _ _ _ _ _ _ _ _ _) as [res|] eqn:Er; auto.
    apply reverse_targets_some in Er as (tg0 & o0 & H1 & H2 & _). apply active_snapshot_some in Ea.
    exfalso. exact (Hu r0 s0 tg0 o0 (or_introl eq_refl) Ea Et0 H1 H2).
  Qed.
End Reverse.
