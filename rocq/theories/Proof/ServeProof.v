(** Proofs that tie results over a window to the matches at instants. *)
From Coq Require Import Ascii String Arith NArith ZArith Bool Lia Permutation Sorting.Sorted List.
From Verif.Base Require Import Bytes BytesFacts.
From Verif.Model Require Import AggType Policy Transformation Pipeline Metadata Filter MetricID Rules.
From Verif.Spec Require Import AggSpec MetadataSpec FilterSpec.
From Verif.Proof Require Import AggProof MetadataProof TagProof RulesProof MatchProof TargetProof WindowProof.
From Verif.Spec Require Import RulesSpec.
Import ListNotations.
Open Scope Z_scope.

Lemma Forall2_weaken {A C} (R S : A -> C -> Prop) l m : (forall x y, R x y -> S x y) -> Forall2 R l m -> Forall2 S l m.
Proof. intros H; induction 1; constructor; auto. Qed.

Lemma collect_in {A C} (R : A -> C -> Prop) l m c : collect R l m -> In c m -> exists x, In x l /\ R x c.
Proof.
  induction 1 as [|x d l m Hr H IH|x l m Hr H IH]; intros Hin; [destruct Hin| |].
  - destruct Hin as [<-|Hin]; [exists x; split; auto; now left|]. destruct (IH Hin) as (y & Hy & Hr'); exists y; split; auto; now right.
  - destruct (IH Hin) as (y & Hy & Hr'); exists y; split; auto; now right.
Qed.

Lemma collect_in_conv {A C} (R : A -> C -> Prop) l m x c :
  (forall a c c', R a c -> R a c' -> c = c') -> collect R l m -> In x l -> R x c -> In c m.
Proof.
  intros Hf; induction 1 as [|y d l m Hr H IH|y l m Hr H IH]; intros Hin Hx; [destruct Hin| |].
  - destruct Hin as [->|Hin]; [left; eauto|right; auto].
  - destruct Hin as [->|Hin]; [elim (Hr c Hx)|auto].
Qed.

Section Instant.
  Variables (a : active_ruleset) (id : bytes).
  Let at_ (u : Z) := snd (forward_match_at a id u).
  Let rc (u : Z) := fst (match_rules (as_rollup a) id u 0).

  Lemma in_targets u tg : In tg (rollup_targets a id u) <->
    exists r s, In r (as_rollup a) /\ live id u r s /\ In tg (sn_body s).
  Proof.
    unfold rollup_targets. pose proof (match_rules_live (as_rollup a) id u 0) as Hc.
    rewrite in_flat_map. split.
    - intros (s & Hs & Ht). destruct (collect_in _ _ _ _ Hc Hs) as (r & Hr & Hl). exists r, s; auto.
    - intros (r & s & Hr & Hl & Ht). exists s; split; auto. eapply collect_in_conv; eauto. apply live_unique.
  Qed.

  Lemma new_id_results_in c rs X m : In (X, m) (new_id_results c rs) <-> exists p, In (Some X, p) rs /\ m = mk_rm c [p].
  Proof.
    unfold new_id_results. rewrite in_flat_map. split.
    - intros ([[Y|] p] & H & E); simpl in E; [|destruct E]. destruct E as [E|[]]. injection E as <- <-. eauto.
    - intros (p & H & ->). exists (Some X, p); split; auto. now left.
  Qed.

  Lemma single_unique c p : pm_drop p = 0 -> rm_to_staged (rm_unique (mk_rm c [p])) = mk_sm [p] c false.
  Proof. intros H. rewrite rm_unique_plain by (constructor; auto). reflexivity. Qed.

  Lemma news_in u X l : In (X, l) (at_ u) <->
    exists name section r s tg p,
      tfo_name_and_tags (as_opts a) id = Some (name, section) /\
      In r (as_rollup a) /\ live id u r s /\ In tg (sn_body s) /\
      apply_target a section tg = Some (Some X, p) /\ l = [mk_sm [p] (rc u) false].
  Proof.
    unfold at_, forward_match_at.
    assert (E : snd (let (own, news) := rollup_results_for a id u in
        (rm_to_staged (rm_unique (rm_merge (mappings_for_non_rollup_id a id u) own)),
         isort id_leb (map (fun r => (fst r, [rm_to_staged (rm_unique (snd r))])) news)))
      = isort id_leb (map (fun r => (fst r, [rm_to_staged (rm_unique (snd r))])) (snd (rollup_results_for a id u)))).
    { now destruct (rollup_results_for a id u). }
    rewrite E, isort_in, in_map_iff. clear E. split.
    - intros ([Y m] & E & H). cbn [fst snd] in E. injection E as -> <-. rewrite rollup_results_eq in H.
      destruct (rollup_targets a id u) as [|tg0 ts] eqn:Et; [destruct H|].
      destruct (tfo_name_and_tags (as_opts a) id) as [[name section]|] eqn:En; [|destruct H].
      cbv zeta in H; cbn [snd] in H. apply new_id_results_in in H as (p & H & ->).
      rewrite <- Et in H. apply in_flat_map in H as (tg & Htg & Hp).
      apply in_targets in Htg as (r & s & Hr & Hl & Hin).
      destruct (apply_target a section tg) as [x|] eqn:Ea; [|destruct Hp]. destruct Hp as [->|[]].
      exists name, section, r, s, tg, p. repeat split; auto; try apply Hl.
      f_equal. apply single_unique. now apply apply_target_drop in Ea.
    - intros (name & section & r & s & tg & p & En & Hr & Hl & Hin & Ea & ->).
      exists (X, mk_rm (rc u) [p]). cbn [fst snd]. split.
      + f_equal. f_equal. apply single_unique. now apply apply_target_drop in Ea.
      + rewrite rollup_results_eq.
        assert (Htg : In tg (rollup_targets a id u)) by (apply in_targets; eauto).
        destruct (rollup_targets a id u) as [|tg0 ts]; [destruct Htg|]. rewrite En. cbv zeta; cbn [snd].
        apply new_id_results_in. exists p; split; auto. apply in_flat_map. exists tg; split; auto.
        rewrite Ea; now left.
  Qed.

  Lemma at_shape u e : In e (at_ u) -> exists X st, e = (X, [st]).
  Proof.
    destruct e as [X l]; intros H. apply news_in in H as (? & ? & ? & ? & ? & p & _ & _ & _ & _ & _ & ->). eauto.
  Qed.

  Lemma at_sorted u : NoDup (map fst (at_ u)) -> StronglySorted by_id (at_ u).
  Proof.
    unfold at_, forward_match_at. destruct (rollup_results_for a id u) as [own news]. cbn [snd]. intros H.
    apply isort_by_id. eapply Permutation_NoDup; [apply Permutation_map; symmetry; apply isort_perm|]. exact H.
  Qed.

  Lemma rc_bounds u : 0 <= rc u <= Z.max 0 u.
  Proof. apply match_rules_bounds. Qed.

  Lemma live_earlier {P} (r : rule P) s t u : live id t r s -> sn_cutover s <= u -> u <= t -> live id u r s.
  Proof. intros [[He Hm] Ht] Hu Hle. split; auto. split; auto. eapply in_effect_earlier; eauto. Qed.

  (** A result for a new ID goes back to the cutover of the snapshot it comes from. *)
  Lemma news_back t X st : In (X, [st]) (at_ t) ->
    exists c, (exists r s, In r (as_rollup a) /\ In s (ru_snapshots r) /\ sn_cutover s = c) /\
      c <= sm_cutover st /\ c <= t /\ sm_tombstoned st = false /\
      forall u, c <= u <= t -> exists st', In (X, [st']) (at_ u) /\ sm_pipelines st' = sm_pipelines st /\ sm_tombstoned st' = false.
  Proof.
    intros H. apply news_in in H as (name & section & r & s & tg & p & En & Hr & Hl & Hin & Ea & E). injection E as ->.
    exists (sn_cutover s). repeat split; cbn [sm_cutover sm_pipelines].
    - exists r, s; repeat split; auto. destruct Hl as [[(b & x & Eb & _) _] _]. rewrite Eb; apply in_elt.
    - destruct (match_rules_cutover (as_rollup a) id t 0) as (_ & H2 & _). eapply H2; eauto. apply Hl.
    - eapply hit_le; apply Hl.
    - intros u Hu. exists (mk_sm [p] (rc u) false). split; [|auto]. apply news_in.
      exists name, section, r, s, tg, p. repeat split; auto; try (apply (live_earlier r s t u Hl); lia).
      all: destruct (live_earlier r s t u Hl ltac:(lia) ltac:(lia)) as [[? ?] ?]; auto.
  Qed.
End Instant.

Section Window.
  Variables (v : Z) (ms : list mapping_rule) (rs : list rollup_rule) (opts : tags_filter_options)
    (nid : bytes -> list (bytes * bytes) -> bytes) (isr : bytes -> bytes -> bool).
  Let a := new_active_ruleset v ms rs opts nid isr.
  Variables (id : bytes) (from to : Z) (cs : list Z).
  Hypothesis Hcs : changes_between ms rs from to cs.

  Lemma cs_window : cs = window a from to.
  Proof. now apply changes_between_unique. Qed.

  Lemma instants_sorted : StronglySorted Z.lt (from :: cs).
  Proof.
    destruct Hcs as [Hs Hi]. constructor; auto. apply Forall_forall; intros c Hc. apply Hi in Hc; lia.
  Qed.

  Lemma existing_stages : exists ss,
    mr_existing (forward_match a id from to) = fst (forward_match_at a id from) :: ss /\
    Forall2 (fun c s => sm_pipelines s = sm_pipelines (fst (forward_match_at a id c)) /\ sm_tombstoned s = false /\
                        sm_cutover s <= Z.max 0 c /\ (s = fst (forward_match_at a id c) \/ sm_cutover s = c)) cs ss /\
    StronglySorted (fun s s' => sm_cutover s <= sm_cutover s') (fst (forward_match_at a id from) :: ss).
  Proof.
    rewrite forward_match_shape by apply built_sorted. cbn [mr_existing]. rewrite <- cs_window.
    destruct (fold_existing (fun c => fst (forward_match_at a id c)) cs [] (fst (forward_match_at a id from)) from) as (ss & E & F & S).
    - intros c _. apply existing_cutover_bounds.
    - apply instants_sorted.
    - apply existing_cutover_bounds.
    - exists ss. split; [exact E|]. split; auto. eapply Forall2_weaken; [|exact F].
      cbv beta. intros c s (H1 & H2 & H3 & H4). repeat split; auto. rewrite H2; apply existing_not_tomb.
  Qed.

  (** The instant that governs [t]. *)
  Lemma governing t : from <= t -> exists k, In k (from :: cs) /\ k <= t /\ (forall q, In q (from :: cs) -> q <= t -> q <= k).
  Proof.
    intros Ht. assert (Hin : exists x, In x (from :: cs) /\ x <= t) by (exists from; split; auto; now left).
    revert Hin. generalize (from :: cs). induction l as [|x l IH]; intros (y & Hy & Hle); [destruct Hy|].
    assert (Hd : (exists z, In z l /\ z <= t) \/ ~ (exists z, In z l /\ z <= t)).
    { clear. induction l as [|x l IH]; [right; intros (z & [] & _)|].
      destruct (Z_le_dec x t); [left; exists x; split; auto; now left|].
      destruct IH as [(z & Hz & Hz')|H]; [left; exists z; split; auto; now right|].
      right; intros (z & [<-|Hz] & Hz'); [lia|eauto]. }
    destruct Hd as [Hd|Hd].
    - destruct (IH Hd) as (k & Hk & Hkt & Hmax). destruct (Z_le_dec x t) as [Hx|Hx].
      + exists (Z.max x k). split; [destruct (Z.max_spec x k) as [[_ ->]|[_ ->]]; [now right|now left]|].
        split; [lia|]. intros q [<-|Hq] Hqt; [lia|]. specialize (Hmax q Hq Hqt); lia.
      + exists k; split; [now right|]. split; auto. intros q [<-|Hq] Hqt; [lia|auto].
    - exists y. destruct Hy as [<-|Hy]; [|elim Hd; eauto]. split; [now left|]. split; auto.
      intros q [<-|Hq] Hqt; [lia|]. elim Hd; eauto.
  Qed.

  Lemma governing_match t k : t < to -> In k (from :: cs) -> k <= t -> (forall q, In q (from :: cs) -> q <= t -> q <= k) ->
    forward_match_at a id k = forward_match_at a id t.
  Proof.
    intros Ht Hk Hkt Hmax. apply constant_at; auto. intros c Hc Hr.
    assert (In c (from :: cs)).
    { right. apply Hcs. split; auto. destruct Hk as [<-|Hk]; [lia|]. apply Hcs in Hk; lia. }
    specialize (Hmax c H). lia.
  Qed.

  (** Between adjacent instants there is no change. *)
  Lemma adjacent A p q Bq : from :: cs = A ++ p :: q :: Bq -> p < q /\ forall c, is_change ms rs c -> c < q -> c <= p.
  Proof.
    intros E. pose proof instants_sorted as Hs. rewrite E in Hs.
    assert (Hsp : StronglySorted Z.lt (p :: q :: Bq)).
    { clear - Hs. induction A as [|x A IH]; auto. inversion Hs; auto. }
    inversion Hsp as [|? ? Hsq Hp]; subst. inversion Hp as [|? ? Hpq Hp']; subst. split; auto.
    intros c Hc Hlt. destruct (Z_le_dec c p) as [|Hgt]; auto. exfalso.
    assert (Hp0 : In p (from :: cs)) by (rewrite E; apply in_elt).
    assert (Hq0 : In q (from :: cs)) by (rewrite E; apply in_or_app; right; right; now left).
    assert (Hfp : from <= p) by (destruct Hp0 as [<-|Hp0]; [lia|apply Hcs in Hp0; lia]).
    assert (Hqt : q < to).
    { destruct Hq0 as [<-|Hq0]; [lia|]. apply Hcs in Hq0; lia. }
    assert (Hc0 : In c (from :: cs)) by (right; apply Hcs; split; auto; lia).
    rewrite E in Hc0. clear - Hc0 Hs Hgt Hlt Hsq.
    apply in_app_or in Hc0 as [Hc0|[<-|[<-|Hc0]]]; try lia.
    - induction A as [|x A IH]; [destruct Hc0|]. inversion Hs as [|? ? Hs' Hf]; subst. destruct Hc0 as [<-|Hc0]; [|auto].
      rewrite Forall_forall in Hf. specialize (Hf p (in_elt _ _ _)); lia.
    - inversion Hsq as [|? ? _ Hf]; subst. rewrite Forall_forall in Hf. specialize (Hf c Hc0); lia.
  Qed.

  (** ** New rollup IDs *)
  Let at_ (u : Z) := snd (forward_match_at a id u).
  Hypothesis Hdistinct : forall u, from <= u < to \/ u = from -> NoDup (map fst (at_ u)).

  Lemma instant_range u : In u (from :: cs) -> from <= u < to \/ u = from.
  Proof. intros [<-|H]; auto. apply Hcs in H; lia. Qed.

  Lemma news_accounts : accounts at_ (from :: cs) (mr_news (forward_match a id from to)).
  Proof.
    rewrite forward_match_shape by apply built_sorted. cbn [mr_news]. rewrite <- cs_window.
    change (from :: cs) with ([from] ++ cs). apply merge_all.
    - apply at_shape.
    - apply accounts_init; [apply at_shape|]. apply at_sorted, Hdistinct; auto.
    - intros c Hc. apply at_sorted, Hdistinct, instant_range; now right.
  Qed.

  Definition content (X : bytes) (u : Z) (c : list pipeline_metadata * bool) : Prop :=
    forall st, stage_of at_ X u st -> (sm_pipelines st, sm_tombstoned st) = c.

  Definition content_at (X : bytes) (u : Z) : list pipeline_metadata * bool :=
    match find (fun e => beqb (fst e) X) (at_ u) with
    | Some (_, st :: _) => (sm_pipelines st, sm_tombstoned st)
    | _ => ([], true)
    end.

  Lemma content_at_stage X u st : NoDup (map fst (at_ u)) -> stage_of at_ X u st ->
    (sm_pipelines st, sm_tombstoned st) = content_at X u.
  Proof.
    intros Hn H. unfold content_at. destruct (find (fun e => beqb (fst e) X) (at_ u)) as [e|] eqn:F.
    - apply find_some in F as [Hin E]. apply beqb_eq in E. destruct (at_shape a id u e Hin) as (Y & st' & ->).
      simpl in E; subst Y. assert (st = st'); [|now subst]. apply (stage_unique at_ X u); auto. now left.
    - destruct H as [H|[_ ->]]; auto. eapply find_none in F; eauto. cbv beta in F. simpl in F. rewrite beqb_refl in F; discriminate.
  Qed.

  Lemma stage_cutover_le X u st : 0 <= from -> In u (from :: cs) -> stage_of at_ X u st -> sm_cutover st <= u.
  Proof.
    intros H0 Hu [H|[_ ->]]; [|simpl; lia]. apply news_in in H as (? & ? & ? & ? & ? & p & _ & _ & _ & _ & _ & E).
    injection E as ->. cbn [sm_cutover]. pose proof (rc_bounds a id u) as Hb.
    assert (from <= u) by (apply instant_range in Hu; lia). eapply Z.le_trans; [apply Hb|lia].
  Qed.

  (** A stage dated before an instant [q] is the same just before [q], at [q] and up to its own instant. *)
  Lemma stage_back X A p q Bq j st : from :: cs = A ++ p :: q :: Bq -> In j (q :: Bq) -> stage_of at_ X j st -> sm_cutover st < q ->
    In X (map fst (at_ p)) /\ In X (map fst (at_ q)) /\ content_at X p = content_at X q.
  Proof.
    intros E Hj Hst Hlt.
    destruct (adjacent A p q Bq E) as [Hpq Hadj].
    assert (Hsq : StronglySorted Z.lt (q :: Bq)).
    { pose proof instants_sorted as Hs. rewrite E in Hs. clear - Hs. induction A as [|x A IH]; [now inversion Hs|]. inversion Hs; auto. }
    assert (Hqj : q <= j).
    { destruct Hj as [<-|Hj]; [lia|]. inversion Hsq as [|? ? _ Hf]; subst. rewrite Forall_forall in Hf; specialize (Hf j Hj); lia. }
    destruct Hst as [Hst|[_ ->]]; [|simpl in Hlt; lia].
    apply news_back in Hst as (c & Hc & Hcs0 & Hcj & Htb & Hback).
    assert (Hcp : c <= p) by (apply Hadj; [right; auto|lia]).
    destruct (Hback p ltac:(lia)) as (s1 & Hs1 & Hp1 & Ht1). destruct (Hback q ltac:(lia)) as (s2 & Hs2 & Hp2 & Ht2).
    assert (Hip : In p (from :: cs)) by (rewrite E; apply in_elt).
    assert (Hiq : In q (from :: cs)) by (rewrite E; apply in_or_app; right; right; now left).
    split; [apply in_map_iff; exists (X, [s1]); auto|]. split; [apply in_map_iff; exists (X, [s2]); auto|].
    rewrite <- (content_at_stage X p s1), <- (content_at_stage X q s2); try (now left); try (apply Hdistinct, instant_range; auto).
    congruence.
  Qed.

  Lemma Forall2_skipn_in {A0 C} (R : A0 -> C -> Prop) l m n y : Forall2 R l m -> In y (skipn n m) -> exists x, In x (skipn n l) /\ R x y.
  Proof.
    intros H; revert n; induction H as [|x z l m Hr H IH]; intros [|n] Hin; simpl in *; try tauto.
    - destruct Hin as [<-|Hin]; [exists x; auto|]. destruct (IH 0%nat) as (w & Hw & Hr'); [now simpl|]. exists w; auto.
    - auto.
  Qed.

  Lemma skipn_app_exact {A0} (l1 l2 : list A0) n : n = length l1 -> skipn n (l1 ++ l2) = l2.
  Proof. intros ->. rewrite skipn_app, skipn_all, Nat.sub_diag. reflexivity. Qed.

  Lemma first_stage_new T1 t0 T2 X st : from :: cs = T1 ++ t0 :: T2 -> T1 <> [] ->
    (forall u, In u T1 -> ~ In X (map fst (at_ u))) -> stage_of at_ X t0 st -> 0 <= from -> sm_cutover st = t0.
  Proof.
    intros E Hne Hno Hst H0. destruct (exists_last Hne) as (A & p & ->). rewrite <- app_assoc in E.
    assert (Ht0 : In t0 (from :: cs)) by (rewrite E; simpl; apply in_or_app; right; right; now left).
    pose proof (stage_cutover_le X t0 st H0 Ht0 Hst) as Hle.
    destruct (Z.eq_dec (sm_cutover st) t0) as [|Hn]; auto. exfalso.
    destruct (stage_back X A p t0 T2 t0 st E (or_introl eq_refl) Hst ltac:(lia)) as [Hx _].
    apply (Hno p); auto. apply in_or_app; right; now left.
  Qed.

  Lemma new_id_served X l t : 0 <= from -> In (X, l) (mr_news (forward_match a id from to)) -> from <= t < to ->
    exists s rest, active_stages_at l t = s :: rest /\
      (forall st, In (X, [st]) (at_ t) -> sm_pipelines s = sm_pipelines st /\ sm_tombstoned s = false) /\
      (~ In X (map fst (at_ t)) -> sm_tombstoned s = true \/ t < sm_cutover s).
  Proof.
    intros H0 Hin Ht. destruct news_accounts as [_ Hacc]. apply Hacc in Hin as (T1 & t0 & T2 & E & Hno & Hx & HF).
    destruct (governing t ltac:(lia)) as (k & Hk & Hkt & Hmax).
    pose proof (governing_match t k ltac:(lia) Hk Hkt Hmax) as Hgov.
    assert (Hat : at_ k = at_ t) by (unfold at_; now rewrite Hgov).
    assert (Hin_I : forall u, In u (t0 :: T2) -> In u (from :: cs)).
    { intros u Hu. rewrite E. apply in_or_app; now right. }
    assert (HI : StronglySorted Z.lt (t0 :: T2)).
    { pose proof instants_sorted as Hs. rewrite E in Hs. clear - Hs. induction T1 as [|x A IH]; auto. inversion Hs; auto. }
    rewrite E in Hk. apply in_app_or in Hk as [Hk|Hk].
    - (* not introduced yet *)
      assert (Hall : Forall (fun s => t < sm_cutover s) l).
      { apply Forall_forall; intros s Hs. destruct (Z_lt_dec t (sm_cutover s)) as [|Hge]; auto. exfalso.
        assert (Hne : T1 <> []) by (intros ->; destruct Hk).
        destruct (exists_last Hne) as (A & p & ET). subst T1.
        destruct (Forall2_skipn_in _ _ _ 0 s HF) as (j & Hj & Hst); [now simpl|]. simpl in Hj.
        assert (E' : from :: cs = A ++ p :: t0 :: T2) by (rewrite E, <- app_assoc; reflexivity).
        assert (Ht0 : t < t0).
        { destruct (Z_lt_dec t t0); auto. specialize (Hmax t0 (Hin_I t0 (or_introl eq_refl)) ltac:(lia)).
          pose proof instants_sorted as Hs0. rewrite E in Hs0. clear - Hs0 Hk Hmax. exfalso.
          induction (A ++ [p]) as [|x B0 IH]; [destruct Hk|]. inversion Hs0 as [|? ? Hs1 Hf]; subst. destruct Hk as [->|Hk]; auto.
          rewrite Forall_forall in Hf. specialize (Hf t0 (in_elt _ _ _)); lia. }
        destruct (stage_back X A p t0 T2 j s E' Hj Hst ltac:(lia)) as [Hxp _].
        apply (Hno p); auto. apply in_or_app; right; now left. }
      inversion HF as [|? s0 ? l' Hs0 HF']; subst.
      destruct (active_stages_at_spec (s0 :: l') t) as [(pre & s & post & El & _ & Hc & _)|[Ea _]].
      { exfalso. rewrite Forall_forall in Hall. assert (In s (s0 :: l')) by (rewrite El; apply in_elt). apply Hall in H; lia. }
      exists s0, l'. split; auto. split.
      + intros st Hst. exfalso. apply (Hno k Hk). rewrite Hat. apply in_map_iff; exists (X, [st]); auto.
      + intros _. right. inversion Hall; auto.
    - assert (Hkr : In k (from :: cs)) by (rewrite E; apply in_or_app; auto).
      destruct (served (content_at X) (fun s => (sm_pipelines s, sm_tombstoned s)) (t0 :: T2) l t k) as (s & rest & Ea & Hc & Hle); auto.
      + clear - HF Hin_I H0 Hdistinct Hcs. induction HF as [|u s I l Hu HF IH]; constructor.
        * split; [apply content_at_stage; auto; apply Hdistinct, instant_range, Hin_I; now left|].
          eapply stage_cutover_le; eauto. apply Hin_I; now left.
        * apply IH. intros w Hw; apply Hin_I; now right.
      + intros A p q Bq s EI Hs Hlt.
        destruct (Forall2_skipn_in _ _ _ _ s HF Hs) as (j & Hj & Hst).
        rewrite EI in Hj. change (A ++ p :: q :: Bq) with (A ++ [p] ++ (q :: Bq)) in Hj. rewrite app_assoc in Hj.
        rewrite skipn_app_exact in Hj by (rewrite app_length; simpl; lia).
        apply (stage_back X (T1 ++ A) p q Bq j s); auto. rewrite E, EI, <- app_assoc. reflexivity.
      + exists s, rest. split; auto. split.
        * intros st Hst. rewrite <- Hat in Hst.
          assert (Hcc : (sm_pipelines st, sm_tombstoned st) = content_at X k)
            by (apply content_at_stage; [apply Hdistinct, instant_range; auto|now left]).
          rewrite <- Hc in Hcc. injection Hcc; intros Htb Hpp. split; [now symmetry|]. rewrite <- Htb.
          apply news_in in Hst as (? & ? & ? & ? & ? & p & _ & _ & _ & _ & _ & E1). injection E1 as ->. reflexivity.
        * intros Hn. left. rewrite <- Hat in Hn.
          assert (Hcc : ([], true) = content_at X k).
          { change ([] : list pipeline_metadata, true) with (sm_pipelines (mk_sm (F := list) [] k true), sm_tombstoned (mk_sm (F := list) [] k true)).
            apply content_at_stage; [apply Hdistinct, instant_range; auto|]. right; auto. }
          rewrite <- Hc in Hcc. now injection Hcc.
  Qed.
End Window.
