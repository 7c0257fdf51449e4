(** Validated rule sets, and the options made from a configuration. *)
From Coq Require Import Ascii String Arith NArith ZArith Bool Lia Permutation Sorting.Sorted List.
From Verif.Base Require Import Bytes BytesFacts.
From Verif.Proof Require Import AggProof MetadataProof RulesProof MatchProof ServeProof EditProof EditMatchProof RuleSetProtoProof StoreEditProof ValidatorProof.
From Verif.Model Require Import AggType Policy Transformation Pipeline Metadata Filter Rules RuleSet RuleSetProto Validator.
From Verif.Spec Require Import AggSpec PolicySpec MetadataSpec RulesSpec EditSpec RuleSetProtoSpec ValidatorSpec.
Import ListNotations.
Open Scope Z_scope.

(** ** The order of the rules in a view does not matter *)
Lemma distinct_rollups_cons x l : distinct_rollups (x :: l) <-> distinct_rollups l /\ forall y, In y l -> ~ same_rollup x y.
Proof.
  unfold distinct_rollups. split.
  - intros H. split.
    + intros i j a b Hi Hj Hs. specialize (H (S i) (S j) a b Hi Hj Hs). congruence.
    + intros y Hy Hs. apply In_nth_error in Hy as (i & Hi). specialize (H 0%nat (S i) x y eq_refl Hi Hs). discriminate.
  - intros [H1 H2] [|i] [|j] a b Hi Hj Hs; simpl in *; auto.
    + injection Hi as <-. exfalso. apply (H2 b); auto. eapply nth_error_In; eauto.
    + injection Hj as <-. exfalso. apply (H2 a); [eapply nth_error_In; eauto|now apply same_rollup_sym].
    + f_equal. eapply H1; eauto.
Qed.

Lemma distinct_rollups_perm l l' : Permutation l l' -> distinct_rollups l -> distinct_rollups l'.
Proof.
  induction 1 as [|x l l' Hp IH|x y l|l l' l'' H1 IH1 H2 IH2]; auto.
  - rewrite !distinct_rollups_cons. intros [H1 H2]. split; auto. intros y Hy. apply H2. now rewrite Hp.
  - rewrite !distinct_rollups_cons. intros [[H1 H2] H3]. split; [split; auto|].
    + intros z Hz. apply H3. now right.
    + intros z [<-|Hz]; auto. intros Hs. apply (H3 x); [now left|now apply same_rollup_sym].
Qed.

Lemma filter_perm {A} (f : A -> bool) l l' : Permutation l l' -> Permutation (List.filter f l) (List.filter f l').
Proof.
  induction 1 as [|x l l' Hp IH|x y l|l l' l'' H1 IH1 H2 IH2]; simpl; auto.
  - destruct (f x); auto.
  - destruct (f x), (f y); auto. apply perm_swap.
  - etransitivity; eauto.
Qed.

Lemma snapshot_ok_perm o ns v c v' c' ms ms' rr rr' : Permutation ms ms' -> Permutation rr rr' ->
  snapshot_ok o (mk_rsv ns v c ms rr) -> snapshot_ok o (mk_rsv ns v' c' ms' rr').
Proof.
  intros Hm Hr [H1 H2 H3 H4 H5 H6]. cbn [rsv_namespace rsv_mapping rsv_rollup] in *. constructor; cbn [rsv_namespace rsv_mapping rsv_rollup]; auto.
  - eapply Permutation_NoDup; [|exact H2]. apply Permutation_map. now apply filter_perm.
  - intros r Hin. apply H3. now rewrite Hm.
  - eapply Permutation_NoDup; [|exact H4]. apply Permutation_map. now apply filter_perm.
  - intros r Hin. apply H5. now rewrite Hr.
  - eapply distinct_rollups_perm; [|exact H6]. unfold rollups_of. apply Permutation_flat_map. now apply filter_perm.
Qed.

(** ** Validating a rule set validates its live rules *)
Lemma validate_spec o rs : ids_distinct (rs_mapping rs) -> ids_distinct (rs_rollup rs) -> rule_set_canonical rs -> rule_set_words rs ->
  exists ms rr, collect (shows_live (fun b => b)) (rs_mapping rs) ms /\ collect (shows_live (fun b => b)) (rs_rollup rs) rr /\
    forall v c, (validate o rs = true <-> snapshot_ok o (mk_rsv (rs_namespace rs) v c ms rr)).
Proof.
  intros Im Ir Hc [Wm Wr].
  destruct (latest_mapping rs Im) as (ms & Cm & Pm & _). destruct (latest_rollup rs Ir Hc) as (rr & Cr & Pr & _).
  exists ms, rr. split; auto. split; auto. intros v c. unfold validate.
  assert (Hw : snapshot_words (latest rs)).
  { split.
    - intros r Hr. rewrite <- Pm in Hr. destruct (collect_in _ _ _ _ Cm Hr) as (x & Hx & s & Hs & _ & ->). cbn.
      apply (Wm x s); auto. now apply EditMatchProof.newest_in.
    - intros r t x Hr Ht Hx. rewrite <- Pr in Hr. destruct (collect_in _ _ _ _ Cr Hr) as (y & Hy & s & Hs & _ & ->). cbn in Ht.
      apply (Wr y s t x); auto. now apply EditMatchProof.newest_in. }
  rewrite (snapshot_spec o _ Hw).
  destruct (latest rs) as [ns v' c' ms' rr'] eqn:El. assert (Ens : ns = rs_namespace rs) by (unfold latest in El; congruence). subst ns.
  cbn [rsv_mapping rsv_rollup] in *. split; apply snapshot_ok_perm; auto; now symmetry.
Qed.

Lemma shows_live_fun {P} (r : rule P) v v' : shows_live (fun b => b) r v -> shows_live (fun b => b) r v' -> v = v'.
Proof.
  intros (s & (h & E) & _ & ->) (s' & (h' & E') & _ & ->). rewrite E in E'. apply app_inj_tail in E' as [_ ->]. reflexivity.
Qed.

Lemma validated_live o rs : ids_distinct (rs_mapping rs) -> ids_distinct (rs_rollup rs) -> rule_set_canonical rs -> rule_set_words rs ->
  validate o rs = true ->
  (forall r s, In r (rs_mapping rs) -> newest r s -> sn_tomb s = false ->
     exists v, mapping_ok o v /\ rv_filter v = sn_raw s /\ rv_body v = sn_body s) /\
  (forall r s, In r (rs_rollup rs) -> newest r s -> sn_tomb s = false ->
     exists v, rollup_ok o v /\ rv_filter v = sn_raw s /\ rv_body v = sn_body s).
Proof.
  intros Im Ir Hc Hw Hv. destruct (validate_spec o rs Im Ir Hc Hw) as (ms & rr & Cm & Cr & H). apply (H 0 0) in Hv.
  destruct Hv as [_ _ H3 _ H5 _]. cbn [rsv_mapping rsv_rollup] in *. split.
  - intros r s Hr Hs Ht.
    set (v := mk_rv (ru_uuid r) (sn_name s) false (Z.quot (sn_cutover s) 1000000) (sn_raw s) (sn_body s) (sn_by s) (Z.quot (sn_at s) 1000000)).
    exists v. split; [|split; reflexivity]. apply H3; [|reflexivity].
    apply (collect_in_conv _ _ _ r v shows_live_fun Cm Hr). exists s. auto.
  - intros r s Hr Hs Ht.
    set (v := mk_rv (ru_uuid r) (sn_name s) false (Z.quot (sn_cutover s) 1000000) (sn_raw s) (sn_body s) (sn_by s) (Z.quot (sn_at s) 1000000)).
    exists v. split; [|split; reflexivity]. apply H5; [|reflexivity].
    apply (collect_in_conv _ _ _ r v shows_live_fun Cr Hr). exists s. auto.
Qed.

Lemma agg_permitted_valid o first types id : agg_permitted o first types id -> valid_agg_id id.
Proof.
  intros [->|(H & _)]; auto. split; [reflexivity|]. intros k Hk. rewrite N.bits_0 in Hk. discriminate.
Qed.

Lemma applies_nonempty o f types : applies_to o f types -> exists t, In t types.
Proof. intros (m & _ & _ & _ & H). destruct types as [|t types]; [now elim H|]. exists t. now left. Qed.

Lemma policies_storable o f types sps : allows_storable_policies o -> applies_to o f types ->
  policies_permitted o types sps -> Forall sp_ok sps.
Proof.
  intros Ha Hf (_ & _ & H). destruct (applies_nonempty _ _ _ Hf) as (t & Ht).
  apply Forall_forall. intros p Hp. destruct (H t p Ht Hp) as (m & Hm & Hin). eapply Ha; eauto.
Qed.

Lemma applies_text o f types : applies_to o f types -> filter_text_ok f.
Proof.
  intros (m & [H1 H2] & _). exists m. unfold validate_tags_filter. rewrite H1.
  destruct (map_opt (fun e : bytes * filter_value => new_filter_from_value (snd e)) m) eqn:E; auto.
  apply map_opt_none in E as ([n v] & Hin & E). destruct (H2 n v Hin) as (g & Eg). simpl in E. congruence.
Qed.

Lemma mapping_ok_readable o v s : allows_storable_policies o -> mapping_ok o v -> rv_filter v = sn_raw s -> rv_body v = sn_body s ->
  mapping_fits s /\ mapping_readable s /\ filter_text_ok (sn_raw s).
Proof.
  intros Ha (types & Hf & H) E1 E2. rewrite E1, E2 in *. pose proof (applies_text _ _ _ Hf) as Ht.
  unfold mapping_fits, mapping_readable. destruct H as [(Hd & Hg & Hp)|(Hd & Hg & Hp)].
  - pose proof (agg_permitted_valid _ _ _ _ Hg) as Hv. rewrite Hd.
    split; [split; [apply Hv|lia]|]. split; auto. split; auto. split; [eapply policies_storable; eauto|].
    split; [lia|]. split; auto. intros _. left. apply Hp.
  - rewrite Hg, Hp. split; [split; [reflexivity|lia]|]. split; auto.
    split; [split; [reflexivity|intros k Hk; rewrite N.bits_0 in Hk; discriminate]|]. split; [constructor|].
    split; [lia|]. split; [intros _; right; lia|]. intros X; now elim X.
Qed.

Lemma rollup_ok_readable o v s : allows_storable_policies o -> rollup_ok o v -> rv_filter v = sn_raw s -> rv_body v = sn_body s ->
  (forall tg, In tg (sn_body s) -> Forall op_canonical (tg_pipeline tg)) -> sn_body s <> [] ->
  (forall tg x, In tg (sn_body s) -> In x (tg_pipeline tg) -> (ro_agg (op_rollup x) < 2 ^ 64)%N) ->
  rollup_fits s /\ rollup_readable s /\ filter_text_ok (sn_raw s).
Proof.
  intros Ha (types & Hf & H) E1 E2 Hcan Hne Hw. rewrite E1, E2 in *. pose proof (applies_text _ _ _ Hf) as Ht.
  assert (Hop : forall tg x, In tg (sn_body s) -> In x (tg_pipeline tg) -> op_valid x).
  { intros tg x Htg Hx. destruct (H tg Htg) as [[Hops _ _ _] _]. apply In_nth_error in Hx as (i & Hi).
    destruct (Hops i x Hi) as [(Hk & _ & Hv & _)|[(Hk & Hv)|(Hk & Hp)]]; unfold op_valid; auto.
    right; right. split; auto. destruct Hp as (_ & _ & _ & _ & _ & Hp). eapply agg_permitted_valid; eauto. }
  split; [|split; auto; split; auto].
  - intros tg x Htg Hx. split; [|eauto].
    specialize (Hop tg x Htg Hx). specialize (Hcan tg Htg). rewrite Forall_forall in Hcan. destruct (Hcan x Hx) as (C1 & _).
    destruct Hop as [(Hk & Hv)|[(Hk & _)|(Hk & _)]]; [unfold valid_type in Hv; lia| |];
      (rewrite C1; [lia|rewrite Hk; discriminate]).
  - apply Forall_forall. intros tg Htg. split; [apply Forall_forall; eauto|].
    destruct (H tg Htg) as [_ Hp]. eapply policies_storable; eauto.
Qed.

(** ** A validated rule set whose history is storable is storable *)
Lemma validated_storable o ro rs : ids_distinct (rs_mapping rs) -> ids_distinct (rs_rollup rs) -> rule_set_canonical rs -> rule_set_words rs ->
  allows_storable_policies o -> validate o rs = true ->
  (forall r s, In r (rs_rollup rs) -> newest r s -> sn_tomb s = false -> sn_body s <> []) ->
  (forall r h n s, In r (rs_mapping rs) -> ru_snapshots r = h ++ [n] -> In s h \/ s = n /\ sn_tomb n = true ->
     mapping_fits s /\ mapping_readable s /\ exists f, compiles_to (ropt_tags ro) (sn_raw s) f) ->
  (forall r h n s, In r (rs_rollup rs) -> ru_snapshots r = h ++ [n] -> In s h \/ s = n /\ sn_tomb n = true ->
     rollup_fits s /\ rollup_readable s /\ exists f, compiles_to (ropt_tags ro) (sn_raw s) f) ->
  storable ro rs.
Proof.
  intros Im Ir Hc Hw Ha Hv Hne Hm Hr. destruct (validated_live o rs Im Ir Hc Hw Hv) as [Lm Lr]. destruct Hw as [Wm Wr].
  assert (Hdec : forall P (r : rule P) s, In s (ru_snapshots r) -> exists h n, ru_snapshots r = h ++ [n] /\ (In s h \/ s = n)).
  { intros P [u l] s Hs. cbn in *. destruct l as [|x l] using rev_ind; [destruct Hs|]. clear IHl.
    exists l, x. split; auto. apply in_app_iff in Hs as [Hs|[->|[]]]; auto. }
  split.
  - intros r s Hin Hs. destruct (Hdec _ r s Hs) as (h & n & E & Hcase).
    destruct (sn_tomb n) eqn:Et; [eapply Hm; eauto; tauto|].
    destruct Hcase as [Hh|Heq]; [eapply Hm; eauto|subst n].
    destruct (Lm r s Hin (ex_intro _ h E) Et) as (v & Hok & E1 & E2).
    destruct (mapping_ok_readable o v s Ha Hok E1 E2) as (H1 & H2 & H3). split; auto. split; auto. now apply filter_text_compiles.
  - intros r s Hin Hs. destruct (Hdec _ r s Hs) as (h & n & E & Hcase).
    destruct (sn_tomb n) eqn:Et; [eapply Hr; eauto; tauto|].
    destruct Hcase as [Hh|Heq]; [eapply Hr; eauto|subst n].
    destruct (Lr r s Hin (ex_intro _ h E) Et) as (v & Hok & E1 & E2).
    destruct (rollup_ok_readable o v s Ha Hok E1 E2) as (H1 & H2 & H3); eauto.
    + apply (Hne r s); auto. now exists h.
    + split; auto. split; auto. now apply filter_text_compiles.
Qed.

(** ** Editing under validation keeps a rule set storable *)
Lemma edited_content o rs e m rs' :
  ids_distinct (rs_mapping rs') -> ids_distinct (rs_rollup rs') -> rule_set_canonical rs' -> rule_set_words rs' ->
  allows_storable_policies o -> validate o rs' = true ->
  (forall r s, In r (rs_rollup rs') -> newest r s -> sn_tomb s = false -> sn_body s <> []) ->
  run_edit rs e m = (rs', true) -> content_ok e.
Proof.
  intros Im Ir Hc Hw Ha Hv Hne E. destruct (validated_live o rs' Im Ir Hc Hw Hv) as [Lm Lr]. destruct Hw as [Wm Wr].
  assert (Xm : forall e0 l l', rs_mapping rs' = l' -> (exists id f, adds f e0 m l l' id) \/ updates e0 m l l' ->
    mapping_fits (mk_snap (re_name e0) false 0 None (re_filter e0) (re_body e0) 0 []) /\
    mapping_readable (mk_snap (re_name e0) false 0 None (re_filter e0) (re_body e0) 0 [])).
  { intros e0 l l' El H. assert (H' : exists r, In r l' /\ newest r (edited e0 m)).
    { destruct H as [(id & f & H)|H]; inversion H; subst.
      - eexists. split; [apply in_app_iff; right; left; reflexivity|]. exists []. reflexivity.
      - eexists. split; [apply in_app_iff; right; left; reflexivity|]. eexists. reflexivity.
      - eexists. split; [apply in_app_iff; right; left; reflexivity|]. eexists. reflexivity. }
    destruct H' as (r & Hr & Hn). rewrite <- El in Hr. destruct (Lm r _ Hr Hn eq_refl) as (v & Hok & E1 & E2).
    destruct (mapping_ok_readable o v _ Ha Hok E1 E2) as (H1 & H2 & _). split; [exact H1|exact H2]. }
  assert (Xr : forall e0 l l', rs_rollup rs' = l' -> (exists id f, adds f e0 m l l' id) \/ updates e0 m l l' ->
    rollup_fits (mk_snap (re_name e0) false 0 None (re_filter e0) (re_body e0) 0 []) /\
    rollup_readable (mk_snap (re_name e0) false 0 None (re_filter e0) (re_body e0) 0 [])).
  { intros e0 l l' El H. assert (H' : exists r, In r l' /\ newest r (edited e0 m)).
    { destruct H as [(id & f & H)|H]; inversion H; subst.
      - eexists. split; [apply in_app_iff; right; left; reflexivity|]. exists []. reflexivity.
      - eexists. split; [apply in_app_iff; right; left; reflexivity|]. eexists. reflexivity.
      - eexists. split; [apply in_app_iff; right; left; reflexivity|]. eexists. reflexivity. }
    destruct H' as (r & Hr & Hn). rewrite <- El in Hr. destruct (Lr r _ Hr Hn eq_refl) as (v & Hok & E1 & E2).
    pose proof (EditMatchProof.newest_in r _ Hn) as Hin.
    destruct (rollup_ok_readable o v _ Ha Hok E1 E2) as (H1 & H2 & _); [eauto|apply (Hne r _ Hr Hn eq_refl)|eauto|].
    split; [exact H1|exact H2]. }
  unfold run_edit in E. destruct e; cbn [content_ok]; auto.
  - destruct (rules_add true fresh (rs_mapping rs) e m) as [[l id]|] eqn:A; [|discriminate]. injection E as <-.
    apply rules_add_adds in A. eapply Xm; [reflexivity|]. left. eauto.
  - destruct (rules_update (rs_mapping rs) e m) as [l|] eqn:A; [|discriminate]. injection E as <-.
    apply rules_update_updates in A. eapply Xm; [reflexivity|]. right. eauto.
  - rewrite view_targets_id in E. destruct (rules_add false fresh (rs_rollup rs) e m) as [[l id]|] eqn:A; [|discriminate]. injection E as <-.
    apply rules_add_adds in A. eapply Xr; [reflexivity|]. left. eauto.
  - rewrite view_targets_id in E. destruct (rules_update (rs_rollup rs) e m) as [l|] eqn:A; [|discriminate]. injection E as <-.
    apply rules_update_updates in A. eapply Xr; [reflexivity|]. right. eauto.
Qed.

Lemma validated_edit_storable o ro rs e m rs' :
  storable ro rs -> run_edit rs e m = (rs', true) ->
  ids_distinct (rs_mapping rs') -> ids_distinct (rs_rollup rs') -> rule_set_canonical rs' -> rule_set_words rs' ->
  allows_storable_policies o -> validate o rs' = true ->
  (forall r s, In r (rs_rollup rs') -> newest r s -> sn_tomb s = false -> sn_body s <> []) ->
  storable ro rs'.
Proof.
  intros Hs E Im Ir Hc Hw Ha Hv Hne.
  pose proof (run_edit_storable ro rs e m (edited_content o rs e m rs' Im Ir Hc Hw Ha Hv Hne E) Hs) as H. now rewrite E in H.
Qed.

(** ** Configurations *)
Lemma lookup_assign l t v u : vm_lookup (vm_assign l t v) u = if metric_type_eqb t u then Some v else vm_lookup l u.
Proof.
  unfold vm_lookup, vm_assign. cbn [List.find fst]. destruct (metric_type_eqb t u) eqn:E; [reflexivity|]. f_equal.
  induction l as [|[w x] l IH]; auto. cbn [List.filter List.find fst].
  destruct (metric_type_eqb w t) eqn:Ew; cbn [negb].
  - apply metric_type_eqb_eq in Ew as ->. rewrite E. exact IH.
  - cbn [List.find fst]. destruct (metric_type_eqb w u); auto.
Qed.

Lemma find_assign l d t v u : find_or_create (vm_assign l t v) d u = if metric_type_eqb t u then v else find_or_create l d u.
Proof. unfold find_or_create. rewrite lookup_assign. now destruct (metric_type_eqb t u). Qed.

Lemma find_override d l t pc u :
  find_or_create (apply_override d l (t, pc)) d u =
  if metric_type_eqb t u then
    mk_vm (or_default (pc_sps pc) (vm_sps (find_or_create l d u))) (or_default (pc_first pc) (vm_first (find_or_create l d u)))
      (or_default (pc_nonfirst pc) (vm_nonfirst (find_or_create l d u)))
  else find_or_create l d u.
Proof.
  unfold apply_override. destruct (metric_type_eqb t u) eqn:E.
  - apply metric_type_eqb_eq in E as ->. assert (R : metric_type_eqb u u = true) by now apply metric_type_eqb_eq.
    destruct pc as [[a|] [b|] [c|]]; cbn [pc_sps pc_first pc_nonfirst or_default]; rewrite ?find_assign, ?R; cbn [vm_sps vm_first vm_nonfirst];
      rewrite ?find_assign, ?R; cbn [vm_sps vm_first vm_nonfirst]; rewrite ?find_assign, ?R; try reflexivity.
    now destruct (find_or_create l d u).
  - destruct pc as [[a|] [b|] [c|]]; cbn [pc_sps pc_first pc_nonfirst]; rewrite ?find_assign, ?E; reflexivity.
Qed.

Lemma last_set_snoc {A} (field : policies_config -> option A) t ovs pc u d x :
  last_set field u ovs d x ->
  last_set field u (ovs ++ [(t, pc)]) d (if metric_type_eqb t u then or_default (field pc) x else x).
Proof.
  intros H. destruct (metric_type_eqb t u) eqn:E.
  - apply metric_type_eqb_eq in E as ->. destruct (field pc) as [y|] eqn:Ef; cbn [or_default].
    + left. exists ovs, pc, []. split; auto. split; auto. intros ? [].
    + destruct H as [(a & pc' & b & -> & H1 & H2)|[H1 H2]].
      * left. exists a, pc', (b ++ [(u, pc)]). rewrite <- app_assoc. split; auto. split; auto.
        intros q Hq. apply in_app_iff in Hq as [Hq|[[= <-]|[]]]; auto.
      * right. split; auto. intros q Hq. apply in_app_iff in Hq as [Hq|[[= <-]|[]]]; auto.
  - assert (Hne : t <> u) by (rewrite <- metric_type_eqb_eq; congruence).
    destruct H as [(a & pc' & b & -> & H1 & H2)|[H1 H2]].
    + left. exists a, pc', (b ++ [(t, pc)]). rewrite <- app_assoc. split; auto. split; auto.
      intros q Hq. apply in_app_iff in Hq as [Hq|[[= ? ?]|[]]]; auto. contradiction.
    + right. split; auto. intros q Hq. apply in_app_iff in Hq as [Hq|[[= ? ?]|[]]]; auto. contradiction.
Qed.

Lemma fold_overrides d ovs u : let m := find_or_create (fold_left (apply_override d) ovs []) d u in
  last_set pc_sps u ovs (vm_sps d) (vm_sps m) /\ last_set pc_first u ovs (vm_first d) (vm_first m) /\
  last_set pc_nonfirst u ovs (vm_nonfirst d) (vm_nonfirst m).
Proof.
  induction ovs as [|[t pc] ovs IH] using rev_ind; cbn zeta in *.
  - unfold find_or_create; cbn. split; [|split]; right; split; auto; intros ? [].
  - rewrite fold_left_app. cbn [fold_left]. rewrite find_override.
    destruct IH as (H1 & H2 & H3).
    split; [|split]; [apply (last_set_snoc _ t ovs pc) in H1|apply (last_set_snoc _ t ovs pc) in H2|apply (last_set_snoc _ t ovs pc) in H3];
      destruct (metric_type_eqb t u); cbn [vm_sps vm_first vm_nonfirst]; assumption.
Qed.

Lemma config_settings c t m : settings (new_validator_options c) t m <->
  last_set pc_sps t (vc_overrides c) (or_default (pc_sps (vc_default c)) []) (vm_sps m) /\
  last_set pc_first t (vc_overrides c) (or_default (pc_first (vc_default c)) []) (vm_first m) /\
  last_set pc_nonfirst t (vc_overrides c) (or_default (pc_nonfirst (vc_default c)) []) (vm_nonfirst m).
Proof.
  assert (Hu : forall A (f : policies_config -> option A) ovs d x y, last_set f t ovs d x -> last_set f t ovs d y -> x = y).
  { intros A f ovs d x y H1 H2. destruct H1 as [(a & p & b & E & F & G)|[H1 ->]], H2 as [(a' & p' & b' & E' & F' & G')|[H2 ->]]; auto.
    - revert a' E'. rewrite E. clear E ovs. induction a as [|z a IH]; intros [|z' a'] E'; simpl in *.
      + congruence.
      + injection E' as <- E'. subst b. rewrite (G p') in F' by (apply in_app_iff; right; now left). discriminate.
      + injection E' as -> E'. subst b'. rewrite (G' p) in F by (apply in_app_iff; right; now left). discriminate.
      + injection E' as <- E'. eauto.
    - rewrite (H2 p) in F by (rewrite E; apply in_app_iff; right; now left). discriminate.
    - rewrite (H1 p') in F' by (rewrite E'; apply in_app_iff; right; now left). discriminate. }
  rewrite settings_iff. unfold new_validator_options; cbn [vo_by_type vo_default].
  set (d := mk_vm _ _ _). pose proof (fold_overrides d (vc_overrides c) t) as (H1 & H2 & H3). unfold find_or_create in *.
  set (x := match vm_lookup (fold_left (apply_override d) (vc_overrides c) []) t with Some v => v | None => d end) in *.
  subst d. cbn [vm_sps vm_first vm_nonfirst] in *. split.
  - intros <-. auto.
  - intros (G1 & G2 & G3). destruct m as [m1 m2 m3], x as [x1 x2 x3]. cbn [vm_sps vm_first vm_nonfirst] in *. f_equal; eauto.
Qed.

Lemma filters_lookup_spec m k v : NoDup (map fst m) -> (filters_lookup m k = Some v <-> In (k, v) m).
Proof.
  unfold filters_lookup. induction m as [|[n w] m IH]; cbn [List.find map fst]; intros H; [split; [discriminate|intros []]|].
  inversion H; subst. destruct (beqb n k) eqn:E; cbn [option_map snd].
  - apply beqb_eq in E as ->. split; [intros [= ->]; now left|]. intros [[= ->]|Hin]; auto.
    exfalso. apply H2. now apply (in_map fst) in Hin.
  - rewrite IH by auto. apply beqb_neq in E. split; [now right|]. intros [[= ? ?]|Hin]; auto. contradiction.
Qed.

Lemma config_types tag allowed m : NoDup (map fst m) ->
  (forall n v, In (n, v) m -> exists g, new_filter_from_value v = Some g) ->
  exists types, config_types_fn tag allowed m = Some types /\
    forall t, In t types <-> In t allowed /\
      forall v g, In (tag, v) m -> new_filter_from_value v = Some g -> matches g (type_name t) = true.
Proof.
  intros Hnd Hg. unfold config_types_fn. destruct (filters_lookup m tag) as [v|] eqn:E.
  - apply (filters_lookup_spec m tag v Hnd) in E. destruct (Hg tag v E) as (g & Eg). rewrite Eg. eexists. split; [reflexivity|].
    intros t. rewrite filter_In. split.
    + intros [H1 H2]. split; auto. intros v' g' Hin Eg'.
      assert (v' = v) as ->.
      { apply (filters_lookup_spec m tag v' Hnd) in Hin. apply (filters_lookup_spec m tag v Hnd) in E. congruence. }
      assert (g' = g) as -> by congruence. exact H2.
    + intros [H1 H2]. split; auto. exact (H2 v g E Eg).
  - eexists. split; [reflexivity|]. intros t. split; [|tauto]. intros H. split; auto. intros v g Hin _.
    apply (filters_lookup_spec m tag v Hnd) in Hin. congruence.
Qed.

Lemma parsed_nodup f m : filter_conditions f m -> NoDup (map fst m).
Proof. intros [H _]. destruct (TagProof.spaced_exists f) as (ts & Hs). apply (TagProof.parse_spec ts f m Hs) in H. apply H. Qed.

Lemma validated_session_storable o ro rs rs' : allows_storable_policies o -> storable ro rs ->
  edited_under (fun x => ids_ok x /\ rule_set_canonical x /\ rule_set_words x /\ validate o x = true /\
    (forall r s, In r (rs_rollup x) -> newest r s -> sn_tomb s = false -> sn_body s <> [])) rs rs' ->
  storable ro rs'.
Proof.
  intros Ha Hs H. induction H as [|rs rs1 rs2 e m H IH E ((Im & Ir) & Hc & Hw & Hv & Hne)]; auto.
  exact (validated_edit_storable o ro rs1 e m rs2 (IH Hs) E Im Ir Hc Hw Ha Hv Hne).
Qed.
