(** The reader of stored rule sets accepts exactly what has a meaning. *)
From Coq Require Import Ascii String Arith NArith ZArith Bool Lia Permutation Sorting.Sorted List.
From Verif.Base Require Import Bytes BytesFacts.
From Verif.Proof Require Import AggProof PolicyProof MetadataProof EditProof RuleSetProtoProof.
From Verif.Model Require Import AggType Policy Transformation Pipeline Metadata Filter Rules RuleSet RuleSetProto.
From Verif.Spec Require Import AggSpec PolicySpec MetadataSpec RuleSetProtoSpec StoredSpec.
Import ListNotations.
Open Scope Z_scope.

Lemma map_opt_iff {A C} (f : A -> option C) (R : A -> C -> Prop) l l' :
  (forall x y, In x l -> (f x = Some y <-> R x y)) -> (map_opt f l = Some l' <-> Forall2 R l l').
Proof.
  intros H. rewrite map_opt_some. split; intros F.
  - induction F as [|x y l l' E F IH]; constructor; [apply H; [now left|exact E]|]. apply IH. intros; apply H. now right.
  - induction F as [|x y l l' E F IH]; constructor; [apply H; [now left|exact E]|]. apply IH. intros; apply H. now right.
Qed.

Lemma types_mean_iff zs w : id_from_proto_types zs = (w, false) <-> types_mean zs w.
Proof.
  unfold types_mean. split.
  - intros E. pose proof (id_from_proto_types_valid zs w E) as [Hw _]. unfold id_from_proto_types in E.
    destruct (types_from_proto zs) as [ts|] eqn:T; [|discriminate]. apply types_from_proto_some in T as [Hv ->].
    destruct (compressor_valid 0 zs Hv) as (w' & Ew & Hb). unfold compress_types in E. rewrite Ew in E. injection E as <-. auto.
  - intros (Hv & Hw & Hb). unfold id_from_proto_types. rewrite (proj2 (types_from_proto_some zs zs)) by auto.
    destruct (compressor_valid 0 zs Hv) as (w' & Ew & Hb'). unfold compress_types. rewrite Ew. cbn [snd]. f_equal.
    apply N.bits_inj. intros k. specialize (Hb k). specialize (Hb' k).
    destruct (N.testbit w' k), (N.testbit w k); intuition congruence.
Qed.

Lemma unit_nanos_iff d u : unit_from_duration d = Some u <-> In (u, d) unit_nanos.
Proof.
  unfold unit_from_duration, unit_table, unit_nanos. cbn [find snd fst].
  change (10 ^ 9) with 1000000000. change (10 ^ 6) with 1000000. change (10 ^ 3) with 1000.
  change (60 * 1000000000) with 60000000000. change (3600 * 1000000000) with 3600000000000.
  change (24 * 3600 * 1000000000) with 86400000000000. change (365 * 24 * 3600 * 1000000000) with 31536000000000000.
  split.
  - repeat match goal with |- context [?a =? d] => destruct (Z.eqb_spec a d) as [<-|] end; cbn; intros H;
      try discriminate; injection H as <-; auto 20.
  - intros H. cbn [In] in H. repeat destruct H as [H|H]; try (injection H as <- <-; reflexivity). destruct H.
Qed.

Lemma sp_means_iff m p : new_sp_from_proto m = Some p <-> sp_means m p.
Proof.
  unfold sp_means, new_sp_from_proto, sp_from_proto, resolution_from_proto. split.
  - destruct m as [x|]; [|discriminate]. destruct (spp_resolution x) as [r|] eqn:Er; [|discriminate].
    destruct (unit_from_duration (rp_precision r)) as [u|] eqn:U; [|discriminate].
    destruct (spp_retention x) as [t|] eqn:Et; [|discriminate]. intros H. injection H as <-. exists x, r.
    cbn [sp_retention sp_resolution r_window r_precision]. rewrite <- unit_nanos_iff. auto.
  - intros (x & r & -> & -> & -> & Hw & Hu). apply unit_nanos_iff in Hu. rewrite Hu, Hw. destruct p as [[w u] t]. reflexivity.
Qed.

Lemma policy_means_iff m p :
  (exists q, m = Some q /\ new_sp_from_proto (pp_storage q) = Some (p_storage p) /\ id_from_proto_types (pp_types q) = (p_agg p, false))
  <-> policy_means m p.
Proof.
  unfold policy_means. split; intros (x & E & H1 & H2); exists x; (split; [exact E|]);
    (split; [now apply sp_means_iff|now apply types_mean_iff]).
Qed.

Lemma legacy_means_iff ps agg sps :
  to_aggregation_id_and_storage_policies ps = Some (agg, sps) <->
  exists l, Forall2 policy_means ps l /\ legacy_policies l agg sps.
Proof.
  rewrite legacy_policies_iff. split; intros (l & F & H); exists l; (split; [|exact H]); clear H;
    induction F; constructor; auto; now apply policy_means_iff.
Qed.

Lemma sort_strings_sorted tags : sorted_tags tags (sort_strings tags).
Proof. split; [symmetry; apply isort_perm|apply isort_sorted; [apply bleb_total|apply bleb_trans]]. Qed.
Lemma sorted_tags_iff tags l : sorted_tags tags l <-> l = sort_strings tags.
Proof.
  split; [|intros ->; apply sort_strings_sorted]. intros [P S]. destruct (sort_strings_sorted tags) as [P' S'].
  apply (sorted_perm_unique bleb); auto.
  - intros x. apply bleb_refl.
  - intros x y _ _. apply bleb_antisym.
  - transitivity tags; [exact P|now symmetry].
Qed.

Lemma type_from_proto_some z t : type_from_proto z = Some t <-> valid_type z /\ t = z.
Proof.
  unfold type_from_proto. destruct (is_valid z) eqn:V.
  - apply is_valid_spec in V. split; [intros H; injection H as <-; auto|intros [_ ->]; reflexivity].
  - split; [discriminate|]. intros [H _]. apply is_valid_spec in H. congruence.
Qed.

Lemma op_means_iff m a : new_op_from_proto m = Some a <-> op_means m a.
Proof.
  unfold new_op_from_proto. split.
  - destruct (Z.eqb_spec (opp_type m) 1) as [E1|N1].
    { destruct (opp_agg m) as [z|] eqn:A; [|discriminate]. destruct (type_from_proto z) as [t|] eqn:T; [|discriminate].
      intros H. injection H as <-. apply type_from_proto_some in T as [V ->]. now constructor. }
    destruct (Z.eqb_spec (opp_type m) 2) as [E2|N2].
    { destruct (opp_tf m) as [z|] eqn:A; [|discriminate]. destruct (tf_from_proto z) as [t|] eqn:T; [|discriminate].
      intros H. injection H as <-. assert (t = z /\ valid_tf z) as [-> V].
      { unfold tf_from_proto in T. unfold valid_tf. destruct (Z.eqb_spec z 1) as [->|]; [injection T as <-; auto|].
        destruct (Z.eqb_spec z 2) as [->|]; [injection T as <-; auto|discriminate]. }
      now constructor. }
    destruct (Z.eqb_spec (opp_type m) 3) as [E3|N3]; [|discriminate].
    destruct (opp_rollup m) as [r|] eqn:R; [|discriminate]. cbn [new_rollup_op_from_proto].
    destruct (id_from_proto_types (rop_types r)) as [id err] eqn:I. destruct err; [discriminate|].
    intros H. injection H as <-. apply (rollup_op_means m r); auto; [apply sort_strings_sorted|now apply types_mean_iff].
  - intros H. destruct H as [m t E A V|m t E A V|m r tags w E R S T]; rewrite E; cbn [Z.eqb Pos.eqb].
    + rewrite A. rewrite (proj2 (type_from_proto_some t t)) by auto. reflexivity.
    + rewrite A. destruct V as [->| ->]; reflexivity.
    + rewrite R. cbn [new_rollup_op_from_proto]. apply types_mean_iff in T. rewrite T. apply sorted_tags_iff in S as ->. reflexivity.
Qed.

Lemma target_v1_iff m t : target_from_v1 m = Some t <-> target_v1_means m t.
Proof.
  unfold target_from_v1, target_v1_means. split.
  - destruct m as [x|]; [|discriminate]. destruct (to_aggregation_id_and_storage_policies _) as [[agg sps]|] eqn:E; [|discriminate].
    intros H. injection H as <-. apply legacy_means_iff in E as (l & F & L). exists x, l, agg, (sort_strings (t1p_tags x)).
    cbn [tg_sps tg_pipeline]. repeat (split; auto using sort_strings_sorted).
  - intros (x & l & agg & tags & -> & F & L & S & E). destruct t as [p sps]. cbn [tg_sps tg_pipeline] in *. subst p.
    rewrite (proj2 (legacy_means_iff _ agg sps)) by eauto. apply sorted_tags_iff in S as ->. reflexivity.
Qed.

Lemma pipeline_means_iff ops p : new_pipeline_from_proto (Some ops) = Some p <-> Forall2 op_means ops p.
Proof. apply map_opt_iff. intros x y _. apply op_means_iff. Qed.
Lemma sps_means_iff l sps : new_sps_from_proto l = Some sps <-> Forall2 sp_means l sps.
Proof. apply map_opt_iff. intros x y _. apply sp_means_iff. Qed.

Lemma target_v2_iff m t : target_from_v2 m = Some t <-> target_v2_means m t.
Proof.
  unfold target_from_v2, target_v2_means. split.
  - destruct m as [x|]; [|discriminate]. destruct (t2p_pipeline x) as [ops|] eqn:P; [|discriminate].
    destruct (new_pipeline_from_proto (Some ops)) as [p|] eqn:E; [|discriminate].
    destruct (new_sps_from_proto (t2p_sps x)) as [sps|] eqn:E'; [|discriminate].
    intros H. injection H as <-. exists x, ops. cbn [tg_sps tg_pipeline].
    rewrite <- pipeline_means_iff, <- sps_means_iff. auto.
  - intros (x & ops & -> & -> & F1 & F2). apply pipeline_means_iff in F1. apply sps_means_iff in F2. rewrite F1, F2.
    destruct t; reflexivity.
Qed.

Lemma mapping_policies_iff m agg sps : mapping_policies_from_proto m = Some (agg, sps) <-> mapping_policies_mean m agg sps.
Proof.
  unfold mapping_policies_from_proto, mapping_policies_mean. destruct (msp_policies m) as [|p ps] eqn:P.
  - destruct (msp_sps m) as [|q qs] eqn:Q.
    + split; [intros H; injection H as <- <-; auto 10|]. intros [[N _]|[(_ & N & _)|(_ & _ & -> & ->)]]; [now elim N|now elim N|reflexivity].
    + rewrite <- (sps_means_iff (q :: qs) sps). rewrite <- types_mean_iff. destruct (id_from_proto_types (msp_types m)) as [id err].
      split.
      * destruct err; [discriminate|]. destruct (new_sps_from_proto (q :: qs)); [|discriminate]. intros H. injection H as <- <-.
        right. left. repeat split; discriminate.
      * intros [[N _]|[(_ & _ & E & F)|(_ & N & _)]]; [now elim N| |discriminate]. injection E as -> ->. now rewrite F.
  - rewrite <- P. rewrite legacy_means_iff. split.
    + intros H. left. split; [rewrite P; discriminate|exact H].
    + intros [[_ H]|[(N & _)|(N & _)]]; [exact H| |]; rewrite P in N; discriminate.
Qed.

Lemma mapping_means_iff opts m s : (forall x, m = Some x -> - 2 ^ 31 <= msp_drop x < 2 ^ 31) ->
  mapping_snapshot_from_proto opts m = Some s <-> mapping_means opts m s.
Proof.
  intros D. unfold mapping_snapshot_from_proto, mapping_means. destruct m as [x|]; [|split; [discriminate|intros (? & ? & ? & ? & H & _); discriminate]].
  specialize (D x eq_refl).
  assert (V : drop_is_valid (drop_of_code (msp_drop x)) = true <-> 0 <= msp_drop x <= 2).
  { rewrite drop_is_valid_iff. unfold drop_of_code. destruct (Z_lt_le_dec (msp_drop x) 0) as [L|L].
    - assert (msp_drop x mod 2 ^ 64 = msp_drop x + 2 ^ 64) as ->; [|lia].
      symmetry. apply Z.mod_unique with (q := -1); lia.
    - rewrite Z.mod_small by lia. tauto. }
  assert (W : 0 <= msp_drop x <= 2 -> drop_of_code (msp_drop x) = msp_drop x) by (intros H; apply drop_of_code_id; lia).
  split.
  - destruct (mapping_policies_from_proto x) as [[agg sps]|] eqn:P; [|discriminate]. apply mapping_policies_iff in P.
    cbv zeta.
    destruct (negb (msp_drop x =? 0) && negb (drop_is_valid (if msp_drop x =? 0 then DropNone else drop_of_code (msp_drop x)))) eqn:B1;
      [discriminate|].
    assert (R : 0 <= msp_drop x <= 2).
    { destruct (Z.eqb_spec (msp_drop x) 0) as [->|N]; [lia|]. cbn [negb andb] in B1. apply negb_false_iff in B1. tauto. }
    assert (E : (if msp_drop x =? 0 then DropNone else drop_of_code (msp_drop x)) = msp_drop x).
    { destruct (Z.eqb_spec (msp_drop x) 0) as [->|N]; [reflexivity|auto]. }
    rewrite E. destruct (negb (msp_tomb x) && is_nil sps && (msp_drop x =? DropNone)) eqn:B2; [discriminate|].
    destruct (negb (is_nil sps) && negb (msp_drop x =? DropNone)) eqn:B3; [discriminate|].
    destruct (compile_filter opts (msp_filter x)) as [f|] eqn:F; [|discriminate]. apply compile_filter_some in F.
    intros H. injection H as <-. exists x, f, agg, sps. rewrite (W R).
    split; [reflexivity|]. split; [exact P|]. split; [exact R|]. split; [|split; [|split; [exact F|reflexivity]]].
    + intros T. rewrite T in B2. cbn [negb andb] in B2. destruct sps as [|q qs]; [|left; discriminate]. cbn [is_nil andb] in B2.
      right. intros N. rewrite N in B2. discriminate.
    + intros N. destruct sps as [|q qs]; [now elim N|]. cbn [is_nil negb andb] in B3. apply negb_false_iff, Z.eqb_eq in B3. exact B3.
  - intros (y & f & agg & sps & E & P & R & L & K & F & ->). injection E as <-. apply mapping_policies_iff in P. rewrite P.
    cbv zeta.
    assert (E : (if msp_drop x =? 0 then DropNone else drop_of_code (msp_drop x)) = msp_drop x).
    { destruct (Z.eqb_spec (msp_drop x) 0) as [->|N]; [reflexivity|auto]. }
    rewrite E. pose proof (proj2 V R) as V'. rewrite (W R) in V'. rewrite V', andb_false_r. apply compile_filter_some in F. rewrite F, (W R).
    assert (B2 : negb (msp_tomb x) && is_nil sps && (msp_drop x =? DropNone) = false).
    { destruct (msp_tomb x); [reflexivity|]. destruct sps as [|q qs]; [|reflexivity]. cbn [negb is_nil andb].
      apply Z.eqb_neq. destruct (L eq_refl) as [N|N]; [now elim N|exact N]. }
    assert (B3 : negb (is_nil sps) && negb (msp_drop x =? DropNone) = false).
    { destruct sps as [|q qs]; [reflexivity|]. cbn [negb is_nil andb]. rewrite (K ltac:(discriminate)). reflexivity. }
    rewrite B2, B3. reflexivity.
Qed.

Lemma targets_iff m ts : targets_from_proto m = Some ts <-> targets_mean m ts.
Proof.
  unfold targets_from_proto, targets_mean.
  assert (F1 : forall l, map_opt target_from_v1 l = Some ts <-> Forall2 target_v1_means l ts)
    by (intros l; apply map_opt_iff; intros; apply target_v1_iff).
  assert (F2 : forall l, map_opt target_from_v2 l = Some ts <-> Forall2 target_v2_means l ts)
    by (intros l; apply map_opt_iff; intros; apply target_v2_iff).
  destruct (rsp_targets m) as [|t l] eqn:P.
  - destruct (rsp_targets_v2 m) as [|t l] eqn:Q.
    + split.
      * destruct (rsp_tomb m) eqn:T; [|discriminate]. cbn [negb]. intros H. injection H as <-. right. split; [reflexivity|].
        split; [constructor|discriminate].
      * intros [[N _]|(_ & F & N)]; [now elim N|]. inversion F; subst. destruct (rsp_tomb m); [reflexivity|now elim N].
    + rewrite F2. split.
      * intros F. right. split; [reflexivity|]. split; [exact F|]. intros _ ->. inversion F.
      * intros [[N _]|(_ & F & _)]; [now elim N|exact F].
  - rewrite F1. split.
    + intros F. left. split; [discriminate|exact F].
    + intros [[_ F]|(N & _)]; [exact F|discriminate].
Qed.

Lemma rollup_means_iff opts m s : rollup_snapshot_from_proto opts m = Some s <-> rollup_means opts m s.
Proof.
  unfold rollup_snapshot_from_proto, rollup_means. split.
  - destruct m as [x|]; [|discriminate]. destruct (targets_from_proto x) as [ts|] eqn:E; [|discriminate].
    destruct (compile_filter opts (rsp_filter x)) as [f|] eqn:F; [|discriminate]. intros H. injection H as <-.
    apply targets_iff in E. apply compile_filter_some in F. exists x, f, ts. auto.
  - intros (x & f & ts & -> & E & F & ->). apply targets_iff in E. apply compile_filter_some in F. rewrite E, F. reflexivity.
Qed.

Lemma rule_means_iff {S P} (read : option S -> option (snapshot P)) (means : option S -> snapshot P -> Prop) m r :
  (forall x y s, m = Some x -> In y (rp_snapshots x) -> (read y = Some s <-> means y s)) ->
  rule_from_proto read m = Some r <-> rule_means means m r.
Proof.
  intros H. unfold rule_from_proto, rule_means. destruct m as [x|]; [|split; [discriminate|intros (? & E & _); discriminate]].
  assert (F : forall l, map_opt read (rp_snapshots x) = Some l <-> Forall2 means (rp_snapshots x) l).
  { intros l. apply map_opt_iff. intros y s I. exact (H x y s eq_refl I). }
  split.
  - destruct (map_opt read (rp_snapshots x)) as [l|]; [|discriminate]. intros E. injection E as <-. exists x.
    split; [reflexivity|]. split; [reflexivity|]. apply F. reflexivity.
  - intros (y & E & U & G). injection E as <-. apply F in G. rewrite G. destruct r as [u l]. cbn in *. now rewrite U.
Qed.

Lemma rule_set_means_iff v o m rs : drops_fit m -> rule_set_from_proto v m o = Some rs <-> rule_set_means v o m rs.
Proof.
  intros D. unfold rule_set_from_proto, rule_set_means.
  destruct m as [x|]; [|split; [discriminate|intros (? & ? & ? & E & _); discriminate]].
  assert (F1 : forall ms, map_opt (rule_from_proto (mapping_snapshot_from_proto (ropt_tags o))) (rsetp_mapping x) = Some ms <->
    Forall2 (rule_means (mapping_means (ropt_tags o))) (rsetp_mapping x) ms).
  { intros ms. apply map_opt_iff. intros r y I. apply rule_means_iff. intros r' z s -> I'.
    apply mapping_means_iff. intros q Eq. exact (D x r' z q eq_refl I I' Eq). }
  assert (F2 : forall rr, map_opt (rule_from_proto (rollup_snapshot_from_proto (ropt_tags o))) (rsetp_rollup x) = Some rr <->
    Forall2 (rule_means (rollup_means (ropt_tags o))) (rsetp_rollup x) rr).
  { intros rr. apply map_opt_iff. intros r y I. apply rule_means_iff. intros r' z s -> I'. apply rollup_means_iff. }
  split.
  - destruct (map_opt _ (rsetp_mapping x)) as [ms|]; [|discriminate]. destruct (map_opt _ (rsetp_rollup x)) as [rr|]; [|discriminate].
    intros H. injection H as <-. exists x, ms, rr. split; [reflexivity|]. split; [now apply F1|]. split; [now apply F2|reflexivity].
  - intros (y & ms & rr & E & G1 & G2 & ->). injection E as <-. apply F1 in G1. apply F2 in G2. rewrite G1, G2. reflexivity.
Qed.

From Verif.Model Require Import Namespace.
Lemma namespaces_mean_iff v m x : new_namespaces v m = Some x <->
  exists l, m = Some l /\ nsx_version x = v /\
    Forall2 (fun n n' => exists y, n = Some y /\ ns_name n' = nsp_name y /\
      Forall2 (fun s s' => s = Some (mk_nssp (nss_version s') (nss_tomb s') (nss_at s') (nss_by s'))) (nsp_snapshots y) (ns_snapshots n'))
    l (nsx_list x).
Proof.
  set (S := fun (s : option ns_snapshot_pb) s' => s = Some (mk_nssp (nss_version s') (nss_tomb s') (nss_at s') (nss_by s'))).
  assert (F1 : forall l l', map_opt new_ns_snapshot l = Some l' <-> Forall2 S l l').
  { intros l l'. apply map_opt_iff. intros [s|] [a b c d] _; unfold S, new_ns_snapshot; cbn; [|split; discriminate].
    destruct s as [a' b' c' d']. cbn. split; intros H; injection H as <- <- <- <-; reflexivity. }
  assert (F2 : forall n n', new_namespace n = Some n' <->
    exists y, n = Some y /\ ns_name n' = nsp_name y /\ Forall2 S (nsp_snapshots y) (ns_snapshots n')).
  { intros [y|] [name l]; unfold new_namespace; [|split; [discriminate|intros (? & E & _); discriminate]]. cbn [ns_name ns_snapshots].
    split.
    - destruct (map_opt new_ns_snapshot (nsp_snapshots y)) as [l'|] eqn:E; [|discriminate]. cbn. intros H. injection H as <- <-.
      exists y. rewrite <- F1. auto.
    - intros (y' & E & -> & F). injection E as <-. apply F1 in F. rewrite F. reflexivity. }
  unfold new_namespaces. destruct m as [l|]; [|split; [discriminate|intros (? & E & _); discriminate]].
  assert (F3 : forall l', map_opt new_namespace l = Some l' <-> Forall2 (fun n n' => exists y, n = Some y /\
    ns_name n' = nsp_name y /\ Forall2 S (nsp_snapshots y) (ns_snapshots n')) l l').
  { intros l'. apply map_opt_iff. intros. apply F2. }
  split.
  - destruct (map_opt new_namespace l) as [l'|]; [|discriminate]. cbn. intros H. injection H as <-. exists l.
    split; [reflexivity|]. split; [reflexivity|]. now apply F3.
  - intros (l' & E & Hv & F). injection E as <-. apply F3 in F. rewrite F. cbn. destruct x as [v' l']. cbn in Hv. now subst.
Qed.
