(** Proofs about storing rule sets. *)
From Coq Require Import Ascii String Arith NArith ZArith Bool Lia Permutation Sorting.Sorted List.
From Verif.Base Require Import Bytes BytesFacts.
From Verif.Proof Require Import AggProof PolicyProof MetadataProof EditProof.
From Verif.Model Require Import AggType Policy Transformation Pipeline Metadata Filter Rules RuleSet RuleSetProto.
From Verif.Spec Require Import AggSpec PolicySpec MetadataSpec RuleSetProtoSpec.
Import ListNotations.
Open Scope Z_scope.

Lemma compile_filter_some opts raw f : compile_filter opts raw = Some f <-> compiles_to opts raw f.
Proof.
  unfold compile_filter, compiles_to. destruct (parse_tag_filter_value_map raw) as [m|]; split.
  - intros H. exists m; auto.
  - intros (m' & E & H). congruence.
  - discriminate.
  - intros (m' & E & H). discriminate.
Qed.

Lemma sps_proto_iff l : (exists pbs, sps_proto l = Some pbs) <-> Forall sp_ok l.
Proof.
  split.
  - intros (pbs & H). apply map_opt_some in H. induction H as [|p pb l pbs Hp _ IH]; constructor; auto.
    destruct (sp_valid_dec p) as [|Hn]; auto. apply PolicyProof.sp_proto_none in Hn. congruence.
  - intros H. destruct (sps_proto_roundtrip l H) as (pbs & E & _). eauto.
Qed.

Lemma new_sp_from_proto_ok pb p : new_sp_from_proto pb = Some p -> sp_ok p.
Proof.
  destruct pb as [pb|]; [|discriminate]. unfold new_sp_from_proto. destruct (sp_from_proto empty_storage_policy pb) as [q e] eqn:E.
  destruct e; [discriminate|]. intros H. injection H as <-. eapply sp_from_proto_valid; eauto.
Qed.

Lemma new_sps_from_proto_ok l sps : new_sps_from_proto l = Some sps -> Forall sp_ok sps /\ length sps = length l.
Proof.
  intros H. apply map_opt_some in H. induction H as [|x y l sps Hx _ [IH1 IH2]]; [split; auto|].
  split; [constructor; auto; eapply new_sp_from_proto_ok; eauto|simpl; congruence].
Qed.

(** ** Aggregation IDs *)

Lemma word_bits_agg w : is_word w -> (word_bits_valid w <-> valid_agg_id w).
Proof.
  intros Hw. unfold valid_agg_id, word_bits_valid, valid_type. split.
  - intros H. split; [exact Hw|]. intros k Hk. specialize (H k Hk). lia.
  - intros [_ H] k Hk. specialize (H k Hk). lia.
Qed.

Lemma valid_id_roundtrip w : valid_agg_id w ->
  exists ts, decompress w = (ts, false) /\ types_proto ts = Some ts /\ id_from_proto_types ts = (w, false).
Proof.
  intros H. assert (Hw : is_word w) by exact (proj1 H).
  destruct (decompress_spec w Hw) as [(l & E & Hs & Hv & _)|(E & Hn)].
  - exists l. split; auto. split; [now apply types_proto_ok|]. unfold id_from_proto_types.
    rewrite (proj2 (types_from_proto_some l l)) by auto. now apply compress_types_decompress.
  - exfalso. apply Hn, word_bits_agg; auto.
Qed.

Lemma decompress_valid w ts : (w < 2 ^ 64)%N -> decompress w = (ts, false) -> valid_agg_id w.
Proof.
  intros Hw H. destruct (decompress_spec w Hw) as [(l & E & Hs & Hv & Hb & _)|(E & Hn)]; [|congruence].
  now apply word_bits_agg.
Qed.

Lemma id_from_proto_types_valid zs w : id_from_proto_types zs = (w, false) -> valid_agg_id w.
Proof.
  unfold id_from_proto_types. destruct (types_from_proto zs) as [ts|] eqn:E; [|discriminate].
  apply types_from_proto_some in E as [Hv ->]. destruct (compressor_valid 0 zs Hv) as (w' & Ew & Hb).
  unfold compress_types. rewrite Ew. intros H. injection H as <-.
  assert (Hr : forall k, N.testbit w' k = true -> (1 <= k <= 22)%N).
  { intros k Hk. apply Hb in Hk. rewrite Forall_forall in Hv. specialize (Hv _ Hk). unfold valid_type in Hv. lia. }
  split; [|exact Hr]. destruct (N.eq_dec w' 0) as [->|Hne]; [reflexivity|].
  apply N.log2_lt_pow2; [lia|]. specialize (Hr _ (N.bit_log2 w' Hne)). lia.
Qed.

(** ** Codecs: [w] writes, [r] reads. *)

Definition stored {A C} (w : A -> option C) (r : option C -> option A) (a a' : A) : Prop :=
  exists c, w a = Some c /\ r (Some c) = Some a'.

Lemma stored_list {A C} (w : A -> option C) (r : option C -> option A) l l' :
  (exists cs, map_opt w l = Some cs /\ map_opt r (map Some cs) = Some l') <-> Forall2 (stored w r) l l'.
Proof.
  split.
  - intros (cs & E1 & E2). apply map_opt_some in E1. revert l' E2.
    induction E1 as [|a c l cs Ha _ IH]; intros l' E2; apply map_opt_some in E2; inversion E2; subst; constructor.
    + exists c; auto.
    + apply IH. now apply map_opt_some.
  - induction 1 as [|a a' l l' (c & E1 & E2) _ (cs & IH1 & IH2)]; [exists []; auto|].
    exists (c :: cs). simpl. now rewrite E1, IH1, E2, IH2.
Qed.

Lemma stored_rule {S P} (w : snapshot P -> option S) (r : option S -> option (snapshot P)) x x' :
  stored (rule_proto w) (rule_from_proto r) x x' <-> rule_rel (stored w r) x x'.
Proof.
  unfold rule_rel. rewrite <- stored_list. unfold stored, rule_proto, rule_from_proto. split.
  - intros (c & E1 & E2). destruct (map_opt w (ru_snapshots x)) as [cs|]; [|discriminate]. simpl in E1. injection E1 as <-.
    simpl in E2. destruct (map_opt r (map Some cs)) as [l|] eqn:E; [|discriminate]. injection E2 as <-. simpl. eauto.
  - intros (Eu & cs & E1 & E2). rewrite E1. simpl. eexists; split; [reflexivity|]. simpl. rewrite E2. simpl.
    destruct x' as [u l]; simpl in *. now subst.
Qed.

(** ** Mapping rule snapshots *)

Lemma drop_is_valid_iff d : drop_is_valid d = true <-> 0 <= d <= 2.
Proof.
  unfold drop_is_valid. rewrite existsb_exists. unfold valid_drop_policies, DropNone, DropMust, DropIfOnlyMatch. split.
  - intros (x & Hx & E). apply Z.eqb_eq in E. subst x. cbn in Hx. lia.
  - intros H. exists d. split; [cbn; lia|apply Z.eqb_refl].
Qed.

Lemma is_nil_iff {A} (l : list A) : is_nil l = true <-> l = [].
Proof. destruct l; simpl; split; congruence. Qed.

Lemma drop_of_code_id d : 0 <= d < 2 ^ 31 -> drop_of_code d = d.
Proof. intros H. unfold drop_of_code. apply Z.mod_small. lia. Qed.

(** Reading, with everything but the policies spelled out. *)
Lemma mapping_read_iff opts r s :
  mapping_snapshot_from_proto opts (Some r) = Some s <->
  exists agg sps f d, mapping_policies_from_proto r = Some (agg, sps) /\ compiles_to opts (msp_filter r) f /\
    d = drop_of_code (msp_drop r) /\ 0 <= d <= 2 /\ (msp_tomb r = false -> sps <> [] \/ d <> 0) /\ (sps <> [] -> d = 0) /\
    s = mk_snap (msp_name r) (msp_tomb r) (msp_cutover r) (Some f) (msp_filter r) (mk_mb agg sps d) (msp_at r) (msp_by r).
Proof.
  unfold mapping_snapshot_from_proto. destruct (mapping_policies_from_proto r) as [[agg sps]|] eqn:Ep.
  2:{ split; [discriminate|]. intros (agg & sps & f & d & E & _). discriminate. }
  assert (Hd : (if msp_drop r =? 0 then DropNone else drop_of_code (msp_drop r)) = drop_of_code (msp_drop r)).
  { destruct (Z.eqb_spec (msp_drop r) 0) as [->|]; auto. }
  rewrite Hd. set (d := drop_of_code (msp_drop r)).
  assert (Hv : negb (msp_drop r =? 0) && negb (drop_is_valid d) = negb (drop_is_valid d)).
  { unfold d. destruct (Z.eqb_spec (msp_drop r) 0) as [->|]; auto. }
  rewrite Hv. unfold DropNone.
  destruct (drop_is_valid d) eqn:V; simpl.
  2:{ split; [discriminate|]. intros (agg' & sps' & f & d' & _ & _ & -> & Hr & _). apply drop_is_valid_iff in Hr.
      fold d in Hr. congruence. }
  apply drop_is_valid_iff in V.
  destruct (negb (msp_tomb r) && is_nil sps && (d =? 0)) eqn:C1.
  { split; [discriminate|]. intros (agg' & sps' & f & d' & E & _ & -> & _ & H & _). injection E as <- <-.
    apply andb_true_iff in C1 as [C1 C2]. apply andb_true_iff in C1 as [C0 C1]. apply negb_true_iff in C0.
    apply is_nil_iff in C1. apply Z.eqb_eq in C2. destruct (H C0); contradiction. }
  destruct (negb (is_nil sps) && negb (d =? 0)) eqn:C2.
  { split; [discriminate|]. intros (agg' & sps' & f & d' & E & _ & -> & _ & _ & H & _). injection E as <- <-.
    apply andb_true_iff in C2 as [C2 C3]. apply negb_true_iff in C2, C3. apply Z.eqb_neq in C3. elim C3. apply H.
    intros ->. discriminate. }
  assert (H1 : msp_tomb r = false -> sps <> [] \/ d <> 0).
  { intros T. rewrite T in C1. simpl in C1. destruct sps; [|left; discriminate]. simpl in C1. right. now apply Z.eqb_neq. }
  assert (H2 : sps <> [] -> d = 0).
  { intros N. destruct sps; [contradiction|]. simpl in C2. apply negb_false_iff, Z.eqb_eq in C2. exact C2. }
  destruct (compile_filter opts (msp_filter r)) as [f|] eqn:F.
  - apply compile_filter_some in F. split.
    + intros E. injection E as <-. exists agg, sps, f, d. repeat (split; auto); apply V || auto.
    + intros (agg' & sps' & f' & d' & E & F' & -> & _ & _ & _ & ->). injection E as <- <-.
      apply compile_filter_some in F, F'. rewrite F in F'. injection F' as <-. reflexivity.
  - split; [discriminate|]. intros (agg' & sps' & f & d' & _ & F' & _). apply compile_filter_some in F'. congruence.
Qed.

Lemma mapping_stored_iff opts s s' : mapping_fits s ->
  (stored mapping_snapshot_proto (mapping_snapshot_from_proto opts) s s' <->
   mapping_readable s /\ mapping_read_back opts s s').
Proof.
  intros [Hw Hdr]. unfold stored, mapping_snapshot_proto. split.
  - intros (pb & E1 & E2). destruct (decompress (mb_agg (sn_body s))) as [ts e] eqn:D. destruct e; [discriminate|].
    pose proof (decompress_valid _ _ Hw D) as Hv.
    destruct (valid_id_roundtrip _ Hv) as (ts' & D' & T1 & T2). rewrite D in D'. injection D' as <-. rewrite T1 in E1.
    destruct (sps_proto (mb_sps (sn_body s))) as [sps|] eqn:Sp; [|discriminate]. injection E1 as <-.
    assert (Hsp : Forall sp_ok (mb_sps (sn_body s))) by (apply sps_proto_iff; eauto).
    destruct (sps_proto_roundtrip _ Hsp) as (sps' & Sp1 & Sp2). rewrite Sp in Sp1. injection Sp1 as <-.
    apply mapping_read_iff in E2 as (agg & sp' & f & d & Ep & F & Ed & Hd & H1 & H2 & ->).
    unfold mapping_policies_from_proto in Ep. cbn [msp_policies msp_sps msp_types msp_drop msp_name msp_tomb msp_cutover msp_filter msp_at msp_by map] in *.
    rewrite to_int32_id in Ed by lia. rewrite drop_of_code_id in Ed by lia. subst d.
    assert (Hsame : sp' = mb_sps (sn_body s) /\ (mb_sps (sn_body s) <> [] -> agg = mb_agg (sn_body s)) /\
              (mb_sps (sn_body s) = [] -> agg = 0%N)).
    { destruct sps as [|x sps]; cbn [map] in Ep, Sp2.
      - apply map_opt_length in Sp. destruct (mb_sps (sn_body s)); [|discriminate]. injection Ep as <- <-. repeat split; auto.
        intros N; now elim N.
      - rewrite T2 in Ep. rewrite Sp2 in Ep.
        injection Ep as <- <-. repeat split; auto. intros N. rewrite N in Sp. discriminate. }
    destruct Hsame as (-> & Ha1 & Ha2).
    split; [repeat (split; auto)|]; try lia; try apply Hv.
    exists f, agg. repeat (split; auto).
  - intros ((Hv & Hsp & Hd & H1 & H2) & f & agg & F & Ha1 & Ha2 & ->).
    destruct (valid_id_roundtrip _ Hv) as (ts & D & T1 & T2). destruct (sps_proto_roundtrip _ Hsp) as (sps & Sp1 & Sp2).
    rewrite D, T1, Sp1. eexists; split; [reflexivity|]. apply mapping_read_iff.
    exists agg, (mb_sps (sn_body s)), f, (mb_drop (sn_body s)).
    split; [|split; [exact F|split; [|repeat (split; auto); lia]]].
    + unfold mapping_policies_from_proto. cbn [msp_policies msp_sps msp_types msp_drop msp_name msp_tomb msp_cutover msp_filter msp_at msp_by map]. destruct sps as [|x sps]; cbn [map] in *.
      * apply map_opt_length in Sp1. destruct (mb_sps (sn_body s)); [|discriminate]. now rewrite Ha2.
      * rewrite T2. rewrite Sp2, Ha1; auto.
        intros N. rewrite N in Sp1. discriminate.
    + cbn [msp_drop]. rewrite to_int32_id by lia. symmetry. apply drop_of_code_id. lia.
Qed.

(** ** Legacy policies *)

Lemma legacy_loop_ok ps agg sps agg' sps' : legacy_loop ps agg sps = Some (agg', sps') ->
  (forall a, agg = Some a -> valid_agg_id a) -> Forall sp_ok sps ->
  (forall a, agg' = Some a -> valid_agg_id a) /\ Forall sp_ok sps'.
Proof.
  revert agg sps; induction ps as [|p ps IH]; simpl; intros agg sps E Ha Hs.
  - injection E as <- <-. auto.
  - destruct p as [p|]; [|discriminate]. destruct (new_sp_from_proto (pp_storage p)) as [sp|] eqn:N; [|discriminate].
    apply new_sp_from_proto_ok in N. destruct (id_from_proto_types (pp_types p)) as [id e] eqn:I. destruct e; [discriminate|].
    apply id_from_proto_types_valid in I.
    assert (Hs2 : Forall sp_ok (sps ++ [sp])) by (apply Forall_app; auto).
    destruct agg as [a|].
    + destruct (N.eqb_spec a id); [|discriminate]. eapply IH; eauto.
    + eapply IH; eauto. intros a Eq. injection Eq as <-. exact I.
Qed.

Lemma legacy_ok ps agg sps : to_aggregation_id_and_storage_policies ps = Some (agg, sps) ->
  valid_agg_id agg /\ Forall sp_ok sps.
Proof.
  unfold to_aggregation_id_and_storage_policies. destruct (legacy_loop ps None []) as [[a l]|] eqn:E; [|discriminate].
  intros H. injection H as <- <-. apply legacy_loop_ok in E as [Ha Hs]; [|discriminate|constructor]. split.
  - destruct a as [a|]; [auto|]. split; [reflexivity|]. intros k Hk. rewrite N.bits_0 in Hk. discriminate.
  - rewrite Forall_forall in *. intros x Hx. apply Hs. apply (nodup_In sp_eq_dec).
    eapply Permutation_in; [symmetry; apply (proj1 (sp_sort_sorts (nodup sp_eq_dec l)))|exact Hx].
Qed.

(** What a legacy list means, against the reader of single policies. *)
Lemma legacy_loop_spec ps : forall agg sps agg' sps',
  legacy_loop ps agg sps = Some (agg', sps') <->
  exists l, Forall2 (fun pb p => exists q, pb = Some q /\ new_sp_from_proto (pp_storage q) = Some (p_storage p) /\
                          id_from_proto_types (pp_types q) = (p_agg p, false)) ps l /\
    sps' = sps ++ map p_storage l /\
    (l = [] -> agg' = agg) /\ (l <> [] -> exists a, agg' = Some a /\ (agg = None \/ agg = Some a) /\ forall p, In p l -> p_agg p = a).
Proof.
  induction ps as [|pb ps IH]; simpl; intros agg sps agg' sps'.
  - split.
    + intros E. injection E as <- <-. exists []. rewrite app_nil_r. repeat split; auto. intros N; now elim N.
    + intros (l & F & -> & H & _). inversion F; subst. rewrite H, app_nil_r; auto.
  - destruct pb as [q|].
    2:{ split; [discriminate|]. intros (l & F & _). inversion F as [|? ? ? ? (q & E & _)]; subst. discriminate. }
    destruct (new_sp_from_proto (pp_storage q)) as [sp|] eqn:N.
    2:{ split; [discriminate|]. intros (l & F & _). inversion F as [|? ? ? ? (q' & E & E2 & _)]; subst. injection E as <-. congruence. }
    destruct (id_from_proto_types (pp_types q)) as [id e] eqn:I. destruct e.
    { split; [discriminate|]. intros (l & F & _). inversion F as [|? ? ? ? (q' & E & _ & E2)]; subst. injection E as <-. congruence. }
    assert (Step : forall a, (agg = None \/ agg = Some id) -> a = Some id ->
      (legacy_loop ps a (sps ++ [sp]) = Some (agg', sps') <->
        exists l, Forall2 (fun pb p => exists q, pb = Some q /\ new_sp_from_proto (pp_storage q) = Some (p_storage p) /\
                          id_from_proto_types (pp_types q) = (p_agg p, false)) (Some q :: ps) l /\
         sps' = sps ++ map p_storage l /\
         (l = [] -> agg' = agg) /\ (l <> [] -> exists a, agg' = Some a /\ (agg = None \/ agg = Some a) /\ forall p, In p l -> p_agg p = a))).
    { intros a Ho ->. rewrite IH. split.
      - intros (l & F & -> & H1 & H2). exists ({| p_storage := sp; p_agg := id |} :: l).
        split; [constructor; auto; exists q; auto|]. split; [simpl; now rewrite <- app_assoc|]. split; [discriminate|].
        intros _. exists id. destruct l as [|p l].
        + split; [auto|]. split; [auto|]. intros p [<-|[]]. reflexivity.
        + destruct H2 as (a & E & [Ha|Ha] & Hall); [discriminate| |]; [discriminate|]. injection Ha as <-.
          split; [auto|]. split; [auto|]. intros p' [<-|Hp']; auto.
      - intros (l & F & -> & _ & H2). inversion F as [|? p ? l0 (q' & E & E1 & E2) F']; subst. injection E as <-.
        rewrite N in E1. injection E1 as E1. rewrite I in E2. injection E2 as E2.
        destruct H2 as (a & Ea & Hoa & Hall); [discriminate|].
        assert (a = id) by (rewrite <- (Hall p); auto; now left). subst a.
        exists l0. split; [auto|]. split; [simpl; now rewrite <- app_assoc, E1|].
        split; [intros; auto|]. intros _. exists id. split; [auto|]. split; [auto|]. intros p' Hp'. apply Hall. now right. }
    destruct agg as [a|].
    + destruct (N.eqb_spec a id) as [->|Hne]; [apply Step; auto|]. split; [discriminate|].
      intros (l & F & _ & _ & H2). inversion F as [|? p ? l0 (q' & E & E1 & E2) F']; subst. injection E as <-.
      destruct H2 as (a' & Ea & [Ho|Ho] & Hall); [discriminate|discriminate|]. injection Ho as <-.
      rewrite I in E2. injection E2 as E2. elim Hne. rewrite E2. symmetry. apply Hall. now left.
    + apply Step; auto.
Qed.

(** ** Rollup targets *)

Lemma op_same_unique a b c : op_same b a -> op_same c a -> op_canonical b -> op_canonical c -> tags_sorted b ->
  tags_sorted c -> op_kind a = 1 \/ op_kind a = 2 \/ op_kind a = 3 -> b = c.
Proof.
  intros (K1 & A1 & T1 & R1) (K2 & A2 & T2 & R2) (B1 & B2 & B3) (C1 & C2 & C3) S1 S2 Hk.
  unfold AggregationOp, TransformationOp, RollupOp, rollup_same, tags_sorted in *.
  destruct b as [kb ab tb [nb gb wb]], c as [kc ac tc [nc gc wc]]; cbn [op_kind op_agg op_tf op_rollup ro_name ro_tags ro_agg] in *.
  subst kb kc.
  assert (ab = ac). { destruct (Z.eq_dec (op_kind a) 1) as [E|E]; [rewrite A1, A2 by auto; auto|rewrite B1, C1 by auto; auto]. }
  assert (tb = tc). { destruct (Z.eq_dec (op_kind a) 2) as [E|E]; [rewrite T1, T2 by auto; auto|rewrite B2, C2 by auto; auto]. }
  subst ac tc. f_equal. destruct (Z.eq_dec (op_kind a) 3) as [E|E]; [|rewrite B3, C3 by auto; auto].
  destruct (R1 E) as (N1 & P1 & W1), (R2 E) as (N2 & P2 & W2). f_equal; try congruence.
  apply (sorted_perm_unique bleb); [intros x; destruct (bleb_total x x); auto|intros x y _ _; apply bleb_antisym|exact S1|exact S2|].
  now rewrite P1, P2.
Qed.

Lemma op_valid_kind a : op_valid a -> op_kind a = 1 \/ op_kind a = 2 \/ op_kind a = 3.
Proof. unfold op_valid, AggregationOp, TransformationOp, RollupOp. intuition. Qed.

Lemma op_stored_iff a b : op_fits a ->
  ((exists pb, op_proto a = Some pb /\ new_op_from_proto pb = Some b) <->
   op_valid a /\ op_same b a /\ op_canonical b /\ tags_sorted b).
Proof.
  intros [Hf1 Hf2]. split.
  - intros (pb & E1 & E2).
    assert (Hv : op_valid a).
    { assert (D : op_valid a \/ op_kind a = AggregationOp /\ op_agg a = 0).
      { pose proof (op_proto_err a) as He. rewrite E1 in He.
        assert (X : ~ ~ (op_valid a \/ op_kind a = AggregationOp /\ op_agg a = 0)).
        { intros X. apply He in X; [discriminate| |exact Hf2]. intros t <-. exact Hf1. }
        destruct (Z.eq_dec (op_kind a) 1) as [K|K].
        - destruct (Z.eq_dec (op_agg a) 0); [right; auto|]. left. left. split; [exact K|].
          unfold op_valid, AggregationOp, TransformationOp, RollupOp, valid_type in *.
          destruct (Z_le_dec 1 (op_agg a)), (Z_le_dec (op_agg a) 22); auto; exfalso; apply X; intros Y; rewrite K in Y; lia.
        - destruct (Z.eq_dec (op_kind a) 2) as [K2|K2].
          + left. right. left. split; [exact K2|]. unfold op_valid, AggregationOp, TransformationOp, RollupOp, valid_tf in *.
            destruct (Z.eq_dec (op_tf a) 1), (Z.eq_dec (op_tf a) 2); auto; exfalso; apply X; intros Y; rewrite K2 in Y; lia.
          + unfold op_proto, AggregationOp, TransformationOp, RollupOp in E1.
            apply Z.eqb_neq in K, K2. rewrite K, K2 in E1. destruct (Z.eqb_spec (op_kind a) 3) as [K3|K3]; [|discriminate].
            left. right. right. split; [exact K3|]. unfold rollup_op_proto in E1.
            destruct (decompress (ro_agg (op_rollup a))) as [ts e] eqn:D. destruct e; [discriminate|].
            eapply decompress_valid; eauto. }
      destruct D as [|[K Z0]]; auto. exfalso. unfold op_proto in E1. rewrite K, Z0 in E1. cbn in E1. injection E1 as <-.
      cbn in E2. discriminate. }
    split; auto. destruct (op_proto_roundtrip_same a Hv) as (pb' & b' & E1' & E2' & S1 & S2 & S3).
    assert (pb' = pb) by congruence. subst pb'. assert (b' = b) by congruence. subst b'. auto.
  - intros (Hv & S1 & S2 & S3). destruct (op_proto_roundtrip_same a Hv) as (pb' & b' & E1' & E2' & S1' & S2' & S3').
    exists pb'. split; auto. rewrite E2'. f_equal. eapply op_same_unique; eauto. now apply op_valid_kind.
Qed.

Lemma pipeline_stored_iff p q : Forall op_fits p ->
  ((exists pb, pipeline_proto p = Some pb /\ new_pipeline_from_proto (Some pb) = Some q) <->
   Forall op_valid p /\ Forall2 op_same q p /\ Forall (fun a => op_canonical a /\ tags_sorted a) q).
Proof.
  intros Hf. unfold pipeline_proto, new_pipeline_from_proto. revert q. induction Hf as [|a p Ha _ IH]; intros q.
  - split.
    + intros (pb & E1 & E2). injection E1 as <-. injection E2 as <-. repeat split; constructor.
    + intros (_ & F & _). inversion F; subst. exists []; auto.
  - split.
    + intros (pb & E1 & E2). apply map_opt_some in E1. inversion E1 as [|? c ? pb' Ec E1']; subst.
      apply map_opt_some in E2. inversion E2 as [|? b ? q' Eb E2']; subst.
      apply map_opt_some in E1', E2'. destruct (proj1 (IH q')) as (V & F & C); [eauto|].
      destruct (proj1 (op_stored_iff a b Ha)) as (V1 & S1 & C1 & T1); [eauto|]. repeat split; auto.
    + intros (V & F & C). inversion F as [|b ? q' ? S F']; subst. inversion V; subst. inversion C as [|? ? [C1 T1] C']; subst.
      destruct (proj2 (IH q')) as (pb & E1 & E2); auto. destruct (proj2 (op_stored_iff a b Ha)) as (c & Ec & Eb); auto.
      exists (c :: pb). cbn [map_opt]. now rewrite Ec, E1, Eb, E2.
Qed.

Lemma sps_stored l l' : (exists pbs, sps_proto l = Some pbs /\ new_sps_from_proto (map Some pbs) = Some l') <-> Forall sp_ok l /\ l' = l.
Proof.
  split.
  - intros (pbs & E1 & E2). assert (H : Forall sp_ok l) by (apply sps_proto_iff; eauto). split; auto.
    destruct (sps_proto_roundtrip l H) as (pbs' & E1' & E2'). congruence.
  - intros (H & ->). apply sps_proto_roundtrip; auto.
Qed.

Lemma target_stored_iff t t' : Forall op_fits (tg_pipeline t) ->
  (stored target_proto target_from_v2 t t' <-> target_readable t /\ target_read_back t t').
Proof.
  intros Hf. unfold stored, target_proto, target_from_v2, target_readable, target_read_back. split.
  - intros (c & E1 & E2). destruct (pipeline_proto (tg_pipeline t)) as [p|] eqn:Ep; [|discriminate].
    destruct (sps_proto (tg_sps t)) as [sps|] eqn:Es; [|discriminate]. injection E1 as <-. cbn [t2p_pipeline t2p_sps] in E2.
    destruct (new_pipeline_from_proto (Some p)) as [q|] eqn:Eq; [|discriminate].
    destruct (new_sps_from_proto (map Some sps)) as [sps'|] eqn:Es'; [|discriminate]. injection E2 as <-. cbn [tg_pipeline tg_sps].
    destruct (proj1 (pipeline_stored_iff _ q Hf)) as (V & F & C); [eauto|].
    destruct (proj1 (sps_stored (tg_sps t) sps')) as (Hs & ->); [eauto|]. auto.
  - intros ((V & Hs) & Es & F & C). destruct (proj2 (pipeline_stored_iff _ (tg_pipeline t') Hf)) as (p & Ep & Eq); [auto|].
    destruct (proj2 (sps_stored (tg_sps t) (tg_sps t'))) as (sps & Es1 & Es2); [auto|].
    rewrite Ep, Es1. eexists; split; [reflexivity|]. cbn [t2p_pipeline t2p_sps]. rewrite Eq, Es2. now destruct t'.
Qed.

Lemma targets_stored_iff l l' : (forall t a, In t l -> In a (tg_pipeline t) -> op_fits a) ->
  (Forall2 (stored target_proto target_from_v2) l l' <-> Forall target_readable l /\ Forall2 target_read_back l l').
Proof.
  intros Hf. split.
  - induction 1 as [|t t' l l' Ht _ IH]; [auto|]. apply target_stored_iff in Ht as [H1 H2].
    2:{ apply Forall_forall. intros a Ha. eapply Hf; eauto. now left. }
    destruct IH as [H3 H4]; [intros; eapply Hf; eauto; now right|]. auto.
  - intros [V F]. induction F as [|t t' l l' Ht _ IH]; [auto|]. inversion V; subst. constructor.
    + apply target_stored_iff; auto. apply Forall_forall. intros a Ha. eapply Hf; eauto. now left.
    + apply IH; auto. intros; eapply Hf; eauto; now right.
Qed.

Lemma rollup_stored_iff opts s s' : rollup_fits s ->
  (stored rollup_snapshot_proto (rollup_snapshot_from_proto opts) s s' <->
   rollup_readable s /\ rollup_read_back opts s s').
Proof.
  intros Hf. unfold rollup_readable, rollup_read_back, stored, rollup_snapshot_proto, rollup_snapshot_from_proto. split.
  - intros (pb & E1 & E2). destruct (map_opt target_proto (sn_body s)) as [ts|] eqn:Et; [|discriminate]. injection E1 as <-.
    unfold targets_from_proto in E2. cbn in E2.
    assert (X : exists l, map_opt target_from_v2 (map Some ts) = Some l /\ (sn_tomb s = false -> ts <> []) /\
      match compile_filter opts (sn_raw s) with
      | None => None
      | Some f => Some (mk_snap (sn_name s) (sn_tomb s) (sn_cutover s) (Some f) (sn_raw s) l (sn_at s) (sn_by s))
      end = Some s').
    { destruct ts as [|t ts].
      - cbn [map] in E2. destruct (sn_tomb s); cbn in E2; [|discriminate]. exists []. split; auto. split; [discriminate|exact E2].
      - cbn [map] in E2. change (Some t :: map Some ts) with (map Some (t :: ts)) in E2.
        destruct (map_opt target_from_v2 (map Some (t :: ts))) as [l|] eqn:El; [|discriminate]. exists l. split; auto.
        split; [discriminate|exact E2]. }
    clear E2. destruct X as (l & El & Hne & E2).
    destruct (compile_filter opts (sn_raw s)) as [f|] eqn:F; [|discriminate]. apply compile_filter_some in F. injection E2 as <-.
    destruct (proj1 (targets_stored_iff (sn_body s) l Hf)) as [H1 H2]; [apply stored_list; eauto|].
    split; [split; auto|exists f, l; auto].
    intros T E. apply (Hne T). rewrite E in Et. injection Et as <-. reflexivity.
  - intros ((H1 & H2) & f & l & F & H3 & ->).
    destruct (proj2 (stored_list target_proto target_from_v2 (sn_body s) l)) as (ts & Et & El); [apply targets_stored_iff; auto|].
    rewrite Et. eexists; split; [reflexivity|]. unfold targets_from_proto. cbn.
    apply compile_filter_some in F. rewrite F.
    destruct ts as [|t ts].
    + apply map_opt_length in Et. destruct (sn_body s) as [|? ?]; [|discriminate]. cbn in El. injection El as <-.
      destruct (sn_tomb s); [reflexivity|]. now elim H2.
    + cbn [map]. change (Some t :: map Some ts) with (map Some (t :: ts)). rewrite El. reflexivity.
Qed.

(** ** Rule sets *)

Lemma stored_rules {S P} (w : snapshot P -> option S) (r : option S -> option (snapshot P)) (R : snapshot P -> Prop)
    (Q : snapshot P -> snapshot P -> Prop) (Fits : snapshot P -> Prop) (l l' : list (rule P)) :
  (forall s s', Fits s -> (stored w r s s' <-> R s /\ Q s s')) -> every_snapshot Fits l ->
  (Forall2 (stored (rule_proto w) (rule_from_proto r)) l l' <-> every_snapshot R l /\ Forall2 (rule_rel Q) l l').
Proof.
  intros H. unfold every_snapshot. intros Hf. split.
  - induction 1 as [|x x' l l' Hx _ IH]; [split; [intros ? ? []|constructor]|].
    apply stored_rule in Hx as [Eu Hx]. destruct IH as [H1 H2]; [intros y s Hy; apply (Hf y s); now right|].
    assert (Hf' : forall s, In s (ru_snapshots x) -> Fits s) by (intros s; apply (Hf x s); now left). clear Hf.
    assert (G : (forall s, In s (ru_snapshots x) -> R s) /\ Forall2 Q (ru_snapshots x) (ru_snapshots x')).
    { clear H1 H2 Eu. induction Hx as [|s s' a b Hs _ IHx]; [split; [intros ? []|constructor]|].
      apply H in Hs as [Hs1 Hs2]; [|apply Hf'; now left].
      destruct IHx as [G1 G2]; [intros y Hy; apply Hf'; now right|]. split; [intros y [<-|Hy]; auto|constructor; auto]. }
    destruct G as [G1 G2]. split; [intros y s [<-|Hy]; [apply G1|apply H1; auto]|constructor; auto; split; auto].
  - intros [V F]. induction F as [|x x' l l' [Eu Hx] _ IH]; constructor.
    + apply stored_rule. split; auto.
      assert (Hf' : forall s, In s (ru_snapshots x) -> Fits s) by (intros s; apply (Hf x s); now left).
      assert (V' : forall s, In s (ru_snapshots x) -> R s) by (intros s; apply (V x s); now left).
      clear - H Hx Hf' V'. induction Hx as [|s s' a b Hs _ IHx]; constructor.
      * apply H; [apply Hf'; now left|]. split; auto. apply V'. now left.
      * apply IHx; intros y Hy; [apply Hf'|apply V']; now right.
    + apply IH; intros y s Hy; [apply (Hf y s)|apply (V y s)]; now right.
Qed.

Lemma rule_set_stored_iff v o rs rs' :
  every_snapshot mapping_fits (rs_mapping rs) -> every_snapshot rollup_fits (rs_rollup rs) ->
  ((exists pb, rule_set_proto rs = Some pb /\ rule_set_from_proto v (Some pb) o = Some rs') <->
   every_snapshot mapping_readable (rs_mapping rs) /\ every_snapshot rollup_readable (rs_rollup rs) /\ read_back v o rs rs').
Proof.
  intros Hm Hr.
  pose proof (fun l' => stored_rules mapping_snapshot_proto (mapping_snapshot_from_proto (ropt_tags o)) mapping_readable
     (mapping_read_back (ropt_tags o)) mapping_fits (rs_mapping rs) l' (mapping_stored_iff _) Hm) as Im.
  pose proof (fun l' => stored_rules rollup_snapshot_proto (rollup_snapshot_from_proto (ropt_tags o)) rollup_readable
     (rollup_read_back (ropt_tags o)) rollup_fits (rs_rollup rs) l' (rollup_stored_iff _) Hr) as Ir.
  unfold rule_set_proto, rule_set_from_proto, read_back. split.
  - intros (pb & E1 & E2).
    destruct (map_opt (rule_proto mapping_snapshot_proto) (rs_mapping rs)) as [ms|] eqn:Em; [|discriminate].
    destruct (map_opt (rule_proto rollup_snapshot_proto) (rs_rollup rs)) as [rr|] eqn:Er; [|discriminate]. injection E1 as <-.
    cbn in E2.
    destruct (map_opt (rule_from_proto (mapping_snapshot_from_proto (ropt_tags o))) (map Some ms)) as [ms'|] eqn:Em'; [|discriminate].
    destruct (map_opt (rule_from_proto (rollup_snapshot_from_proto (ropt_tags o))) (map Some rr)) as [rr'|] eqn:Er'; [|discriminate].
    injection E2 as <-. cbn.
    destruct (proj1 (Im ms')) as [M1 M2]; [apply stored_list; eauto|].
    destruct (proj1 (Ir rr')) as [R1 R2]; [apply stored_list; eauto|]. repeat (split; auto).
  - intros (M1 & R1 & E1 & E2 & E3 & E4 & E5 & E6 & E7 & E8 & M2 & R2 & E9 & E10 & E11).
    destruct (proj2 (stored_list _ _ _ _) (proj2 (Im (rs_mapping rs')) (conj M1 M2))) as (ms & Em & Em').
    destruct (proj2 (stored_list _ _ _ _) (proj2 (Ir (rs_rollup rs')) (conj R1 R2))) as (rr & Er & Er').
    rewrite Em, Er. eexists; split; [reflexivity|]. cbn. rewrite Em', Er'. destruct rs'; cbn in *. now subst.
Qed.

(** ** What a reader accepts can be written, and reads back as itself. *)

Lemma mapping_from_proto_self opts pb s : mapping_snapshot_from_proto opts pb = Some s ->
  mapping_fits s /\ mapping_readable s /\ mapping_read_back opts s s.
Proof.
  destruct pb as [r|]; [|discriminate]. intros H.
  apply mapping_read_iff in H as (agg & sps & f & d & Ep & F & Ed & Hd & H1 & H2 & ->).
  assert (G : valid_agg_id agg /\ Forall sp_ok sps /\ (sps = [] -> agg = 0%N)).
  { unfold mapping_policies_from_proto in Ep. destruct (msp_policies r) as [|x l] eqn:El.
    - destruct (msp_sps r) as [|y l'] eqn:Es.
      + injection Ep as <- <-. split; [|auto]. split; [reflexivity|]. intros k Hk. rewrite N.bits_0 in Hk. discriminate.
      + destruct (id_from_proto_types (msp_types r)) as [id e] eqn:I. destruct e; [discriminate|].
        destruct (new_sps_from_proto (y :: l')) as [q|] eqn:N; [|discriminate]. injection Ep as <- <-.
        apply id_from_proto_types_valid in I. apply new_sps_from_proto_ok in N as [N1 N2]. split; [exact I|]. split; [exact N1|].
        intros ->. discriminate.
    - rewrite <- El in Ep. pose proof Ep as Ep'. apply legacy_ok in Ep as [G1 G2]. split; [exact G1|]. split; [exact G2|].
      intros ->. exfalso. unfold to_aggregation_id_and_storage_policies in Ep'.
      destruct (legacy_loop (msp_policies r) None []) as [[a q]|] eqn:L; [|discriminate]. injection Ep' as _ Ep'.
      apply legacy_loop_spec in L as (l0 & F0 & -> & _). rewrite El in F0. inversion F0 as [|? p ? l1]; subst.
      pose proof (proj1 (sp_sort_sorts (nodup sp_eq_dec ([] ++ map p_storage (p :: l1))))) as P. rewrite Ep' in P.
      symmetry in P. apply Permutation_nil in P.
      assert (In (p_storage p) []) as []. rewrite <- P. apply nodup_In. now left. }
  destruct G as (G1 & G2 & G3). unfold mapping_fits, mapping_readable. cbn. split; [split; [apply G1|lia]|].
  split; [repeat (split; auto); try apply G1; lia|]. exists f, agg. cbn. repeat (split; auto).
Qed.

Lemma new_op_from_proto_self pb a : new_op_from_proto pb = Some a ->
  op_fits a /\ op_valid a /\ op_canonical a /\ tags_sorted a.
Proof.
  unfold new_op_from_proto, op_fits, op_valid, op_canonical, tags_sorted, AggregationOp, TransformationOp, RollupOp.
  destruct (opp_type pb =? 1).
  { destruct (opp_agg pb) as [z|]; [|discriminate]. unfold type_from_proto. destruct (is_valid z) eqn:V; [|discriminate].
    intros E. injection E as <-. cbn [op_kind op_agg op_tf op_rollup]. apply is_valid_spec in V. unfold valid_type in *.
    split; [split; [lia|reflexivity]|]. split; [left; split; [reflexivity|lia]|]. split; [split; [|split]; intros X; try reflexivity; now elim X|constructor]. }
  destruct (opp_type pb =? 2).
  { destruct (opp_tf pb) as [z|]; [|discriminate]. destruct (tf_from_proto z) as [t|] eqn:T; [|discriminate].
    intros E. injection E as <-. cbn [op_kind op_agg op_tf op_rollup]. unfold UnknownType.
    split; [split; [lia|reflexivity]|]. split; [right; left; split; [reflexivity|]|].
    { unfold tf_from_proto in T. unfold valid_tf. destruct (Z.eqb_spec z 1); [injection T as <-; auto|].
      destruct (Z.eqb_spec z 2); [injection T as <-; auto|discriminate]. }
    split; [split; [|split]; intros X; try reflexivity; now elim X|constructor]. }
  destruct (opp_type pb =? 3); [|discriminate].
  unfold new_rollup_op_from_proto. destruct (opp_rollup pb) as [r|]; [|discriminate].
  destruct (id_from_proto_types (rop_types r)) as [id e] eqn:I. destruct e; [discriminate|]. apply id_from_proto_types_valid in I.
  intros E. injection E as <-. cbn [op_kind op_agg op_tf op_rollup ro_agg ro_tags]. unfold UnknownType.
  split; [split; [lia|apply I]|]. split; [right; right; auto|].
  split; [split; [|split]; intros X; try reflexivity; now elim X|].
  apply isort_sorted; [apply bleb_total|apply bleb_trans].
Qed.

Lemma op_same_refl a : op_same a a.
Proof. repeat split; auto. Qed.

Lemma target_self t : Forall (fun a => op_fits a /\ op_valid a /\ op_canonical a /\ tags_sorted a) (tg_pipeline t) ->
  Forall sp_ok (tg_sps t) -> (forall a, In a (tg_pipeline t) -> op_fits a) /\ target_readable t /\ target_read_back t t.
Proof.
  intros H Hs. rewrite Forall_forall in H. split; [intros a Ha; apply (H a Ha)|]. split; [split; auto; apply Forall_forall; intros a Ha; apply (H a Ha)|].
  split; auto. split.
  - clear H Hs. induction (tg_pipeline t) as [|a p IH]; constructor; auto using op_same_refl.
  - apply Forall_forall. intros a Ha. split; apply (H a Ha).
Qed.

Lemma target_from_v2_self pb t : target_from_v2 pb = Some t ->
  (forall a, In a (tg_pipeline t) -> op_fits a) /\ target_readable t /\ target_read_back t t.
Proof.
  destruct pb as [p|]; [|discriminate]. unfold target_from_v2.
  destruct (new_pipeline_from_proto (t2p_pipeline p)) as [q|] eqn:Eq; [|discriminate].
  destruct (new_sps_from_proto (t2p_sps p)) as [sps|] eqn:Es; [|discriminate]. intros E. injection E as <-.
  apply target_self; cbn.
  - unfold new_pipeline_from_proto in Eq. destruct (t2p_pipeline p) as [ops|]; [|discriminate].
    apply map_opt_some in Eq. induction Eq; constructor; auto. eapply new_op_from_proto_self; eauto.
  - now apply new_sps_from_proto_ok in Es.
Qed.

Lemma target_from_v1_self pb t : target_from_v1 pb = Some t ->
  (forall a, In a (tg_pipeline t) -> op_fits a) /\ target_readable t /\ target_read_back t t.
Proof.
  destruct pb as [p|]; [|discriminate]. unfold target_from_v1.
  destruct (to_aggregation_id_and_storage_policies (t1p_policies p)) as [[agg sps]|] eqn:E; [|discriminate].
  intros H. injection H as <-. apply legacy_ok in E as [G1 G2]. apply target_self; cbn; auto.
  constructor; [|constructor]. unfold op_fits, op_valid, op_canonical, tags_sorted, AggregationOp, TransformationOp, RollupOp, UnknownType.
  cbn [op_kind op_agg op_tf op_rollup ro_agg ro_tags].
  split; [split; [lia|apply G1]|]. split; [right; right; auto|]. split; [split; [|split]; intros X; try reflexivity; now elim X|].
  apply isort_sorted; [apply bleb_total|apply bleb_trans].
Qed.

Lemma rollup_from_proto_self opts pb s : rollup_snapshot_from_proto opts pb = Some s ->
  rollup_fits s /\ rollup_readable s /\ rollup_read_back opts s s.
Proof.
  destruct pb as [r|]; [|discriminate]. unfold rollup_snapshot_from_proto.
  destruct (targets_from_proto r) as [ts|] eqn:Et; [|discriminate].
  destruct (compile_filter opts (rsp_filter r)) as [f|] eqn:F; [|discriminate]. apply compile_filter_some in F.
  intros E. injection E as <-.
  assert (G : Forall (fun t => (forall a, In a (tg_pipeline t) -> op_fits a) /\ target_readable t /\ target_read_back t t) ts /\
              (rsp_tomb r = false -> ts <> [])).
  { unfold targets_from_proto in Et. destruct (rsp_targets r) as [|x l].
    - destruct (rsp_targets_v2 r) as [|x l].
      + destruct (rsp_tomb r); cbn in Et; [|discriminate]. injection Et as <-. split; [constructor|discriminate].
      + pose proof (map_opt_length _ _ _ Et) as L. apply map_opt_some in Et. split.
        * clear - Et. induction Et; constructor; auto. eapply target_from_v2_self; eauto.
        * intros _ ->. discriminate.
    - pose proof (map_opt_length _ _ _ Et) as L. apply map_opt_some in Et. split.
      * clear - Et. induction Et; constructor; auto. eapply target_from_v1_self; eauto.
      * intros _ ->. discriminate. }
  destruct G as [G1 G2]. rewrite Forall_forall in G1. unfold rollup_fits, rollup_readable. cbn.
  split; [intros t a Ht Ha; apply (G1 t Ht); auto|]. split; [split; auto; apply Forall_forall; intros t Ht; apply (G1 t Ht)|].
  exists f, ts. split; auto. split; auto. cbn. clear G2 Et F. induction ts as [|t ts IH]; constructor.
  - apply G1. now left.
  - apply IH. intros y Hy. apply G1. now right.
Qed.

Lemma rules_from_proto_self {S P} (r : option S -> option (snapshot P)) (R : snapshot P -> Prop)
    (Q : snapshot P -> snapshot P -> Prop) (Fits : snapshot P -> Prop) pbs (l : list (rule P)) :
  (forall pb s, r pb = Some s -> Fits s /\ R s /\ Q s s) -> map_opt (rule_from_proto r) pbs = Some l ->
  every_snapshot Fits l /\ every_snapshot R l /\ Forall2 (rule_rel Q) l l.
Proof.
  intros H E. apply map_opt_some in E.
  assert (G : forall x s, In x l -> In s (ru_snapshots x) -> Fits s /\ R s /\ Q s s).
  { intros x s Hx Hs. induction E as [|pb y pbs l Hy _ IH]; [destruct Hx|]. destruct Hx as [->|Hx]; [|auto].
    destruct pb as [pb|]; [|discriminate]. unfold rule_from_proto in Hy.
    destruct (map_opt r (rp_snapshots pb)) as [sn|] eqn:Es; [|discriminate]. injection Hy as <-. cbn in Hs.
    apply map_opt_some in Es. clear IH. induction Es as [|c z cs sn Hz _ IHs]; [destruct Hs|].
    destruct Hs as [->|Hs]; [eapply H; eauto|auto]. }
  split; [intros x s Hx Hs; apply (G x s); auto|]. split; [intros x s Hx Hs; apply (G x s); auto|].
  clear E H. induction l as [|x l IH]; constructor.
  - split; auto. assert (G' : forall s, In s (ru_snapshots x) -> Q s s) by (intros s Hs; apply (G x s); auto; now left).
    clear G IH. induction (ru_snapshots x); constructor; [apply G'; now left|apply IHl0; intros; apply G'; now right].
  - apply IH. intros y s Hy Hs. apply (G y s); auto. now right.
Qed.

Lemma rule_set_reread v o pb rs : rule_set_from_proto v pb o = Some rs ->
  exists pb', rule_set_proto rs = Some pb' /\ rule_set_from_proto v (Some pb') o = Some rs.
Proof.
  intros H. destruct pb as [p|]; [|discriminate]. unfold rule_set_from_proto in H.
  destruct (map_opt (rule_from_proto (mapping_snapshot_from_proto (ropt_tags o))) (rsetp_mapping p)) as [ms|] eqn:Em; [|discriminate].
  destruct (map_opt (rule_from_proto (rollup_snapshot_from_proto (ropt_tags o))) (rsetp_rollup p)) as [rr|] eqn:Er; [|discriminate].
  injection H as <-.
  apply (rules_from_proto_self _ _ _ _ _ _ (mapping_from_proto_self (ropt_tags o))) in Em as (M1 & M2 & M3).
  apply (rules_from_proto_self _ _ _ _ _ _ (rollup_from_proto_self (ropt_tags o))) in Er as (R1 & R2 & R3).
  apply rule_set_stored_iff; auto. repeat (split; auto).
Qed.

(** ** Legacy policies *)
Lemma finest_first_iff a b : finest_first a b <-> sp_less b a = false.
Proof.
  unfold finest_first, sp_less. cbv zeta.
  destruct (Z.ltb_spec (r_window (sp_resolution b)) (r_window (sp_resolution a))); [split; [lia|discriminate]|].
  destruct (Z.ltb_spec (r_window (sp_resolution a)) (r_window (sp_resolution b))); [split; [reflexivity|lia]|].
  destruct (Z.ltb_spec (sp_retention a) (sp_retention b)); [split; [lia|discriminate]|].
  destruct (Z.ltb_spec (sp_retention b) (sp_retention a)); [split; [reflexivity|lia]|].
  destruct (Z.ltb_spec (r_precision (sp_resolution b)) (r_precision (sp_resolution a))); (split; [try discriminate; try reflexivity; lia|try discriminate; lia]).
Qed.
Lemma finest_first_sorted l : StronglySorted finest_first l <-> StronglySorted (fun a b => sp_less b a = false) l.
Proof.
  split; induction 1 as [|x m Hm IH Hx]; constructor; auto; (eapply Forall_impl; [|exact Hx]); intros y H; now apply finest_first_iff.
Qed.

Lemma legacy_policies_iff ps agg sps :
  to_aggregation_id_and_storage_policies ps = Some (agg, sps) <->
  exists l, Forall2 (fun pb p => exists q, pb = Some q /\ new_sp_from_proto (pp_storage q) = Some (p_storage p) /\
                          id_from_proto_types (pp_types q) = (p_agg p, false)) ps l /\ legacy_policies l agg sps.
Proof.
  unfold to_aggregation_id_and_storage_policies, legacy_policies. split.
  - destruct (legacy_loop ps None []) as [[a l]|] eqn:E; [|discriminate]. intros H. injection H as <- <-.
    apply legacy_loop_spec in E as (l0 & F & -> & H1 & H2). exists l0. split; auto. cbn [app].
    destruct (sp_sort_sorts (nodup sp_eq_dec (map p_storage l0))) as [P1 P2].
    split; [|split; [|split; [|split]]].
    + intros p Hp. destruct H2 as (a' & -> & _ & Hall); [intros ->; destruct Hp|]. now apply Hall.
    + intros ->. now rewrite H1.
    + intros sp. rewrite <- (nodup_In sp_eq_dec (map p_storage l0)). split; apply Permutation_in; [symmetry|]; exact P1.
    + eapply Permutation_NoDup; [exact P1|apply NoDup_nodup].
    + now apply finest_first_sorted.
  - intros (l & F & H1 & H2 & H3 & H4 & H5). apply finest_first_sorted in H5.
    assert (E : legacy_loop ps None [] = Some (match l with [] => None | _ => Some agg end, map p_storage l)).
    { apply legacy_loop_spec. exists l. split; auto. split; auto. split; [intros ->; auto|]. intros N. exists agg.
      destruct l; [now elim N|]. auto. }
    rewrite E. f_equal. f_equal; [destruct l; auto; now rewrite H2|].
    destruct (sp_sort_sorts (nodup sp_eq_dec (map p_storage l))) as [P1 P2].
    assert (C : forall m, StronglySorted (fun a b => sp_less b a = false) m -> StronglySorted (fun a b => negb (sp_less b a) = true) m).
    { intros m. induction 1 as [|x m Hm IH Hx]; constructor; auto. eapply Forall_impl; [|exact Hx]. intros y ->. reflexivity. }
    apply (sorted_perm_unique (fun a b => negb (sp_less b a))); auto.
    + intros x. now rewrite sp_less_irrefl.
    + intros x y _ _ Hx Hy. apply negb_true_iff in Hx, Hy. now apply sp_less_total.
    + rewrite <- P1. apply NoDup_Permutation; auto using NoDup_nodup. intros x. rewrite nodup_In. symmetry. apply H3.
Qed.
