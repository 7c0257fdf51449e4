From Coq Require Import Ascii String NArith ZArith Bool Lia SpecFloat Sorting Permutation List.
From Verif.Base Require Import Bytes BytesFacts Slice SliceFacts.
From Verif.Model Require Import AggType Policy Transformation Pipeline Metadata LegacyConvert.
From Verif.Spec Require Import AggSpec PolicySpec MetadataSpec.
From Verif.Proof Require Import AggProof PolicyProof.
Import ListNotations.
Open Scope Z_scope.

(** * Transformations *)
Lemma tf_roundtrip t : valid_tf t -> exists z, tf_to_proto t = Some z /\ tf_from_proto z = Some t.
Proof. intros [-> | ->]; eexists; split; reflexivity. Qed.

Lemma tf_to_proto_none t : tf_to_proto t = None <-> ~ valid_tf t.
Proof.
  unfold tf_to_proto, valid_tf, TfAbsolute, TfPerSecond.
  destruct (Z.eqb_spec t 1), (Z.eqb_spec t 2); split; intros; try discriminate; auto; lia.
Qed.

Lemma tf_from_proto_none z : tf_from_proto z = None <-> ~ (z = 1 \/ z = 2).
Proof.
  unfold tf_from_proto.
  destruct (Z.eqb_spec z 1), (Z.eqb_spec z 2); split; intros; try discriminate; auto; lia.
Qed.

Lemma tf_text t : tf_is_valid t = true <-> exists s, tf_string t = Some s /\ tf_parse s = Some t.
Proof.
  unfold tf_is_valid, tf_is_unary, tf_is_binary, tf_string, TfAbsolute, TfPerSecond, TfUnknown.
  destruct (Z.eqb_spec t 1), (Z.eqb_spec t 2), (Z.eqb_spec t 0); subst; try lia; simpl; split; intros H;
    try discriminate; try (eexists; split; reflexivity); auto;
    destruct H as (s & H1 & H2); try discriminate; injection H1 as <-; vm_compute in H2; discriminate.
Qed.

(** Signs *)
Definition signed (b : bool) (x : float64) : Prop :=
  match x with
  | S754_nan => True
  | S754_zero s | S754_infinity s | S754_finite s _ _ => s = b
  end.
Definition not_neg (x : float64) : Prop :=
  match x with
  | S754_zero _ | S754_nan => True
  | S754_infinity s | S754_finite s _ _ => s = false
  end.

Lemma round_aux_signed s m e l : signed s (binary_round_aux prec64 emax64 s m e l).
Proof.
  unfold binary_round_aux.
  destruct (shr_fexp _ _ m e l) as [mrs' e'].
  destruct (shr_fexp prec64 emax64 _ e' loc_Exact) as [mrs'' e''].
  destruct (shr_m mrs''); simpl; auto.
  match goal with |- context [if ?c then _ else _] => destruct c end; simpl; auto.
Qed.

Lemma signed_not_neg x : signed false x -> not_neg x.
Proof. destruct x; simpl; auto. Qed.

Lemma not_neg_spec x : not_neg x <-> ~ negative x.
Proof.
  unfold negative, SFltb; destruct x as [s|s| |s m e]; simpl; try (destruct s; simpl); intuition discriminate.
Qed.

Lemma mul_not_neg x y : not_neg x -> signed false y -> not_neg (f_mul x y).
Proof.
  unfold f_mul, SFmul; destruct x as [s|s| |s m e], y as [s'|s'| |s' m' e']; simpl; auto;
    intros -> ->; simpl; auto.
  apply signed_not_neg, round_aux_signed.
Qed.

Lemma div_not_neg x y : not_neg x -> signed false y -> not_neg (f_div x y).
Proof.
  unfold f_div, SFdiv; destruct x as [s|s| |s m e], y as [s'|s'| |s' m' e']; simpl; auto;
    intros -> ->; simpl; auto.
  destruct (SFdiv_core_binary _ _ _ _ _ _) as [[mz ez] lz]. apply signed_not_neg, round_aux_signed.
Qed.

Lemma of_int_signed z : 0 < z -> signed false (f_of_int z).
Proof.
  intros H; destruct z as [|p|p]; try lia. unfold f_of_int, binary_normalize, binary_round.
  destruct (shl_align _ _ _); apply round_aux_signed.
Qed.

Lemma to_int64_id z : - 2 ^ 63 <= z < 2 ^ 63 -> to_int64 z = z.
Proof. intros H; unfold to_int64; rewrite Z.mod_small; lia. Qed.

Lemma f_lt_negative x : f_lt x f_zero = true <-> negative x.
Proof. unfold f_lt, f_zero, negative; tauto. Qed.

Lemma per_second_empty prev curr :
  (dp_time curr <= dp_time prev \/ dp_value prev = S754_nan \/ dp_value curr = S754_nan \/
   negative (SFsub 53 1024 (dp_value curr) (dp_value prev))) ->
  per_second prev curr = empty_datapoint.
Proof.
  intros H; unfold per_second.
  destruct (Z.leb_spec (dp_time curr) (dp_time prev)) as [?|Hlt]; simpl; auto.
  destruct H as [H|[H|[H|H]]]; [lia|rewrite H; reflexivity|rewrite H, orb_true_r; reflexivity|].
  destruct (f_is_nan (dp_value prev) || f_is_nan (dp_value curr)); auto.
  apply f_lt_negative in H. change (f_lt (f_sub (dp_value curr) (dp_value prev)) f_zero = true) in H.
  now rewrite H.
Qed.

Lemma per_second_rate prev curr :
  dp_time prev < dp_time curr -> dp_time curr - dp_time prev < 2 ^ 63 ->
  dp_value prev <> S754_nan -> dp_value curr <> S754_nan ->
  ~ negative (SFsub 53 1024 (dp_value curr) (dp_value prev)) ->
  per_second prev curr =
    {| dp_time := dp_time curr;
       dp_value := SFdiv 53 1024
                     (SFmul 53 1024 (SFsub 53 1024 (dp_value curr) (dp_value prev))
                        (binary_normalize 53 1024 1000000000 0 false))
                     (binary_normalize 53 1024 (dp_time curr - dp_time prev) 0 false) |} /\
  ~ negative (dp_value (per_second prev curr)).
Proof.
  intros Ht Hw Hp Hc Hn.
  assert (E : per_second prev curr =
    {| dp_time := dp_time curr;
       dp_value := f_div (f_mul (f_sub (dp_value curr) (dp_value prev)) (f_of_int nanos_per_second))
                     (f_of_int (dp_time curr - dp_time prev)) |}).
  { unfold per_second. rewrite (proj2 (Z.leb_gt _ _) Ht), orb_false_l.
    replace (f_is_nan (dp_value prev)) with false by (destruct (dp_value prev); auto; contradiction).
    replace (f_is_nan (dp_value curr)) with false by (destruct (dp_value curr); auto; contradiction).
    rewrite orb_false_l. destruct (f_lt _ f_zero) eqn:F; [apply f_lt_negative in F; now destruct Hn|].
    rewrite to_int64_id; [reflexivity|lia]. }
  rewrite E; split; [reflexivity|]. apply not_neg_spec. cbn [dp_value].
  apply div_not_neg; [apply mul_not_neg|].
  - now apply not_neg_spec.
  - now apply of_int_signed.
  - apply of_int_signed; lia.
Qed.

Lemma per_second_rate_iff prev curr :
  dp_time curr - dp_time prev < 2 ^ 63 ->
  ~ negative (dp_value (per_second prev curr)).
Proof.
  intros Hw. destruct (Z_lt_le_dec (dp_time prev) (dp_time curr)) as [Ht|Ht];
    [|rewrite per_second_empty by auto; now apply not_neg_spec].
  destruct (f_is_nan (dp_value prev)) eqn:Ep;
    [rewrite per_second_empty by (destruct (dp_value prev); auto; discriminate); now apply not_neg_spec|].
  destruct (f_is_nan (dp_value curr)) eqn:Ec;
    [rewrite per_second_empty by (destruct (dp_value curr); auto; discriminate); now apply not_neg_spec|].
  destruct (f_lt (f_sub (dp_value curr) (dp_value prev)) f_zero) eqn:F.
  - apply f_lt_negative in F. rewrite per_second_empty by auto; now apply not_neg_spec.
  - apply (per_second_rate prev curr Ht Hw);
      [intros E; rewrite E in Ep; discriminate|intros E; rewrite E in Ec; discriminate|].
    intros N; apply f_lt_negative in N. change (f_lt (f_sub (dp_value curr) (dp_value prev)) f_zero = true) in N. congruence.
Qed.

Lemma absolute_spec d :
  dp_time (absolute d) = dp_time d /\ ~ negative (dp_value (absolute d)) /\
  (dp_value (absolute d) = dp_value d \/ dp_value (absolute d) = SFopp (dp_value d)).
Proof.
  unfold absolute; cbn [dp_time dp_value]; split; auto; split.
  - apply not_neg_spec; destruct (dp_value d); simpl; auto.
  - destruct (dp_value d) as [[]|[]| |[] m e]; simpl; auto.
Qed.

(** * Metric types *)
Lemma mt_roundtrip t : t = 1 \/ t = 2 \/ t = 3 ->
  exists z, mt_to_proto t = Some z /\ mt_from_proto z = Some t /\ mt_parse (mt_string t) = Some t.
Proof. intros [->|[->| ->]]; eexists; repeat split; reflexivity. Qed.

Lemma mt_to_proto_none t : mt_to_proto t = None <-> ~ (t = 1 \/ t = 2 \/ t = 3).
Proof.
  unfold mt_to_proto, mt_counter, mt_timer, mt_gauge.
  destruct (Z.eqb_spec t 1), (Z.eqb_spec t 2), (Z.eqb_spec t 3); split; intros; try discriminate; auto; lia.
Qed.

Lemma mt_from_proto_none t : mt_from_proto t = None <-> ~ (t = 1 \/ t = 2 \/ t = 3).
Proof.
  unfold mt_from_proto, mt_counter, mt_timer, mt_gauge.
  destruct (Z.eqb_spec t 1), (Z.eqb_spec t 2), (Z.eqb_spec t 3); split; intros; try discriminate; auto; lia.
Qed.

Lemma mt_parse_some s t : mt_parse s = Some t -> (t = 1 \/ t = 2 \/ t = 3) /\ s = mt_string t.
Proof.
  unfold mt_parse; intros H; apply find_some in H; destruct H as [Hin H].
  apply beqb_eq in H; split; auto. simpl in Hin; unfold mt_counter, mt_timer, mt_gauge in Hin; lia.
Qed.

(** * Rule pipelines *)
Lemma sort_strings_perm a b : sort_strings a = sort_strings b <-> Permutation a b.
Proof.
  unfold sort_strings; split; intros H.
  - eapply Permutation_trans; [apply (isort_perm bleb)|]. rewrite H; apply Permutation_sym, isort_perm.
  - apply (sorted_perm_unique bleb).
    + intros x; destruct (bleb_total x x); auto.
    + intros x y _ _ H1 H2; now apply bleb_antisym.
    + apply isort_sorted; [apply bleb_total|apply bleb_trans].
    + apply isort_sorted; [apply bleb_total|apply bleb_trans].
    + eapply Permutation_trans; [apply Permutation_sym, isort_perm|].
      eapply Permutation_trans; [exact H|apply isort_perm].
Qed.

Lemma same_transform_spec a b :
  same_transform a b = true <-> ro_name a = ro_name b /\ Permutation (ro_tags a) (ro_tags b).
Proof.
  unfold same_transform. destruct (beqb (ro_name a) (ro_name b)) eqn:E; cbn [negb].
  - apply beqb_eq in E. destruct (Nat.eqb_spec (length (ro_tags a)) (length (ro_tags b))) as [El|El]; cbn [negb].
    + rewrite (list_eqb_spec beqb beqb_eq), sort_strings_perm; tauto.
    + split; [discriminate|]. intros [_ H]; apply Permutation_length in H; contradiction.
  - split; [discriminate|]. intros [H _]; rewrite H, beqb_refl in E; discriminate.
Qed.

Lemma rollup_op_equal_spec a b : rollup_op_equal a b = true <-> rollup_same a b.
Proof.
  unfold rollup_op_equal, rollup_same. destruct (N.eqb_spec (ro_agg a) (ro_agg b)) as [E|E]; cbn [negb].
  - rewrite same_transform_spec; tauto.
  - split; [discriminate|tauto].
Qed.

Lemma op_equal_spec a b : op_equal a b = true <-> op_same a b.
Proof.
  unfold op_equal, op_same, AggregationOp, TransformationOp, RollupOp.
  destruct (Z.eqb_spec (op_kind a) (op_kind b)) as [E|E]; cbn [negb]; [|split; [discriminate|tauto]].
  destruct (Z.eqb_spec (op_kind a) 1) as [E1|E1].
  - rewrite Z.eqb_eq; split; intros H; [repeat split; auto; lia|tauto].
  - destruct (Z.eqb_spec (op_kind a) 2) as [E2|E2].
    + rewrite Z.eqb_eq; split; intros H; [repeat split; auto; lia|tauto].
    + destruct (Z.eqb_spec (op_kind a) 3) as [E3|E3].
      * rewrite rollup_op_equal_spec; split; intros H; [repeat split; auto; try lia; apply H|tauto].
      * split; intros H; auto; repeat split; auto; lia.
Qed.

Lemma length_list_eqb {A} (e : A -> A -> bool) (P : A -> A -> Prop) p q :
  (forall a b, e a b = true <-> P a b) ->
  (if negb (Nat.eqb (length p) (length q)) then false else list_eqb e p q) = true <-> Forall2 P p q.
Proof.
  intros H. assert (L : list_eqb e p q = true <-> Forall2 P p q).
  { rewrite list_eqb_forall2; split; induction 1; constructor; auto; now apply H. }
  destruct (Nat.eqb_spec (length p) (length q)) as [E|E]; cbn [negb]; auto.
  split; [discriminate|]. intros HF; exfalso; apply E; clear -HF; induction HF; simpl; auto.
Qed.

Lemma pipeline_equal_spec p q : pipeline_equal p q = true <-> Forall2 op_same p q.
Proof. apply length_list_eqb, op_equal_spec. Qed.

Lemma op_same_refl a : op_same a a.
Proof. repeat split; auto. Qed.
Lemma op_same_sym a b : op_same a b -> op_same b a.
Proof.
  intros (K & A & T & R); unfold op_same; rewrite <- K.
  split; [auto|split; [intros H; symmetry; auto|split; [intros H; symmetry; auto|]]].
  intros H; destruct (R H) as (H1 & H2 & H3); unfold rollup_same; auto using Permutation_sym.
Qed.
Lemma op_same_trans a b c : op_same a b -> op_same b c -> op_same a c.
Proof.
  intros (K & A & T & R) (K' & A' & T' & R'); unfold op_same; rewrite <- K in *.
  split; [congruence|split; [|split]].
  - intros H; rewrite A, A'; auto.
  - intros H; rewrite T, T'; auto.
  - intros H; destruct (R H) as (N1 & P1 & G1), (R' H) as (N2 & P2 & G2); unfold rollup_same.
    split; [congruence|split; [|congruence]]. eapply Permutation_trans; eauto.
Qed.

Lemma Forall2_same {A} (P : A -> A -> Prop) l : (forall a, P a a) -> Forall2 P l l.
Proof. intros H; induction l; constructor; auto. Qed.
Lemma Forall2_flip_sym {A} (P : A -> A -> Prop) l m :
  (forall a b, P a b -> P b a) -> Forall2 P l m -> Forall2 P m l.
Proof. intros H; induction 1; constructor; auto. Qed.
Lemma Forall2_trans_ {A} (P : A -> A -> Prop) l m : 
  (forall a b c, P a b -> P b c -> P a c) -> Forall2 P l m -> forall n, Forall2 P m n -> Forall2 P l n.
Proof. intros H; induction 1; intros n Hn; inversion Hn; subst; constructor; eauto. Qed.

Lemma op_clone_same a : op_same (op_clone a) a.
Proof.
  unfold op_same, op_clone, AggregationOp, TransformationOp, RollupOp; cbn [op_kind op_agg op_tf op_rollup].
  split; [auto|split; [|split]]; intros H; rewrite H; simpl; auto. repeat split; auto.
Qed.

Lemma pipeline_clone_equal p : pipeline_equal (pipeline_clone p) p = true.
Proof.
  apply pipeline_equal_spec; unfold pipeline_clone; induction p; simpl; constructor; auto. apply op_clone_same.
Qed.

Lemma sub_pipeline_app {A} (p q r : list A) :
  sub_pipeline (p ++ q ++ r) (length p) (length p + length q) = q.
Proof.
  unfold sub_pipeline. rewrite skipn_app, skipn_all, Nat.sub_diag; simpl.
  replace (length p + length q - length p)%nat with (length q) by lia.
  rewrite firstn_app, firstn_all, Nat.sub_diag; simpl. now rewrite app_nil_r.
Qed.

(** * Protobuf of rule pipelines *)
Lemma valid_agg_decompress w : valid_agg_id w -> exists l, decompress w = (l, false).
Proof. intros [H1 H2]; now apply decompress_ok_iff. Qed.

Lemma id_from_proto_types_valid w : valid_agg_id w ->
  exists l zs, decompress w = (l, false) /\ types_proto l = Some zs /\ id_from_proto_types zs = (w, false).
Proof.
  intros H; destruct (valid_agg_decompress w H) as (l & E).
  destruct (decompress_compress 0 w l (proj1 H) E) as (_ & Hv & _).
  exists l, l; split; auto; split; [now apply types_proto_ok|].
  unfold id_from_proto_types. rewrite (proj2 (types_from_proto_some l l)) by auto.
  apply compress_types_decompress; auto. apply H.
Qed.

Definition sorted_tags (a : op) : op :=
  {| op_kind := op_kind a; op_agg := op_agg a; op_tf := op_tf a;
     op_rollup := {| ro_name := ro_name (op_rollup a); ro_tags := sort_strings (ro_tags (op_rollup a));
                     ro_agg := ro_agg (op_rollup a) |} |}.

Lemma op_proto_roundtrip a : op_valid a -> op_canonical a ->
  exists pb, op_proto a = Some pb /\ new_op_from_proto pb = Some (sorted_tags a).
Proof.
  intros Hv (C1 & C2 & C3). unfold op_valid, AggregationOp, TransformationOp, RollupOp in *.
  unfold op_proto, new_op_from_proto, AggregationOp, TransformationOp, RollupOp, sorted_tags.
  destruct a as [k ag tf r]; cbn [op_kind op_agg op_tf op_rollup] in *.
  destruct Hv as [[-> Hv]|[[-> Hv]|[-> Hv]]]; cbn [Z.eqb Pos.eqb].
  - rewrite C2, C3 by lia. unfold type_proto.
    assert (Hv2 := Hv); unfold valid_type in Hv2. rewrite to_int32_id by lia.
    destruct (Z.leb_spec 0 ag), (Z.leb_spec ag 22); try lia. cbn [andb].
    eexists; split; [reflexivity|]. cbn [opp_type opp_agg Z.eqb Pos.eqb].
    unfold type_from_proto; now rewrite (proj2 (is_valid_spec ag) Hv).
  - rewrite C1, C3 by lia. destruct (tf_roundtrip tf Hv) as (z & E1 & E2); rewrite E1.
    eexists; split; [reflexivity|]. cbn [opp_type opp_tf Z.eqb Pos.eqb]. now rewrite E2.
  - rewrite C1, C2 by lia. unfold rollup_op_proto.
    destruct (id_from_proto_types_valid _ Hv) as (l & zs & E1 & E2 & E3). rewrite E1, E2.
    eexists; split; [reflexivity|]. cbn [opp_type opp_rollup Z.eqb Pos.eqb new_rollup_op_from_proto rop_types rop_name rop_tags].
    now rewrite E3.
Qed.

Lemma sorted_tags_same a : op_same (sorted_tags a) a.
Proof.
  split; [auto|split; [auto|split; [auto|]]]. intros _; repeat split. apply Permutation_sym, isort_perm.
Qed.

Lemma op_proto_canonical a : op_proto (op_clone a) = op_proto a.
Proof.
  unfold op_proto, op_clone, AggregationOp, TransformationOp, RollupOp; cbn [op_kind op_agg op_tf op_rollup].
  destruct (op_kind a =? 1), (op_kind a =? 2), (op_kind a =? 3); auto.
Qed.

Lemma op_clone_canonical a : op_canonical (op_clone a).
Proof.
  unfold op_canonical, op_clone, AggregationOp, TransformationOp, RollupOp; cbn [op_kind op_agg op_tf op_rollup].
  repeat split; intros H; apply Z.eqb_neq in H; now rewrite H.
Qed.

Lemma op_clone_valid a : op_valid a -> op_valid (op_clone a).
Proof.
  unfold op_valid, op_clone, AggregationOp, TransformationOp, RollupOp; cbn [op_kind op_agg op_tf op_rollup].
  intros [[E H]|[[E H]|[E H]]]; rewrite E; simpl; auto.
Qed.

Lemma op_proto_roundtrip_same a : op_valid a ->
  exists pb b, op_proto a = Some pb /\ new_op_from_proto pb = Some b /\ op_same b a /\
    op_canonical b /\ StronglySorted (fun x y => bleb x y = true) (ro_tags (op_rollup b)).
Proof.
  intros H. destruct (op_proto_roundtrip (op_clone a) (op_clone_valid a H) (op_clone_canonical a)) as (pb & E1 & E2).
  rewrite op_proto_canonical in E1. exists pb, (sorted_tags (op_clone a)); split; [auto|split; [auto|]].
  split; [|split; [split; [|split]|]].
  - apply (op_same_trans _ (op_clone a)); [apply sorted_tags_same|apply op_clone_same].
  - intros K; destruct (op_clone_canonical a) as (C & _); now apply C.
  - intros K; destruct (op_clone_canonical a) as (_ & C & _); now apply C.
  - intros K; destruct (op_clone_canonical a) as (_ & _ & C).
    specialize (C K). unfold sorted_tags; cbn [op_rollup]; rewrite C; reflexivity.
  - unfold sorted_tags; cbn [op_rollup ro_tags]. apply isort_sorted; [apply bleb_total|apply bleb_trans].
Qed.

Lemma pipeline_proto_roundtrip p : Forall op_valid p ->
  exists pb q, pipeline_proto p = Some pb /\ new_pipeline_from_proto (Some pb) = Some q /\
    Forall2 op_same q p /\
    Forall (fun b => op_canonical b /\ StronglySorted (fun x y => bleb x y = true) (ro_tags (op_rollup b))) q.
Proof.
  induction 1 as [|a p Ha _ (pb & q & E1 & E2 & E3 & E4)].
  - exists [], []; repeat split; auto.
  - destruct (op_proto_roundtrip_same a Ha) as (x & b & F1 & F2 & F3 & F4).
    exists (x :: pb), (b :: q); unfold pipeline_proto, new_pipeline_from_proto in *; simpl.
    rewrite F1, E1, F2, E2; repeat split; auto.
Qed.

Lemma op_proto_err a : (forall t, op_agg a = t -> - 2 ^ 31 <= t < 2 ^ 31) -> (ro_agg (op_rollup a) < 2 ^ 64)%N ->
  (op_proto a = None <-> ~ (op_valid a \/ (op_kind a = AggregationOp /\ op_agg a = 0))).
Proof.
  intros Hr Hw. specialize (Hr _ eq_refl).
  unfold op_proto, op_valid, AggregationOp, TransformationOp, RollupOp.
  destruct (Z.eqb_spec (op_kind a) 1) as [E1|E1].
  - rewrite E1. unfold type_proto. rewrite to_int32_id by lia. unfold valid_type.
    destruct (Z.leb_spec 0 (op_agg a)), (Z.leb_spec (op_agg a) 22); cbn [andb]; split; intros H1; try discriminate; auto.
    + exfalso; apply H1. destruct (Z.eq_dec (op_agg a) 0); [right|left; left]; lia.
    + intros [[[_ H2]|[[H2 _]|[H2 _]]]|[_ H2]]; lia.
    + intros [[[_ H2]|[[H2 _]|[H2 _]]]|[_ H2]]; lia.
    + intros [[[_ H2]|[[H2 _]|[H2 _]]]|[_ H2]]; lia.
  - destruct (Z.eqb_spec (op_kind a) 2) as [E2|E2].
    + destruct (tf_to_proto (op_tf a)) eqn:T.
      * split; [discriminate|]. intros H; exfalso; apply H; left; right; left; split; auto.
        assert (~ ~ valid_tf (op_tf a)) by (rewrite <- tf_to_proto_none, T; discriminate).
        unfold valid_tf in *; lia.
      * apply tf_to_proto_none in T. split; auto. intros _ [[[H _]|[[_ H]|[H _]]]|[H _]]; try lia; auto.
    + destruct (Z.eqb_spec (op_kind a) 3) as [E3|E3].
      * unfold rollup_op_proto. destruct (decompress_spec (ro_agg (op_rollup a)) Hw) as [(l & D & _ & V & B & _)|(D & B)].
        -- rewrite D, (types_proto_ok l V). split; [discriminate|]. intros H; exfalso; apply H.
           left; right; right; split; auto; split; auto.
           apply decompress_ok_iff; eauto.
        -- rewrite D. split; auto. intros _ [[[H _]|[[H _]|[_ H]]]|[H _]]; try lia.
           destruct (valid_agg_decompress _ H) as (l & D'); congruence.
      * split; auto. intros _ [[[H _]|[[H _]|[H _]]]|[H _]]; lia.
Qed.

Lemma id_from_proto_types_err zs : snd (id_from_proto_types zs) = false <-> Forall valid_type zs.
Proof.
  unfold id_from_proto_types; destruct (types_from_proto zs) as [ts|] eqn:E.
  - apply types_from_proto_some in E; destruct E as [H ->]. split; auto; intros _.
    destruct (compressor_valid 0 zs H) as (w & Ec & _).
    unfold compress_types; now rewrite Ec.
  - cbn [snd]; split; [discriminate|]. intros H.
    rewrite (proj2 (types_from_proto_some zs zs)) in E by auto; discriminate.
Qed.

Lemma new_op_from_proto_ok pb : (exists a, new_op_from_proto pb = Some a) <-> op_pb_ok pb.
Proof.
  unfold new_op_from_proto, op_pb_ok.
  destruct (Z.eqb_spec (opp_type pb) 1) as [E1|E1].
  { destruct (opp_agg pb) as [z|].
    - unfold type_from_proto; destruct (is_valid z) eqn:V.
      + apply is_valid_spec in V. split; eauto 10.
      + apply is_valid_false in V. split; [intros (a & H); discriminate|].
        intros [(_ & z' & [= <-] & H)|[(H & _)|(H & _)]]; [contradiction|lia|lia].
    - split; [intros (a & H); discriminate|].
      intros [(_ & z' & H & _)|[(H & _)|(H & _)]]; [discriminate|lia|lia]. }
  destruct (Z.eqb_spec (opp_type pb) 2) as [E2|E2].
  { destruct (opp_tf pb) as [z|].
    - destruct (tf_from_proto z) eqn:T.
      + split; eauto. intros _; right; left; split; auto. exists z; split; auto.
        assert (~ ~ (z = 1 \/ z = 2)) by (rewrite <- tf_from_proto_none, T; discriminate). lia.
      + apply tf_from_proto_none in T. split; [intros (a & H); discriminate|].
        intros [(H & _)|[(_ & z' & [= <-] & H)|(H & _)]]; [lia|contradiction|lia].
    - split; [intros (a & H); discriminate|].
      intros [(H & _)|[(_ & z' & H & _)|(H & _)]]; [lia|discriminate|lia]. }
  destruct (Z.eqb_spec (opp_type pb) 3) as [E3|E3].
  { destruct (opp_rollup pb) as [r|]; cbn [new_rollup_op_from_proto].
    - destruct (id_from_proto_types (rop_types r)) as [w []] eqn:D.
      + split; [intros (a & H); discriminate|].
        intros [(H & _)|[(H & _)|(_ & r' & [= <-] & H)]]; [lia|lia|].
        apply id_from_proto_types_err in H; rewrite D in H; discriminate.
      + split; eauto. intros _; right; right; split; auto. exists r; split; auto.
        apply id_from_proto_types_err; now rewrite D.
    - split; [intros (a & H); discriminate|].
      intros [(H & _)|[(H & _)|(_ & r' & H & _)]]; [lia|lia|discriminate]. }
  split; [intros (a & H); discriminate|]. intros [(H & _)|[(H & _)|(H & _)]]; lia.
Qed.

Lemma new_pipeline_from_proto_ok ops :
  (exists p, new_pipeline_from_proto (Some ops) = Some p) <-> Forall op_pb_ok ops.
Proof.
  unfold new_pipeline_from_proto; destruct (map_opt new_op_from_proto ops) as [p|] eqn:E.
  - split; eauto. intros _; apply map_opt_some in E. induction E as [|x y ? ? H _ IH]; constructor; auto.
    apply new_op_from_proto_ok; eauto.
  - split; [intros (p & H); discriminate|]. intros H. apply map_opt_none in E.
    destruct E as (x & Hin & Hx). rewrite Forall_forall in H; apply H, new_op_from_proto_ok in Hin.
    destruct Hin as (a & Ha); congruence.
Qed.

(** JSON marshaler structures *)
Lemma union_marshaler_roundtrip a :
  (op_kind a = 1 \/ op_kind a = 2 \/ op_kind a = 3) ->
  exists m, new_union_marshaler a = Some m /\ union_marshaler_op m = Some (op_clone a).
Proof.
  unfold new_union_marshaler, union_marshaler_op, op_clone, AggregationOp, TransformationOp, RollupOp.
  intros [E|[E|E]]; rewrite E; eexists; split; try reflexivity.
Qed.

Lemma union_marshaler_err a :
  new_union_marshaler a = None <-> ~ (op_kind a = 1 \/ op_kind a = 2 \/ op_kind a = 3).
Proof.
  unfold new_union_marshaler, AggregationOp, TransformationOp, RollupOp.
  destruct (Z.eqb_spec (op_kind a) 1), (Z.eqb_spec (op_kind a) 2), (Z.eqb_spec (op_kind a) 3);
    split; intros; try discriminate; auto; lia.
Qed.

(** * Applied pipelines *)
Lemma applied_rollup_equal_spec a b : applied_rollup_equal a b = true <-> a = b.
Proof.
  unfold applied_rollup_equal; destruct a as [i g], b as [i' g']; cbn [ar_agg ar_id].
  rewrite andb_true_iff, N.eqb_eq, beqb_eq; split; [intros [-> ->]|intros [= -> ->]]; auto.
Qed.

Lemma applied_op_equal_spec a b : applied_op_equal a b = true <-> applied_op_same a b.
Proof.
  unfold applied_op_equal, applied_op_same, TransformationOp, RollupOp.
  destruct (Z.eqb_spec (ao_kind a) (ao_kind b)) as [E|E]; cbn [negb]; [|split; [discriminate|tauto]].
  destruct (Z.eqb_spec (ao_kind a) 2) as [E2|E2].
  - rewrite Z.eqb_eq; split; intros H; [repeat split; auto; lia|tauto].
  - destruct (Z.eqb_spec (ao_kind a) 3) as [E3|E3].
    + rewrite applied_rollup_equal_spec; split; intros H; [repeat split; auto; lia|tauto].
    + split; intros H; auto; repeat split; auto; lia.
Qed.

Lemma applied_equal_spec p q : applied_equal p q = true <-> Forall2 applied_op_same p q.
Proof. apply length_list_eqb, applied_op_equal_spec. Qed.

Lemma applied_op_same_refl a : applied_op_same a a.
Proof. repeat split; auto. Qed.
Lemma applied_op_same_sym a b : applied_op_same a b -> applied_op_same b a.
Proof. intros (K & T & R); unfold applied_op_same; rewrite <- K; repeat split; intros H; symmetry; auto. Qed.
Lemma applied_op_same_trans a b c : applied_op_same a b -> applied_op_same b c -> applied_op_same a c.
Proof.
  intros (K & T & R) (K' & T' & R'); unfold applied_op_same; rewrite <- K in *; repeat split.
  - congruence.
  - intros H; rewrite T, T'; auto.
  - intros H; rewrite R, R'; auto.
Qed.

Lemma applied_op_clone_same a : applied_op_same (applied_op_clone a) a.
Proof.
  unfold applied_op_same, applied_op_clone, TransformationOp, RollupOp; cbn [ao_kind ao_tf ao_rollup].
  repeat split; intros H; rewrite H; simpl; auto. destruct (ao_rollup a); auto.
Qed.

Lemma applied_clone_equal p : applied_equal (applied_clone p) p = true.
Proof.
  apply applied_equal_spec; unfold applied_clone; induction p; simpl; constructor; auto. apply applied_op_clone_same.
Qed.

Lemma applied_op_roundtrip a : applied_op_valid a -> forall old_pb, exists pb,
  applied_op_to_proto a old_pb = Some pb /\ forall old, applied_op_from_proto pb old = Some a.
Proof.
  unfold applied_op_valid, applied_op_to_proto, applied_op_from_proto, TransformationOp, RollupOp.
  destruct a as [k t r]; cbn [ao_kind ao_tf ao_rollup].
  intros [(-> & Ht & ->)|[-> ->]] old_pb; cbn [Z.eqb Pos.eqb].
  - destruct (tf_roundtrip t Ht) as (z & E1 & E2); rewrite E1. eexists; split; [reflexivity|].
    intros old; cbn [aop_type aop_tf Z.eqb Pos.eqb]; now rewrite E2.
  - eexists; split; [reflexivity|]. intros old; destruct r; reflexivity.
Qed.

Lemma Forall2_impl_l {A C} (P : A -> Prop) (R S : A -> C -> Prop) l m :
  (forall a c, P a -> R a c -> S a c) -> Forall P l -> Forall2 R l m -> Forall2 S l m.
Proof.
  intros H HP H2; induction H2; constructor; inversion HP; subst; auto.
Qed.

(** Generic round trip through two reused slices. *)
Lemma slices_roundtrip {A P AC PC} (zp : PC) (za : AC)
  (f : A -> PC -> option PC) (contP : PC -> P) (g : P -> AC -> option AC) (contA : AC -> A) (ok : A -> Prop) :
  (forall a, ok a -> forall old, exists c, f a old = Some c /\
     forall old', exists v, g (contP c) old' = Some v /\ contA v = a) ->
  forall l, Forall ok l -> forall old, exists s, into_slice zp f l old = Some s /\
    forall old', exists v, into_slice za g (map contP (s_elems s)) old' = Some v /\ map contA (s_elems v) = l.
Proof.
  intros H l Hl old.
  set (R := fun (a : A) (c : PC) => forall old', exists v, g (contP c) old' = Some v /\ contA v = a).
  destruct (into_slice_ok zp f R l old) as (s & E & HR).
  { rewrite Forall_forall in *; intros a Ha c. exact (H a (Hl a Ha) c). }
  exists s; split; auto. intros old'.
  destruct (into_slice_ok za g (fun p v => forall a c, p = contP c -> R a c -> exists o v', g p o = Some v' /\ v' = v /\ contA v' = a)
              (map contP (s_elems s)) old') as (v & E2 & HR2).
  { rewrite Forall_forall; intros p Hp o. apply in_map_iff in Hp; destruct Hp as (c & <- & Hc).
    assert (exists a, R a c) as (a & Ha).
    { clear -HR Hc. induction HR; simpl in *; [tauto|]. destruct Hc as [->|Hc]; eauto. }
    destruct (Ha o) as (v & Ev & Hv). exists v; split; auto.
    intros a' c' Ec Ra'. exists o, v; split; auto; split; auto.
    destruct (Ra' o) as (v2 & Ev2 & Hv2). rewrite <- Ec, Ev in Ev2; congruence. }
  exists v; split; auto.
  clear -HR HR2. revert HR2. generalize (s_elems v). induction HR as [|a c l cs Ha _ IH]; simpl; intros vs Hvs; inversion Hvs; subst; simpl; auto.
  f_equal; auto. destruct (H1 a c eq_refl Ha) as (o & v' & _ & -> & Ev); auto.
Qed.

Lemma applied_roundtrip p : Forall applied_op_valid p -> forall old_pb, exists pb,
  applied_to_proto p old_pb = Some pb /\
  forall old, exists q, applied_from_proto (s_elems pb) old = Some q /\ s_elems q = p.
Proof.
  intros H old_pb.
  destruct (slices_roundtrip empty_applied_op_pb empty_applied_op applied_op_to_proto (fun x => x)
              applied_op_from_proto (fun x => x) applied_op_valid) with (l := p) (old := old_pb) as (s & E & HR); auto.
  - intros a Ha old; destruct (applied_op_roundtrip a Ha old) as (c & E & F). eauto.
  - exists s; split; auto. intros old; destruct (HR old) as (v & Ev & Hv). rewrite map_id in *. eauto.
Qed.

Lemma sps_slices_roundtrip l : Forall sp_ok l -> forall old_pb, exists pb,
  into_slice empty_sp_pb (fun sp o => ok_of (sp_to_proto sp o)) l old_pb = Some pb /\
  forall old, exists q, into_slice empty_storage_policy (fun pb o => ok_of (sp_from_proto o pb)) (s_elems pb) old = Some q /\ s_elems q = l.
Proof.
  intros H old_pb.
  destruct (slices_roundtrip empty_sp_pb empty_storage_policy (fun sp o => ok_of (sp_to_proto sp o)) (fun x => x)
              (fun pb o => ok_of (sp_from_proto o pb)) (fun x => x) sp_ok) with (l := l) (old := old_pb) as (s & E & HR); auto.
  - intros a Ha old; destruct (sp_proto_roundtrip a old empty_storage_policy Ha) as (c & E & F).
    exists c; rewrite E; split; auto. intros old'.
    destruct (sp_proto_roundtrip a old old' Ha) as (c' & E' & F'). assert (c' = c) by congruence; subst c'.
    exists a; rewrite F'; split; reflexivity.
  - exists s; split; auto. intros old; destruct (HR old) as (v & Ev & Hv). rewrite map_id in *. eauto.
Qed.

Lemma pm_roundtrip m : pm_ok m -> forall old_pb, exists pb,
  pm_to_proto m old_pb = Some pb /\
  forall old, exists v, pm_from_proto (pm_pb_content pb) old = Some v /\ pm_content v = m.
Proof.
  intros (H1 & H2 & H3) old_pb. unfold pm_to_proto, pm_from_proto.
  destruct (applied_roundtrip _ H2 (pmp_pipeline old_pb)) as (pb1 & E1 & R1); rewrite E1.
  destruct (sps_slices_roundtrip _ H1 (pmp_sps old_pb)) as (pb2 & E2 & R2); rewrite E2.
  eexists; split; [reflexivity|]. intros old. unfold pm_pb_content; cbn [pmp_agg pmp_sps pmp_pipeline pmp_drop].
  destruct (R1 (pm_pipeline old)) as (q1 & F1 & G1); rewrite F1.
  destruct (R2 (pm_sps old)) as (q2 & F2 & G2); rewrite F2.
  eexists; split; [reflexivity|]. unfold pm_content; cbn [pm_agg pm_sps pm_pipeline pm_drop].
  rewrite G1, G2, to_int32_id by lia. unfold to_uint64; rewrite Z.mod_small by lia. now destruct m.
Qed.

Lemma sm_roundtrip m : sm_ok m -> forall old_pb, exists pb,
  sm_to_proto m old_pb = Some pb /\
  forall old, exists v, sm_from_proto (sm_pb_content pb) old = Some v /\ sm_content v = m.
Proof.
  intros H old_pb. unfold sm_to_proto, sm_from_proto, md_to_proto, md_from_proto.
  destruct (slices_roundtrip zero_pm_pb zero_pm pm_to_proto pm_pb_content pm_from_proto pm_content pm_ok pm_roundtrip
              (sm_pipelines m) H (smp_pipelines old_pb)) as (s & E & R). rewrite E.
  eexists; split; [reflexivity|]. intros old. unfold sm_pb_content; cbn [smp_pipelines smp_cutover smp_tombstoned].
  destruct (R (sm_pipelines old)) as (v & F & G); rewrite F. eexists; split; [reflexivity|].
  unfold sm_content; cbn [sm_pipelines sm_cutover sm_tombstoned]. rewrite G; now destruct m.
Qed.

Lemma sms_roundtrip l : Forall sm_ok l -> forall old_pb, exists pb,
  sms_to_proto l old_pb = Some pb /\
  forall old, exists v, sms_from_proto (map sm_pb_content (s_elems pb)) old = Some v /\
    map sm_content (s_elems v) = l.
Proof.
  intros H old_pb.
  exact (slices_roundtrip zero_sm_pb zero_sm sm_to_proto sm_pb_content sm_from_proto sm_content sm_ok sm_roundtrip l H old_pb).
Qed.

Lemma fm_roundtrip m : sp_ok (fm_sp m) -> Forall applied_op_valid (fm_pipeline m) -> - 2 ^ 31 <= fm_times m < 2 ^ 31 ->
  forall old_pb, exists pb, fm_to_proto m old_pb = Some pb /\
  forall old, exists v, fm_from_proto (fm_pb_content pb) old = Some v /\ fm_content v = m.
Proof.
  intros H1 H2 H3 old_pb. unfold fm_to_proto, fm_from_proto.
  destruct (sp_proto_roundtrip _ (fmp_sp old_pb) empty_storage_policy H1) as (c & E & F); rewrite E.
  destruct (applied_roundtrip _ H2 (fmp_pipeline old_pb)) as (pb1 & E1 & R1); cbn [ok_of snd fst]; rewrite E1.
  eexists; split; [reflexivity|]. intros old. unfold fm_pb_content; cbn [fmp_agg fmp_sp fmp_pipeline fmp_source fmp_times].
  destruct (sp_proto_roundtrip _ (fmp_sp old_pb) (fm_sp old) H1) as (c' & E' & F').
  assert (c' = c) by congruence; subst c'. rewrite F'; cbn [ok_of snd fst].
  destruct (R1 (fm_pipeline old)) as (q1 & F1 & G1); rewrite F1. eexists; split; [reflexivity|].
  unfold fm_content; cbn [fm_agg fm_sp fm_pipeline fm_source fm_times]. rewrite G1, to_int32_id by lia. now destruct m.
Qed.

Lemma tm_roundtrip m : sp_ok (tm_sp m) -> forall old_pb, exists pb, tm_to_proto m old_pb = Some pb /\
  forall old, tm_from_proto pb old = Some m.
Proof.
  intros H old_pb. unfold tm_to_proto, tm_from_proto.
  destruct (sp_proto_roundtrip _ (tmp_sp old_pb) empty_storage_policy H) as (c & E & F); rewrite E.
  cbn [ok_of snd fst option_map]. eexists; split; [reflexivity|]. intros old; cbn [tmp_agg tmp_sp].
  destruct (sp_proto_roundtrip _ (tmp_sp old_pb) (tm_sp old) H) as (c' & E' & F').
  assert (c' = c) by congruence; subst c'. rewrite F'. now destruct m.
Qed.

(** Failure: whatever the reused objects. *)
Lemma applied_op_to_proto_err a old :
  applied_op_to_proto a old = None <->
  ~ ((ao_kind a = 2 /\ valid_tf (ao_tf a)) \/ ao_kind a = 3).
Proof.
  unfold applied_op_to_proto, TransformationOp, RollupOp.
  destruct (Z.eqb_spec (ao_kind a) 2) as [E|E].
  - destruct (tf_to_proto (ao_tf a)) eqn:T.
    + split; [discriminate|]. intros H; exfalso; apply H; left; split; auto.
      assert (~ ~ valid_tf (ao_tf a)) by (rewrite <- tf_to_proto_none, T; discriminate).
      unfold valid_tf in *; lia.
    + apply tf_to_proto_none in T. split; auto. intros _ [[_ H]|H]; [auto|lia].
  - destruct (Z.eqb_spec (ao_kind a) 3); split; intros H; try discriminate; auto; lia.
Qed.

(** * Clones *)
Lemma pm_equal_spec a b :
  pm_equal a b = true <->
  pm_agg a = pm_agg b /\ Permutation (pm_sps a) (pm_sps b) /\
  Forall2 applied_op_same (pm_pipeline a) (pm_pipeline b) /\ pm_drop a = pm_drop b.
Proof.
  unfold pm_equal; rewrite !andb_true_iff, N.eqb_eq, Z.eqb_eq, sps_equal_perm_model, applied_equal_spec; tauto.
Qed.

Lemma pm_clone_equal_iff m : pm_equal (pm_clone m) m = true <-> pm_drop m = 0.
Proof.
  rewrite pm_equal_spec; unfold pm_clone; cbn [pm_agg pm_sps pm_pipeline pm_drop].
  split; [intros (_ & _ & _ & H); auto|]. intros H; repeat split; auto.
  apply applied_equal_spec, applied_clone_equal.
Qed.

Lemma pms_equal_spec a b : pms_equal a b = true <-> Forall2 (fun x y => pm_equal x y = true) a b.
Proof. apply length_list_eqb; tauto. Qed.

Lemma pms_clone_equal_iff l : pms_equal (pms_clone l) l = true <-> Forall (fun m => pm_drop m = 0) l.
Proof.
  rewrite pms_equal_spec; unfold pms_clone; induction l as [|m l IH]; simpl; [split; auto|].
  split; intros H; inversion H; subst; constructor; try (now apply IH); now apply pm_clone_equal_iff.
Qed.

Lemma sm_equal_spec a b :
  sm_equal a b = true <-> Forall2 (fun x y => pm_equal x y = true) (sm_pipelines a) (sm_pipelines b) /\
    sm_cutover a = sm_cutover b /\ sm_tombstoned a = sm_tombstoned b.
Proof.
  unfold sm_equal; rewrite !andb_true_iff, Z.eqb_eq, pms_equal_spec, eqb_true_iff; tauto.
Qed.

(** * Drop policies *)
Lemma count_drops_spec ms : forall i n,
  match count_drops i n ms with
  | None => has_must ms
  | Some (i', n') =>
      ~ has_must ms /\
      i' = (i + length (filter (fun m => (pm_drop m =? 2)%Z) ms))%nat /\
      n' = (n + length (filter (fun m => negb (pm_drop m =? 2)%Z) ms))%nat
  end.
Proof.
  induction ms as [|m ms IH]; intros i n; simpl.
  - repeat split; try lia. intros (x & [] & _).
  - unfold DropMust, DropIfOnlyMatch. destruct (Z.eqb_spec (pm_drop m) 1) as [E|E].
    + exists m; split; [now left|auto].
    + destruct (Z.eqb_spec (pm_drop m) 2) as [E2|E2]; cbn [negb].
      * specialize (IH (S i) n). destruct (count_drops (S i) n ms) as [[i' n']|].
        -- destruct IH as (H1 & -> & ->). repeat split; simpl; try lia.
           intros (x & [->|Hin] & Hx); [contradiction|]. apply H1; exists x; auto.
        -- destruct IH as (x & Hin & Hx); exists x; split; [now right|auto].
      * specialize (IH i (S n)). destruct (count_drops i (S n) ms) as [[i' n']|].
        -- destruct IH as (H1 & -> & ->). repeat split; simpl; try lia.
           intros (x & [->|Hin] & Hx); [contradiction|]. apply H1; exists x; auto.
        -- destruct IH as (x & Hin & Hx); exists x; split; [now right|auto].
Qed.

Lemma remove_at_app {A} (l : list A) x r : remove_at (length l) (l ++ x :: r) = l ++ r.
Proof.
  unfold remove_at. rewrite app_length; cbn [length].
  assert (S1 : skipn (S (length l)) (l ++ x :: r) = r).
  { rewrite skipn_app. rewrite skipn_all2 by lia.
    replace (S (length l) - length l)%nat with 1%nat by lia. reflexivity. }
  assert (F1 : firstn (length l) (l ++ x :: r) = l).
  { rewrite firstn_app, firstn_all, Nat.sub_diag; simpl; now rewrite app_nil_r. }
  destruct (Nat.eqb_spec (length l) (length l + S (length r) - 1)) as [E|E].
  - destruct r; simpl in *; [|lia]. now rewrite F1, app_nil_r.
  - now rewrite S1, F1.
Qed.

Lemma nth_error_mid {A} (l : list A) x r : nth_error (l ++ x :: r) (length l) = Some x.
Proof. rewrite nth_error_app2, Nat.sub_diag by lia; reflexivity. Qed.

Lemma remove_drops_spec l : forall r,
  remove_drops (length l) (l ++ r) = filter (fun m => pm_drop m =? 0) l ++ r.
Proof.
  induction l as [|x l IH] using rev_ind; intros r; [reflexivity|].
  rewrite app_length; simpl. rewrite Nat.add_1_r; simpl.
  rewrite <- app_assoc; simpl. rewrite nth_error_mid.
  rewrite filter_app; simpl. unfold drop_is_default, DropNone.
  destruct (pm_drop x =? 0); cbn [negb].
  - rewrite IH. now rewrite <- app_assoc.
  - rewrite remove_at_app, IH. now rewrite app_nil_r.
Qed.

Lemma filter_all {A} (f : A -> bool) l : (forall x, In x l -> f x = true) -> filter f l = l.
Proof.
  intros H; induction l as [|x l IH]; simpl; auto. rewrite H by now left. f_equal; apply IH; intros; apply H; now right.
Qed.

Lemma filter_nil_iff {A} (f : A -> bool) l : filter f l = [] <-> forall x, In x l -> f x = false.
Proof.
  induction l as [|x l IH]; simpl; [split; [tauto|auto]|].
  destruct (f x) eqn:E; split; intros H; try discriminate.
  - rewrite H in E by auto; discriminate.
  - intros y [<-|Hy]; auto. now apply IH.
  - apply IH; auto.
Qed.

Lemma pms_apply_drop_effective ms : drop_effective ms ->
  pms_apply_drop ms = ([drop_pipeline_metadata], AppliedEffectiveDropPolicy).
Proof.
  intros H; unfold pms_apply_drop. pose proof (count_drops_spec ms 0 0) as C.
  destruct (count_drops 0 0 ms) as [[i n]|]; auto. destruct C as (Hm & -> & ->).
  destruct H as [H|[Hne H]]; [contradiction|].
  rewrite (filter_all (fun m => pm_drop m =? 2)) by (intros x Hx; rewrite (H x Hx); reflexivity).
  rewrite (proj2 (filter_nil_iff (fun m => negb (pm_drop m =? 2)) ms)) by (intros x Hx; rewrite (H x Hx); reflexivity).
  destruct ms; [contradiction|]. reflexivity.
Qed.

Lemma length_zero_iff {A} (l : list A) : Nat.eqb (0 + length l) 0 = true <-> l = [].
Proof. destruct l; simpl; split; intros; auto; discriminate. Qed.

Lemma pms_apply_drop_ineffective ms : valid_drops ms -> ~ drop_effective ms ->
  pms_apply_drop ms = (filter (fun m => pm_drop m =? 0) ms, RemovedIneffectiveDropPolicies).
Proof.
  intros Hv H; unfold pms_apply_drop. pose proof (count_drops_spec ms 0 0) as C.
  destruct (count_drops 0 0 ms) as [[i n]|]; [|exfalso; apply H; now left]. destruct C as (Hm & -> & ->).
  destruct (Nat.eqb (0 + length (filter (fun m => pm_drop m =? 2) ms)) 0) eqn:E1.
  - apply length_zero_iff in E1. rewrite filter_nil_iff in E1. f_equal.
    symmetry; apply filter_all; intros x Hx. specialize (E1 x Hx); specialize (Hv x Hx).
    apply Z.eqb_neq in E1. apply Z.eqb_eq.
    assert (pm_drop x <> 1) by (intros F; apply Hm; exists x; auto). lia.
  - destruct (Nat.eqb (0 + length (filter (fun m => negb (pm_drop m =? 2)) ms)) 0) eqn:E2.
    + exfalso; apply H; right. apply length_zero_iff in E2. rewrite filter_nil_iff in E2. split.
      * intros ->; discriminate.
      * intros x Hx; specialize (E2 x Hx). apply negb_false_iff, Z.eqb_eq in E2; auto.
    + f_equal. rewrite <- (app_nil_r ms) at 2. rewrite remove_drops_spec, app_nil_r. reflexivity.
Qed.

Lemma has_must_dec ms : has_must ms \/ ~ has_must ms.
Proof.
  unfold has_must. destruct (existsb (fun m => pm_drop m =? 1) ms) eqn:E.
  - left; apply existsb_exists in E; destruct E as (x & Hx & Ex). apply Z.eqb_eq in Ex; eauto.
  - right; intros (x & Hx & Ex). assert (existsb (fun m => pm_drop m =? 1) ms = true)
      by (apply existsb_exists; exists x; split; auto; now apply Z.eqb_eq). congruence.
Qed.

Lemma drop_effective_dec ms : drop_effective ms \/ ~ drop_effective ms.
Proof.
  unfold drop_effective, only_if_only. destruct (has_must_dec ms) as [H|H]; auto.
  destruct ms as [|m ms].
  - right; intros [?|[? _]]; auto.
  - destruct (forallb (fun m => pm_drop m =? 2) (m :: ms)) eqn:E.
    + left; right; split; [discriminate|]. intros x Hx. rewrite forallb_forall in E. now apply Z.eqb_eq, E.
    + right; intros [?|[_ F]]; auto. assert (forallb (fun m => pm_drop m =? 2) (m :: ms) = true)
        by (apply forallb_forall; intros x Hx; now apply Z.eqb_eq, F). congruence.
Qed.

Lemma pms_apply_drop_resolved ms : valid_drops ms -> resolved ms (fst (pms_apply_drop ms)) /\
  (snd (pms_apply_drop ms) = AppliedEffectiveDropPolicy <-> drop_effective ms).
Proof.
  intros Hv; destruct (drop_effective_dec ms) as [H|H].
  - rewrite pms_apply_drop_effective by auto. split; [left; auto|tauto].
  - rewrite pms_apply_drop_ineffective by auto. split; [right; auto|]. split; [discriminate|contradiction].
Qed.

Lemma not_effective_nonempty ms : valid_drops ms -> ms <> [] -> ~ drop_effective ms ->
  filter (fun m => pm_drop m =? 0) ms <> [].
Proof.
  intros Hv Hne H F. rewrite filter_nil_iff in F. apply H; right; split; auto.
  intros x Hx. specialize (F x Hx); apply Z.eqb_neq in F. specialize (Hv x Hx).
  assert (pm_drop x <> 1) by (intros G; apply H; left; exists x; auto). lia.
Qed.

Lemma resolved_nonempty ms ps : valid_drops ms -> resolved ms ps -> (ps = [] <-> ms = []).
Proof.
  intros Hv [[H ->]|[H ->]].
  - split; [discriminate|]. intros ->. destruct H as [(x & [] & _)|[F _]]; contradiction.
  - split; [|intros ->; reflexivity]. intros F. destruct ms as [|m ms]; auto.
    exfalso; revert F; apply not_effective_nonempty; auto; discriminate.
Qed.

Lemma resolved_idem ms ps : valid_drops ms -> resolved ms ps ->
  valid_drops ps /\ resolved ps ps.
Proof.
  intros Hv [[H ->]|[H ->]].
  - split; [intros m [<-|[]]; simpl; lia|]. left; split; auto. left; eexists; split; [now left|reflexivity].
  - split; [intros m Hm; apply Hv; now apply filter_In in Hm|]. right; split.
    + intros [(x & Hx & Ex)|[Hne F]].
      * apply filter_In in Hx; destruct Hx as [_ Hx]; apply Z.eqb_eq in Hx; lia.
      * destruct (filter (fun m => pm_drop m =? 0) ms) as [|x l] eqn:E; [contradiction|].
        assert (Hx : In x (x :: l)) by now left. pose proof (F x Hx) as F2. rewrite <- E in Hx.
        apply filter_In in Hx; destruct Hx as [_ Hx]; apply Z.eqb_eq in Hx; lia.
    + symmetry; apply filter_all. intros x Hx; now apply filter_In in Hx.
Qed.

Lemma resolved_unique ms p q : resolved ms p -> resolved ms q -> p = q.
Proof. intros [[H ->]|[H ->]] [[H' ->]|[H' ->]]; auto; contradiction. Qed.

(** Staged *)
Definition resolve_stage (s : staged_metadata) : staged_metadata :=
  mk_sm (fst (pms_apply_drop (sm_pipelines s))) (sm_cutover s) (sm_tombstoned s).
Definition stage_drops (s : staged_metadata) : bool :=
  match snd (pms_apply_drop (sm_pipelines s)) with AppliedEffectiveDropPolicy => true | _ => false end.

Lemma list_set_mid {A} (l : list A) x y r : list_set (l ++ x :: r) (length l) y = l ++ y :: r.
Proof. induction l; simpl; auto. now rewrite IHl. Qed.

(** The tracked stage: the earliest among those met so far, later positions winning ties. *)
Definition track (drops : nat) (e s : staged_metadata) : staged_metadata :=
  if Nat.eqb drops 0 || (sm_cutover s <? sm_cutover e) then s else e.

Lemma staged_drop_loop_spec l : forall r d n e,
  exists e', staged_drop_loop (length l) (l ++ r) d n e =
    (map resolve_stage (filter (fun s => negb (stage_drops s)) l) ++ r,
     (d + length (filter stage_drops l))%nat,
     (n + length (filter (fun s => negb (stage_drops s)) l))%nat, e') /\
    (filter stage_drops l = [] -> e' = e) /\
    (filter stage_drops l <> [] ->
       ((e' = e /\ d <> 0%nat) \/ exists s, In s l /\ stage_drops s = true /\ e' = resolve_stage s) /\
       (d <> 0%nat -> sm_cutover e' <= sm_cutover e) /\
       (forall s, In s l -> stage_drops s = true -> sm_cutover e' <= sm_cutover s)).
Proof.
  induction l as [|x l IH] using rev_ind; intros r d n e.
  - exists e; simpl. rewrite !Nat.add_0_r. repeat split; auto; contradiction.
  - rewrite app_length; simpl. rewrite Nat.add_1_r; simpl. rewrite <- app_assoc; simpl.
    rewrite nth_error_mid. rewrite !filter_app; simpl.
    unfold stage_drops at 2 4 6 8. fold (stage_drops x).
    pose proof (eq_refl (resolve_stage x)) as Rx; unfold resolve_stage at 1 in Rx.
    pose proof (eq_refl (stage_drops x)) as Dx; unfold stage_drops at 1 in Dx.
    destruct (pms_apply_drop (sm_pipelines x)) as [ps res]; cbn [fst snd] in *.
    rewrite Rx. rewrite list_set_mid. destruct res; rewrite <- Dx; cbn [negb].
    + rewrite remove_at_app.
      match goal with |- context [staged_drop_loop _ _ _ _ ?E] => set (e1 := E) end.
      destruct (IH r (S d) n e1) as (e' & -> & H1 & H2).
      exists e'. rewrite !app_length; simpl. rewrite app_nil_r.
      assert (T : (e1 = e /\ d <> 0%nat) \/ e1 = resolve_stage x).
      { unfold e1; destruct (Nat.eqb_spec d 0); simpl; [right; reflexivity|].
        destruct (_ <? _); [right; reflexivity|left; split; auto; lia]. }
      assert (Hc : sm_cutover e1 <= sm_cutover x).
      { unfold e1; destruct (Nat.eqb_spec d 0); simpl; [unfold resolve_stage; simpl; lia|].
        destruct (Z.ltb_spec (sm_cutover x) (sm_cutover e)); unfold resolve_stage in *; simpl in *; lia. }
      assert (He : d <> 0%nat -> sm_cutover e1 <= sm_cutover e).
      { intros Hd; unfold e1; destruct (Nat.eqb_spec d 0); simpl; [lia|].
        destruct (Z.ltb_spec (sm_cutover x) (sm_cutover e)); unfold resolve_stage in *; simpl in *; lia. }
      split; [repeat f_equal; lia|]. split; [intros F; destruct (filter stage_drops l); discriminate|].
      intros _. destruct (list_eq_dec (fun a b : unit => match a, b with tt, tt => left eq_refl end)
        (map (fun _ => tt) (filter stage_drops l)) []) as [Em|Em].
      * apply map_eq_nil in Em. rewrite (H1 Em). split; [|split; auto].
        -- destruct T as [[-> Hd]| ->]; [left; auto|right; exists x; split; [apply in_app_iff; right; now left|auto]].
        -- intros s Hs Ds. apply in_app_iff in Hs; destruct Hs as [Hs|[<-|[]]]; auto.
           rewrite filter_nil_iff in Em. rewrite Em in Ds by auto; discriminate.
      * assert (Em' : filter stage_drops l <> []) by (intros F; rewrite F in Em; now apply Em).
        destruct (H2 Em') as (A1 & A2 & A3). split; [|split].
        -- destruct A1 as [[-> _]|(s & Hs & Ds & ->)].
           ++ destruct T as [[-> Hd]| ->]; [left; auto|right; exists x; split; [apply in_app_iff; right; now left|auto]].
           ++ right; exists s; split; [apply in_app_iff; now left|auto].
        -- intros Hd. specialize (A2 (Nat.neq_succ_0 d)); specialize (He Hd); lia.
        -- intros s Hs Ds. apply in_app_iff in Hs; destruct Hs as [Hs|[<-|[]]]; auto.
           specialize (A2 (Nat.neq_succ_0 d)); lia.
    + destruct (IH (resolve_stage x :: r) d (S n) e) as (e' & -> & H1 & H2).
      exists e'. rewrite !app_length, app_nil_r; simpl. rewrite map_app, <- app_assoc; simpl.
      split; [repeat f_equal; lia|]. split; auto. intros F; destruct (H2 F) as (A1 & A2 & A3). split; [|split; auto].
      * destruct A1 as [?|(s & Hs & ?)]; [left; auto|right; exists s; split; [apply in_app_iff; now left|auto]].
      * intros s Hs Ds. apply in_app_iff in Hs; destruct Hs as [Hs|[<-|[]]]; auto. congruence.
Qed.

Lemma stage_drops_spec s : valid_drops (sm_pipelines s) -> (stage_drops s = true <-> drop_effective (sm_pipelines s)).
Proof.
  intros Hv. destruct (pms_apply_drop_resolved _ Hv) as [_ H]. rewrite <- H. unfold stage_drops.
  destruct (snd _); split; intros; auto; discriminate.
Qed.

Lemma sms_apply_drop_all sms : sms <> [] -> Forall (fun s => valid_drops (sm_pipelines s)) sms ->
  (forall s, In s sms -> drop_effective (sm_pipelines s)) ->
  exists s, In s sms /\ (forall s', In s' sms -> sm_cutover s <= sm_cutover s') /\
    sms_apply_drop sms = ([mk_sm [drop_pipeline_metadata] (sm_cutover s) (sm_tombstoned s)], AppliedEffectiveDropPolicy).
Proof.
  intros Hne Hv Hall. assert (Hd : forall s, In s sms -> stage_drops s = true).
  { intros s Hs; rewrite Forall_forall in Hv; apply stage_drops_spec; auto. }
  unfold sms_apply_drop. destruct sms as [|s0 sms]; [contradiction|]. set (l := s0 :: sms) in *.
  destruct (staged_drop_loop_spec l [] 0 0 empty_staged_metadata) as (e' & E & _ & H2).
  rewrite app_nil_r in E. rewrite E. 
  rewrite (proj2 (filter_nil_iff (fun s => negb (stage_drops s)) l)) by (intros x Hx; now rewrite Hd).
  cbn [length Nat.add Nat.eqb].
  destruct H2 as (A1 & _ & A3); [rewrite (filter_all _ _ Hd); auto|].
  destruct A1 as [[_ F]|(s & Hs & Ds & ->)]; [contradiction|]. exists s; split; auto.
  split; [intros s' Hs'; apply A3; auto|]. unfold resolve_stage.
  rewrite pms_apply_drop_effective by auto. reflexivity.
Qed.

Lemma sms_apply_drop_some sms : Forall (fun s => valid_drops (sm_pipelines s)) sms ->
  ~ (sms <> [] /\ forall s, In s sms -> drop_effective (sm_pipelines s)) ->
  sms_apply_drop sms = (map resolve_stage (filter (fun s => negb (stage_drops s)) sms), RemovedIneffectiveDropPolicies).
Proof.
  intros Hv H. unfold sms_apply_drop. destruct sms as [|s0 sms]; [reflexivity|]. set (l := s0 :: sms) in *.
  destruct (staged_drop_loop_spec l [] 0 0 empty_staged_metadata) as (e' & E & _ & _).
  rewrite app_nil_r in E. rewrite E. rewrite app_nil_r.
  destruct (Nat.eqb (0 + length (filter (fun s => negb (stage_drops s)) l)) 0) eqn:Z; auto.
  apply length_zero_iff in Z. rewrite filter_nil_iff in Z. exfalso; apply H; split; [discriminate|].
  intros s Hs. rewrite Forall_forall in Hv. apply stage_drops_spec; auto.
  specialize (Z s Hs). now apply negb_false_iff.
Qed.

Lemma sms_apply_drop_survivors sms : Forall (fun s => valid_drops (sm_pipelines s)) sms ->
  survivors sms (map resolve_stage (filter (fun s => negb (stage_drops s)) sms)).
Proof.
  induction 1 as [|s l Hs _ IH]; simpl; [constructor|].
  destruct (stage_drops s) eqn:D; cbn [negb].
  - apply surv_drop; auto. now apply stage_drops_spec.
  - assert (N : ~ drop_effective (sm_pipelines s)) by (rewrite <- stage_drops_spec, D; [discriminate|auto]).
    simpl. unfold resolve_stage at 1. rewrite pms_apply_drop_ineffective by auto. now apply surv_keep.
Qed.

(** * Legacy policies *)
Section Firsts.
  Context {A : Type} (eqb : A -> A -> bool).
  Hypothesis eqb_eq : forall x y, eqb x y = true <-> x = y.

  Lemma firsts_in x l : In x (firsts eqb l) <-> In x l.
  Proof.
    induction l as [|y l IH]; simpl; [tauto|]. rewrite filter_In, IH.
    destruct (eqb y x) eqn:E.
    - apply eqb_eq in E; subst; simpl; intuition discriminate.
    - simpl; intuition.
  Qed.

  Lemma firsts_nodup l : NoDup (firsts eqb l).
  Proof.
    induction l as [|y l IH]; simpl; constructor.
    - rewrite filter_In. intros [_ H]. assert (eqb y y = true) by now apply eqb_eq.
      rewrite H0 in H; discriminate.
    - clear -IH. induction IH as [|z m Hz _ IH]; simpl; [constructor|].
      destruct (negb (eqb y z)); auto. constructor; auto. rewrite filter_In; tauto.
  Qed.

  Lemma firsts_snoc l x : firsts eqb (l ++ [x]) = firsts eqb l ++ (if existsb (fun y => eqb y x) l then [] else [x]).
  Proof.
    induction l as [|y l IH]; simpl; auto. rewrite IH, filter_app.
    destruct (eqb y x) eqn:E; simpl.
    - apply eqb_eq in E; subst y. destruct (existsb _ l); simpl; auto.
      assert (eqb x x = true) as -> by now apply eqb_eq. simpl; auto.
    - destruct (existsb _ l); simpl; auto. rewrite E; simpl; auto.
  Qed.
End Firsts.

Lemma firsts_existsb_snoc {A} (eqb : A -> A -> bool) (H : forall x y, eqb x y = true <-> x = y) l x :
  existsb (fun y => eqb y x) (firsts eqb l) = existsb (fun y => eqb y x) l.
Proof.
  apply eq_true_iff_eq. rewrite !existsb_exists. split; intros (y & Hy & E); exists y; split; auto;
    now apply (firsts_in eqb H).
Qed.

Lemma same_policy_eq a b : same_policy a b = true <-> a = b.
Proof.
  unfold same_policy. rewrite !andb_true_iff, !Z.eqb_eq. destruct a as [[w p] r], b as [[w' p'] r'].
  cbn [sp_resolution r_window r_precision sp_retention]. split; [intros ((-> & ->) & ->); reflexivity|intros [= -> -> ->]; auto].
Qed.
Lemma same_policy_eqb a b : sp_eqb a b = same_policy a b.
Proof. apply eq_true_iff_eq. rewrite sp_eqb_eq, same_policy_eq. reflexivity. Qed.

Lemma existsb_same_policy sp l : existsb (fun q => sp_eqb q sp) l = existsb (fun q => same_policy q sp) l.
Proof. induction l as [|q l IH]; [reflexivity|]. cbn [existsb]. now rewrite same_policy_eqb, IH. Qed.

Lemma add_sp_pipeline_for ps p :
  add_sp (p_storage p) (pipeline_for ps (p_agg p)) = pipeline_for (ps ++ [p]) (p_agg p).
Proof.
  unfold add_sp, pipeline_for; cbn [pm_agg pm_sps pm_pipeline pm_drop].
  rewrite filter_app, map_app; simpl. rewrite N.eqb_refl; simpl.
  rewrite (firsts_snoc same_policy same_policy_eq).
  rewrite existsb_same_policy.
  rewrite (firsts_existsb_snoc same_policy same_policy_eq).
  destruct (existsb _ _); simpl; auto. now rewrite app_nil_r.
Qed.

Lemma pipeline_for_other ps p id : id <> p_agg p -> pipeline_for (ps ++ [p]) id = pipeline_for ps id.
Proof.
  intros H; unfold pipeline_for. rewrite filter_app; simpl.
  destruct (N.eqb_spec (p_agg p) id); [congruence|]. now rewrite app_nil_r.
Qed.

Lemma add_policy_map ps p : forall ids, NoDup ids ->
  (In (p_agg p) ids -> True) -> (forall q, In q ps -> p_agg q = p_agg p -> In (p_agg p) ids) ->
  add_policy p (map (pipeline_for ps) ids) =
  map (pipeline_for (ps ++ [p])) (ids ++ (if existsb (fun y => (y =? p_agg p)%N) ids then [] else [p_agg p])).
Proof.
  intros ids Hnd _ Hex.
  assert (G : forall ids, NoDup ids ->
    (existsb (fun y => (y =? p_agg p)%N) ids = false -> forall q, In q ps -> p_agg q = p_agg p -> False) ->
    add_policy p (map (pipeline_for ps) ids) =
    map (pipeline_for (ps ++ [p])) (ids ++ (if existsb (fun y => (y =? p_agg p)%N) ids then [] else [p_agg p]))).
  { clear ids Hnd Hex. induction ids as [|i ids IH]; intros Hnd Hex; simpl.
    - f_equal. rewrite <- add_sp_pipeline_for. f_equal. unfold pipeline_for.
      replace (filter (fun q => (p_agg q =? p_agg p)%N) ps) with (@nil policy); auto.
      symmetry; apply filter_nil_iff. intros q Hq. apply N.eqb_neq; intros E. now apply (Hex eq_refl q).
    - inversion Hnd as [|? ? Hni Hnd']; subst. change (pm_agg (pipeline_for ps i)) with i.
      destruct (N.eqb_spec (p_agg p) i) as [E|E].
      + subst i. rewrite N.eqb_refl; simpl. rewrite app_nil_r. rewrite add_sp_pipeline_for. f_equal.
        apply map_ext_in. intros j Hj. symmetry; apply pipeline_for_other. intros ->; contradiction.
      + destruct (N.eqb_spec i (p_agg p)) as [E'|E']; [congruence|]. simpl. rewrite pipeline_for_other by auto. f_equal.
        apply IH; auto. intros F; apply Hex. simpl. destruct (N.eqb_spec i (p_agg p)); [contradiction|exact F]. }
  apply G; auto. intros F q Hq E. specialize (Hex q Hq E).
  assert (existsb (fun y => (y =? p_agg p)%N) ids = true)
    by (apply existsb_exists; exists (p_agg p); split; auto; apply N.eqb_refl). congruence.
Qed.

Lemma to_metadata_spec ps : to_metadata ps = map (pipeline_for ps) (firsts N.eqb (map p_agg ps)).
Proof.
  unfold to_metadata. induction ps as [|p ps IH] using rev_ind; [reflexivity|].
  rewrite fold_left_app; simpl. rewrite IH, map_app; simpl.
  rewrite (firsts_snoc N.eqb N.eqb_eq).
  rewrite add_policy_map.
  - rewrite (firsts_existsb_snoc N.eqb N.eqb_eq). reflexivity.
  - apply firsts_nodup, N.eqb_eq.
  - auto.
  - intros q Hq E. apply (firsts_in N.eqb N.eqb_eq). rewrite <- E. now apply in_map.
Qed.

Lemma to_metadata_pairs ps id sp :
  (exists m, In m (to_metadata ps) /\ pm_agg m = id /\ In sp (pm_sps m)) <->
  In {| p_storage := sp; p_agg := id |} ps.
Proof.
  rewrite to_metadata_spec; split.
  - intros (m & Hm & <- & Hsp). apply in_map_iff in Hm; destruct Hm as (i & <- & _).
    unfold pipeline_for in *; cbn [pm_agg pm_sps] in *. apply (proj1 (firsts_in same_policy same_policy_eq _ _)) in Hsp.
    apply in_map_iff in Hsp; destruct Hsp as (q & <- & Hq). apply filter_In in Hq; destruct Hq as [Hq E].
    apply N.eqb_eq in E; subst i. now destruct q.
  - intros H. exists (pipeline_for ps id). split; [|split; auto].
    + apply in_map, (firsts_in N.eqb N.eqb_eq), in_map_iff. eexists; split; [|exact H]; auto.
    + unfold pipeline_for; cbn [pm_sps]. apply (firsts_in same_policy same_policy_eq), in_map_iff.
      eexists; split; [|apply filter_In; split; [exact H|apply N.eqb_refl]]; auto.
Qed.

Lemma to_metadata_nodup ps :
  NoDup (map pm_agg (to_metadata ps)) /\
  forall m, In m (to_metadata ps) -> NoDup (pm_sps m) /\ pm_sps m <> [] /\ pm_pipeline m = [] /\ pm_drop m = 0.
Proof.
  rewrite to_metadata_spec; split.
  - rewrite map_map. rewrite (map_ext _ (fun x => x)) by reflexivity. rewrite map_id. apply firsts_nodup, N.eqb_eq.
  - intros m Hm. apply in_map_iff in Hm; destruct Hm as (i & <- & Hi). unfold pipeline_for; cbn [pm_sps pm_pipeline pm_drop].
    split; [apply firsts_nodup, same_policy_eq|split; auto].
    apply (proj1 (firsts_in N.eqb N.eqb_eq _ _)) in Hi. apply in_map_iff in Hi; destruct Hi as (q & <- & Hq).
    intros F. assert (In (p_storage q) []).
    { rewrite <- F. apply (firsts_in same_policy same_policy_eq), in_map, filter_In; split; auto. apply N.eqb_refl. }
    auto.
Qed.
