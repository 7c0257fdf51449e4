(** The validator accepts exactly what its specification says. *)
From Coq Require Import Ascii String Arith NArith ZArith Bool Lia Permutation Sorting.Sorted List.
From Verif.Base Require Import Bytes BytesFacts Utf8.
From Verif.Proof Require Import Utf8Proof AggProof PolicyProof MetadataProof FilterProof TagProof.
From Verif.Model Require Import AggType Policy Transformation Pipeline Metadata Filter Rules RuleSet Validator.
From Verif.Spec Require Import TextSpec AggSpec PolicySpec MetadataSpec ValidatorSpec.
Import ListNotations.
Open Scope Z_scope.

Lemma metric_type_eqb_eq a b : metric_type_eqb a b = true <-> a = b.
Proof. destruct a, b; simpl; split; congruence. Qed.

Lemma existsb_in {A} (eqb : A -> A -> bool) : (forall a b, eqb a b = true <-> a = b) ->
  forall x l, existsb (eqb x) l = true <-> In x l.
Proof.
  intros H x l. rewrite existsb_exists. split.
  - intros (y & Hy & E). apply H in E. now subst.
  - intros Hx. exists x. split; auto. now apply H.
Qed.
Lemma existsb_not_in {A} (eqb : A -> A -> bool) : (forall a b, eqb a b = true <-> a = b) ->
  forall x l, existsb (eqb x) l = false <-> ~ In x l.
Proof.
  intros H x l. rewrite <- (existsb_in eqb H). destruct (existsb (eqb x) l); split; congruence.
Qed.

Lemma sp_eqb_eq a b : sp_eqb a b = true <-> a = b.
Proof.
  destruct a as [[w p] r], b as [[w' p'] r']. unfold sp_eqb, resolution_eqb; simpl.
  rewrite ?andb_true_iff, ?Z.eqb_eq. split; [intros; intuition congruence|intros [= -> -> ->]; auto].
Qed.

(** ** Settings *)
Lemma vm_lookup_spec l t :
  match vm_lookup l t with
  | Some m => exists a b, l = a ++ (t, m) :: b /\ ~ In t (map fst a)
  | None => ~ In t (map fst l)
  end.
Proof.
  unfold vm_lookup. induction l as [|[u m] l IH]; simpl; [tauto|].
  destruct (metric_type_eqb u t) eqn:E; simpl.
  - apply metric_type_eqb_eq in E as ->. exists [], l. auto.
  - assert (u <> t) by (rewrite <- metric_type_eqb_eq; congruence).
    destruct (List.find _ l) as [[u' m']|]; simpl in *.
    + destruct IH as (a & b & -> & Ha). exists ((u, m) :: a), b. split; auto. simpl. intuition.
    + intuition.
Qed.

Lemma first_unique {K V} (a b a' b' : list (K * V)) t m m' :
  a ++ (t, m) :: b = a' ++ (t, m') :: b' -> ~ In t (map fst a) -> ~ In t (map fst a') -> m = m'.
Proof.
  revert a'. induction a as [|[u v] a IH]; intros [|[u' v'] a'] E Ha Ha'; simpl in *; injection E; intros; subst; auto.
  - exfalso. apply Ha'. auto.
  - exfalso. apply Ha. auto.
  - eapply IH; eauto.
Qed.

Lemma settings_iff o t m :
  settings o t m <-> (match vm_lookup (vo_by_type o) t with Some x => x | None => vo_default o end) = m.
Proof.
  pose proof (vm_lookup_spec (vo_by_type o) t) as H. unfold settings.
  destruct (vm_lookup (vo_by_type o) t) as [x|]; split.
  - destruct H as (a & b & E & Ha). intros [(a' & b' & E' & Ha')|[Hn _]].
    + rewrite E in E'. eapply first_unique; eauto.
    + exfalso. apply Hn. rewrite E, map_app. apply in_or_app; simpl; auto.
  - intros <-. left. auto.
  - intros [(a' & b' & E' & Ha')|[_ ->]]; auto.
    exfalso. apply H. rewrite E', map_app. apply in_or_app; simpl; auto.
  - intros <-. right. auto.
Qed.

Lemma settings_in {A} (eqb : A -> A -> bool) (field : validation_metadata -> list A) o t x :
  (forall a b, eqb a b = true <-> a = b) ->
  (match vm_lookup (vo_by_type o) t with
   | Some m => existsb (eqb x) (field m) | None => existsb (eqb x) (field (vo_default o)) end) = true <->
  exists m, settings o t m /\ In x (field m).
Proof.
  intros H. split.
  - intros E. eexists. split; [apply settings_iff; reflexivity|].
    destruct (vm_lookup _ t); now apply (existsb_in eqb H) in E.
  - intros (m & Hm & Hx). apply settings_iff in Hm. subst m.
    destruct (vm_lookup _ t); now apply (existsb_in eqb H).
Qed.

Lemma allowed_sp_spec o t p : allowed_sp o t p = true <-> exists m, settings o t m /\ In p (vm_sps m).
Proof. apply (settings_in sp_eqb vm_sps). apply sp_eqb_eq. Qed.
Lemma allowed_level_spec o first t a :
  (if first : bool then allowed_first o else allowed_nonfirst o) t a = true <->
  exists m, settings o t m /\ In a (level_types first m).
Proof.
  destruct first; [apply (settings_in Z.eqb vm_first)|apply (settings_in Z.eqb vm_nonfirst)]; apply Z.eqb_eq.
Qed.
Lemma multi_spec o t : multi_enabled o t = true <-> In t (vo_multi o).
Proof. apply existsb_in. apply metric_type_eqb_eq. Qed.

Lemma validate_chars_spec s bad : validate_chars s bad = true <-> legal bad s.
Proof.
  assert (E : legal bad s <-> forall c, In c (runes s) -> ~ In c bad).
  { unfold legal. split; [intros (cs & Hs & H); rewrite (shows_runes s cs Hs); exact H|].
    intros H. exists (runes s). split; [apply runes_shows|exact H]. }
  rewrite E. unfold validate_chars. destruct bad as [|b bad]; [simpl; intuition|].
  rewrite forallb_forall. split; intros H c Hc; specialize (H c Hc).
  - rewrite negb_true_iff in H. now apply (existsb_not_in _ N.eqb_eq) in H.
  - rewrite negb_true_iff. now apply (existsb_not_in _ N.eqb_eq).
Qed.

Lemma validate_filter_spec o f m :
  validate_filter o f = Some m <->
  filter_conditions f m /\ (forall n v, In (n, v) m -> legal (vo_tag_chars o) n).
Proof.
  unfold validate_filter, validate_tags_filter, filter_conditions.
  destruct (parse_tag_filter_value_map f) as [m'|]; [|split; [discriminate|intros [[? _] _]; discriminate]].
  destruct (map_opt (fun e : bytes * filter_value => new_filter_from_value (snd e)) m') as [fs|] eqn:Ec.
  - assert (Hc : forall n v, In (n, v) m' -> exists g, new_filter_from_value v = Some g).
    { apply map_opt_some in Ec. intros n v Hin. apply in_split in Hin as (x & y & ->).
      apply Forall2_app_inv_l in Ec as (x' & y' & _ & H & _). inversion H; subst; eauto. }
    destruct (forallb _ m') eqn:E.
    + rewrite forallb_forall in E. split.
      * intros [= <-]. split; [split; auto|].
        intros n v Hin. apply (validate_chars_spec). apply (E (n, v) Hin).
      * intros [[E1 _] _]. exact E1.
    + split; [discriminate|]. intros [[E1 _] H]. injection E1 as ->. exfalso.
      assert (forallb (fun e : bytes * filter_value => validate_chars (fst e) (vo_tag_chars o)) m = true) by
        (apply forallb_forall; intros [n v] Hin; apply validate_chars_spec; simpl; eauto).
      congruence.
  - split; [discriminate|]. intros [[E1 H] _]. injection E1 as ->. exfalso. apply map_opt_none in Ec.
    destruct Ec as ([n v] & Hin & E). destruct (H n v Hin) as (g & Eg). simpl in E. congruence.
Qed.

(** ** Aggregation IDs *)
Lemma valid_agg_word_bits id : valid_agg_id id -> word_bits_valid id.
Proof.
  intros [Hw H]. unfold word_bits_valid. intros k Hk. specialize (H k Hk). unfold valid_type. lia.
Qed.

Lemma agg_id_spec o id first types : (id < 2 ^ 64)%N ->
  validate_aggregation_id o id first types = true <-> agg_permitted o first types id.
Proof.
  intros Hw. unfold validate_aggregation_id, agg_permitted, id_is_default.
  destruct (N.eqb_spec id default_id) as [->|Hn]; [unfold default_id; intuition|].
  assert (Hn' : id <> 0%N) by exact Hn.
  destruct (decompress_spec id Hw) as [(l & E & Ha & Hv & Hb & Hi)|(E & Hb)]; rewrite E.
  2:{ split; [discriminate|]. intros [?|(Hid & _)]; [contradiction|]. exfalso. apply Hb. now apply valid_agg_word_bits. }
  assert (Hlen : Nat.ltb 1 (length l) = false <-> forall j k, N.testbit id j = true -> N.testbit id k = true -> j = k).
  { rewrite Nat.ltb_ge. split.
    - intros Hl j k Hj Hk. apply Hi in Hj, Hk. destruct l as [|x [|y l]]; simpl in *; try lia; destruct Hj, Hk; try tauto; lia.
    - intros H. destruct l as [|x [|y l]]; simpl; try lia. exfalso.
      inversion Ha as [|? ? _ Hxy]; subst. inversion Hxy as [|? ? Hlt _]; subst.
      assert (Hx : N.testbit id (Z.to_N x) = true).
      { apply Hi. rewrite Forall_forall in Hv. specialize (Hv x (or_introl eq_refl)). unfold valid_type in Hv. left. lia. }
      assert (Hy : N.testbit id (Z.to_N y) = true).
      { apply Hi. rewrite Forall_forall in Hv. specialize (Hv y (or_intror (or_introl eq_refl))). unfold valid_type in Hv. right; left. lia. }
      specialize (H _ _ Hx Hy). rewrite Forall_forall in Hv. pose proof (Hv x (or_introl eq_refl)). unfold valid_type in *.
      pose proof (Hv y (or_intror (or_introl eq_refl))). lia. }
  assert (Hm : forallb (multi_enabled o) types = true <-> forall t, In t types -> In t (vo_multi o)).
  { rewrite forallb_forall. split; intros H t Ht; apply multi_spec; auto. }
  assert (Hall : forallb (fun t => forallb (fun a => (if first then allowed_first o else allowed_nonfirst o) t a) l) types = true <->
    forall k, N.testbit id k = true -> type_permitted o first types (Z.of_N k)).
  { rewrite forallb_forall. unfold type_permitted. split.
    - intros H k Hk t Ht. specialize (H t Ht). rewrite forallb_forall in H. apply allowed_level_spec. apply H. now apply Hi.
    - intros H t Ht. apply forallb_forall. intros a Hin. apply allowed_level_spec.
      assert (Hva : valid_type a) by (rewrite Forall_forall in Hv; auto). unfold valid_type in Hva.
      assert (Ea : Z.of_N (Z.to_N a) = a) by lia. rewrite <- Ea. apply H; auto. apply Hi. now rewrite Ea. }
  assert (Hid : valid_agg_id id).
  { split; auto. intros k Hk. apply Hi in Hk. rewrite Forall_forall in Hv. specialize (Hv _ Hk). unfold valid_type in Hv. lia. }
  destruct (Nat.ltb 1 (length l)) eqn:El; simpl.
  - destruct (forallb (multi_enabled o) types) eqn:Em; simpl.
    + rewrite Hall. split; [intros H; right; split; auto; split; auto; right; now apply Hm|intros [?|(_ & _ & H)]; [contradiction|auto]].
    + split; [discriminate|]. intros [?|(_ & [H|H] & _)]; [contradiction| |].
      * apply Hlen in H. discriminate.
      * apply Hm in H. discriminate.
  - rewrite Hall. split; [intros H; right; split; auto; split; auto; left; now apply Hlen|intros [?|(_ & _ & H)]; [contradiction|auto]].
Qed.

Lemma agg_op_spec o a types :
  validate_aggregation_op o a types = true <-> valid_type a /\ type_permitted o true types a.
Proof.
  unfold validate_aggregation_op, compress_types.
  destruct (valid_types_dec [a]) as [Hv|Hv].
  - assert (Hva : valid_type a) by (inversion Hv; auto).
    destruct (compressor_valid 0%N [a] Hv) as (w & E & Hb).
    rewrite E. cbn [snd].
    pose proof (compress_word _ _ Hv Hb) as Hwv. pose proof (word_bits_valid_word w Hwv) as Hw.
    rewrite agg_id_spec by exact Hw. unfold agg_permitted. unfold valid_type in Hva.
    assert (Hbit : N.testbit w (Z.to_N a) = true) by (apply Hb; left; lia).
    split.
    + intros [->|(_ & _ & H)]; [rewrite N.bits_0 in Hbit; discriminate|]. split; auto.
      specialize (H _ Hbit). now rewrite Z2N.id in H by lia.
    + intros [_ H]. right. split; [|split].
      * split; auto. intros k Hk. specialize (Hwv k Hk). unfold valid_type in Hwv. lia.
      * left. intros j k Hj Hk. apply Hb in Hj, Hk. simpl in Hj, Hk. lia.
      * intros k Hk. apply Hb in Hk. destruct Hk as [<-|[]]. exact H.
  - pose proof (compressor_invalid 0%N [a] Hv) as H.
    rewrite H. split; [discriminate|]. intros [Ha _]. exfalso. apply Hv. auto.
Qed.

(** ** Lists without duplicates *)
Lemma no_duplicate_spec {A} (eqb : A -> A -> bool) : (forall a b, eqb a b = true <-> a = b) ->
  forall l seen, no_duplicate eqb seen l = true <-> NoDup l /\ forall x, In x l -> ~ In x seen.
Proof.
  intros H. induction l as [|x l IH]; intros seen; simpl.
  - split; auto. intros _. split; [constructor|tauto].
  - destruct (existsb (eqb x) seen) eqn:E.
    + apply (existsb_in eqb H) in E. split; [discriminate|]. intros [_ Hn]. exfalso. apply (Hn x); auto.
    + apply (existsb_not_in eqb H) in E. rewrite IH. split.
      * intros [Hnd Hn]. split.
        -- constructor; auto. intros Hx. apply (Hn x Hx). now left.
        -- intros y [<-|Hy] Hs; auto. apply (Hn y Hy). now right.
      * intros [Hnd Hn]. inversion Hnd; subst. split; auto. intros y Hy [->|Hs]; auto. apply (Hn y); auto.
Qed.

Lemma policies_spec o sps types :
  validate_storage_policies o sps types = true <-> policies_permitted o types sps.
Proof.
  unfold validate_storage_policies, policies_permitted. destruct sps as [|p sps]; [split; [discriminate|intros [[] _]; auto]|].
  rewrite andb_true_iff, (no_duplicate_spec sp_eqb sp_eqb_eq), forallb_forall.
  split.
  - intros [[Hn _] H]. split; [discriminate|]. split; auto. intros t q Ht Hq. apply allowed_sp_spec.
    specialize (H t Ht). rewrite forallb_forall in H. auto.
  - intros (_ & Hn & H). split; [split; auto|]. intros t Ht. apply forallb_forall. intros q Hq. apply allowed_sp_spec. auto.
Qed.

(** ** Rollup operations *)
Lemma tag_set_nodup l : NoDup l -> tag_set l = l.
Proof.
  induction l as [|t l IH]; intros H; auto. simpl. inversion H; subst.
  assert (E : existsb (beqb t) l = false) by now apply (existsb_not_in _ beqb_eq).
  rewrite E. now rewrite IH.
Qed.

Lemma strict_subset_length (x y : list bytes) : NoDup x -> NoDup y -> incl y x ->
  length y <> length x <-> ~ incl x y.
Proof.
  intros Hx Hy Hi. split.
  - intros Hn Hxy. apply Hn. apply Nat.le_antisymm; apply NoDup_incl_length; auto.
  - intros Hn E. apply Hn. apply (NoDup_length_incl Hy); auto. lia.
Qed.

Definition nested_in (prev : option (list bytes)) (tags : list bytes) : Prop :=
  match prev with None => True | Some q => incl tags q /\ ~ incl q tags end.

Lemma rollup_op_spec o r i types prev : (ro_agg r < 2 ^ 64)%N -> (forall q, prev = Some q -> NoDup q) ->
  validate_rollup_op o r i types prev = true <->
  rollup_permitted o (Nat.eqb i 0) types r /\ nested_in prev (ro_tags r).
Proof.
  intros Hw Hq. unfold validate_rollup_op, rollup_permitted, validate_rollup_name, validate_rollup_tags.
  replace (negb (Nat.ltb 0 i)) with (Nat.eqb i 0) by (destruct i; reflexivity).
  rewrite !andb_true_iff, (agg_id_spec _ _ _ _ Hw), (no_duplicate_spec beqb beqb_eq), !forallb_forall.
  assert (Hname : match ro_name r with [] => false | _ => validate_chars (ro_name r) (vo_metric_chars o) end = true <->
    ro_name r <> [] /\ legal (vo_metric_chars o) (ro_name r)).
  { destruct (ro_name r) eqn:E; [split; [discriminate|intros [[] _]; auto]|].
    rewrite validate_chars_spec. split; [intros H; split; [discriminate|auto]|tauto]. }
  rewrite Hname.
  assert (Hreq : (forall x, In x (vo_required o) -> existsb (beqb x) (ro_tags r) = true) <-> incl (vo_required o) (ro_tags r)).
  { split; intros H x Hx; specialize (H x Hx); now apply (existsb_in _ beqb_eq). }
  rewrite Hreq.
  assert (Hlegal : (forall x, In x (ro_tags r) -> validate_chars x (vo_tag_chars o) = true) <->
     forall t, In t (ro_tags r) -> legal (vo_tag_chars o) t).
  { split; intros H x Hx; specialize (H x Hx); now apply validate_chars_spec. }
  rewrite Hlegal.
  assert (Hnest : NoDup (ro_tags r) ->
    (match prev with
     | None => true
     | Some p => forallb (fun t => existsb (beqb t) p) (ro_tags r) && negb (Nat.eqb (length (ro_tags r)) (length p))
     end = true <-> nested_in prev (ro_tags r))).
  { intros Hnd. destruct prev as [q|]; [|simpl; tauto]. specialize (Hq q eq_refl). simpl.
    rewrite andb_true_iff, forallb_forall, negb_true_iff, Nat.eqb_neq.
    assert (Hi : (forall x, In x (ro_tags r) -> existsb (beqb x) q = true) <-> incl (ro_tags r) q).
    { split; intros H x Hx; specialize (H x Hx); now apply (existsb_in _ beqb_eq). }
    rewrite Hi. split; intros [H1 H2]; split; auto; now apply (strict_subset_length q (ro_tags r)). }
  split.
  - intros [[[Hn1 Hn2] [[[H1 [H2 H2']] H3] H4]] H5].
    split; [repeat (split; auto)|now apply Hnest].
  - intros [(Hn1 & Hn2 & H1 & H2 & H3 & H4) H5].
    split; [split; [split; auto|split; [split; [split; auto|]|]]|]; auto. now apply Hnest.
Qed.

(** ** The loop over a pipeline, condition by condition *)
Section Loop.
Context (o : validator_opts) (types : list metric_type).

Definition op_ok (i : nat) (x : op) : Prop :=
  (op_kind x = AggregationOp /\ i = 0%nat /\ valid_type (op_agg x) /\ type_permitted o true types (op_agg x)) \/
  (op_kind x = TransformationOp /\ valid_tf (op_tf x)) \/
  (is_rollup x /\ rollup_permitted o (Nat.eqb i 0) types (op_rollup x)).

Definition derives (x : op) : bool := (op_kind x =? 2) && (op_tf x =? 2).

Fixpoint orders_ok (order : Z) (p : list op) : Prop :=
  match p with
  | [] => True
  | x :: p =>
      if op_kind x =? RollupOp then orders_ok 0 p
      else if derives x then order + 1 <= vo_max_order o /\ orders_ok (order + 1) p
      else orders_ok order p
  end.

Fixpoint nested_ok (prev : option (list bytes)) (p : list op) : Prop :=
  match p with
  | [] => True
  | x :: p =>
      if op_kind x =? RollupOp then nested_in prev (ro_tags (op_rollup x)) /\ nested_ok (Some (ro_tags (op_rollup x))) p
      else nested_ok prev p
  end.

Lemma valid_tf_spec t : tf_is_valid t = true <-> valid_tf t.
Proof.
  unfold tf_is_valid, tf_is_unary, tf_is_binary, valid_tf, TfAbsolute, TfPerSecond.
  rewrite orb_true_iff, !Z.eqb_eq. lia.
Qed.

Lemma rollups_cons x p : rollups (x :: p) = if op_kind x =? RollupOp then op_rollup x :: rollups p else rollups p.
Proof. unfold rollups, RollupOp. simpl. now destruct (op_kind x =? 3). Qed.

Lemma loop_spec p : (forall x, In x p -> (ro_agg (op_rollup x) < 2 ^ 64)%N) ->
  forall i aggs order n prev,
  (i = 0%nat -> aggs = 0) -> 0 <= n -> (forall q, prev = Some q -> NoDup q) ->
  pipeline_loop o types i aggs order n prev p = true <->
  (forall j x, nth_error p j = Some x -> op_ok (i + j) x) /\ orders_ok order p /\
  (n + Z.of_nat (length (rollups p)) <> 0 /\ (rollups p <> [] -> n + Z.of_nat (length (rollups p)) <= vo_max_levels o)) /\
  nested_ok prev p.
Proof.
  induction p as [|x p IH]; intros Hw i aggs order n prev Hi Hn Hprev.
  - simpl. rewrite negb_true_iff, Z.eqb_neq. split.
    + intros H. split; [intros [|j] y; discriminate|]. split; auto. split; auto. split; [lia|intros []; auto].
    + intros (_ & _ & [H _] & _). lia.
  - assert (Hw' : forall y, In y p -> (ro_agg (op_rollup y) < 2 ^ 64)%N) by (intros; apply Hw; now right).
    assert (Hidx : (forall j y, nth_error (x :: p) j = Some y -> op_ok (i + j) y) <->
      op_ok i x /\ forall j y, nth_error p j = Some y -> op_ok (S i + j) y).
    { split.
      - intros H. split; [specialize (H 0%nat x eq_refl); now rewrite Nat.add_0_r in H|].
        intros j y Hj. specialize (H (S j) y Hj). now replace (S i + j)%nat with (i + S j)%nat by lia.
      - intros [Hx H] [|j] y Hj; [injection Hj as <-; now rewrite Nat.add_0_r|].
        specialize (H j y Hj). now replace (i + S j)%nat with (S i + j)%nat by lia. }
    rewrite Hidx, rollups_cons. cbn [pipeline_loop orders_ok nested_ok].
    destruct (Z.eqb_spec (op_kind x) AggregationOp) as [Ek|Ek].
    { assert (E3 : (op_kind x =? RollupOp) = false) by (rewrite Ek; reflexivity).
      assert (Ed : derives x = false) by (unfold derives; now rewrite Ek).
      rewrite E3, Ed.
      assert (Hop : op_ok i x <-> i = 0%nat /\ valid_type (op_agg x) /\ type_permitted o true types (op_agg x)).
      { unfold op_ok, is_rollup. rewrite Ek. unfold AggregationOp, TransformationOp, RollupOp. intuition lia. }
      rewrite Hop.
      destruct (Nat.eqb_spec i 0) as [->|Hi0].
      - rewrite (Hi eq_refl). cbn [negb]. change (1 <? 0 + 1) with false. cbn iota.
        rewrite <- agg_op_spec.
        destruct (validate_aggregation_op o (op_agg x) types); cbn [negb].
        + rewrite (IH Hw' 1%nat (0 + 1) order n prev) by (auto; lia). intuition.
        + intuition; try discriminate.
      - cbn [negb]. destruct (1 <? aggs + 1); (split; [discriminate|intros (((? & _) & _) & _); contradiction]). }
    destruct (Z.eqb_spec (op_kind x) TransformationOp) as [Et|Et].
    { assert (E3 : (op_kind x =? RollupOp) = false) by (rewrite Et; reflexivity).
      assert (Ed : derives x = tf_is_binary (op_tf x)) by (unfold derives; rewrite Et; reflexivity).
      rewrite E3, Ed.
      assert (Hop : op_ok i x <-> tf_is_valid (op_tf x) = true).
      { rewrite valid_tf_spec. unfold op_ok, is_rollup. rewrite Et. unfold AggregationOp, TransformationOp, RollupOp. intuition lia. }
      rewrite Hop.
      destruct (tf_is_binary (op_tf x)); cbn [andb].
      - destruct (Z.ltb_spec (vo_max_order o) (order + 1)) as [Hlt|Hge].
        + split; [discriminate|]. intros (_ & (H & _) & _). lia.
        + destruct (tf_is_valid (op_tf x)); cbn [negb].
          * rewrite (IH Hw' (S i) aggs (order + 1) n prev) by (auto; lia). intuition.
          * intuition; try discriminate.
      - destruct (tf_is_valid (op_tf x)); cbn [negb].
        * rewrite (IH Hw' (S i) aggs order n prev) by (auto; lia). intuition.
        * intuition; try discriminate. }
    destruct (Z.eqb_spec (op_kind x) RollupOp) as [Er|Er].
    { assert (Hop : op_ok i x <-> rollup_permitted o (Nat.eqb i 0) types (op_rollup x)).
      { unfold op_ok, is_rollup. rewrite Er. unfold AggregationOp, TransformationOp, RollupOp. intuition lia. }
      rewrite Hop. cbn [length]. rewrite Nat2Z.inj_succ.
      assert (Hne : op_rollup x :: rollups p <> []) by discriminate.
      destruct (Z.ltb_spec (vo_max_levels o) (n + 1)) as [Hlt|Hge].
      + split; [discriminate|]. intros (_ & _ & [_ H] & _). specialize (H Hne). lia.
      + pose proof (rollup_op_spec o (op_rollup x) i types prev (Hw x (or_introl eq_refl)) Hprev) as Hro.
        destruct (validate_rollup_op o (op_rollup x) i types prev); cbn [negb].
        * destruct (proj1 Hro eq_refl) as [Hp Hnest].
          assert (Hnd : NoDup (ro_tags (op_rollup x))) by (destruct Hp as (_ & _ & _ & H & _); auto).
          rewrite (tag_set_nodup _ Hnd).
          rewrite (IH Hw' (S i) aggs 0 (n + 1) (Some (ro_tags (op_rollup x)))) by (try lia; intros q [= <-]; auto).
          split.
          -- intros (H1 & H2 & [H3 H4] & H5). split; [auto|]. split; auto. split; [split; [lia|]|auto].
             intros _. destruct (rollups p) as [|r rs]; [simpl; lia|]. specialize (H4 ltac:(discriminate)). lia.
          -- intros ([_ H1] & H2 & [H3 H4] & [_ H5]). split; auto. split; auto. split; auto. split; [lia|].
             intros _. specialize (H4 Hne). lia.
        * split; [discriminate|]. intros ([H _] & _ & _ & [H' _]). destruct Hro as [_ Hro]. exfalso.
          specialize (Hro (conj H H')). discriminate. }
    split; [discriminate|]. intros ([H _] & _). exfalso. unfold op_ok, is_rollup in H. tauto.
Qed.

(** ** From the loop's conditions to the specification's *)
Lemma derivatives_cons x s : derivatives (x :: s) = ((if derives x then 1 else 0) + derivatives s)%nat.
Proof. unfold derivatives, derives. simpl. now destruct ((op_kind x =? 2) && (op_tf x =? 2)). Qed.

Lemma no_rollup_cons x s : no_rollup (x :: s) <-> ~ is_rollup x /\ no_rollup s.
Proof.
  unfold no_rollup. split.
  - intros H. split; [apply H; now left|intros y Hy; apply H; now right].
  - intros [Hx H] y [<-|Hy]; auto.
Qed.

Lemma derives_no_rollup x : derives x = true -> ~ is_rollup x.
Proof. unfold derives, is_rollup, RollupOp. rewrite andb_true_iff, !Z.eqb_eq. lia. Qed.

Lemma orders_spec p order : 0 <= order ->
  orders_ok order p <->
  (forall s b, p = s ++ b -> no_rollup s -> (0 < derivatives s)%nat -> order + Z.of_nat (derivatives s) <= vo_max_order o) /\
  (forall a s b, p = a ++ s ++ b -> no_rollup s -> (0 < derivatives s)%nat -> Z.of_nat (derivatives s) <= vo_max_order o).
Proof.
  revert order. induction p as [|x p IH]; intros order Ho; cbn [orders_ok].
  - split; auto. intros _. split.
    + intros [|y s] b E _ Hd; [simpl in Hd; inversion Hd|discriminate].
    + intros [|y a] [|z s] b E _ Hd; try discriminate; simpl in Hd; inversion Hd.
  - destruct (Z.eqb_spec (op_kind x) RollupOp) as [Er|Er].
    + rewrite (IH 0) by lia. split.
      * intros [H1 H2]. split.
        -- intros [|y s] b E Hs Hd; [inversion Hd|]. injection E as <- E. apply no_rollup_cons in Hs as [Hx _]. contradiction.
        -- intros [|y a] s b E Hs Hd.
           ++ destruct s as [|y s]; [inversion Hd|]. injection E as <- E. apply no_rollup_cons in Hs as [Hx _]. contradiction.
           ++ injection E as <- E. eauto.
      * intros [H1 H2]. split.
        -- intros s b E Hs Hd. apply (H2 [x] s b); auto. simpl. now rewrite E.
        -- intros a s b E Hs Hd. apply (H2 (x :: a) s b); auto. simpl. now rewrite E.
    + assert (Hx : ~ is_rollup x) by exact Er.
      destruct (derives x) eqn:Ed.
      * rewrite (IH (order + 1)) by lia. split.
        -- intros [Hmax [H1 H2]]. 
           assert (Hpre : forall s b, x :: p = s ++ b -> no_rollup s -> (0 < derivatives s)%nat -> order + Z.of_nat (derivatives s) <= vo_max_order o).
           { intros [|y s] b E Hs Hd; [inversion Hd|]. injection E as <- E. apply no_rollup_cons in Hs as [_ Hs].
             rewrite derivatives_cons, Ed in *. destruct (derivatives s) as [|k] eqn:Ek; [simpl; lia|].
             specialize (H1 s b E Hs). rewrite Ek in H1. specialize (H1 ltac:(lia)). lia. }
           split; auto. intros [|y a] s b E Hs Hd; [specialize (Hpre s b E Hs Hd); lia|]. injection E as <- E. eauto.
        -- intros [H1 H2]. split; [|split].
           ++ specialize (H1 [x] p eq_refl). rewrite derivatives_cons, Ed in H1. cbn in H1.
              apply H1; [apply no_rollup_cons; split; auto; intros y []|lia].
           ++ intros s b E Hs Hd. specialize (H1 (x :: s) b). rewrite derivatives_cons, Ed in H1. simpl in H1.
              rewrite E in H1. specialize (H1 eq_refl). assert (Hxs : no_rollup (x :: s)) by (apply no_rollup_cons; auto).
              specialize (H1 Hxs ltac:(lia)). lia.
           ++ intros a s b E Hs Hd. apply (H2 (x :: a) s b); auto. simpl. now rewrite E.
      * rewrite (IH order Ho). split.
        -- intros [H1 H2].
           assert (Hpre : forall s b, x :: p = s ++ b -> no_rollup s -> (0 < derivatives s)%nat -> order + Z.of_nat (derivatives s) <= vo_max_order o).
           { intros [|y s] b E Hs Hd; [inversion Hd|]. injection E as <- E. apply no_rollup_cons in Hs as [_ Hs].
             rewrite derivatives_cons, Ed in *. simpl in *. eauto. }
           split; auto. intros [|y a] s b E Hs Hd; [specialize (Hpre s b E Hs Hd); lia|]. injection E as <- E. eauto.
        -- intros [H1 H2]. split.
           ++ intros s b E Hs Hd. specialize (H1 (x :: s) b). rewrite derivatives_cons, Ed in H1. simpl in H1.
              apply H1; auto; [now rewrite E|now apply no_rollup_cons].
           ++ intros a s b E Hs Hd. apply (H2 (x :: a) s b); auto. simpl. now rewrite E.
Qed.

Definition consecutive_nested (p : list op) : Prop :=
  forall a x s y b, p = a ++ x :: s ++ y :: b -> is_rollup x -> no_rollup s -> is_rollup y ->
    incl (ro_tags (op_rollup y)) (ro_tags (op_rollup x)) /\ ~ incl (ro_tags (op_rollup x)) (ro_tags (op_rollup y)).

Lemma nested_spec p prev :
  nested_ok prev p <->
  (forall s y b, p = s ++ y :: b -> no_rollup s -> is_rollup y -> nested_in prev (ro_tags (op_rollup y))) /\
  consecutive_nested p.
Proof.
  unfold consecutive_nested. revert prev. induction p as [|x p IH]; intros prev; cbn [nested_ok].
  - split; auto. intros _. split; [intros [|? ?] y b E; discriminate|intros [|? ?] x s y b E; discriminate].
  - destruct (Z.eqb_spec (op_kind x) RollupOp) as [Er|Er].
    + rewrite IH. split.
      * intros [Hx [H1 H2]]. split.
        -- intros [|z s] y b E Hs Hy; injection E as <- E; auto. apply no_rollup_cons in Hs as [Hz _]. contradiction.
        -- intros [|z a] w s y b E Hw Hs Hy; injection E as <- E; [exact (H1 s y b E Hs Hy)|eauto].
      * intros [H1 H2]. split; [|split].
        -- apply (H1 [] x p); auto. intros ? [].
        -- intros s y b E Hs Hy. apply (H2 [] x s y b); auto. simpl. now rewrite E.
        -- intros a w s y b E Hw Hs Hy. apply (H2 (x :: a) w s y b); auto. simpl. now rewrite E.
    + rewrite IH. split.
      * intros [H1 H2]. split.
        -- intros [|z s] y b E Hs Hy; injection E as <- E; [exfalso; exact (Er Hy)|]. apply no_rollup_cons in Hs as [_ Hs]. eauto.
        -- intros [|z a] w s y b E Hw Hs Hy; injection E as <- E; [exfalso; exact (Er Hw)|eauto].
      * intros [H1 H2]. split.
        -- intros s y b E Hs Hy. apply (H1 (x :: s) y b); auto; [simpl; now rewrite E|now apply no_rollup_cons].
        -- intros a w s y b E Hw Hs Hy. apply (H2 (x :: a) w s y b); auto. simpl. now rewrite E.
Qed.

Lemma pipeline_spec p : (forall x, In x p -> (ro_agg (op_rollup x) < 2 ^ 64)%N) ->
  validate_pipeline o p types = true <-> pipeline_ok o types p.
Proof.
  intros Hw. unfold validate_pipeline.
  destruct p as [|x p].
  - split; [discriminate|]. intros [_ _ [H _] _]. exfalso. now apply H.
  - set (l := x :: p) in *. rewrite (loop_spec l Hw 0 0 0 0 None) by (auto; try lia; discriminate).
    rewrite (orders_spec l 0) by lia. rewrite nested_spec. simpl Nat.add.
    split.
    + intros (H1 & [_ H2] & [H3 H4] & [_ H5]).
      assert (Hne : rollups l <> []) by (intros E; rewrite E in H3; simpl in H3; lia).
      specialize (H4 Hne). constructor; auto.
    + intros [H1 H2 [H3 H4] H5]. split; auto. split; [split; auto; intros s b E; apply (H2 [] s b E)|].
      split; [split; [destruct (rollups l); [now elim H3|simpl; lia]|intros _; lia]|].
      split; auto. intros; exact I.
Qed.
End Loop.

(** ** Duplicate rollups *)
Lemma same_transform_spec a b : same_transform a b = true <-> same_rollup a b.
Proof.
  unfold same_transform, same_rollup. destruct (beqb (ro_name a) (ro_name b)) eqn:En; cbn [negb].
  - apply beqb_eq in En. destruct (Nat.eqb_spec (length (ro_tags a)) (length (ro_tags b))) as [El|El]; cbn [negb].
    + rewrite (list_eqb_spec beqb beqb_eq). unfold sort_strings. split.
      * intros E. split; auto. rewrite (isort_perm bleb (ro_tags a)), E. symmetry. apply isort_perm.
      * intros [_ Hp]. apply (sorted_perm_unique bleb); auto using bleb_refl, bleb_antisym.
        -- apply isort_sorted; auto using bleb_total; eauto using bleb_trans.
        -- apply isort_sorted; auto using bleb_total; eauto using bleb_trans.
        -- rewrite <- (isort_perm bleb (ro_tags a)), Hp. apply isort_perm.
    + split; [discriminate|]. intros [_ Hp]. apply Permutation_length in Hp. contradiction.
  - apply beqb_neq in En. split; [discriminate|tauto].
Qed.

Lemma same_rollup_sym a b : same_rollup a b -> same_rollup b a.
Proof. intros [H1 H2]. split; auto. now symmetry. Qed.

Lemma distinct_rollups_snoc l r :
  distinct_rollups (l ++ [r]) <-> distinct_rollups l /\ forall x, In x l -> ~ same_rollup r x.
Proof.
  unfold distinct_rollups. split.
  - intros H. split.
    + intros i j a b Hi Hj. apply H; rewrite nth_error_app1; auto; apply nth_error_Some; congruence.
    + intros x Hx Hs. apply In_nth_error in Hx as (i & Hi).
      assert (i < length l)%nat by (apply nth_error_Some; congruence).
      assert (i = length l); [|lia]. apply (H i (length l) x r); [rewrite nth_error_app1; auto| |now apply same_rollup_sym].
      rewrite nth_error_app2 by lia. now rewrite Nat.sub_diag.
  - intros [H1 H2] i j a b Hi Hj Hs.
    assert (Hcase : forall k c, nth_error (l ++ [r]) k = Some c -> (nth_error l k = Some c) \/ (k = length l /\ c = r)).
    { intros k c Hk. destruct (Nat.lt_ge_cases k (length l)); [rewrite nth_error_app1 in Hk by auto; auto|].
      rewrite nth_error_app2 in Hk by auto. destruct (k - length l)%nat as [|n] eqn:E; [injection Hk as <-; right; split; auto; lia|].
      destruct n; discriminate. }
    apply Hcase in Hi, Hj. destruct Hi as [Hi|[-> ->]], Hj as [Hj|[-> ->]]; auto.
    + eapply H1; eauto.
    + exfalso. apply (H2 a); [eapply nth_error_In; eauto|now apply same_rollup_sym].
    + exfalso. apply (H2 b); [eapply nth_error_In; eauto|auto].
Qed.

Lemma distinct_rollups_app_l a b : distinct_rollups (a ++ b) -> distinct_rollups a.
Proof.
  intros H i j x y Hi Hj. apply H; rewrite nth_error_app1; auto; apply nth_error_Some; congruence.
Qed.

Lemma no_duplicate_rollup_spec ops : forall seen, distinct_rollups seen ->
  no_duplicate_rollup seen ops = true <-> distinct_rollups (seen ++ rollups ops).
Proof.
  induction ops as [|x ops IH]; intros seen Hs; cbn [no_duplicate_rollup].
  - unfold rollups. simpl. rewrite app_nil_r. tauto.
  - rewrite rollups_cons. destruct (op_kind x =? RollupOp); cbn [negb]; [|now apply IH].
    replace (seen ++ op_rollup x :: rollups ops) with ((seen ++ [op_rollup x]) ++ rollups ops) by now rewrite <- app_assoc.
    destruct (existsb (same_transform (op_rollup x)) seen) eqn:E.
    + split; [discriminate|]. intros H. apply distinct_rollups_app_l in H. apply distinct_rollups_snoc in H as [_ H].
      apply existsb_exists in E as (y & Hy & E). apply same_transform_spec in E. exfalso. now apply (H y).
    + apply IH. apply distinct_rollups_snoc. split; auto. intros y Hy Hsame. apply same_transform_spec in Hsame.
      assert (existsb (same_transform (op_rollup x)) seen = true) by (apply existsb_exists; eauto). congruence.
Qed.

Lemma rollups_app a b : rollups (a ++ b) = rollups a ++ rollups b.
Proof. unfold rollups. now rewrite filter_app, map_app. Qed.
Lemma rollups_concat ps : rollups (concat ps) = flat_map rollups ps.
Proof. induction ps as [|p ps IH]; auto. simpl. now rewrite rollups_app, IH. Qed.

(** ** Rules *)
Lemma applies_spec o f types :
  (exists m, validate_filter o f = Some m /\ vo_types_fn o m = Some types /\ types <> []) <-> applies_to o f types.
Proof.
  unfold applies_to. split.
  - intros (m & H1 & H2 & H3). apply validate_filter_spec in H1 as [H1 H1']. exists m. auto.
  - intros (m & H1 & H1' & H2 & H3). exists m. split; auto. apply validate_filter_spec. auto.
Qed.

Lemma drop_cases d : drop_is_valid d = true <-> d = 0 \/ d = 1 \/ d = 2.
Proof.
  unfold drop_is_valid. rewrite existsb_exists. unfold valid_drop_policies, DropNone, DropMust, DropIfOnlyMatch. split.
  - intros (x & Hx & E). apply Z.eqb_eq in E. subst x. cbn in Hx. lia.
  - intros H. exists d. split; [cbn; lia|apply Z.eqb_refl].
Qed.

Lemma mapping_rule_spec o r : (mb_agg (rv_body r) < 2 ^ 64)%N ->
  validate_mapping_rule o r = true <-> mapping_ok o r.
Proof.
  intros Hw. unfold validate_mapping_rule, mapping_ok. split.
  - destruct (validate_filter o (rv_filter r)) as [m|] eqn:Ef; [|discriminate].
    destruct (vo_types_fn o m) as [types|] eqn:Et; [|discriminate].
    destruct types as [|t types]; [discriminate|]. set (ts := t :: types) in *.
    assert (Ha : applies_to o (rv_filter r) ts) by (apply applies_spec; exists m; split; auto; split; auto; discriminate).
    destruct (validate_aggregation_id _ _ _ _) eqn:Eg; [|discriminate]. cbn [negb].
    apply (agg_id_spec _ _ _ _ Hw) in Eg.
    destruct (drop_is_valid _) eqn:Ed; [|discriminate]. cbn [negb]. apply drop_cases in Ed.
    intros H. exists ts. split; auto. revert H. unfold drop_is_default, DropNone.
    destruct (Z.eqb_spec (mb_drop (rv_body r)) 0) as [E0|E0].
    + intros H. left. apply policies_spec in H. auto.
    + rewrite andb_true_iff. unfold id_is_default. rewrite N.eqb_eq. intros [H1 H2]. right. split; [lia|]. split; auto.
      destruct (mb_sps (rv_body r)); auto; discriminate.
  - intros (types & Ha & H). apply applies_spec in Ha as (m & -> & -> & Hne).
    destruct types as [|t types]; [now elim Hne|]. set (ts := t :: types) in *.
    assert (Hg : validate_aggregation_id o (mb_agg (rv_body r)) true ts = true).
    { apply (agg_id_spec _ _ _ _ Hw). destruct H as [(_ & H & _)|(_ & H & _)]; auto. rewrite H. now left. }
    rewrite Hg. cbn [negb].
    assert (Hd : drop_is_valid (mb_drop (rv_body r)) = true).
    { apply drop_cases. destruct H as [(H & _)|([H|H] & _)]; auto. }
    rewrite Hd. cbn [negb]. unfold drop_is_default, DropNone.
    destruct (Z.eqb_spec (mb_drop (rv_body r)) 0) as [E0|E0].
    + destruct H as [(_ & _ & H)|(H & _)]; [now apply policies_spec|lia].
    + destruct H as [(H & _)|(_ & -> & ->)]; [lia|reflexivity].
Qed.

Lemma rollup_rule_spec o r :
  (forall t x, In t (rv_body r) -> In x (tg_pipeline t) -> (ro_agg (op_rollup x) < 2 ^ 64)%N) ->
  validate_rollup_rule o r = true <-> rollup_ok o r.
Proof.
  intros Hw. unfold validate_rollup_rule, rollup_ok, validate_target. split.
  - destruct (validate_filter o (rv_filter r)) as [m|] eqn:Ef; [|discriminate].
    destruct (vo_types_fn o m) as [types|] eqn:Et; [|discriminate].
    destruct types as [|t types]; [discriminate|]. set (ts := t :: types) in *.
    assert (Ha : applies_to o (rv_filter r) ts) by (apply applies_spec; exists m; split; auto; split; auto; discriminate).
    rewrite forallb_forall. intros H. exists ts. split; auto. intros tg Htg. specialize (H tg Htg).
    apply andb_true_iff in H as [H1 H2]. split; [apply pipeline_spec in H1; eauto|now apply policies_spec].
  - intros (types & Ha & H). apply applies_spec in Ha as (m & -> & -> & Hne).
    destruct types as [|t types]; [now elim Hne|]. set (ts := t :: types) in *.
    apply forallb_forall. intros tg Htg. destruct (H tg Htg) as [H1 H2]. apply andb_true_iff.
    split; [apply pipeline_spec; eauto|now apply policies_spec].
Qed.

Lemma mapping_rules_spec o l : (forall r, In r l -> (mb_agg (rv_body r) < 2 ^ 64)%N) -> forall seen,
  validate_mapping_rules o seen l = true <->
  NoDup (map rv_name (live_views l)) /\ (forall n, In n (map rv_name (live_views l)) -> ~ In n seen) /\
  (forall r, In r l -> rv_tomb r = false -> mapping_ok o r).
Proof.
  intros Hw. induction l as [|r l IH]; intros seen; cbn [validate_mapping_rules].
  - simpl. split; auto. intros _. split; [constructor|tauto].
  - assert (Hw' : forall x, In x l -> (mb_agg (rv_body x) < 2 ^ 64)%N) by (intros; apply Hw; now right).
    unfold live_views in *. cbn [List.filter]. destruct (rv_tomb r) eqn:Et; cbn [negb map].
    + rewrite (IH Hw'). split; intros (H1 & H2 & H3); split; auto; split; auto.
      * intros x [<-|Hx] Hx'; [congruence|auto].
      * intros x Hx. apply H3. now right.
    + destruct (existsb (beqb (rv_name r)) seen) eqn:Es.
      * apply (existsb_in _ beqb_eq) in Es. split; [discriminate|]. intros (_ & H & _). exfalso. apply (H (rv_name r)); auto. now left.
      * apply (existsb_not_in _ beqb_eq) in Es.
        pose proof (mapping_rule_spec o r (Hw r (or_introl eq_refl))) as Hr.
        destruct (validate_mapping_rule o r); cbn [negb].
        -- rewrite (IH Hw'). split.
           ++ intros (H1 & H2 & H3). split; [constructor; auto; intros Hin; apply (H2 _ Hin); now left|].
              split; [intros n [<-|Hn]; auto; intros Hs; apply (H2 n Hn); now right|].
              intros x [<-|Hx] Hx'; [now apply Hr|auto].
           ++ intros (H1 & H2 & H3). inversion H1; subst. split; auto. split; [|intros x Hx; apply H3; now right].
              intros n Hn [<-|Hs]; auto. apply (H2 n); auto. now right.
        -- split; [discriminate|]. intros (_ & _ & H). apply Hr. apply H; auto. now left.
Qed.

Lemma rollup_rules_spec o l :
  (forall r t x, In r l -> In t (rv_body r) -> In x (tg_pipeline t) -> (ro_agg (op_rollup x) < 2 ^ 64)%N) -> forall seen ps,
  validate_rollup_rules o seen ps l = true <->
  NoDup (map rv_name (live_views l)) /\ (forall n, In n (map rv_name (live_views l)) -> ~ In n seen) /\
  (forall r, In r l -> rv_tomb r = false -> rollup_ok o r) /\
  distinct_rollups (flat_map rollups ps ++ rollups_of (live_views l)).
Proof.
  intros Hw. induction l as [|r l IH]; intros seen ps; cbn [validate_rollup_rules].
  - unfold validate_no_duplicate_rollup_id.
    rewrite no_duplicate_rollup_spec by (intros [|?] j a b E; discriminate).
    cbn [app live_views List.filter rollups_of flat_map map]. rewrite rollups_concat, app_nil_r.
    split; [intros H|intros (_ & _ & _ & H); auto]. split; [constructor|]. split; [simpl; tauto|]. split; [simpl; tauto|auto].
  - assert (Hw' : forall r t x, In r l -> In t (rv_body r) -> In x (tg_pipeline t) -> (ro_agg (op_rollup x) < 2 ^ 64)%N)
      by (intros ? ? ? ?; apply Hw; now right).
    unfold live_views in *. cbn [List.filter]. destruct (rv_tomb r) eqn:Et; cbn [negb map].
    + rewrite (IH Hw'). split; intros (H1 & H2 & H3 & H4); split; auto; split; auto; split; auto.
      * intros x [<-|Hx] Hx'; [congruence|auto].
      * intros x Hx. apply H3. now right.
    + destruct (existsb (beqb (rv_name r)) seen) eqn:Es.
      * apply (existsb_in _ beqb_eq) in Es. split; [discriminate|]. intros (_ & H & _). exfalso. apply (H (rv_name r)); auto. now left.
      * apply (existsb_not_in _ beqb_eq) in Es.
        pose proof (rollup_rule_spec o r (fun t x => Hw r t x (or_introl eq_refl))) as Hr.
        assert (Hflat : flat_map rollups (ps ++ map tg_pipeline (rv_body r)) ++ rollups_of (List.filter (fun r => negb (rv_tomb r)) l) =
          flat_map rollups ps ++ rollups_of (r :: List.filter (fun r => negb (rv_tomb r)) l)).
        { unfold rollups_of. cbn [flat_map]. rewrite flat_map_app, <- app_assoc. f_equal. f_equal.
          rewrite flat_map_concat_map, map_map, <- flat_map_concat_map. reflexivity. }
        destruct (validate_rollup_rule o r); cbn [negb].
        -- rewrite (IH Hw'), Hflat. split.
           ++ intros (H1 & H2 & H3 & H4). split; [constructor; auto; intros Hin; apply (H2 _ Hin); now left|].
              split; [intros n [<-|Hn]; auto; intros Hs; apply (H2 n Hn); now right|]. split; auto.
              intros x [<-|Hx] Hx'; [now apply Hr|auto].
           ++ intros (H1 & H2 & H3 & H4). inversion H1; subst. split; auto. split; [|split; auto; intros x Hx; apply H3; now right].
              intros n Hn [<-|Hs]; auto. apply (H2 n); auto. now right.
        -- split; [discriminate|]. intros (_ & _ & H & _). apply Hr. apply H; auto. now left.
Qed.

Lemma snapshot_spec o v : snapshot_words v -> validate_snapshot o v = true <-> snapshot_ok o v.
Proof.
  intros [Hm Hr]. unfold validate_snapshot. rewrite !andb_true_iff, (mapping_rules_spec o _ Hm), (rollup_rules_spec o _ Hr).
  cbn [flat_map app]. split.
  - intros [[H1 (H2 & _ & H3)] (H4 & _ & H5 & H6)]. constructor; auto.
  - intros [H1 H2 H3 H4 H5 H6]. split; [split; auto; split; auto|split; auto].
Qed.
