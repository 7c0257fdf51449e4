(** The JSON form of views and changes. *)
From Coq Require Import Ascii String Arith NArith ZArith Bool Lia Permutation List.
From Verif.Base Require Import Bytes BytesFacts.
From Verif.Proof Require Import AggProof PolicyProof RuleSetProtoProof JsonText.
From Verif.Model Require Import AggType Policy Transformation Pipeline Rules RuleSet Namespace Json.
From Verif.Spec Require Import AggSpec PolicySpec MetadataSpec JsonSpec.
Import ListNotations.
Open Scope Z_scope.

(** * Fields of concrete objects *)
Lemma jfield_app k a b : jfield k (a ++ b) = match jfield k b with Some w => Some w | None => jfield k a end.
Proof.
  induction a as [|[k' v] a IH]; cbn [app jfield]; [now destruct (jfield k b)|].
  rewrite IH. now destruct (jfield k b).
Qed.

Ltac keys :=
  unfold field; cbn [app jfield];
  repeat match goal with
  | |- context [same_key ?a ?b] => let r := eval vm_compute in (same_key a b) in change (same_key a b) with r; cbn iota
  end.

(** * Writing and reading lists, strings, numbers *)
Lemma list_rt {A} nl (e : A -> option json) (d : json -> option A) (n : A -> A) l :
  Forall (fun x => exists j, e x = Some j /\ d j = Some (n x)) l ->
  exists j, e_list nl e l = Some j /\ d_list d j = Some (map n l).
Proof.
  intros F. unfold e_list. destruct l as [|x l].
  - exists (if nl then JNull else JArr []). destruct nl; split; reflexivity.
  - assert (H : exists js, map_opt e (x :: l) = Some js /\ map_opt d js = Some (map n (x :: l))).
    { remember (x :: l) as l0. clear Heql0. induction F as [|y l0 (j & E1 & E2) F IH]; [now exists []|].
      destruct IH as (js & I1 & I2). exists (j :: js). cbn [map_opt map]. rewrite E1, I1, E2, I2. now split. }
    destruct H as (js & E1 & E2). rewrite E1. exists (JArr js). split; [reflexivity|]. exact E2.
Qed.

Lemma d_string_e s : is_text s -> d_string (e_string s) = Some s.
Proof. intros H. unfold e_string, d_string. now rewrite text_fix. Qed.

Lemma d_int64_ok z : fits_int64 z -> d_int64 (JInt z) = Some z.
Proof.
  unfold fits_int64, d_int64, d_int. intros [A C].
  now rewrite (proj2 (Z.leb_le _ _) A), (proj2 (Z.ltb_lt _ _) C).
Qed.
Lemma d_uint64_ok z : 0 <= z < 2 ^ 64 -> d_uint64 (JInt z) = Some z.
Proof.
  unfold d_uint64, d_int. intros [A C].
  now rewrite (proj2 (Z.leb_le _ _) A), (proj2 (Z.ltb_lt _ _) C).
Qed.

Lemma d_int64_inv j z : d_int64 j = Some z -> fits_int64 z.
Proof.
  unfold d_int64, d_int, fits_int64. destruct j; try discriminate.
  - intros [= <-]. lia.
  - destruct (_ && _) eqn:E; [|discriminate]. intros [= <-]. apply andb_true_iff in E. lia.
Qed.
Lemma d_uint64_inv j z : d_uint64 j = Some z -> 0 <= z < 2 ^ 64.
Proof.
  unfold d_uint64, d_int. destruct j; try discriminate.
  - intros [= <-]. lia.
  - destruct (_ && _) eqn:E; [|discriminate]. intros [= <-]. apply andb_true_iff in E. lia.
Qed.

(** * Types, IDs, operations *)
Lemma is_valid_type t : is_valid t = true <-> valid_type t.
Proof. apply is_valid_spec. Qed.

Lemma agg_type_rt t : valid_type t -> e_agg_type t = Some (JStr (type_string t)) /\ d_agg_type (JStr (type_string t)) = Some t.
Proof.
  intros H. unfold e_agg_type. rewrite (proj2 (is_valid_type t) H). split; [reflexivity|]. now apply parse_type_string.
Qed.

Lemma agg_id_rt w : valid_agg_id w -> exists j, e_agg_id w = Some j /\ d_agg_id j = Some w.
Proof.
  intros H. assert (Hw : is_word w) by exact (proj1 H).
  destruct (decompress_spec w Hw) as [(l & E & Hs & Hv & _)|(E & Hn)]; [|exfalso; apply Hn, word_bits_agg; auto].
  unfold e_agg_id. rewrite E.
  destruct (list_rt true e_agg_type d_agg_type (fun t => t) l) as (j & E1 & E2).
  { eapply Forall_impl; [|exact Hv]. intros t Ht. destruct (agg_type_rt t Ht). eauto. }
  exists j. split; [exact E1|]. unfold d_agg_id. rewrite E2, map_id. cbn [bind].
  now rewrite (compress_types_decompress w l Hw E).
Qed.

Lemma tf_rt t : valid_tf t -> exists s, e_tf t = Some (JStr s) /\ d_tf (JStr s) = Some t.
Proof. intros [->| ->]; eexists; split; reflexivity. Qed.

Lemma map_ext_texts l : Forall is_text l -> map_opt d_string (map e_string l) = Some l.
Proof.
  induction 1 as [|s l H F IH]; [reflexivity|]. cbn [map map_opt]. now rewrite d_string_e, IH.
Qed.

Lemma rollup_op_rt r : valid_agg_id (ro_agg r) -> is_text (ro_name r) -> Forall is_text (ro_tags r) ->
  exists l, e_rollup_op r = Some (JObj l) /\ d_rollup_op (JObj l) = Some r.
Proof.
  intros H T F. destruct (agg_id_rt _ H) as (j & E1 & E2). unfold e_rollup_op. rewrite E1. cbn [bind].
  eexists. split; [reflexivity|]. unfold d_rollup_op. cbn [d_struct bind]. keys.
  rewrite d_string_e by auto. cbn [bind d_list]. rewrite map_ext_texts by auto. cbn [bind]. rewrite E2. cbn [bind].
  destruct r; reflexivity.
Qed.

Lemma op_rt a : op_sendable a -> exists j, e_op a = Some j /\ d_op j = Some (op_cleaned a).
Proof.
  unfold op_sendable, op_valid, e_op, op_cleaned. intros [[(K & V)|[(K & V)|(K & V)]] T]; rewrite !K; cbn [Z.eqb].
  - destruct (agg_type_rt _ V) as [E1 E2]. rewrite E1. cbn [bind].
    change (AggregationOp =? AggregationOp) with true. cbn iota. eexists. split; [reflexivity|].
    unfold d_op. cbn [d_struct bind]. keys. cbn [d_ptr]. rewrite E2. cbn [option_map bind]. reflexivity.
  - destruct (tf_rt _ V) as (s & E1 & E2). rewrite E1. cbn [bind].
    change (TransformationOp =? AggregationOp) with false. change (TransformationOp =? TransformationOp) with true.
    cbn iota. eexists. split; [reflexivity|].
    unfold d_op. cbn [d_struct bind]. keys. cbn [d_ptr]. rewrite E2. cbn [option_map bind]. reflexivity.
  - destruct (T K) as [T1 T2]. destruct (rollup_op_rt _ V T1 T2) as (l & E1 & E2). rewrite E1. cbn [bind].
    change (RollupOp =? AggregationOp) with false. change (RollupOp =? TransformationOp) with false.
    change (RollupOp =? RollupOp) with true. cbn iota. eexists. split; [reflexivity|].
    unfold d_op. cbn [d_struct bind]. keys. cbn [d_ptr]. rewrite E2. cbn [option_map bind]. reflexivity.
Qed.

Section RT.
  Context (dt : duration_text) (ok : duration_text_ok dt) (nl : bool).

  Lemma sps_rt l : Forall sp_ok l -> exists j, e_list nl (e_sp dt) l = Some j /\ d_list (d_sp dt) j = Some l.
  Proof.
    intros F. destruct (list_rt nl (e_sp dt) (d_sp dt) (fun p => p) l) as (j & E1 & E2).
    - eapply Forall_impl; [|exact F]. intros p Hp. exists (JStr (sp_string dt p)). split; [reflexivity|].
      cbn [d_sp]. now apply parse_sp_string.
    - exists j. rewrite E2, map_id. now split.
  Qed.

  Lemma target_rt t : target_sendable t ->
    exists j, e_target dt nl t = Some j /\ d_target dt j = Some (mk_target (map op_cleaned (tg_pipeline t)) (tg_sps t)).
  Proof.
    intros [F1 F2].
    destruct (list_rt nl e_op d_op op_cleaned (tg_pipeline t)) as (j1 & E1 & E2).
    { eapply Forall_impl; [|exact F1]. intros a Ha. now apply op_rt. }
    destruct (sps_rt _ F2) as (j2 & E3 & E4).
    unfold e_target, e_pipeline. rewrite E1. cbn [bind]. rewrite E3. cbn [bind]. eexists. split; [reflexivity|].
    unfold d_target, d_pipeline. cbn [d_struct bind]. keys. rewrite E2. cbn [bind]. rewrite E4. reflexivity.
  Qed.

  Lemma mapping_view_rt v : view_sendable mapping_sendable v ->
    exists l, e_mapping_view dt nl v = Some (JObj l) /\ d_mapping_view dt (JObj l) = Some v.
  Proof.
    intros (T1 & T2 & T3 & T4 & I1 & I2 & V & F & D).
    destruct (agg_id_rt _ V) as (j1 & E1 & E2). destruct (sps_rt _ F) as (j2 & E3 & E4).
    unfold e_mapping_view. rewrite E1. cbn [bind]. rewrite E3. cbn [bind]. eexists. split; [reflexivity|].
    unfold d_mapping_view. cbn [d_struct bind]. unfold omit_empty, omit_zero.
    destruct v as [id n tomb c f [a s dp] b at_].
    cbn [rv_id rv_name rv_tomb rv_cutover_ms rv_filter rv_body rv_by rv_at_ms mb_agg mb_sps mb_drop] in *.
    destruct id as [|i0 id]; destruct (Z.eqb_spec c 0) as [->|Nc]; keys;
      rewrite ?(d_string_e _ T1), (d_string_e _ T2), (d_string_e _ T3), (d_string_e _ T4), ?(d_int64_ok _ I1), (d_int64_ok _ I2),
        E2, E4, (d_uint64_ok _ D); reflexivity.
  Qed.

  Lemma rollup_view_rt v : view_sendable rollup_sendable v ->
    exists l, e_rollup_view dt nl v = Some (JObj l) /\ d_rollup_view dt (JObj l) = Some (with_body targets_cleaned v).
  Proof.
    intros (T1 & T2 & T3 & T4 & I1 & I2 & F).
    destruct (list_rt nl (e_target dt nl) (d_target dt) (fun t => mk_target (map op_cleaned (tg_pipeline t)) (tg_sps t)) (rv_body v)) as (j1 & E1 & E2).
    { eapply Forall_impl; [|exact F]. intros t Ht. now apply target_rt. }
    unfold e_rollup_view. rewrite E1. cbn [bind]. eexists. split; [reflexivity|].
    unfold d_rollup_view. cbn [d_struct bind]. unfold omit_empty, omit_zero.
    destruct v as [id n tomb c f ts b at_].
    cbn [rv_id rv_name rv_tomb rv_cutover_ms rv_filter rv_body rv_by rv_at_ms] in *.
    destruct id as [|i0 id]; destruct (Z.eqb_spec c 0) as [->|Nc]; keys;
      rewrite ?(d_string_e _ T1), (d_string_e _ T2), (d_string_e _ T3), (d_string_e _ T4), ?(d_int64_ok _ I1), (d_int64_ok _ I2),
        E2; reflexivity.
  Qed.

  Lemma set_view_rt v : set_view_sendable v ->
    exists l, e_rule_set_view dt nl v = Some (JObj l) /\ d_rule_set_view dt (JObj l) = Some (set_view_cleaned v).
  Proof.
    intros (T & I1 & I2 & F1 & F2).
    destruct (list_rt nl (e_mapping_view dt nl) (d_mapping_view dt) (fun t => t) (rsv_mapping v)) as (j1 & E1 & E2).
    { eapply Forall_impl; [|exact F1]. intros r Hr. destruct (mapping_view_rt r Hr) as (l & ? & ?). eauto. }
    destruct (list_rt nl (e_rollup_view dt nl) (d_rollup_view dt) (with_body targets_cleaned) (rsv_rollup v)) as (j2 & E3 & E4).
    { eapply Forall_impl; [|exact F2]. intros r Hr. destruct (rollup_view_rt r Hr) as (l & ? & ?). eauto. }
    unfold e_rule_set_view. rewrite E1. cbn [bind]. rewrite E3. cbn [bind]. eexists. split; [reflexivity|].
    unfold d_rule_set_view. cbn [d_struct bind]. keys.
    rewrite (d_string_e _ T), (d_int64_ok _ I1), (d_int64_ok _ I2), E2, E4, map_id. reflexivity.
  Qed.

  Lemma change_rt {P} (body : P -> Prop) (n : P -> P) (e : rule_view P -> option json) (d : json -> option (rule_view P)) c :
    (forall v, view_sendable body v -> exists l, e v = Some (JObj l) /\ d (JObj l) = Some (with_body n v)) ->
    change_sendable body c ->
    exists j, e_change e c = Some j /\
      d_change d j = Some (mk_vc (vc_op c) (vc_id c) (option_map (with_body n) (vc_data c))).
  Proof.
    intros H (T & TI & TD). unfold e_change, omit_nil. destruct c as [o i v]. cbn [vc_op vc_id vc_data] in *.
    destruct v as [v|].
    - destruct (H v (TD v eq_refl)) as (l & E1 & E2). rewrite E1. cbn [option_map bind]. eexists. split; [reflexivity|].
      unfold d_change. cbn [d_struct bind]. destruct i as [i|]; keys; rewrite (d_string_e _ T);
        rewrite ?(d_string_e _ (TI i eq_refl)); cbn [bind d_ptr]; unfold e_string; cbn [d_ptr]; rewrite E2.
      + change (JStr (utf8_fix i)) with (e_string i). rewrite (d_string_e _ (TI i eq_refl)). reflexivity.
      + reflexivity.
    - cbn [option_map bind]. eexists. split; [reflexivity|].
      unfold d_change. cbn [d_struct bind]. destruct i as [i|]; cbn [app]; keys; rewrite (d_string_e _ T); cbn [bind].
      + unfold e_string; cbn [d_ptr]. change (JStr (utf8_fix i)) with (e_string i).
        rewrite (d_string_e _ (TI i eq_refl)). reflexivity.
      + reflexivity.
  Qed.

  Lemma set_changes_rt c : set_changes_sendable c ->
    exists l, e_set_changes dt nl c = Some (JObj l) /\ d_set_changes dt (JObj l) = Some (set_changes_cleaned c).
  Proof.
    intros (T & F1 & F2).
    destruct (list_rt nl (e_change (e_mapping_view dt nl)) (d_change (d_mapping_view dt)) (fun x => x) (sc_mapping c)) as (j1 & E1 & E2).
    { eapply Forall_impl; [|exact F1]. intros x Hx.
      destruct (change_rt mapping_sendable (fun b => b) (e_mapping_view dt nl) (d_mapping_view dt) x) as (j & A & C); [|exact Hx|].
      - intros v Hv. destruct (mapping_view_rt v Hv) as (l & A & C). exists l. split; [exact A|]. rewrite C. now destruct v.
      - exists j. split; [exact A|]. rewrite C. f_equal. destruct x as [o i [v|]]; cbn [vc_op vc_id vc_data option_map]; [|reflexivity].
        now destruct v. }
    destruct (list_rt nl (e_change (e_rollup_view dt nl)) (d_change (d_rollup_view dt))
      (fun x => mk_vc (vc_op x) (vc_id x) (option_map (with_body targets_cleaned) (vc_data x))) (sc_rollup c)) as (j2 & E3 & E4).
    { eapply Forall_impl; [|exact F2]. intros x Hx.
      apply (change_rt rollup_sendable targets_cleaned (e_rollup_view dt nl) (d_rollup_view dt) x rollup_view_rt Hx). }
    unfold e_set_changes. rewrite E1. cbn [bind]. rewrite E3. cbn [bind]. eexists. split; [reflexivity|].
    unfold d_set_changes. cbn [d_struct bind]. keys. rewrite (d_string_e _ T), E2, E4, map_id. reflexivity.
  Qed.
End RT.

(** * Cleaning canonical views changes nothing *)
Lemma op_cleaned_canonical a : op_canonical a -> op_cleaned a = a.
Proof.
  unfold op_canonical, op_cleaned. intros (A & T & R). destruct a as [k g t r]. cbn [op_kind op_agg op_tf op_rollup] in *.
  destruct (Z.eqb_spec k AggregationOp) as [E1|E1], (Z.eqb_spec k TransformationOp) as [E2|E2], (Z.eqb_spec k RollupOp) as [E3|E3];
    try (subst; discriminate);
    rewrite ?(A E1), ?(T E2), ?(R E3); reflexivity.
Qed.
Lemma op_cleaned_is_canonical a : op_canonical (op_cleaned a).
Proof.
  unfold op_canonical, op_cleaned. cbn [op_kind op_agg op_tf op_rollup]. split; [|split]; intros N.
  - now rewrite (proj2 (Z.eqb_neq _ _) N).
  - now rewrite (proj2 (Z.eqb_neq _ _) N).
  - now rewrite (proj2 (Z.eqb_neq _ _) N).
Qed.
Lemma map_same {A} (f : A -> A) l : (forall x, In x l -> f x = x) -> map f l = l.
Proof. intros H. rewrite <- (map_id l) at 2. apply map_ext_in. exact H. Qed.

Lemma targets_cleaned_canonical ts : targets_canonical ts -> targets_cleaned ts = ts.
Proof.
  intros H. apply map_same. intros t Ht. destruct t as [p s]. cbn [tg_pipeline tg_sps]. f_equal.
  apply map_same. intros a Ha. apply op_cleaned_canonical. exact (H _ a Ht Ha).
Qed.
Lemma with_body_same {P} (f : P -> P) v : f (rv_body v) = rv_body v -> with_body f v = v.
Proof. intros H. unfold with_body. rewrite H. now destruct v. Qed.

Lemma set_view_cleaned_canonical v : set_view_canonical v -> set_view_cleaned v = v.
Proof.
  intros H. unfold set_view_cleaned. rewrite map_same; [now destruct v|].
  intros r Hr. apply with_body_same, targets_cleaned_canonical, (H r Hr).
Qed.
Lemma set_changes_cleaned_canonical c : set_changes_canonical c -> set_changes_cleaned c = c.
Proof.
  intros H. unfold set_changes_cleaned. rewrite map_same; [now destruct c|].
  intros x Hx. destruct x as [o i [v|]]; cbn [vc_op vc_id vc_data option_map]; [|reflexivity].
  rewrite (with_body_same targets_cleaned v); [reflexivity|]. apply targets_cleaned_canonical. exact (H _ v Hx eq_refl).
Qed.

(** * Writing fails exactly on invalid content *)
Lemma e_list_none {A} nl (e : A -> option json) l : e_list nl e l = None <-> exists x, In x l /\ e x = None.
Proof.
  unfold e_list. destruct l as [|a l].
  - destruct nl; (split; [discriminate|intros (x & [] & _)]).
  - rewrite <- map_opt_none. destruct (map_opt e (a :: l)); cbn [option_map]; split; congruence.
Qed.
Lemma e_agg_type_none t : e_agg_type t = None <-> ~ valid_type t.
Proof. unfold e_agg_type. rewrite <- is_valid_type. destruct (is_valid t); split; congruence. Qed.
Lemma e_agg_id_none w : (w < 2 ^ 64)%N -> (e_agg_id w = None <-> ~ valid_agg_id w).
Proof.
  intros Hw. split.
  - intros E V. destruct (agg_id_rt w V) as (j & E1 & _). congruence.
  - intros N. unfold e_agg_id. destruct (decompress w) as [ts err] eqn:E. destruct err; [reflexivity|].
    exfalso. apply N. exact (decompress_valid w ts Hw E).
Qed.
Lemma e_tf_none t : e_tf t = None <-> ~ valid_tf t.
Proof.
  unfold e_tf, tf_is_valid, valid_tf, tf_string. unfold tf_is_unary, tf_is_binary, TfUnknown, TfAbsolute, TfPerSecond.
  destruct (Z.eqb_spec t 1) as [->|N1]; [split; [discriminate|tauto]|].
  destruct (Z.eqb_spec t 2) as [->|N2]; [split; [discriminate|tauto]|].
  cbn [orb]. split; [|reflexivity]. intros _ [|]; tauto.
Qed.
Lemma e_op_none a : (ro_agg (op_rollup a) < 2 ^ 64)%N -> (e_op a = None <-> ~ op_valid a).
Proof.
  intros Hw. unfold e_op, op_valid.
  destruct (Z.eqb_spec (op_kind a) AggregationOp) as [K|N1]; [|destruct (Z.eqb_spec (op_kind a) TransformationOp) as [K|N2];
    [|destruct (Z.eqb_spec (op_kind a) RollupOp) as [K|N3]]].
  - rewrite K. pose proof (e_agg_type_none (op_agg a)) as E. destruct (e_agg_type (op_agg a)); cbn [bind].
    + split; [discriminate|]. intros H. exfalso. apply H. left. split; auto.
      destruct (is_valid (op_agg a)) eqn:V; [now apply is_valid_type|]. exfalso.
      assert (X : ~ valid_type (op_agg a)) by (rewrite <- is_valid_type; congruence). apply E in X. discriminate.
    + split; [|reflexivity]. intros _ [(_ & V)|[(Q & _)|(Q & _)]]; [now apply E|discriminate Q|discriminate Q].
  - rewrite K. pose proof (e_tf_none (op_tf a)) as E. destruct (e_tf (op_tf a)); cbn [bind].
    + split; [discriminate|]. intros H. exfalso. apply H. right. left. split; auto.
      unfold valid_tf. destruct (Z.eq_dec (op_tf a) 1); [auto|]. destruct (Z.eq_dec (op_tf a) 2); [auto|].
      assert (X : ~ valid_tf (op_tf a)) by (unfold valid_tf; tauto). apply E in X. discriminate.
    + split; [|reflexivity]. intros _ [(Q & _)|[(_ & V)|(Q & _)]]; [discriminate Q|now apply E|discriminate Q].
  - rewrite K. pose proof (e_agg_id_none (ro_agg (op_rollup a)) Hw) as E. unfold e_rollup_op.
    destruct (e_agg_id (ro_agg (op_rollup a))) as [j|] eqn:Ei; cbn [bind].
    + split; [discriminate|]. intros H. exfalso. apply H. right. right. split; auto.
      unfold e_agg_id in Ei. destruct (decompress _) as [ts err] eqn:Ed. destruct err; [discriminate|].
      exact (decompress_valid _ ts Hw Ed).
    + split; [|reflexivity]. intros _ [(Q & _)|[(Q & _)|(_ & V)]]; [discriminate Q|discriminate Q|now apply E].
  - split; [|reflexivity]. intros _ [(Q & _)|[(Q & _)|(Q & _)]]; congruence.
Qed.

Lemma op_valid_dec a : op_valid a \/ ~ op_valid a.
Proof.
  unfold op_valid.
  assert (V : valid_type (op_agg a) \/ ~ valid_type (op_agg a)).
  { rewrite <- is_valid_type. destruct (is_valid (op_agg a)); [left|right]; congruence. }
  assert (W : valid_tf (op_tf a) \/ ~ valid_tf (op_tf a)).
  { unfold valid_tf. destruct (Z.eq_dec (op_tf a) 1), (Z.eq_dec (op_tf a) 2); tauto. }
  assert (X : valid_agg_id (ro_agg (op_rollup a)) \/ ~ valid_agg_id (ro_agg (op_rollup a))).
  { destruct (N.lt_ge_cases (ro_agg (op_rollup a)) (2 ^ 64)) as [L|L]; [|right; intros [Y _]; lia].
    destruct (decompress (ro_agg (op_rollup a))) as [ts [|]] eqn:E; [right|left; exact (decompress_valid _ ts L E)].
    intros Y. destruct (agg_id_rt _ Y) as (j & E1 & _). unfold e_agg_id in E1. rewrite E in E1. discriminate. }
  destruct (Z.eq_dec (op_kind a) AggregationOp), (Z.eq_dec (op_kind a) TransformationOp), (Z.eq_dec (op_kind a) RollupOp);
    destruct V, W, X; try (left; tauto); right; tauto.
Qed.

Section Writable.
  Context (dt : duration_text) (nl : bool).

  Lemma e_sps_some l : exists j, e_list nl (e_sp dt) l = Some j.
  Proof.
    destruct (e_list nl (e_sp dt) l) eqn:E; [eauto|]. apply e_list_none in E. destruct E as (x & _ & E). discriminate.
  Qed.
  Lemma e_target_none t : e_target dt nl t = None <-> exists a, In a (tg_pipeline t) /\ e_op a = None.
  Proof.
    rewrite <- (e_list_none nl). unfold e_target, e_pipeline. destruct (e_list nl e_op (tg_pipeline t)); cbn [bind].
    - destruct (e_sps_some (tg_sps t)) as (x & ->). cbn [bind]. split; discriminate.
    - split; reflexivity.
  Qed.
  Lemma e_mapping_view_none v : e_mapping_view dt nl v = None <-> e_agg_id (mb_agg (rv_body v)) = None.
  Proof.
    unfold e_mapping_view. destruct (e_agg_id (mb_agg (rv_body v))); cbn [bind].
    - destruct (e_sps_some (mb_sps (rv_body v))) as (x0 & ->). cbn [bind]. split; discriminate.
    - split; reflexivity.
  Qed.
  Lemma e_rollup_view_none v : e_rollup_view dt nl v = None <-> exists t, In t (rv_body v) /\ e_target dt nl t = None.
  Proof.
    rewrite <- (e_list_none nl). unfold e_rollup_view. destruct (e_list nl (e_target dt nl) (rv_body v)); cbn [bind];
      split; congruence.
  Qed.

  Lemma set_view_writes v : set_view_words v ->
    (exists j, e_rule_set_view dt nl v = Some j) <-> set_view_writable v.
  Proof.
    intros [W1 W2]. unfold set_view_writable.
    assert (N : e_rule_set_view dt nl v = None <->
      (exists r, In r (rsv_mapping v) /\ e_mapping_view dt nl r = None) \/ (exists r, In r (rsv_rollup v) /\ e_rollup_view dt nl r = None)).
    { rewrite <- !(e_list_none nl). unfold e_rule_set_view.
      destruct (e_list nl (e_mapping_view dt nl) (rsv_mapping v)); cbn [bind]; [|split; auto].
      destruct (e_list nl (e_rollup_view dt nl) (rsv_rollup v)); cbn [bind]; (split; [try discriminate|]); auto.
      intros [|]; discriminate. }
    split.
    - intros (j & E). split.
      + intros r Hr. destruct (e_agg_id (mb_agg (rv_body r))) as [x|] eqn:X.
        * unfold e_agg_id in X. destruct (decompress _) as [ts [|]] eqn:D; [discriminate|]. exact (decompress_valid _ ts (W1 r Hr) D).
        * exfalso. assert (Q : e_rule_set_view dt nl v = None); [|congruence]. apply N. left. exists r. split; auto.
          now apply e_mapping_view_none.
      + intros r t a Hr Ht Ha. destruct (op_valid_dec a) as [|Q]; [assumption|]. exfalso.
        assert (Q' : e_rule_set_view dt nl v = None); [|congruence]. apply N. right. exists r. split; auto.
        apply e_rollup_view_none. exists t. split; auto. apply e_target_none. exists a. split; auto.
        now apply e_op_none; [apply (W2 r t a)|].
    - intros [V1 V2]. destruct (e_rule_set_view dt nl v) as [j|]; [eauto|]. exfalso.
      destruct (proj1 N eq_refl) as [(r & Hr & E)|(r & Hr & E)].
      + apply e_mapping_view_none in E. apply e_agg_id_none in E; [exact (E (V1 r Hr))|exact (W1 r Hr)].
      + apply e_rollup_view_none in E. destruct E as (t & Ht & E). apply e_target_none in E. destruct E as (a & Ha & E).
        apply e_op_none in E; [exact (E (V2 r t a Hr Ht Ha))|exact (W2 r t a Hr Ht Ha)].
  Qed.
End Writable.
