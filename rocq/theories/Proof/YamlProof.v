(** The YAML form of pipelines and policies. *)
From Coq Require Import Ascii String Arith NArith ZArith Bool Lia Permutation List.
From Verif.Base Require Import Bytes BytesFacts.
From Verif.Proof Require Import AggProof PolicyProof RuleSetProtoProof JsonText JsonProof JsonReadProof.
From Verif.Model Require Import AggType Policy Transformation Pipeline Json Yaml.
From Verif.Spec Require Import AggSpec PolicySpec MetadataSpec JsonSpec YamlSpec.
Import ListNotations.
Open Scope Z_scope.

(** * The same document in JSON *)
Definition agree {A} (d : json -> option A) (e : yaml -> option A) : Prop :=
  forall j y, same_document j y -> spelled j -> null_free y -> d j = e y.

Lemma agree_string ns : agree d_string (y_string ns).
Proof. intros j y S P N. inversion S; subst; try reflexivity. inversion N. Qed.
Lemma agree_text {A} (d : json -> option A) zero parse :
  (forall s, d (JStr s) = parse s) -> (forall l, d (JArr l) = None) -> (forall l, d (JObj l) = None) ->
  agree d (y_own zero (y_text parse)).
Proof. intros D1 D2 D3 j y S P N. inversion S; subst; cbn [y_own y_text]; auto. inversion N. Qed.
Lemma agree_agg_type : agree d_agg_type y_agg_type.
Proof. apply agree_text; reflexivity. Qed.
Lemma agree_tf : agree d_tf y_tf.
Proof. apply agree_text; reflexivity. Qed.
Lemma agree_sp dt : agree (d_sp dt) (y_sp dt).
Proof. apply agree_text; reflexivity. Qed.

Lemma agree_list {A} (d : json -> option A) e : agree d e -> agree (d_list d) (y_list e).
Proof.
  intros H j y S P N. inversion S as [|s|l m F|l m F]; subst; try reflexivity. cbn [d_list y_list].
  inversion P as [| |l' Pl|]; subst. inversion N as [|m' Nm|]; subst. clear S P N.
  induction F as [|a b l m E F IH]; [reflexivity|]. cbn [map_opt].
  rewrite (H a b E); [|apply Pl; now left|apply Nm; now left].
  rewrite IH; [reflexivity|intros z Hz; apply Pl; now right|intros z Hz; apply Nm; now right].
Qed.
Lemma agree_ptr {A} (d : json -> option A) e : agree d e -> agree (d_ptr d) (y_ptr e).
Proof.
  intros H j y S P N. pose proof (H j y S P N) as E. inversion S; subst; cbn [d_ptr y_ptr]; try (now rewrite E). reflexivity.
Qed.
Lemma agree_own {A} (d : json -> option A) e zero : agree d e -> agree d (y_own zero e).
Proof. intros H j y S P N. rewrite (H j y S P N). destruct y; try reflexivity. inversion N. Qed.

Lemma agree_lookup k l m : Forall2 (fun x y => fst x = fst y /\ same_document (snd x) (snd y)) l m ->
  (forall k' j, In (k', j) l -> same_key k' k = true -> k' = k) ->
  (jfield k l = None /\ yfield k m = None) \/
  (exists j y, jfield k l = Some j /\ yfield k m = Some y /\ same_document j y /\ In (k, j) l /\ In (k, y) m).
Proof.
  induction 1 as [|[k1 j1] [k2 y1] l m [E S] F IH]; intros H; [left; split; reflexivity|].
  cbn [fst snd] in E, S. subst k2. cbn [jfield yfield].
  destruct IH as [[E1 E2]|(j & y & E1 & E2 & Sd & I1 & I2)]; [intros k' j I; apply (H k' j); now right| |].
  - rewrite E1, E2. destruct (same_key k1 k) eqn:K.
    + assert (k1 = k) by (apply (H k1 j1); [now left|exact K]). subst k1.
      rewrite (proj2 (beqb_eq k k) eq_refl). right. exists j1, y1. repeat split; auto; now left.
    + destruct (beqb k1 k) eqn:K'; [|left; split; reflexivity].
      apply beqb_eq in K'. subst k1. rewrite (proj2 (same_key_eq k k) eq_refl) in K. discriminate.
  - right. exists j, y. rewrite E1, E2. repeat split; auto; now right.
Qed.

Lemma agree_field {A} (d : json -> option A) e zero k l m : agree d e -> d JNull = Some zero -> In (B k) pipeline_keys ->
  same_document (JObj l) (YMap m) -> spelled (JObj l) -> null_free (YMap m) ->
  d (field k l) = y_field k zero e m.
Proof.
  intros H Z K S P N. inversion S as [| | |l' m' F]; subst. inversion P as [| | |l' Pl]; subst. inversion N as [| |m' Nm]; subst.
  unfold field, y_field.
  destruct (agree_lookup (B k) l m F) as [[E1 E2]|(j & y & E1 & E2 & Sd & I1 & I2)].
  - intros k' j I. destruct (Pl k' j I) as [_ Q]. now apply Q.
  - rewrite E1, E2. exact Z.
  - rewrite E1, E2. apply H; [exact Sd|apply (Pl _ _ I1)|exact (Nm _ _ I2)].
Qed.

Ltac pipeline_key := cbn [pipeline_keys map In]; repeat (first [left; reflexivity|right]); fail.

Lemma agree_agg_id : agree d_agg_id y_agg_id.
Proof.
  apply agree_own. intros j y S P N. unfold d_agg_id. now rewrite (agree_list _ _ agree_agg_type j y S P N).
Qed.

Lemma agree_rollup_op ns : agree d_rollup_op (y_rollup_op false ns).
Proof.
  apply agree_own. intros j y S P N. unfold d_rollup_op. inversion S as [|s|l m F|l m F]; subst; try reflexivity; [inversion N|].
  cbn [d_struct y_struct andb bind].
  rewrite (agree_field d_string (y_string ns) [] "newName" l m) by (auto using agree_string; pipeline_key).
  rewrite (agree_field (d_list d_string) (y_list (y_string ns)) [] "tags" l m) by (auto using agree_list, agree_string; pipeline_key).
  rewrite (agree_field d_agg_id y_agg_id default_id "aggregation" l m) by (auto using agree_agg_id; pipeline_key).
  reflexivity.
Qed.

Lemma agree_op ns : agree d_op (y_op false ns).
Proof.
  apply agree_own. intros j y S P N. unfold d_op. inversion S as [|s|l m F|l m F]; subst; try reflexivity.
  cbn [d_struct y_struct andb bind].
  rewrite (agree_field (d_ptr d_agg_type) (y_ptr y_agg_type) None "aggregation" l m) by (auto using agree_ptr, agree_agg_type; pipeline_key).
  rewrite (agree_field (d_ptr d_tf) (y_ptr y_tf) None "transformation" l m) by (auto using agree_ptr, agree_tf; pipeline_key).
  rewrite (agree_field (d_ptr d_rollup_op) (y_ptr (y_rollup_op false ns)) None "rollup" l m) by (auto using agree_ptr, agree_rollup_op; pipeline_key).
  reflexivity.
Qed.
Lemma agree_pipeline ns : agree d_pipeline (y_pipeline false ns).
Proof. apply agree_own, agree_list, agree_op. Qed.

(** * The JSON form as YAML *)
Lemma list_yaml {A} nl (e : A -> option json) (d : yaml -> option A) (n : A -> A) l :
  Forall (fun x => exists j y, e x = Some j /\ same_document j y /\ d y = Some (n x)) l ->
  exists j y, e_list nl e l = Some j /\ same_document j y /\ y_list d y = Some (map n l).
Proof.
  intros F. unfold e_list. destruct l as [|x l].
  - exists (if nl then JNull else JArr []), (if nl then YNull else YSeq []). split; [reflexivity|]. destruct nl; split; try reflexivity; constructor. constructor.
  - assert (H : exists js ys, map_opt e (x :: l) = Some js /\ Forall2 same_document js ys /\ map_opt d ys = Some (map n (x :: l))).
    { induction F as [|a m (j & y & E1 & S & E2) F (js & ys & I1 & I2 & I3)]; [exists [], []; repeat split; constructor|].
      exists (j :: js), (y :: ys). cbn [map_opt map]. rewrite E1, I1, E2, I3. repeat split. constructor; auto. }
    destruct H as (js & ys & E1 & S & E2). exists (JArr js), (YSeq ys). rewrite E1. repeat split; [constructor; exact S|exact E2].
Qed.

Lemma agg_id_yaml w : valid_agg_id w -> exists j y, e_agg_id w = Some j /\ same_document j y /\ y_agg_id y = Some w.
Proof.
  intros H. assert (Hw : is_word w) by exact (proj1 H).
  destruct (decompress_spec w Hw) as [(l & E & Hs & Hv & _)|(E & Hn)]; [|exfalso; apply Hn, word_bits_agg; auto].
  unfold e_agg_id. rewrite E.
  destruct (list_yaml true e_agg_type y_agg_type (fun t => t) l) as (j & y & E1 & S & E2).
  { rewrite Forall_forall in Hv |- *. intros t Ht. destruct (agg_type_rt t (Hv t Ht)) as [A1 A2].
    exists (JStr (type_string t)), (YScalar (type_string t)). repeat split; [exact A1|constructor|exact A2]. }
  exists j, y. split; [exact E1|]. split; [exact S|]. rewrite map_id in E2. unfold y_agg_id.
  pose proof (compress_types_decompress w l Hw E) as C.
  destruct y; cbn [y_own]; try (rewrite E2; cbn [bind]; now rewrite C).
  injection E2 as <-. vm_compute in C. injection C as <-. reflexivity.
Qed.

Lemma strings_yaml ns l : Forall is_text l ->
  Forall2 same_document (map e_string l) (map YScalar l) /\ map_opt (y_string ns) (map YScalar l) = Some l.
Proof.
  induction 1 as [|s l H F [I1 I2]]; [split; constructor|]. cbn [map map_opt y_string]. rewrite I2. split; [|reflexivity].
  constructor; [|exact I1]. unfold e_string. rewrite text_fix by exact H. constructor.
Qed.

Lemma rollup_op_yaml r : valid_agg_id (ro_agg r) -> is_text (ro_name r) -> Forall is_text (ro_tags r) ->
  exists j l, e_rollup_op r = Some j /\ same_document j (YMap l) /\ forall strict ns, y_rollup_op strict ns (YMap l) = Some r.
Proof.
  intros H T F. destruct (agg_id_yaml _ H) as (j & y & E1 & S & E2). unfold e_rollup_op. rewrite E1. cbn [bind].
  destruct (strings_yaml [] (ro_tags r) F) as [S2 _].
  eexists. exists [(B "newName", YScalar (ro_name r)); (B "tags", YSeq (map YScalar (ro_tags r))); (B "aggregation", y)].
  split; [reflexivity|]. split.
  - constructor. repeat constructor; cbn [fst snd]; [unfold e_string; rewrite text_fix by exact T; constructor|exact S2|exact S].
  - intros strict ns. unfold y_rollup_op. cbn [y_own].
    assert (K : y_struct strict (map B ["newName"; "tags"; "aggregation"]%string)
      (YMap [(B "newName", YScalar (ro_name r)); (B "tags", YSeq (map YScalar (ro_tags r))); (B "aggregation", y)]) =
      Some [(B "newName", YScalar (ro_name r)); (B "tags", YSeq (map YScalar (ro_tags r))); (B "aggregation", y)])
      by (destruct strict; reflexivity).
    rewrite K. cbn [bind].
    change (y_field "newName" [] (y_string ns) [(B "newName", YScalar (ro_name r)); (B "tags", YSeq (map YScalar (ro_tags r))); (B "aggregation", y)])
      with (Some (ro_name r)). cbn [bind].
    change (y_field "tags" [] (y_list (y_string ns)) [(B "newName", YScalar (ro_name r)); (B "tags", YSeq (map YScalar (ro_tags r))); (B "aggregation", y)])
      with (map_opt (y_string ns) (map YScalar (ro_tags r))).
    rewrite (proj2 (strings_yaml ns _ F)). cbn [bind].
    change (y_field "aggregation" default_id y_agg_id [(B "newName", YScalar (ro_name r)); (B "tags", YSeq (map YScalar (ro_tags r))); (B "aggregation", y)])
      with (y_agg_id y). rewrite E2. cbn [bind]. now destruct r.
Qed.

Lemma op_yaml a : op_sendable a ->
  exists j y, e_op a = Some j /\ same_document j y /\ forall strict ns, y_op strict ns y = Some (op_cleaned a).
Proof.
  unfold op_sendable, op_valid, e_op, op_cleaned. intros [[(K & V)|[(K & V)|(K & V)]] T]; rewrite !K.
  - destruct (agg_type_rt _ V) as [E1 E2]. rewrite E1. cbn [bind]. change (AggregationOp =? AggregationOp) with true.
    change (AggregationOp =? TransformationOp) with false. change (AggregationOp =? RollupOp) with false. cbn iota.
    eexists. exists (YMap [(B "aggregation", YScalar (type_string (op_agg a)))]). split; [reflexivity|]. split.
    + constructor. repeat constructor.
    + intros strict ns. unfold d_agg_type in E2.
      transitivity (do x <- option_map Some (parse_type (type_string (op_agg a)));
        match x with Some t => Some {| op_kind := AggregationOp; op_agg := t; op_tf := TfUnknown; op_rollup := empty_rollup_op |} | None => None end).
      * destruct strict; unfold y_op; cbn [y_own]; cbn -[parse_type type_string]; now destruct (parse_type (type_string (op_agg a))).
      * rewrite E2. reflexivity.
  - destruct (tf_rt _ V) as (s & E1 & E2). rewrite E1. cbn [bind]. change (TransformationOp =? TransformationOp) with true.
    change (TransformationOp =? AggregationOp) with false. change (TransformationOp =? RollupOp) with false. cbn iota.
    eexists. exists (YMap [(B "transformation", YScalar s)]). split; [reflexivity|]. split.
    + constructor. repeat constructor.
    + intros strict ns. unfold d_tf in E2.
      transitivity (do x <- option_map Some (tf_parse s);
        match x with Some t => Some {| op_kind := TransformationOp; op_agg := UnknownType; op_tf := t; op_rollup := empty_rollup_op |} | None => None end).
      * destruct strict; unfold y_op; cbn [y_own]; cbn -[tf_parse]; now destruct (tf_parse s).
      * rewrite E2. reflexivity.
  - destruct (T K) as [T1 T2]. destruct (rollup_op_yaml _ V T1 T2) as (j & l & E1 & S & E2). rewrite E1. cbn [bind].
    change (RollupOp =? AggregationOp) with false. change (RollupOp =? TransformationOp) with false. change (RollupOp =? RollupOp) with true. cbn iota.
    eexists. exists (YMap [(B "rollup", YMap l)]). split; [reflexivity|]. split.
    + constructor. constructor; [split; [reflexivity|exact S]|constructor].
    + intros strict ns. specialize (E2 strict ns).
      transitivity (do x <- option_map Some (y_rollup_op strict ns (YMap l));
        match x with Some t => Some {| op_kind := RollupOp; op_agg := UnknownType; op_tf := TfUnknown; op_rollup := t |} | None => None end).
      * destruct strict; unfold y_op; cbn [y_own]; cbn -[y_rollup_op]; now destruct (y_rollup_op _ ns (YMap l)).
      * rewrite E2. reflexivity.
Qed.

Lemma pipeline_yaml nl p : Forall op_sendable p ->
  exists j y, e_pipeline nl p = Some j /\ same_document j y /\ forall strict ns, y_pipeline strict ns y = Some (map op_cleaned p).
Proof.
  intros F. unfold e_pipeline, e_list. destruct p as [|x l].
  - exists (if nl then JNull else JArr []), (if nl then YNull else YSeq []). split; [reflexivity|]. destruct nl; split; try reflexivity; constructor. constructor.
  - assert (H : exists js ys, map_opt e_op (x :: l) = Some js /\ Forall2 same_document js ys /\
      forall strict ns, map_opt (y_op strict ns) ys = Some (map op_cleaned (x :: l))).
    { induction F as [|a m Ha F (js & ys & I1 & I2 & I3)]; [exists [], []; repeat split; constructor|].
      destruct (op_yaml a Ha) as (j & y & E1 & S & E2).
      exists (j :: js), (y :: ys). cbn [map_opt map]. rewrite E1, I1. repeat split; [constructor; auto|].
      intros strict ns. now rewrite E2, I3. }
    destruct H as (js & ys & E1 & S & E2). exists (JArr js), (YSeq ys). rewrite E1. repeat split; [constructor; exact S|exact E2].
Qed.

(** * What is accepted *)
Lemma yfield_in k l y : yfield k l = Some y -> In (k, y) l.
Proof.
  induction l as [|[k' v] l IH]; cbn [yfield]; [discriminate|]. destruct (yfield k l) eqn:E; [intros [= ->]; right; auto|].
  destruct (beqb k' k) eqn:K; [|discriminate]. apply beqb_eq in K. intros [= ->]. left. congruence.
Qed.
Lemma y_list_forall {A} (d : yaml -> option A) (P : A -> Prop) y l :
  null_free y -> (forall y x, null_free y -> d y = Some x -> P x) -> y_list d y = Some l -> Forall P l.
Proof.
  intros N H. destruct y as [| |ys|]; try discriminate; [inversion N|]. cbn [y_list]. intros E. apply map_opt_some in E.
  inversion N as [|ys' F|]; subst. clear N.
  induction E as [|y x ys l E1 E2 IH]; constructor; [apply (H y x); [apply F; now left|exact E1]|apply IH; intros z Hz; apply F; now right].
Qed.
Lemma y_field_some {A} k (d : yaml -> option A) l x : y_field k None (fun y => y_ptr d y) l = Some (Some x) ->
  null_free (YMap l) -> exists y, null_free y /\ d y = Some x.
Proof.
  unfold y_field. destruct (yfield (B k) l) as [y|] eqn:E; [|discriminate]. intros H N. inversion N as [| |l' F]; subst.
  exists y. pose proof (F _ _ (yfield_in _ _ _ E)) as Ny. split; [exact Ny|].
  destruct y; [inversion Ny|..]; cbn [y_ptr] in H; destruct (d _); try discriminate; now injection H as ->.
Qed.

Lemma y_agg_type_valid y t : null_free y -> y_agg_type y = Some t -> valid_type t.
Proof. intros N. destruct y; try discriminate; [inversion N|]. cbn [y_agg_type y_own y_text]. intros E. now apply parse_type_inv in E. Qed.
Lemma y_tf_valid y t : null_free y -> y_tf y = Some t -> valid_tf t.
Proof. intros N. destruct y; try discriminate; [inversion N|]. exact (d_tf_valid (JStr s) t). Qed.
Lemma default_id_valid : valid_agg_id default_id.
Proof. split; [reflexivity|]. intros k. unfold default_id. rewrite N.bits_0. discriminate. Qed.
Lemma y_agg_id_valid y w : null_free y -> y_agg_id y = Some w -> valid_agg_id w.
Proof.
  intros N. unfold y_agg_id, y_own. destruct y as [| |ys|] eqn:Y; [inversion N|discriminate| |discriminate]. rewrite <- Y in N |- *.
  intros E. inv_do E.
  assert (F : Forall valid_type l) by (apply (y_list_forall y_agg_type valid_type y l N y_agg_type_valid E0)).
  destruct (compress_types l) as [id err] eqn:C. destruct err; [discriminate|]. injection E as <-.
  apply (id_from_proto_types_valid l). unfold id_from_proto_types. now rewrite (proj2 (types_from_proto_some l l)) by auto.
Qed.

Lemma y_struct_inv strict ks y l : y_struct strict ks y = Some l -> y = YMap l.
Proof. destruct y; try discriminate. cbn [y_struct]. destruct (_ && _); [discriminate|]. now intros [= ->]. Qed.

Lemma y_rollup_op_valid strict ns y r : null_free y -> y_rollup_op strict ns y = Some r -> valid_agg_id (ro_agg r).
Proof.
  intros N E. unfold y_rollup_op, y_own in E. destruct y as [| | |l0] eqn:Y; [inversion N|discriminate|discriminate|]. rewrite <- Y in N, E.
  inv_do E. injection E as <-. cbn [ro_agg]. apply y_struct_inv in E0. rewrite E0 in N. inversion N as [| |l' F]; subst.
  unfold y_field in E3. destruct (yfield (B "aggregation") l) eqn:A; [|injection E3 as <-; apply default_id_valid].
  apply y_agg_id_valid in E3; [exact E3|]. exact (F _ _ (yfield_in _ _ _ A)).
Qed.

Lemma y_op_valid strict ns y a : null_free y -> y_op strict ns y = Some a -> op_valid a /\ op_canonical a.
Proof.
  intros N E. unfold y_op, y_own in E. destruct y as [| | |l0] eqn:Y; [inversion N|discriminate|discriminate|]. rewrite <- Y in N, E.
  inv_do E. apply y_struct_inv in E0. rewrite E0 in N.
  unfold op_valid, op_canonical.
  destruct o as [t|]; [|destruct o0 as [t|]; [|destruct o1 as [r|]; [|discriminate]]]; injection E as <-;
    cbn [op_kind op_agg op_tf op_rollup].
  - destruct (y_field_some _ _ _ _ E1 N) as (z & Nz & Ez). apply y_agg_type_valid in Ez; [|exact Nz].
    split; [left; split; [reflexivity|exact Ez]|]. split; [congruence|]. split; reflexivity.
  - destruct (y_field_some _ _ _ _ E2 N) as (z & Nz & Ez). apply y_tf_valid in Ez; [|exact Nz].
    split; [right; left; split; [reflexivity|exact Ez]|]. split; [reflexivity|]. split; [congruence|reflexivity].
  - destruct (y_field_some _ _ _ _ E3 N) as (z & Nz & Ez). apply y_rollup_op_valid in Ez; [|exact Nz].
    split; [right; right; split; [reflexivity|exact Ez]|]. split; [reflexivity|]. split; [reflexivity|congruence].
Qed.

Lemma y_pipeline_valid strict ns y p : null_free y -> y_pipeline strict ns y = Some p -> Forall (fun a => op_valid a /\ op_canonical a) p.
Proof.
  intros N E. unfold y_pipeline, y_own in E. destruct y as [| |l0|] eqn:Y; [inversion N|discriminate| |discriminate]. rewrite <- Y in N, E.
  exact (y_list_forall _ _ y p N (y_op_valid strict ns) E).
Qed.

(** * Strict reading *)
Lemma keys_accepted_iff ks l : keys_accepted ks l = true <-> keys_within ks l.
Proof.
  induction l as [|[k v] l IH]; cbn [keys_accepted].
  - split; [intros _; split; [constructor|intros k y []]|reflexivity].
  - rewrite !andb_true_iff, IH, existsb_exists, negb_true_iff. unfold keys_within. cbn [map fst]. split.
    + intros [[(k' & I & E) M] [D W]]. apply beqb_eq in E. subst k'. split.
      * constructor; [|exact D]. intros In1. apply in_map_iff in In1. destruct In1 as ([k2 v2] & E2 & I2). cbn [fst] in E2. subst k2.
        assert (T : existsb (fun x => beqb k (fst x)) l = true) by (apply existsb_exists; exists (k, v2); split; [exact I2|now apply beqb_eq]).
        congruence.
      * intros k1 y [[= <- <-]|I1]; [exact I|exact (W k1 y I1)].
    + intros [D W]. inversion D as [|x m N D']; subst. split; [split|split].
      * exists k. split; [apply (W k v); now left|now apply beqb_eq].
      * apply not_true_iff_false. intros T. apply existsb_exists in T. destruct T as ([k2 v2] & I2 & E2). cbn [fst] in E2. apply beqb_eq in E2. subst k2.
        apply N. apply in_map_iff. exists (k, v2). split; [reflexivity|exact I2].
      * exact D'.
      * intros k1 y I1. apply (W k1 y). now right.
Qed.
Lemma y_struct_strict ks y l : y_struct true ks y = Some l <-> y_struct false ks y = Some l /\ keys_within ks l.
Proof.
  destruct y as [| | |m]; cbn [y_struct andb]; try (split; [discriminate|intros [H _]; discriminate]).
  destruct (keys_accepted ks m) eqn:K; cbn [negb].
  - apply keys_accepted_iff in K. split; [intros [= <-]; auto|tauto].
  - split; [discriminate|]. intros [[= <-] W]. apply keys_accepted_iff in W. congruence.
Qed.
Lemma yfield_unique k y l : NoDup (map fst l) -> In (k, y) l -> yfield k l = Some y.
Proof.
  induction l as [|[k' v] l IH]; [intros _ []|]. cbn [map fst yfield]. intros D [[= -> ->]|I]; inversion D as [|x m N D']; subst.
  - destruct (yfield k l) eqn:E; [exfalso; apply N, in_map_iff; exists (k, y0); split; [reflexivity|now apply yfield_in]|].
    now rewrite (proj2 (beqb_eq k k) eq_refl).
  - now rewrite (IH D' I).
Qed.

Lemma rollup_strict ns y r : y_rollup_op true ns y = Some r <-> y_rollup_op false ns y = Some r /\ tidy_rollup y.
Proof.
  unfold y_rollup_op. destruct y as [| | |l]; cbn [y_own].
  - split; [intros H; split; [exact H|apply tr_other; discriminate]|tauto].
  - split; [discriminate|intros [H _]; discriminate].
  - split; [discriminate|intros [H _]; discriminate].
  - set (ks := map B _). destruct (keys_accepted ks l) eqn:K.
    + cbn [y_struct andb]. rewrite K. cbn [negb bind]. apply keys_accepted_iff in K. split; [intros H; split; [exact H|now constructor]|tauto].
    + cbn [y_struct andb]. rewrite K. cbn [negb bind]. split; [discriminate|]. intros [_ T]. inversion T as [l' W|y' Q]; subst.
      * apply keys_accepted_iff in W. fold ks in W. congruence.
      * now elim (Q l).
Qed.
Lemma ptr_strict ns y r : y_ptr (y_rollup_op true ns) y = Some r <-> y_ptr (y_rollup_op false ns) y = Some r /\ tidy_rollup y.
Proof.
  destruct y as [| | |l] eqn:Y; [cbn [y_ptr]; split; [intros H; split; [exact H|apply tr_other; discriminate]|tauto]|..]; rewrite <- Y;
    (assert (E : forall s, y_ptr (y_rollup_op s ns) y = option_map Some (y_rollup_op s ns y)) by (intros s0; now rewrite Y); rewrite !E;
     destruct (y_rollup_op true ns y) as [x|] eqn:X;
     [apply rollup_strict in X; destruct X as [-> T]; cbn [option_map]; tauto|
      cbn [option_map]; split; [discriminate|]; intros [H T]; destruct (y_rollup_op false ns y) as [x|] eqn:X'; [|discriminate];
      assert (y_rollup_op true ns y = Some x) by (apply rollup_strict; auto); congruence]).
Qed.

Lemma op_strict ns y a : y_op true ns y = Some a <-> y_op false ns y = Some a /\ tidy_op y.
Proof.
  unfold y_op. destruct y as [| | |l]; cbn [y_own].
  - split; [intros H; split; [exact H|apply to_other; discriminate]|tauto].
  - split; [discriminate|intros [H _]; discriminate].
  - split; [discriminate|intros [H _]; discriminate].
  - set (ks := map B _). destruct (keys_accepted ks l) eqn:K.
    + cbn [y_struct andb]. rewrite K. cbn [negb bind]. apply keys_accepted_iff in K.
      destruct (y_field "aggregation" None (y_ptr y_agg_type) l) as [x|]; cbn [bind]; [|split; [discriminate|intros [H _]; discriminate]].
      destruct (y_field "transformation" None (y_ptr y_tf) l) as [t|]; cbn [bind]; [|split; [discriminate|intros [H _]; discriminate]].
      unfold y_field. destruct (yfield (B "rollup") l) as [z|] eqn:Z.
      * destruct (y_ptr (y_rollup_op true ns) z) as [r|] eqn:R.
        -- apply ptr_strict in R. destruct R as [-> T]. cbn [bind]. split; [|tauto]. intros H. split; [exact H|]. constructor; [exact K|].
           intros y' I. apply (yfield_unique _ _ _ (proj1 K)) in I. rewrite Z in I. injection I as <-. exact T.
        -- cbn [bind]. split; [discriminate|]. intros [H T]. exfalso.
           destruct (y_ptr (y_rollup_op false ns) z) as [r|] eqn:R'; [|discriminate].
           inversion T as [l' W T'|y' Q]; subst; [|now elim (Q l)].
           assert (y_ptr (y_rollup_op true ns) z = Some r) by (apply ptr_strict; split; [exact R'|apply T'; now apply yfield_in]). congruence.
      * cbn [bind]. split; [|tauto]. intros H. split; [exact H|]. constructor; [exact K|].
        intros y' I. apply (yfield_unique _ _ _ (proj1 K)) in I. congruence.
    + cbn [y_struct andb]. rewrite K. cbn [negb bind]. split; [discriminate|]. intros [_ T]. inversion T as [l' W T'|y' Q]; subst.
      * apply keys_accepted_iff in W. fold ks in W. congruence.
      * now elim (Q l).
Qed.

Lemma pipeline_strict ns y p : y_pipeline true ns y = Some p <-> y_pipeline false ns y = Some p /\ tidy_pipeline y.
Proof.
  unfold y_pipeline. destruct y as [| |l|]; cbn [y_own y_list]; try (split; [discriminate|intros [H _]; discriminate]).
  - split; [intros H; split; [exact H|apply tp_other; discriminate]|tauto].
  - pose proof (map_opt_some (y_op true ns) l p) as M1. pose proof (map_opt_some (y_op false ns) l p) as M2.
    unfold pipeline in *. rewrite M1, M2. clear M1 M2. split.
    + intros F. split.
      * clear -F. induction F as [|z a l p E F IH]; constructor; [now apply op_strict in E|exact IH].
      * constructor. intros z I. clear -F I. induction F as [|z' a l p E F IH]; [destruct I|]. destruct I as [->|I]; [|exact (IH I)].
        now apply op_strict in E.
    + intros [F T]. inversion T as [l' T'|y' Q]; subst; [|now elim (Q l)]. clear T.
      induction F as [|z a l p E F IH]; constructor; [apply op_strict; split; [exact E|apply T'; now left]|].
      apply IH. intros y I. apply T'. now right.
Qed.

(** * Texts *)
Lemma metric_type_text t : t <> UnknownMetric -> y_metric_type (YScalar (metric_type_string t)) = Some t.
Proof. destruct t; [congruence|reflexivity..]. Qed.
