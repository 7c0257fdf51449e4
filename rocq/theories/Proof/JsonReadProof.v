(** Reading documents: what is read can be sent; fields that are not known and the order of fields do not matter. *)
From Coq Require Import Ascii String Arith NArith ZArith Bool Lia Permutation List.
From Verif.Base Require Import Bytes BytesFacts.
From Verif.Proof Require Import AggProof PolicyProof RuleSetProtoProof JsonText JsonProof.
From Verif.Model Require Import AggType Policy Transformation Pipeline Rules RuleSet Namespace Json.
From Verif.Spec Require Import AggSpec PolicySpec MetadataSpec JsonSpec.
Import ListNotations.
Open Scope Z_scope.

(** * Documents *)
Lemma jfield_in k l v : jfield k l = Some v -> exists k', In (k', v) l.
Proof.
  induction l as [|[k' w] l IH]; cbn [jfield]; [discriminate|].
  destruct (jfield k l) as [x|]; [intros [= <-]; destruct (IH eq_refl) as (y & H); exists y; now right|].
  destruct (same_key k' k); [|discriminate]. intros [= <-]. exists k'. now left.
Qed.
Lemma field_doc k l : document (JObj l) -> document (field k l).
Proof.
  intros H. inversion H as [| | | | | |l' F]; subst. unfold field. destruct (jfield (B k) l) eqn:E; [|constructor].
  destruct (jfield_in _ _ _ E) as (k' & I). exact (F k' _ I).
Qed.
Lemma struct_doc j l : document j -> d_struct j = Some l -> document (JObj l).
Proof. intros D. destruct j; try discriminate; intros [= <-]; [constructor; intros k j []|exact D]. Qed.

Lemma d_string_text j s : document j -> d_string j = Some s -> is_text s.
Proof. intros D. destruct j; try discriminate; intros [= <-]; [apply text_nil|now inversion D]. Qed.

Lemma d_list_forall {A} (d : json -> option A) (P : A -> Prop) j l :
  document j -> (forall j x, document j -> d j = Some x -> P x) -> d_list d j = Some l -> Forall P l.
Proof.
  intros D H. destruct j as [| | | | |js|]; try discriminate; [intros [= <-]; constructor|].
  cbn [d_list]. intros E. apply map_opt_some in E. inversion D as [| | | | |l' F|]; subst.
  induction E as [|y x js l E1 E2 IH]; constructor.
  - apply (H y x); [apply F; now left|exact E1].
  - apply IH; [constructor|]; intros z Hz; apply F; now right.
Qed.
Lemma d_list_forall' {A} (d : json -> option A) (P : A -> Prop) j l :
  (forall j x, d j = Some x -> P x) -> d_list d j = Some l -> Forall P l.
Proof.
  intros H. destruct j as [| | | | |js|]; try discriminate; [intros [= <-]; constructor|].
  cbn [d_list]. intros E. apply map_opt_some in E.
  induction E as [|y x js l E1 E2 IH]; constructor; [exact (H y x E1)|exact IH].
Qed.

Ltac inv_do H :=
  repeat match type of H with
  | bind ?x _ = Some _ => let E := fresh "E" in destruct x eqn:E; cbn [bind] in H; [|discriminate H]
  end.

Lemma d_agg_type_valid j t : d_agg_type j = Some t -> valid_type t.
Proof. destruct j; try discriminate. cbn [d_agg_type]. intros E. now apply parse_type_inv in E. Qed.

Lemma d_agg_id_valid j w : d_agg_id j = Some w -> valid_agg_id w.
Proof.
  unfold d_agg_id. intros E. inv_do E.
  assert (F : Forall valid_type l) by (apply (d_list_forall' d_agg_type valid_type j l d_agg_type_valid E0)).
  destruct (compress_types l) as [id err] eqn:C. destruct err; [discriminate|]. injection E as <-.
  apply (id_from_proto_types_valid l). unfold id_from_proto_types. now rewrite (proj2 (types_from_proto_some l l)) by auto.
Qed.

Lemma d_tf_valid j t : d_tf j = Some t -> valid_tf t.
Proof.
  destruct j; try discriminate. cbn [d_tf]. unfold tf_parse, valid_tf.
  destruct (beqb s (B "Absolute")); [intros [= <-]; now left|].
  destruct (beqb s (B "PerSecond")); [intros [= <-]; now right|discriminate].
Qed.

Lemma d_rollup_op_sendable j r : document j -> d_rollup_op j = Some r ->
  valid_agg_id (ro_agg r) /\ is_text (ro_name r) /\ Forall is_text (ro_tags r).
Proof.
  unfold d_rollup_op. intros D E. inv_do E. injection E as <-. cbn [ro_agg ro_name ro_tags].
  pose proof (struct_doc _ _ D E0) as D1. split; [exact (d_agg_id_valid _ _ E3)|]. split.
  - exact (d_string_text _ _ (field_doc _ _ D1) E1).
  - apply (d_list_forall d_string is_text _ _ (field_doc "tags" _ D1)); [|exact E2]. exact d_string_text.
Qed.

Lemma d_ptr_some {A} (d : json -> option A) j x : d_ptr d j = Some (Some x) -> d j = Some x.
Proof. destruct j; cbn [d_ptr]; try discriminate; destruct (d _) eqn:E; try discriminate; now intros [= ->]. Qed.

Lemma d_op_sendable j a : document j -> d_op j = Some a -> op_sendable a /\ op_canonical a.
Proof.
  unfold d_op. intros D E. inv_do E. pose proof (struct_doc _ _ D E0) as D1.
  unfold op_sendable, op_valid, op_canonical.
  destruct o as [t|]; [|destruct o0 as [t|]; [|destruct o1 as [r|]; [|discriminate]]]; injection E as <-;
    cbn [op_kind op_agg op_tf op_rollup].
  - apply d_ptr_some, d_agg_type_valid in E1. split; [split; [now left|discriminate]|].
    split; [congruence|]. split; reflexivity.
  - apply d_ptr_some, d_tf_valid in E2. split; [split; [right; now left|discriminate]|].
    split; [reflexivity|]. split; [congruence|reflexivity].
  - apply d_ptr_some in E3. destruct (d_rollup_op_sendable _ _ (field_doc _ _ D1) E3) as (V & T1 & T2).
    split; [split; [right; now right|]|].
    + intros _. split; assumption.
    + split; [reflexivity|]. split; [reflexivity|congruence].
Qed.

Section Read.
  Context (dt : duration_text) (ok : duration_text_ok dt).
  Context (units : forall w, valid_precision (dt_max_unit dt w)).

  Lemma unit_from_duration_valid d u : unit_from_duration d = Some u -> valid_precision u.
  Proof.
    unfold unit_from_duration, unit_table, valid_precision. cbn [find snd fst].
    repeat match goal with |- context [if ?b then _ else _] => destruct b; [cbn [option_map fst]; intros [= <-]; lia|] end.
    discriminate.
  Qed.
  Lemma d_sp_ok j p : d_sp dt j = Some p -> sp_ok p.
  Proof.
    destruct j; try discriminate. cbn [d_sp]. unfold parse_sp, sp_ok.
    destruct (split_on colon_sep s) as [|a [|b [|]]]; try discriminate.
    destruct (parse_resolution dt a) as [r|] eqn:R; [|discriminate]. destruct (dt_parse dt b); [|discriminate].
    intros [= <-]. cbn [sp_resolution]. unfold parse_resolution in R. destruct (index_byte at_sep a).
    - destruct (dt_parse dt _); [|discriminate]. destruct (dt_parse dt _); [|discriminate].
      destruct (unit_from_duration z1) eqn:U; [|discriminate]. injection R as <-. cbn [r_precision]. exact (unit_from_duration_valid _ _ U).
    - destruct (dt_parse dt a); [|discriminate]. injection R as <-. cbn [r_precision]. apply units.
  Qed.

  Definition target_good t := target_sendable t /\ forall a, In a (tg_pipeline t) -> op_canonical a.
  Lemma d_target_sendable j t : document j -> d_target dt j = Some t -> target_good t.
  Proof.
    unfold d_target, d_pipeline. intros D E. inv_do E. injection E as <-. pose proof (struct_doc _ _ D E0) as D1.
    unfold target_good, target_sendable. cbn [tg_pipeline tg_sps].
    assert (F : Forall (fun a => op_sendable a /\ op_canonical a) l0)
      by (apply (d_list_forall d_op _ _ _ (field_doc "pipeline" _ D1)); [exact d_op_sendable|exact E1]).
    split; [split|].
    - eapply Forall_impl; [|exact F]. now intros a [].
    - exact (d_list_forall' (d_sp dt) sp_ok _ _ d_sp_ok E2).
    - rewrite Forall_forall in F. intros a Ha. apply (F a Ha).
  Qed.

  Lemma d_mapping_view_sendable j v : document j -> d_mapping_view dt j = Some v -> view_sendable mapping_sendable v.
  Proof.
    unfold d_mapping_view. intros D E. inv_do E. injection E as <-. pose proof (struct_doc _ _ D E0) as D1.
    unfold view_sendable, mapping_sendable. cbn [rv_id rv_name rv_tomb rv_cutover_ms rv_filter rv_body rv_by rv_at_ms mb_agg mb_sps mb_drop].
    split; [exact (d_string_text _ _ (field_doc _ _ D1) E1)|].
    split; [exact (d_string_text _ _ (field_doc _ _ D1) E2)|].
    split; [exact (d_string_text _ _ (field_doc _ _ D1) E5)|].
    split; [exact (d_string_text _ _ (field_doc _ _ D1) E9)|].
    split; [exact (d_int64_inv _ _ E4)|]. split; [exact (d_int64_inv _ _ E10)|].
    split; [exact (d_agg_id_valid _ _ E6)|]. split; [exact (d_list_forall' (d_sp dt) sp_ok _ _ d_sp_ok E7)|].
    exact (d_uint64_inv _ _ E8).
  Qed.

  Lemma d_rollup_view_sendable j v : document j -> d_rollup_view dt j = Some v ->
    view_sendable rollup_sendable v /\ targets_canonical (rv_body v).
  Proof.
    unfold d_rollup_view. intros D E. inv_do E. injection E as <-. pose proof (struct_doc _ _ D E0) as D1.
    unfold view_sendable, rollup_sendable. cbn [rv_id rv_name rv_tomb rv_cutover_ms rv_filter rv_body rv_by rv_at_ms].
    assert (F : Forall target_good l0).
    { apply (d_list_forall (d_target dt) target_good _ _ (field_doc "targets" _ D1)); [exact d_target_sendable|exact E6]. }
    split.
    - split; [exact (d_string_text _ _ (field_doc _ _ D1) E1)|].
      split; [exact (d_string_text _ _ (field_doc _ _ D1) E2)|].
      split; [exact (d_string_text _ _ (field_doc _ _ D1) E5)|].
      split; [exact (d_string_text _ _ (field_doc _ _ D1) E7)|].
      split; [exact (d_int64_inv _ _ E4)|]. split; [exact (d_int64_inv _ _ E8)|].
      eapply Forall_impl; [|exact F]. now intros t [].
    - rewrite Forall_forall in F. intros t a Ht Ha. exact (proj2 (F t Ht) a Ha).
  Qed.

  Lemma set_view_received j v : document j -> d_rule_set_view dt j = Some v ->
    set_view_sendable v /\ set_view_canonical v.
  Proof.
    unfold d_rule_set_view. intros D E. inv_do E. injection E as <-. pose proof (struct_doc _ _ D E0) as D1.
    unfold set_view_sendable, set_view_canonical. cbn [rsv_namespace rsv_version rsv_cutover_ms rsv_mapping rsv_rollup].
    assert (F : Forall (fun v => view_sendable rollup_sendable v /\ targets_canonical (rv_body v)) l1).
    { apply (d_list_forall (d_rollup_view dt) _ _ _ (field_doc "rollupRules" _ D1)); [exact d_rollup_view_sendable|exact E5]. }
    split.
    - split; [exact (d_string_text _ _ (field_doc _ _ D1) E1)|].
      split; [exact (d_int64_inv _ _ E2)|]. split; [exact (d_int64_inv _ _ E3)|]. split.
      + apply (d_list_forall (d_mapping_view dt) _ _ _ (field_doc "mappingRules" _ D1)); [exact d_mapping_view_sendable|exact E4].
      + eapply Forall_impl; [|exact F]. now intros t [].
    - rewrite Forall_forall in F. intros r Hr. exact (proj2 (F r Hr)).
  Qed.

  Lemma d_change_sendable {P} (d : json -> option (rule_view P)) (body : P -> Prop) (Q : rule_view P -> Prop) j c :
    (forall j v, document j -> d j = Some v -> view_sendable body v /\ Q v) ->
    document j -> d_change d j = Some c ->
    change_sendable body c /\ forall v, vc_data c = Some v -> Q v.
  Proof.
    intros H. unfold d_change. intros D E. inv_do E. injection E as <-. pose proof (struct_doc _ _ D E0) as D1.
    unfold change_sendable. cbn [vc_op vc_id vc_data].
    split; [split; [exact (d_string_text _ _ (field_doc _ _ D1) E1)|split]|].
    - intros i ->. apply d_ptr_some in E2. exact (d_string_text _ _ (field_doc _ _ D1) E2).
    - intros v ->. apply d_ptr_some in E3. exact (proj1 (H _ _ (field_doc _ _ D1) E3)).
    - intros v ->. apply d_ptr_some in E3. exact (proj2 (H _ _ (field_doc _ _ D1) E3)).
  Qed.

  Lemma set_changes_received j c : document j -> d_set_changes dt j = Some c ->
    set_changes_sendable c /\ set_changes_canonical c.
  Proof.
    unfold d_set_changes. intros D E. inv_do E. injection E as <-. pose proof (struct_doc _ _ D E0) as D1.
    unfold set_changes_sendable, set_changes_canonical. cbn [sc_namespace sc_mapping sc_rollup].
    assert (F : Forall (fun c => change_sendable rollup_sendable c /\
       forall v, vc_data c = Some v -> targets_canonical (rv_body v)) l1).
    { apply (d_list_forall (d_change (d_rollup_view dt)) _ _ _ (field_doc "rollupRuleChanges" _ D1)); [|exact E3].
      intros j0 x. apply (d_change_sendable (d_rollup_view dt) rollup_sendable (fun v => targets_canonical (rv_body v))).
      exact d_rollup_view_sendable. }
    assert (G : Forall (change_sendable mapping_sendable) l0).
    { apply (d_list_forall (d_change (d_mapping_view dt)) _ _ _ (field_doc "mappingRuleChanges" _ D1)); [|exact E2].
      intros j0 x Dj Ej. apply (d_change_sendable (d_mapping_view dt) mapping_sendable (fun v => True) j0 x); auto.
      intros j1 v Dv Ev. split; [exact (d_mapping_view_sendable j1 v Dv Ev)|exact I]. }
    split.
    - split; [exact (d_string_text _ _ (field_doc _ _ D1) E1)|]. split; [exact G|].
      eapply Forall_impl; [|exact F]. now intros t [].
    - rewrite Forall_forall in F. intros x r Hx. exact (proj2 (F x Hx) r).
  Qed.
End Read.

(** * Unknown fields and the order of fields *)
Lemma same_key_eq a b : same_key a b = true <-> fold_key a = fold_key b.
Proof. unfold same_key. apply beqb_eq. Qed.

(** without repeated keys, a field is found wherever it is *)
Lemma jfield_nodup k l : NoDup (map (fun x => fold_key (fst x)) l) ->
  forall v, jfield k l = Some v <-> exists k', In (k', v) l /\ fold_key k' = fold_key k.
Proof.
  induction l as [|[k' w] l IH]; cbn [map jfield fst]; intros N v.
  - split; [discriminate|intros (k' & [] & _)].
  - inversion N as [|x xs N1 N2]; subst. specialize (IH N2).
    destruct (jfield k l) as [x|] eqn:E.
    + split.
      * intros [= <-]. destruct (proj1 (IH x) eq_refl) as (k2 & I & Ek). exists k2. split; [now right|auto].
      * intros (k2 & [I|I] & Ek).
        -- injection I as -> ->. exfalso. destruct (proj1 (IH x) eq_refl) as (k3 & I3 & Ek3). apply N1.
           rewrite Ek, <- Ek3. apply (in_map (fun x => fold_key (fst x)) _ (k3, x) I3).
        -- apply (IH v). eauto.
    + destruct (same_key k' k) eqn:S.
      * apply same_key_eq in S. split.
        -- intros [= <-]. exists k'. split; [now left|auto].
        -- intros (k2 & [I|I] & Ek); [now injection I as _ ->|]. exfalso.
           assert (None = Some v) by (apply (IH v); eauto). discriminate.
      * split; [discriminate|]. intros (k2 & [I|I] & Ek).
        -- injection I as -> ->. apply same_key_eq in Ek. congruence.
        -- apply (IH v). eauto.
Qed.

Lemma lowered_same l kept :
  Forall2 (fun x y : bytes * json => same_key (fst x) (fst y) = true /\ extends (snd x) (snd y)) l kept ->
  map (fun x => fold_key (fst x)) l = map (fun x => fold_key (fst x)) kept.
Proof.
  induction 1 as [|x y l kept [S _] F IH]; [reflexivity|]. cbn [map]. apply same_key_eq in S. f_equal; [exact S|exact IH].
Qed.

Lemma nodup_left {A} (a b : list A) : NoDup (a ++ b) -> NoDup a.
Proof.
  induction a as [|x a IH]; cbn [app]; [constructor|]. inversion 1 as [|y l N1 N2]; subst. constructor; [|now apply IH].
  intros I. apply N1, in_or_app. now left.
Qed.

Definition opt_extends (a b : option json) : Prop :=
  match a, b with None, None => True | Some x, Some y => extends x y | _, _ => False end.

Lemma jfield_extends k l l' : extends (JObj l) (JObj l') -> In k known_keys -> opt_extends (jfield k l) (jfield k l').
Proof.
  intros X K. inversion X as [j|?|l0 kept extra l0' F U N P]; subst.
  { destruct (jfield k l'); cbn [opt_extends]; [constructor|exact I]. }
  assert (N' : NoDup (map (fun x => fold_key (fst x)) l)).
  { rewrite (lowered_same _ _ F). apply (Permutation_map (fun x : bytes * json => fold_key (fst x))) in P.
    rewrite map_app in P. apply Permutation_sym in P. apply (Permutation_NoDup P) in N. now apply nodup_left in N. }
  pose proof (jfield_nodup k l N') as J. pose proof (jfield_nodup k l' N) as J'.
  destruct (jfield k l) as [v|] eqn:E.
  - destruct (proj1 (J v) eq_refl) as (k1 & I1 & Ek).
    assert (Y : exists y, In y kept /\ same_key k1 (fst y) = true /\ extends v (snd y)).
    { clear -F I1. induction F as [|x y l kept [S Ex] F IH]; [destruct I1|].
      destruct I1 as [->|I1]; [exists y; cbn [fst snd] in *; split; [now left|auto]|].
      destruct (IH I1) as (z & Hz & ?). exists z. split; [now right|auto]. }
    destruct Y as ([k2 w] & I2 & S & Ex). cbn [fst snd] in *. apply same_key_eq in S.
    rewrite (proj2 (J' w)); [exact Ex|]. exists k2. split; [|congruence].
    apply (Permutation_in _ P). apply in_or_app. now left.
  - destruct (jfield k l') as [w|] eqn:E'; [|exact I]. exfalso.
    destruct (proj1 (J' w) eq_refl) as (k1 & I1 & Ek). apply (Permutation_in _ (Permutation_sym P)) in I1.
    apply in_app_or in I1. destruct I1 as [I1|I1].
    + assert (Y : exists x, In x l /\ same_key (fst x) k1 = true).
      { clear -F I1. induction F as [|x y l kept [S Ex] F IH]; [destruct I1|].
        destruct I1 as [->|I1]; [exists x; cbn [fst snd] in *; split; [now left|auto]|].
        destruct (IH I1) as (z & Hz & ?). exists z. split; [now right|auto]. }
      destruct Y as ([k2 x] & I2 & S). cbn [fst] in S. apply same_key_eq in S.
      assert (None = Some x); [|discriminate]. apply (J x). exists k2. split; [exact I2|congruence].
    + rewrite Forall_forall in U. specialize (U _ I1 k K). cbn [fst] in U. apply same_key_eq in Ek. congruence.
Qed.

Lemma field_extends k l l' : extends (JObj l) (JObj l') -> In (B k) known_keys -> extends (field k l) (field k l').
Proof.
  intros X K. pose proof (jfield_extends (B k) l l' X K) as O. unfold field.
  destruct (jfield (B k) l), (jfield (B k) l'); cbn [opt_extends] in O; try contradiction; [exact O|constructor].
Qed.

(** a reader that cannot tell the two apart *)
Definition blind {A} (d : json -> option A) : Prop := forall j j', extends j j' -> d j' = d j.

Lemma struct_extends j j' : extends j j' ->
  (exists l l', d_struct j = Some l /\ d_struct j' = Some l' /\ extends (JObj l) (JObj l')) \/
  (d_struct j = None /\ d_struct j' = None).
Proof.
  intros X. inversion X as [j0|l l' F|l kept extra l' F U N P]; subst.
  - destruct j'; cbn [d_struct]; [left|right; auto|right; auto|right; auto|right; auto|right; auto|left];
      eexists; eexists; (split; [reflexivity|split; [reflexivity|constructor]]).
  - right. split; reflexivity.
  - left. exists l, l'. split; [reflexivity|]. split; [reflexivity|exact X].
Qed.

Lemma blind_string : blind d_string.
Proof. intros j j' X. inversion X; reflexivity. Qed.
Lemma blind_bool : blind d_bool.
Proof. intros j j' X. inversion X; reflexivity. Qed.
Lemma blind_int lo hi : blind (d_int lo hi).
Proof. intros j j' X. inversion X; reflexivity. Qed.
Lemma blind_agg_type : blind d_agg_type.
Proof. intros j j' X. inversion X; reflexivity. Qed.
Lemma blind_tf : blind d_tf.
Proof. intros j j' X. inversion X; reflexivity. Qed.
Lemma blind_sp dt : blind (d_sp dt).
Proof. intros j j' X. inversion X; reflexivity. Qed.
Lemma blind_list {A} (d : json -> option A) : blind d -> blind (d_list d).
Proof.
  intros H j j' X. inversion X as [j0|l l' F|l kept extra l' F U N P]; subst; [reflexivity| |reflexivity].
  cbn [d_list]. clear X. induction F as [|x y l l' E F IH]; [reflexivity|]. cbn [map_opt]. now rewrite (H x y E), IH.
Qed.
Lemma blind_ptr {A} (d : json -> option A) : blind d -> blind (d_ptr d).
Proof.
  intros H j j' X. pose proof (H j j' X) as E. inversion X as [j0|l l' F|l kept extra l' F U N P]; subst; [reflexivity| |];
    cbn [d_ptr]; now rewrite E.
Qed.

Ltac known := cbn [known_keys map In]; repeat (first [left; reflexivity|right]); fail.

Ltac blind_struct :=
  let j := fresh in let j' := fresh in let X := fresh "X" in
  intros j j' X; destruct (struct_extends j j' X) as [(?l & ?l' & -> & -> & ?X')|(-> & ->)]; [|reflexivity]; cbn [bind].
Ltac same_field H k :=
  rewrite (H _ _ (field_extends k _ _ ltac:(eassumption) ltac:(known))).

Lemma blind_agg_id : blind d_agg_id.
Proof. intros j j' X. unfold d_agg_id. now rewrite (blind_list _ blind_agg_type _ _ X). Qed.

Lemma blind_rollup_op : blind d_rollup_op.
Proof.
  unfold d_rollup_op. blind_struct.
  same_field blind_string "newName"%string. same_field (blind_list _ blind_string) "tags"%string.
  same_field blind_agg_id "aggregation"%string. reflexivity.
Qed.
Lemma blind_op : blind d_op.
Proof.
  unfold d_op. blind_struct.
  same_field (blind_ptr _ blind_agg_type) "aggregation"%string. same_field (blind_ptr _ blind_tf) "transformation"%string.
  same_field (blind_ptr _ blind_rollup_op) "rollup"%string. reflexivity.
Qed.
Lemma blind_target dt : blind (d_target dt).
Proof.
  unfold d_target, d_pipeline. blind_struct.
  same_field (blind_list _ blind_op) "pipeline"%string. same_field (blind_list _ (blind_sp dt)) "storagePolicies"%string.
  reflexivity.
Qed.
Lemma blind_mapping_view dt : blind (d_mapping_view dt).
Proof.
  unfold d_mapping_view, d_int64, d_uint64. blind_struct.
  same_field blind_string "id"%string. same_field blind_string "name"%string. same_field blind_bool "tombstoned"%string.
  same_field (blind_int (- 2 ^ 63) (2 ^ 63)) "cutoverMillis"%string. same_field blind_string "filter"%string.
  same_field blind_agg_id "aggregation"%string. same_field (blind_list _ (blind_sp dt)) "storagePolicies"%string.
  same_field (blind_int 0 (2 ^ 64)) "dropPolicy"%string. same_field blind_string "lastUpdatedBy"%string.
  same_field (blind_int (- 2 ^ 63) (2 ^ 63)) "lastUpdatedAtMillis"%string. reflexivity.
Qed.
Lemma blind_rollup_view dt : blind (d_rollup_view dt).
Proof.
  unfold d_rollup_view, d_int64. blind_struct.
  same_field blind_string "id"%string. same_field blind_string "name"%string. same_field blind_bool "tombstoned"%string.
  same_field (blind_int (- 2 ^ 63) (2 ^ 63)) "cutoverMillis"%string. same_field blind_string "filter"%string.
  same_field (blind_list _ (blind_target dt)) "targets"%string. same_field blind_string "lastUpdatedBy"%string.
  same_field (blind_int (- 2 ^ 63) (2 ^ 63)) "lastUpdatedAtMillis"%string. reflexivity.
Qed.
Lemma blind_set_view dt : blind (d_rule_set_view dt).
Proof.
  unfold d_rule_set_view, d_int64. blind_struct.
  same_field blind_string "id"%string. same_field (blind_int (- 2 ^ 63) (2 ^ 63)) "version"%string.
  same_field (blind_int (- 2 ^ 63) (2 ^ 63)) "cutoverMillis"%string.
  same_field (blind_list _ (blind_mapping_view dt)) "mappingRules"%string.
  same_field (blind_list _ (blind_rollup_view dt)) "rollupRules"%string. reflexivity.
Qed.
Lemma blind_change {P} (d : json -> option (rule_view P)) : blind d -> blind (d_change d).
Proof.
  intros H. unfold d_change. blind_struct.
  same_field blind_string "op"%string. same_field (blind_ptr _ blind_string) "ruleID"%string.
  same_field (blind_ptr _ H) "ruleData"%string. reflexivity.
Qed.
Lemma blind_set_changes dt : blind (d_set_changes dt).
Proof.
  unfold d_set_changes. blind_struct.
  same_field blind_string "namespace"%string.
  same_field (blind_list _ (blind_change _ (blind_mapping_view dt))) "mappingRuleChanges"%string.
  same_field (blind_list _ (blind_change _ (blind_rollup_view dt))) "rollupRuleChanges"%string. reflexivity.
Qed.
Lemma blind_namespaces : blind d_namespaces.
Proof.
  assert (H : blind d_namespace).
  { unfold d_namespace, d_int64. blind_struct. same_field blind_string "id"%string.
    same_field (blind_int (- 2 ^ 63) (2 ^ 63)) "forRuleSetVersion"%string. same_field blind_bool "tombstoned"%string.
    same_field blind_string "lastUpdatedBy"%string.
    same_field (blind_int (- 2 ^ 63) (2 ^ 63)) "lastUpdatedAtMillis"%string. reflexivity. }
  unfold d_namespaces, d_int64. blind_struct. same_field (blind_int (- 2 ^ 63) (2 ^ 63)) "version"%string.
  same_field (blind_list _ H) "namespaces"%string. reflexivity.
Qed.
