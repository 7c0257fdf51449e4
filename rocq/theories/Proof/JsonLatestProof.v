(** The latest view of a rule set can be sent. *)
From Coq Require Import Ascii String Arith NArith ZArith Bool Lia Permutation List.
From Verif.Base Require Import Bytes BytesFacts.
From Verif.Proof Require Import JsonText JsonProof.
From Verif.Model Require Import AggType Policy Transformation Pipeline Rules RuleSet Namespace Json.
From Verif.Spec Require Import AggSpec PolicySpec MetadataSpec RuleSetProtoSpec JsonSpec.
Import ListNotations.
Open Scope Z_scope.

Lemma rule_histories_in {P} (cl : P -> P) l k h : In (k, h) (rule_histories cl l) ->
  exists r, In r l /\ k = ru_uuid r /\ h = history cl r.
Proof.
  unfold rule_histories.
  assert (G : forall l m, In (k, h) (fold_left (fun m r => map_assign (ru_uuid r) (history cl r) m) l m) ->
    In (k, h) m \/ exists r, In r l /\ k = ru_uuid r /\ h = history cl r).
  { clear l. induction l as [|r l IH]; cbn [fold_left]; intros m H; [now left|].
    destruct (IH _ H) as [I|(r' & I & E)]; [|right; exists r'; split; [now right|auto]].
    unfold map_assign in I. apply in_app_or in I. destruct I as [I|[I|[]]].
    - apply filter_In in I. left. apply I.
    - injection I as <- <-. right. exists r. split; [now left|auto]. }
  intros H. destruct (G l [] H) as [[]|E]. exact E.
Qed.

Lemma latest_rules_in {P} (cl : P -> P) l v : In v (latest_rules cl l) ->
  exists r s, In r l /\ In s (ru_snapshots r) /\ v = view_of cl (ru_uuid r) s.
Proof.
  unfold latest_rules. rewrite isort_in, in_flat_map. intros ([k h] & I & Hv). cbn [snd] in Hv.
  destruct (rule_histories_in cl l k h I) as (r & Hr & -> & ->).
  destruct (history cl r) as [|v0 h] eqn:E; [destruct Hv|].
  destruct (negb (rv_tomb v0)); [|destruct Hv]. destruct Hv as [->|[]].
  assert (Q : In v (history cl r)) by (rewrite E; now left). unfold history in Q. apply in_map_iff in Q.
  destruct Q as (s & <- & Hs). apply in_rev in Hs. exists r, s. auto.
Qed.

Lemma millis_fits t : fits_int64 t -> fits_int64 (to_millis t).
Proof. unfold fits_int64, to_millis. intros H. Z.to_euclidean_division_equations. lia. Qed.

Lemma op_clone_cleaned a : op_clone a = op_cleaned a.
Proof.
  unfold op_clone, op_cleaned, rollup_op_clone. f_equal. destruct (op_kind a =? RollupOp); [now destruct (op_rollup a)|reflexivity].
Qed.

Lemma op_cleaned_valid a : op_valid a -> op_valid (op_cleaned a).
Proof.
  unfold op_valid, op_cleaned. cbn [op_kind op_agg op_tf op_rollup].
  intros [(K & V)|[(K & V)|(K & V)]]; rewrite K; [left|right; left|right; right]; split; auto; exact V.
Qed.

Lemma latest_sendable o rs : storable o rs -> rule_set_presentable rs ->
  set_view_sendable (latest rs) /\ set_view_canonical (latest rs).
Proof.
  intros (S1 & S2) (T & I1 & I2 & P1 & P2). unfold set_view_sendable, set_view_canonical, latest.
  cbn [rsv_namespace rsv_version rsv_cutover_ms rsv_mapping rsv_rollup]. split.
  - split; [exact T|]. split; [exact I1|]. split; [now apply millis_fits|]. split; apply Forall_forall; intros v Hv.
    + destruct (latest_rules_in _ _ _ Hv) as (r & s & Hr & Hs & ->).
      destruct (P1 r s Hr Hs) as (A1 & A2 & A3 & A4 & A5 & A6 & _).
      destruct (S1 r s Hr Hs) as ((F1 & F2) & (V & F & D & _) & _).
      unfold view_sendable, mapping_sendable, view_of, snapshot_clone, mb_clone.
      cbn [rv_id rv_name rv_tomb rv_cutover_ms rv_filter rv_body rv_by rv_at_ms sn_name sn_tomb sn_cutover sn_raw sn_body sn_at sn_by mb_agg mb_sps mb_drop].
      repeat (split; [first [assumption|now apply millis_fits]|]). lia.
    + destruct (latest_rules_in _ _ _ Hv) as (r & s & Hr & Hs & ->).
      destruct (P2 r s Hr Hs) as (A1 & A2 & A3 & A4 & A5 & A6 & A7).
      destruct (S2 r s Hr Hs) as (_ & (F & _) & _).
      unfold view_sendable, view_of, snapshot_clone.
      cbn [rv_id rv_name rv_tomb rv_cutover_ms rv_filter rv_body rv_by rv_at_ms sn_name sn_tomb sn_cutover sn_raw sn_body sn_at sn_by].
      repeat (split; [first [assumption|now apply millis_fits]|]).
      unfold rollup_sendable, targets_clone. apply Forall_forall. intros t Ht. apply in_map_iff in Ht.
      destruct Ht as (t0 & <- & Ht). rewrite Forall_forall in F. destruct (F t0 Ht) as [G1 G2].
      unfold target_sendable, target_clone. cbn [tg_pipeline tg_sps]. split; [|exact G2].
      unfold pipeline_clone. apply Forall_forall. intros a Ha. apply in_map_iff in Ha. destruct Ha as (a0 & <- & Ha).
      rewrite op_clone_cleaned. rewrite Forall_forall in G1. split; [now apply op_cleaned_valid, G1|].
      intros K. specialize (A7 t0 a0 Ht Ha). cbn [op_kind op_cleaned] in K. unfold rollup_op_text, op_cleaned.
      cbn [op_rollup]. rewrite K. change (RollupOp =? RollupOp) with true. exact A7.
  - intros v Hv. destruct (latest_rules_in _ _ _ Hv) as (r & s & Hr & Hs & ->).
    unfold view_of, snapshot_clone. cbn [rv_body sn_body]. intros t a Ht Ha. unfold targets_clone in Ht.
    apply in_map_iff in Ht. destruct Ht as (t0 & <- & Ht). unfold target_clone, pipeline_clone in Ha. cbn [tg_pipeline] in Ha.
    apply in_map_iff in Ha. destruct Ha as (a0 & <- & Ha). rewrite op_clone_cleaned. apply op_cleaned_is_canonical.
Qed.

Lemma namespaces_rt nl v : namespaces_sendable v ->
  exists j, e_namespaces nl v = Some j /\ d_namespaces j = Some v.
Proof.
  intros (I & F). destruct v as [n l]. cbn [fst snd] in *.
  destruct (list_rt nl e_namespace d_namespace (fun x => x) l) as (j & E1 & E2).
  { eapply Forall_impl; [|exact F]. intros x (T1 & T2 & I1 & I2). eexists. split; [reflexivity|].
    unfold d_namespace. cbn [d_struct bind]. keys.
    rewrite (d_string_e _ T1), (d_string_e _ T2), (d_int64_ok _ I1), (d_int64_ok _ I2). cbn [bind d_bool]. now destruct x. }
  unfold e_namespaces. cbn [fst snd]. rewrite E1. cbn [bind]. eexists. split; [reflexivity|].
  unfold d_namespaces. cbn [d_struct bind]. keys. rewrite (d_int64_ok _ I), E2, map_id. reflexivity.
Qed.
