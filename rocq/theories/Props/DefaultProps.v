(** C84: the tests for defaults and for applied drop policies are exact. *)
From Coq Require Import Ascii String Arith NArith ZArith Bool Lia List.
From Verif.Base Require Import Bytes BytesFacts.
From Verif.Model Require Import AggType Policy Transformation Pipeline Metadata.
Import ListNotations.
Open Scope Z_scope.

(** Staged metadatas are reported as the default exactly if they are the default: one live stage from time zero on, with one
    pipeline that has the default aggregation, no storage policies, no operations and no drop policy. *)
Theorem C84_metadatas : forall l : staged_metadatas,
  sms_is_default l = true <-> l = [mk_sm [mk_pm 0%N [] [] 0] 0 false].
Proof.
  intros l. split; [|intros ->; reflexivity].
  destruct l as [|[ps c tb] [|? ?]]; cbn [sms_is_default]; try discriminate.
  unfold sm_is_default. cbn [sm_cutover sm_tombstoned sm_pipelines].
  intros H. apply andb_true_iff in H as [H H3]. apply andb_true_iff in H as [H1 H2].
  apply Z.eqb_eq in H1 as ->. destruct tb; [discriminate|].
  destruct ps as [|[a sps pl d] [|? ?]]; cbn [md_is_default] in H3; try discriminate.
  unfold pm_is_default in H3. cbn [pm_agg pm_sps pm_pipeline pm_drop] in H3.
  apply andb_true_iff in H3 as [H3 H7]. apply andb_true_iff in H3 as [H3 H6]. apply andb_true_iff in H3 as [H4 H5].
  apply N.eqb_eq in H4 as ->. destruct sps; [|discriminate]. destruct pl; [|discriminate].
  apply Z.eqb_eq in H7 as ->. reflexivity.
Qed.
Print Assumptions C84_metadatas.

(** The same test on one stage, on the pipelines of a stage and on one pipeline. *)
Theorem C84_parts :
  (forall s : staged_metadata, sm_is_default s = true <-> s = mk_sm [mk_pm 0%N [] [] 0] 0 false) /\
  (forall ps : list pipeline_metadata, md_is_default ps = true <-> ps = [mk_pm 0%N [] [] 0]) /\
  (forall p : pipeline_metadata, pm_is_default p = true <-> p = mk_pm 0%N [] [] 0).
Proof.
  split; [|split].
  - intros s. pose proof (C84_metadatas [s]) as H. cbn [sms_is_default] in H. rewrite H. split; [congruence|intros ->; reflexivity].
  - intros ps. pose proof (C84_metadatas [mk_sm ps 0 false]) as H. cbn [sms_is_default] in H.
    unfold sm_is_default in H. cbn [sm_cutover sm_tombstoned sm_pipelines Z.eqb negb andb] in H. rewrite H.
    split; [congruence|intros ->; reflexivity].
  - intros p. pose proof (C84_metadatas [mk_sm [p] 0 false]) as H. cbn [sms_is_default] in H.
    unfold sm_is_default in H. cbn [sm_cutover sm_tombstoned sm_pipelines Z.eqb negb andb md_is_default] in H. rewrite H.
    split; [congruence|intros ->; reflexivity].
Qed.
Print Assumptions C84_parts.

(** A drop policy is reported as applied exactly if there is one live stage, with one pipeline that has nothing but a drop
    policy. *)
Theorem C84_dropped : forall l : staged_metadatas,
  sms_is_drop_applied l = true <-> exists c d, d <> 0 /\ l = [mk_sm [mk_pm 0%N [] [] d] c false].
Proof.
  intros l. split.
  - destruct l as [|[ps c tb] [|? ?]]; cbn [sms_is_drop_applied]; try discriminate.
    unfold sm_is_drop_applied. cbn [sm_tombstoned sm_pipelines].
    intros H. apply andb_true_iff in H as [H2 H3]. destruct tb; [discriminate|].
    destruct ps as [|[a sps pl d] [|? ?]]; cbn [md_is_drop_applied] in H3; try discriminate.
    unfold pm_is_drop_applied in H3. cbn [pm_agg pm_sps pm_pipeline pm_drop] in H3.
    apply andb_true_iff in H3 as [H3 H7]. apply andb_true_iff in H3 as [H3 H6]. apply andb_true_iff in H3 as [H4 H5].
    apply N.eqb_eq in H4 as ->. destruct sps; [|discriminate]. destruct pl; [|discriminate].
    exists c, d. split; [|reflexivity]. intros ->. discriminate H7.
  - intros (c & d & N & ->). unfold sms_is_drop_applied, sm_is_drop_applied, md_is_drop_applied, pm_is_drop_applied.
    cbn [sm_tombstoned sm_pipelines pm_agg pm_sps pm_pipeline pm_drop negb is_nil andb]. cbn [id_is_default].
    unfold drop_is_default, DropNone. apply Z.eqb_neq in N. rewrite N. reflexivity.
Qed.
Print Assumptions C84_dropped.

(** Nothing is both the default and dropped; the policies that the package offers as defaults pass the tests. *)
Theorem C84_disjoint : forall l : staged_metadatas, sms_is_default l = true -> sms_is_drop_applied l = false.
Proof. intros l H. apply C84_metadatas in H as ->. reflexivity. Qed.
Print Assumptions C84_disjoint.

(** The older lists of staged policies: the default is one live stage from time zero on without policies. *)
Theorem C84_policies : forall l : list staged_policies,
  policies_list_is_default l = true <-> l = [{| stp_cutover := 0; stp_tombstoned := false; stp_policies := [] |}].
Proof.
  intros l. split; [|intros ->; reflexivity].
  destruct l as [|[c tb ps] [|? ?]]; cbn [policies_list_is_default]; try discriminate.
  unfold stp_is_default. cbn [stp_cutover stp_tombstoned stp_policies].
  intros H. apply andb_true_iff in H as [H H3]. apply andb_true_iff in H as [H1 H2].
  apply Z.eqb_eq in H1 as ->. destruct tb; [discriminate|]. destruct ps; [reflexivity|discriminate].
Qed.
Print Assumptions C84_policies.

(** Two stages of the older kind are equal exactly if they are the same. *)
Theorem C84_policies_equal : forall a b : staged_policies, stp_equals a b = true <-> a = b.
Proof.
  intros [c tb ps] [c' tb' ps']. unfold stp_equals. cbn [stp_cutover stp_tombstoned stp_policies].
  assert (EQ : forall l l' : list policy, list_eqb policy_eqb l l' = true <-> l = l').
  { assert (PE : forall p q : policy, policy_eqb p q = true <-> p = q).
    { intros [[[w pr] rt] ag] [[[w' pr'] rt'] ag']. unfold policy_eqb, sp_eqb, resolution_eqb.
      cbn [p_storage p_agg sp_resolution sp_retention r_window r_precision].
      rewrite !andb_true_iff, !Z.eqb_eq, N.eqb_eq. split; [intros (((-> & ->) & ->) & ->); reflexivity|intros H; injection H; auto]. }
    induction l as [|x l IH]; intros [|y l']; cbn [list_eqb]; try (split; [discriminate|discriminate]).
    - split; reflexivity.
    - rewrite andb_true_iff, PE, IH. split; [intros [-> ->]; reflexivity|intros H; injection H; auto]. }
  split.
  - destruct (Z.eqb_spec c c') as [->|]; cbn [negb orb]; [|discriminate].
    destruct (Bool.eqb tb tb') eqn:Et; cbn [negb]; [|discriminate]. apply eqb_prop in Et as ->.
    destruct ps as [|p ps], ps' as [|p' ps']; cbn [is_default_policies andb orb]; try discriminate; [reflexivity|].
    intros H. apply EQ in H. rewrite H. reflexivity.
  - intros H. injection H as -> -> ->. rewrite Z.eqb_refl, eqb_reflx. cbn [negb orb].
    destruct ps' as [|p' ps']; cbn [is_default_policies andb orb]; [reflexivity|]. apply EQ. reflexivity.
Qed.
Print Assumptions C84_policies_equal.

Example C84_nonvacuous :
  sms_is_default default_staged_metadatas = true /\ sms_is_drop_applied drop_staged_metadatas = true /\
  policies_list_is_default default_policies_list = true /\
  map sms_is_default
    [[]; [mk_sm [mk_pm 1%N [] [] 0] 0 false]; [mk_sm [mk_pm 0%N [] [] 1] 0 false]; [mk_sm [mk_pm 0%N [] [] 0] 5 false];
     [mk_sm [mk_pm 0%N [] [] 0] 0 true]; default_staged_metadatas ++ default_staged_metadatas] =
    [false; false; false; false; false; false] /\
  map sms_is_drop_applied
    [[mk_sm [mk_pm 0%N [] [] 2] 7 false]; [mk_sm [mk_pm 0%N [] [] 2] 7 true]; [mk_sm [mk_pm 2%N [] [] 2] 7 false]; []] =
    [true; false; false; false].
Proof. vm_compute. repeat split; reflexivity. Qed.
