(** Properties of stored rule sets.  Each theorem is stated with the vocabulary of [Spec/RuleSetProtoSpec.v]. *)
From Coq Require Import Ascii String Arith NArith ZArith Bool Lia Permutation Sorting.Sorted List.
From Verif.Base Require Import Bytes BytesFacts.
From Verif.Proof Require Import AggProof PolicyProof MetadataProof EditProof EditMatchProof RuleSetProtoProof StoreEditProof.
From Verif.Model Require Import AggType Policy Transformation Pipeline Metadata Filter MetricID Rules RuleSet RuleSetProto.
From Verif.Spec Require Import AggSpec PolicySpec MetadataSpec FilterSpec RulesSpec EditSpec RuleSetProtoSpec.
From Verif.Props Require Import RulesProps EditProps.
Import ListNotations.
Open Scope Z_scope.

(** ** C36: what is written is what is read *)

(** Exactly when writing and reading succeed, and exactly what is read. *)
Theorem C36_write_read v o rs rs' :
  every_snapshot mapping_fits (rs_mapping rs) -> every_snapshot rollup_fits (rs_rollup rs) ->
  ((exists pb, rule_set_proto rs = Some pb /\ rule_set_from_proto v (Some pb) o = Some rs') <->
   every_snapshot mapping_readable (rs_mapping rs) /\ every_snapshot rollup_readable (rs_rollup rs) /\ read_back v o rs rs').
Proof. exact (rule_set_stored_iff v o rs rs'). Qed.
Print Assumptions C36_write_read.

Theorem C36_storable o rs : every_snapshot mapping_fits (rs_mapping rs) -> every_snapshot rollup_fits (rs_rollup rs) ->
  forall v, storable o rs <-> exists pb rs', rule_set_proto rs = Some pb /\ rule_set_from_proto v (Some pb) o = Some rs'.
Proof. exact (storable_iff o rs). Qed.
Print Assumptions C36_storable.

(** Whatever the reader accepts, in the current or the legacy form, is written and read again as itself. *)
Theorem C36_reread v o pb rs : rule_set_from_proto v pb o = Some rs ->
  exists pb', rule_set_proto rs = Some pb' /\ rule_set_from_proto v (Some pb') o = Some rs.
Proof. exact (rule_set_reread v o pb rs). Qed.
Print Assumptions C36_reread.

(** Edits keep a rule set storable as long as the bodies they write are. *)
Theorem C36_edits v o rs es : storable o rs -> Forall (fun em => content_ok (fst em)) es ->
  exists pb rs', rule_set_proto (run_edits rs es) = Some pb /\ rule_set_from_proto v (Some pb) o = Some rs' /\
    read_back v o (run_edits rs es) rs'.
Proof. intros Hs Hc. apply storable_reads. now apply run_edits_storable. Qed.
Print Assumptions C36_edits.

(** A live rollup rule without targets is written, but then the whole rule set cannot be read. *)
Theorem C36_no_targets v o rs pb r s : every_snapshot mapping_fits (rs_mapping rs) -> every_snapshot rollup_fits (rs_rollup rs) ->
  In r (rs_rollup rs) -> In s (ru_snapshots r) -> sn_tomb s = false -> sn_body s = [] -> rule_set_proto rs = Some pb ->
  rule_set_from_proto v (Some pb) o = None.
Proof.
  intros Fm Fr Hr Hs Ht Hb E. destruct (rule_set_from_proto v (Some pb) o) as [rs'|] eqn:E'; [|reflexivity].
  destruct (proj1 (rule_set_stored_iff v o rs rs' Fm Fr)) as (_ & H & _); [eauto|]. destruct (H r s Hr Hs) as [_ N]. now elim (N Ht).
Qed.
Print Assumptions C36_no_targets.

Definition ropts := mk_ro m3_opts new_rollup_id is_rollup_id.
Definition no_target_set : rule_set :=
  run_edits empty_set [(AddRollup (B "u") (mk_re [] (B "a") (B "env:prod") []), at_time 1)].

Example C36_nonvacuous :
  storable ropts empty_set /\ Forall (fun em => content_ok (fst em)) session /\
  match rule_set_proto after_session with
  | None => None
  | Some pb => option_map (fun rs' => map (fun r => (ru_uuid r, map sn_name (ru_snapshots r))) (rs_mapping rs'))
                 (rule_set_from_proto 7 (Some pb) ropts)
  end = Some [(B "u1", [B "a"; B "a"; B "a"]); (B "u2", [B "b"])] /\
  match rule_set_proto no_target_set with
  | None => false
  | Some pb => match rule_set_from_proto 7 (Some pb) ropts with None => true | Some _ => false end
  end = true.
Proof.
  split; [split; intros ? ? []|]. split; [|split].
  - assert (V0 : valid_agg_id 0) by (split; [reflexivity|intros k Hk; rewrite N.bits_0 in Hk; discriminate]).
    assert (M : forall f i n w, content_ok (AddMapping f (mapping_edit i n w))).
    { intros. split; [split; [reflexivity|cbn; lia]|]. split; [exact V0|]. split; [repeat constructor; cbn; lia|].
      split; [cbn; lia|]. split; [left; discriminate|reflexivity]. }
    unfold session. repeat (apply Forall_cons; [try exact (M _ _ _ _); try exact I|]); [|constructor].
    split; [intros t a [<-|[]] [<-|[]]; split; [cbn; lia|reflexivity]|]. split; [|discriminate].
    constructor; [|constructor]. split; [|repeat constructor; cbn; lia]. constructor; [|constructor]. right; right. split; [reflexivity|exact V0].
  - vm_compute. reflexivity.
  - vm_compute. reflexivity.
Qed.

(** The aggregation types of a mapping rule that has a drop policy are lost. *)
Example C36_aggregation_types_lost :
  let s := mk_snap (B "m") false 5 None (B "env:prod") (mk_mb 64%N [] 1) 0 [] in
  mapping_fits s /\ mapping_readable s /\
  option_map (fun x => mb_agg (sn_body x))
    (match mapping_snapshot_proto s with Some pb => mapping_snapshot_from_proto m3_opts (Some pb) | None => None end) = Some 0%N.
Proof.
  cbv zeta. split; [split; cbn; [reflexivity|lia]|]. split; [|vm_compute; reflexivity].
  split; [split; [reflexivity|]|cbn; repeat split; auto; try lia; try (intros X; now elim X)].
  - intros k Hk. cbn in Hk. destruct k as [|p]; [discriminate|]. cbn in Hk.
    do 6 (destruct p as [p|p|]; try discriminate Hk; try (cbn; lia)).
Qed.
(** A drop policy of 2^32 becomes "none". *)
Example C36_drop_policy_truncated :
  option_map msp_drop (mapping_snapshot_proto (mk_snap (B "m") false 5 None (B "env:prod") (mk_mb 0%N [sp 1 1] (2 ^ 32)) 0 [])) = Some 0.
Proof. vm_compute. reflexivity. Qed.

(** ** C62: legacy policies *)

(** A legacy list of policies is accepted exactly if every policy can be read and all have one aggregation
    ID; it stands for that ID and the set of storage policies, finest resolution and longest retention
    first. *)
Theorem C62_legacy_policies ps agg sps :
  to_aggregation_id_and_storage_policies ps = Some (agg, sps) <->
  exists l, Forall2 (fun pb p => new_policy_from_proto pb = Some p) ps l /\ legacy_policies l agg sps.
Proof.
  rewrite legacy_policies_iff. split; intros (l & F & H); exists l; (split; [|exact H]); clear H.
  - induction F as [|pb p ps l (q & -> & E1 & E2) _ IH]; constructor; auto.
    unfold new_policy_from_proto. rewrite E1, E2. now destruct p.
  - induction F as [|pb p ps l E _ IH]; constructor; auto. destruct pb as [q|]; [|discriminate]. exists q. split; auto.
    unfold new_policy_from_proto in E. destruct (new_sp_from_proto (pp_storage q)) as [x|]; [|discriminate].
    destruct (id_from_proto_types (pp_types q)) as [id e]. destruct e; [discriminate|]. injection E as <-. auto.
Qed.
Print Assumptions C62_legacy_policies.

(** A legacy rollup target is a single rollup, its tags sorted. *)
Theorem C62_legacy_target t tg : target_from_v1 (Some t) = Some tg <->
  exists l agg tags, Forall2 (fun pb p => new_policy_from_proto pb = Some p) (t1p_policies t) l /\
    legacy_policies l agg (tg_sps tg) /\
    Permutation tags (t1p_tags t) /\ StronglySorted (fun x y => bleb x y = true) tags /\
    tg_pipeline tg = [{| op_kind := RollupOp; op_agg := 0; op_tf := 0;
                         op_rollup := {| ro_name := t1p_name t; ro_tags := tags; ro_agg := agg |} |}].
Proof.
  unfold target_from_v1.
  assert (S0 : Permutation (t1p_tags t) (sort_strings (t1p_tags t)) /\ StronglySorted (fun x y => bleb x y = true) (sort_strings (t1p_tags t))).
  { split; [apply isort_perm|apply isort_sorted; [apply bleb_total|apply bleb_trans]]. }
  split.
  - destruct (to_aggregation_id_and_storage_policies (t1p_policies t)) as [[agg sps]|] eqn:E; [|discriminate].
    intros H. injection H as <-. apply C62_legacy_policies in E as (l & F & L). exists l, agg, (sort_strings (t1p_tags t)).
    split; [exact F|]. split; [exact L|]. split; [symmetry; apply S0|]. split; [apply S0|reflexivity].
  - intros (l & agg & tags & F & L & P & S & E). rewrite (proj2 (C62_legacy_policies _ agg (tg_sps tg)) (ex_intro _ l (conj F L))).
    f_equal. destruct tg as [p sps]. cbn in *. subst p. f_equal. f_equal. f_equal. f_equal.
    apply (sorted_perm_unique bleb); [intros x; destruct (bleb_total x x); auto|intros x y _ _; apply bleb_antisym|apply S0|exact S|].
    transitivity (t1p_tags t); [symmetry; apply S0|now symmetry].
Qed.
Print Assumptions C62_legacy_target.

Example C62_nonvacuous :
  let pb w := Some {| pp_storage := Some {| spp_resolution := Some {| rp_window := w; rp_precision := 1000000000 |}; spp_retention := Some 1 |};
                      pp_types := [6; 7] |} in
  to_aggregation_id_and_storage_policies [pb 3; pb 1; pb 3] = Some (192%N, [sp 1 1; sp 3 1]) /\
  to_aggregation_id_and_storage_policies [pb 3; Some {| pp_storage := Some {| spp_resolution := Some {| rp_window := 1; rp_precision := 1000000000 |};
      spp_retention := Some 1 |}; pp_types := [] |}] = None.
Proof. cbv zeta. split; vm_compute; reflexivity. Qed.
