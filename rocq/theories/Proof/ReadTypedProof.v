(** Whatever bytes a rule set or namespaces are read from, the message read has all its numbers within their types and
    no nil pointer in a list. *)
From Coq Require Import Ascii String NArith ZArith Bool Lia List.
From Verif.Base Require Import Bytes BytesFacts Slice.
From Verif.Model Require Import AggType Policy Transformation Pipeline Metadata Rules RuleSetProto Namespace ProtoWire
  Messages RuleWire.
From Verif.Spec Require Import RuleWireSpec.
From Verif.Proof Require Import ProtoWireProof MessagesProof ProtoPure ProtoSafeProof RuleWireProof.
Import ListNotations.
Local Open Scope Z_scope.

(** Reading a field keeps [P]. *)
Definition keeps {M} (P : M -> Prop) (f : field M) : Prop :=
  forall l wt d m m' rest, P m -> f_dec f l wt d m = Ok (m', rest) -> P m'.

Lemma unmarshal_loop_keeps {M} (P : M -> Prop) (fs : list (field M)) : Forall (keeps P) fs ->
  forall l fuel d m m', P m -> unmarshal_loop fs l fuel d m = Ok m' -> P m'.
Proof.
  intros F l. induction fuel as [|fuel IH]; intros d m m' H E; cbn [unmarshal_loop] in E.
  { destruct d; [now injection E as <-|discriminate]. }
  destruct d as [|b d]; [now injection E as <-|].
  destruct (dec_varint (b :: d)) as [[wire rest]| |]; cbn [bind] in E; try discriminate.
  destruct (wire mod 8 =? 4); [discriminate|]. destruct (_ <=? 0); [discriminate|].
  destruct (find_field fs _) as [f|] eqn:Ef.
  - unfold find_field in Ef. apply find_some in Ef as (Hin & _). rewrite Forall_forall in F.
    destruct (f_dec f l (wire mod 8) rest m) as [[m1 rest1]| |] eqn:Ed; cbn [bind] in E; try discriminate.
    exact (IH rest1 m1 m' (F f Hin _ _ _ _ _ _ H Ed) E).
  - destruct (skip_field _ _) as [n| |]; cbn [bind] in E; try discriminate.
    destruct (n <? 0); [discriminate|]. cbv zeta in E. destruct (l <? _); [discriminate|].
    destruct (_ <? 0); [discriminate|]. exact (IH _ m m' H E).
Qed.
Lemma unmarshal_keeps {M} (P : M -> Prop) (fs : list (field M)) d m m' : Forall (keeps P) fs -> P m ->
  unmarshal fs d m = Ok m' -> P m'.
Proof. intros F. exact (unmarshal_loop_keeps P fs F _ _ _ _ _). Qed.

Lemma keeps_varint {M} (P : M -> Prop) num conv get set :
  (forall v m, P m -> P (set (conv v) m)) -> keeps P (@varint_field M num conv get set).
Proof.
  intros H l wt d m m' rest Hm E. cbn [varint_field f_dec] in E. destruct (negb _); [discriminate|].
  destruct (dec_varint d) as [[v r]| |]; cbn [bind] in E; try discriminate. injection E as <- <-. auto.
Qed.
Lemma keeps_bytes {M} (P : M -> Prop) num get set :
  (forall v m, P m -> P (set v m)) -> keeps P (@bytes_field M num get set).
Proof.
  intros H l wt d m m' rest Hm E. cbn [bytes_field f_dec] in E. destruct (negb _); [discriminate|].
  destruct (dec_bytes l d) as [[v r]| |]; cbn [bind] in E; try discriminate. injection E as <- <-. auto.
Qed.
Lemma keeps_strings {M} (P : M -> Prop) num get set :
  (forall v m, P m -> P (set v m)) -> keeps P (@strings_field M num get set).
Proof.
  intros H l wt d m m' rest Hm E. cbn [strings_field f_dec] in E. destruct (negb _); [discriminate|].
  destruct (dec_bytes l d) as [[v r]| |]; cbn [bind] in E; try discriminate. injection E as <- <-. auto.
Qed.
Lemma dec_enums_keeps : forall fuel n d acc vs rest, Forall int32 acc -> dec_enums fuel n d acc = Ok (vs, rest) ->
  Forall int32 vs.
Proof.
  induction fuel as [|fuel IH]; intros n d acc vs rest F E; cbn [dec_enums] in E; destruct (n <=? 0);
    try discriminate; try (injection E as <- <-; exact F).
  destruct (dec_varint d) as [[v r]| |]; cbn [bind] in E; try discriminate. refine (IH _ _ _ _ _ _ E).
  apply Forall_app. split; [exact F|]. constructor; [apply to_int32_range|constructor].
Qed.
Lemma keeps_enums {M} (P : M -> Prop) num get set : (forall m, P m -> Forall int32 (get m)) ->
  (forall v m, P m -> Forall int32 v -> P (set v m)) -> keeps P (@enums_field M num get set).
Proof.
  intros G H l wt d m m' rest Hm E. cbn [enums_field f_dec] in E. destruct (wt =? 0).
  { destruct (dec_varint d) as [[v r]| |]; cbn [bind] in E; try discriminate. injection E as <- <-. apply H; [exact Hm|].
    apply Forall_app. split; [auto|]. constructor; [apply to_int32_range|constructor]. }
  destruct (wt =? 2); [|discriminate].
  destruct (dec_varint d) as [[v r]| |]; cbn [bind] in E; try discriminate. cbv zeta in E.
  destruct (_ <? 0); [discriminate|]. destruct (l <? _); [discriminate|].
  destruct (dec_enums _ _ _ _) as [[vs r2]| |] eqn:Ed; cbn [bind] in E; try discriminate. injection E as <- <-.
  apply H; [exact Hm|]. exact (dec_enums_keeps _ _ _ _ _ _ (G m Hm) Ed).
Qed.
Lemma dec_msg_keeps {S} (Q : S -> Prop) fs l wt d s s' rest : Forall (keeps Q) fs -> Q s ->
  dec_msg fs l wt d s = Ok (s', rest) -> Q s'.
Proof.
  intros F H E. unfold dec_msg in E. destruct (negb _); [discriminate|].
  destruct (dec_bytes l d) as [[v r]| |]; cbn [bind] in E; try discriminate.
  destruct (unmarshal fs v s) as [x| |] eqn:Eu; cbn [bind] in E; try discriminate. injection E as <- <-.
  exact (unmarshal_keeps Q fs v s x F H Eu).
Qed.
Lemma keeps_ptr {M S} (P : M -> Prop) (Q : S -> Prop) num fs zero get set : Forall (keeps Q) fs -> Q zero ->
  (forall m, P m -> if_set Q (get m)) -> (forall v m, P m -> Q v -> P (set (Some v) m)) ->
  keeps P (@ptr_field M S num fs zero get set).
Proof.
  intros F Z G H l wt d m m' rest Hm E. cbn [ptr_field f_dec] in E.
  destruct (dec_msg fs l wt d _) as [[s r]| |] eqn:Ed; cbn [bind] in E; try discriminate. injection E as <- <-.
  apply H; [exact Hm|]. refine (dec_msg_keeps Q fs _ _ _ _ _ _ F _ Ed). specialize (G m Hm). destruct (get m); auto.
Qed.
Lemma keeps_ptrs {M S} (P : M -> Prop) (Q : S -> Prop) num fs zero get set : Forall (keeps Q) fs -> Q zero ->
  (forall m, P m -> each Q (get m)) -> (forall v m, P m -> each Q v -> P (set v m)) ->
  keeps P (@ptrs_field M S num fs zero get set).
Proof.
  intros F Z G H l wt d m m' rest Hm E. cbn [ptrs_field f_dec] in E.
  destruct (dec_msg fs l wt d _) as [[s r]| |] eqn:Ed; cbn [bind] in E; try discriminate. injection E as <- <-.
  apply H; [exact Hm|]. apply Forall_app. split; [exact (G m Hm)|]. constructor; [|constructor].
  exists s. split; [reflexivity|]. exact (dec_msg_keeps Q fs _ _ _ _ _ _ F Z Ed).
Qed.
Lemma keeps_msgs {M S} (P : M -> Prop) (Q : S -> Prop) num fs zero get set : Forall (keeps Q) fs -> Q zero ->
  (forall m, P m -> Forall Q (get m)) -> (forall v m, P m -> Forall Q v -> P (set v m)) ->
  keeps P (@msgs_field M S num fs zero get set).
Proof.
  intros F Z G H l wt d m m' rest Hm E. cbn [msgs_field f_dec] in E.
  destruct (dec_msg fs l wt d _) as [[s r]| |] eqn:Ed; cbn [bind] in E; try discriminate. injection E as <- <-.
  apply H; [exact Hm|]. apply Forall_app. split; [exact (G m Hm)|]. constructor; [|constructor].
  exact (dec_msg_keeps Q fs _ _ _ _ _ _ F Z Ed).
Qed.

(** Closing the side conditions: the record's predicate is a conjunction of conditions on its fields. *)
Lemma int64_to v : int64 (to_int64 v).
Proof. exact (to_int64_range v). Qed.
Lemma int32_to v : int32 (to_int32 v).
Proof. exact (to_int32_range v). Qed.
Lemma int64_0 : int64 0. Proof. unfold int64. lia. Qed.
Lemma int32_0 : int32 0. Proof. unfold int32. lia. Qed.
Ltac zeros := repeat match goal with |- _ /\ _ => split end;
  first [exact int64_0 | exact int32_0 | exact Logic.I | apply Forall_nil].
Ltac typed_side u := intros; u;
  repeat match goal with H : _ /\ _ |- _ => destruct H end;
  cbn [if_set rp_window rp_precision spp_resolution spp_retention pp_storage pp_types rop_types opp_type opp_agg opp_tf opp_rollup
    msp_cutover msp_policies msp_at msp_types msp_sps msp_drop t1p_policies t2p_pipeline t2p_sps rsp_cutover rsp_targets
    rsp_at rsp_targets_v2 rp_snapshots rsetp_created rsetp_updated rsetp_cutover rsetp_mapping rsetp_rollup
    nssp_version nssp_at nsp_snapshots] in *;
  repeat match goal with |- _ /\ _ => split end;
  first [assumption | apply int64_to | apply int32_to | apply int64_0 | apply int32_0 | apply Forall_nil | exact Logic.I].
Ltac typed_field u := first
  [ apply keeps_varint; typed_side u | apply keeps_bytes; typed_side u | apply keeps_strings; typed_side u
  | apply keeps_enums; typed_side u
  | eapply keeps_ptr; [eassumption| | |]; typed_side u
  | eapply keeps_ptrs; [eassumption| | |]; typed_side u
  | eapply keeps_msgs; [eassumption| | |]; typed_side u ].
Ltac typed_fields u := repeat (apply Forall_cons; [typed_field u|]); apply Forall_nil.

Definition resolution_typed (r : resolution_pb) : Prop := int64 (rp_window r) /\ int64 (rp_precision r).
Lemma keeps_sp : Forall (keeps sp_typed) sp_fields /\ sp_typed empty_sp_pb.
Proof.
  assert (Forall (keeps resolution_typed) resolution_fields)
    by (unfold resolution_fields; typed_fields ltac:(unfold resolution_typed in * )).
  assert (Forall (keeps int64) retention_fields) by (unfold retention_fields; typed_fields idtac).
  assert (resolution_typed {| rp_window := 0; rp_precision := 0 |}) by (split; exact int64_0).
  change sp_typed with (fun m => if_set resolution_typed (spp_resolution m) /\ if_set int64 (spp_retention m)).
  split; [|split; exact Logic.I]. unfold sp_fields. typed_fields idtac.
Qed.
Lemma keeps_policy : Forall (keeps (policy_typed int32)) policy_fields /\ policy_typed int32 zero_policy_pb.
Proof.
  destruct keeps_sp. split; [|split; [exact Logic.I|constructor]].
  unfold policy_fields. typed_fields ltac:(unfold policy_typed in * ).
Qed.
Definition rollup_op_typed (r : rollup_op_pb) : Prop := Forall int32 (rop_types r).
Lemma keeps_op : Forall (keeps (op_typed int32)) op_fields /\ op_typed int32 zero_op_pb.
Proof.
  assert (Forall (keeps int32) agg_op_fields) by (unfold agg_op_fields; typed_fields idtac).
  assert (Forall (keeps int32) tf_fields) by (unfold tf_fields; typed_fields idtac).
  assert (Forall (keeps rollup_op_typed) rollup_op_fields)
    by (unfold rollup_op_fields; typed_fields ltac:(unfold rollup_op_typed in * )).
  assert (rollup_op_typed zero_rollup_op_pb) by constructor.
  change (op_typed int32) with (fun m => int32 (opp_type m) /\ if_set int32 (opp_agg m) /\ if_set int32 (opp_tf m) /\
    if_set rollup_op_typed (opp_rollup m)).
  split; [|zeros].
  unfold op_fields. typed_fields idtac.
Qed.
Lemma keeps_pipeline : Forall (keeps (Forall (op_typed int32))) pipeline_fields.
Proof. destruct keeps_op. unfold pipeline_fields. typed_fields idtac. Qed.
Lemma keeps_mapping_snapshot : Forall (keeps (mapping_snapshot_typed int32)) mapping_snapshot_fields /\
  mapping_snapshot_typed int32 zero_mapping_snapshot_pb.
Proof.
  destruct keeps_sp, keeps_policy.
  split; [|unfold mapping_snapshot_typed; zeros].
  unfold mapping_snapshot_fields. typed_fields ltac:(unfold mapping_snapshot_typed, each in * ).
Qed.
Lemma keeps_target_v1 : Forall (keeps (target_v1_typed int32)) target_v1_fields /\ target_v1_typed int32 zero_target_v1_pb.
Proof.
  destruct keeps_policy. split; [|constructor].
  unfold target_v1_fields. typed_fields ltac:(unfold target_v1_typed in * ).
Qed.
Lemma keeps_target_v2 : Forall (keeps (target_v2_typed int32)) target_v2_fields /\ target_v2_typed int32 zero_target_v2_pb.
Proof.
  destruct keeps_sp. pose proof keeps_pipeline. split; [|split; [exact Logic.I|constructor]].
  unfold target_v2_fields. typed_fields ltac:(unfold target_v2_typed in * ).
Qed.
Lemma keeps_rollup_snapshot : Forall (keeps (rollup_snapshot_typed int32)) rollup_snapshot_fields /\
  rollup_snapshot_typed int32 zero_rollup_snapshot_pb.
Proof.
  destruct keeps_target_v1, keeps_target_v2.
  split; [|unfold rollup_snapshot_typed; zeros].
  unfold rollup_snapshot_fields. typed_fields ltac:(unfold rollup_snapshot_typed in * ).
Qed.
Lemma keeps_rule {S} (Q : S -> Prop) fs zero : Forall (keeps Q) fs -> Q zero ->
  Forall (keeps (rule_typed Q)) (rule_fields fs zero) /\ rule_typed Q zero_rule_pb.
Proof. intros F Z. split; [|constructor]. unfold rule_fields. typed_fields ltac:(unfold rule_typed in * ). Qed.
Lemma keeps_rule_set : Forall (keeps (rule_set_typed int32)) rule_set_fields.
Proof.
  destruct keeps_mapping_snapshot as (K1 & Z1), keeps_rollup_snapshot as (K2 & Z2).
  destruct (keeps_rule _ _ _ K1 Z1), (keeps_rule _ _ _ K2 Z2). clear K1 K2 Z1 Z2.
  unfold rule_set_fields. typed_fields ltac:(unfold rule_set_typed in * ).
Qed.
Definition ns_snapshot_typed (s : ns_snapshot_pb) : Prop := int32 (nssp_version s) /\ int64 (nssp_at s).
Definition namespace_typed (n : namespace_pb) : Prop := each ns_snapshot_typed (nsp_snapshots n).
Lemma keeps_namespaces : Forall (keeps namespaces_typed) namespaces_fields.
Proof.
  assert (Forall (keeps ns_snapshot_typed) ns_snapshot_fields)
    by (unfold ns_snapshot_fields; typed_fields ltac:(unfold ns_snapshot_typed in * )).
  assert (ns_snapshot_typed zero_ns_snapshot_pb) by (split; [exact int32_0|exact int64_0]).
  assert (Forall (keeps namespace_typed) namespace_fields)
    by (unfold namespace_fields; typed_fields ltac:(unfold namespace_typed in * )).
  assert (namespace_typed zero_namespace_pb) by constructor.
  change namespaces_typed with (each namespace_typed). unfold namespaces_fields. typed_fields idtac.
Qed.

Theorem read_rule_set_typed d pb : unmarshal_rule_set d = Ok pb -> rule_set_typed int32 pb.
Proof. intros E. refine (unmarshal_keeps _ _ _ _ _ keeps_rule_set _ E). unfold rule_set_typed; zeros. Qed.
Theorem read_namespaces_typed d pb : unmarshal_namespaces d = Ok pb -> namespaces_typed pb.
Proof. intros E. refine (unmarshal_keeps _ _ _ _ _ keeps_namespaces _ E). apply Forall_nil. Qed.
