(** C65: the bytes that rule sets and namespaces are stored as.  Stated with the vocabulary of
    [Spec/RuleWireSpec.v] and, for what a stored rule set reads back as, [Spec/RuleSetProtoSpec.v]. *)
From Coq Require Import Ascii String Arith NArith ZArith Bool Lia List.
From Verif.Base Require Import Bytes BytesFacts.
From Verif.Proof Require Import ProtoWireProof ProtoSafeProof RuleWireProof StoreEditProof NamespaceProof.
From Verif.Model Require Import AggType Policy Transformation Pipeline Metadata Filter MetricID Rules RuleSet RuleSetProto
  Namespace ProtoWire RuleWire.
From Verif.Spec Require Import AggSpec PolicySpec MetadataSpec FilterSpec RulesSpec EditSpec RuleSetProtoSpec NamespaceSpec
  ProtoStreamSpec RuleWireSpec.
From Verif.Props Require Import RulesProps EditProps RuleSetProtoProps NamespaceProps.
Import ListNotations.
Open Scope Z_scope.

(** A rule set that can be stored is turned into bytes, and from those bytes read back. *)
Theorem C65_rule_set v o rs : storable o rs -> numbers_fit rs ->
  exists pb d, rule_set_proto rs = Some pb /\ marshal_rule_set pb = Ok d /\
    (zlen d < 2 ^ 63 -> exists pb' rs', unmarshal_rule_set d = Ok pb' /\
       rule_set_from_proto v (Some pb') o = Some rs' /\ read_back v o rs rs').
Proof.
  intros S N. destruct (storable_reads v o rs S) as (pb & rs' & E1 & E2 & R). exists pb, (marshal rule_set_fields pb).
  pose proof (rule_set_proto_typed rs pb N E1) as T. split; [exact E1|]. split.
  - apply marshal_rule_set_ok. refine (rule_set_typed_mono _ _ _ _ T). unfold code_ok, int32. lia.
  - intros L. exists pb, rs'. split; [exact (proj2 (rw_rule_set pb T) L)|]. split; [exact E2|exact R].
Qed.
Print Assumptions C65_rule_set.

(** The same after any edits of a storable rule set, as long as the edits write storable content. *)
Theorem C65_edited v o rs es : storable o rs -> Forall (fun em => content_ok (fst em)) es -> numbers_fit (run_edits rs es) ->
  exists pb d, rule_set_proto (run_edits rs es) = Some pb /\ marshal_rule_set pb = Ok d /\
    (zlen d < 2 ^ 63 -> exists pb' rs', unmarshal_rule_set d = Ok pb' /\
       rule_set_from_proto v (Some pb') o = Some rs' /\ read_back v o (run_edits rs es) rs').
Proof. intros S C N. apply C65_rule_set; [|exact N]. now apply run_edits_storable. Qed.
Print Assumptions C65_edited.

(** Every message, in the current or the legacy form, whose aggregation types are not negative. *)
Theorem C65_message pb : rule_set_typed code_ok pb ->
  exists d, marshal_rule_set pb = Ok d /\ (zlen d < 2 ^ 63 -> unmarshal_rule_set d = Ok pb).
Proof.
  intros T. exists (marshal rule_set_fields pb). split; [|exact (proj2 (rw_rule_set pb T))].
  apply marshal_rule_set_ok. refine (rule_set_typed_mono _ _ _ _ T). unfold code_ok, int32. lia.
Qed.
Print Assumptions C65_message.

(** Writing fails for no message without nil elements, negative codes included. *)
Theorem C65_writes pb : rule_set_typed int32 pb -> exists d, marshal_rule_set pb = Ok d.
Proof. intros T. eexists. exact (marshal_rule_set_ok pb T). Qed.
Print Assumptions C65_writes.

(** Writing a message with a nil element anywhere panics. *)
Theorem C65_nil pb : rule_set_has_nil pb -> marshal_rule_set pb = Panic.
Proof.
  intros H. unfold marshal_rule_set, marshal_checked.
  destruct (rule_set_no_nil pb) eqn:E; [apply rule_set_no_nil_iff in E; contradiction|reflexivity].
Qed.
Print Assumptions C65_nil.

Theorem C65_namespaces_nil pb : namespaces_has_nil pb -> marshal_namespaces pb = Panic.
Proof.
  intros H. unfold marshal_namespaces, marshal_checked.
  destruct (namespaces_no_nil pb) eqn:E; [apply namespaces_no_nil_iff in E; contradiction|reflexivity].
Qed.
Print Assumptions C65_namespaces_nil.

(** Namespaces: what is read back has each version cut to 32 bits. *)
Theorem C65_namespaces v x : ns_times_fit x ->
  exists d, marshal_namespaces (namespaces_proto x) = Ok d /\
    (zlen d < 2 ^ 63 -> exists pb, unmarshal_namespaces d = Ok pb /\
       new_namespaces v (Some pb) = Some (mk_nsx v (map (fun n => mk_ns (ns_name n)
         (map (fun s => mk_nss (to_int32 (nss_version s)) (nss_tomb s) (nss_at s) (nss_by s)) (ns_snapshots n))) (nsx_list x)))).
Proof.
  intros N. pose proof (namespaces_proto_typed x N) as T. exists (marshal namespaces_fields (namespaces_proto x)).
  split; [exact (marshal_namespaces_ok _ T)|]. intros L. exists (namespaces_proto x).
  split; [exact (proj2 (rw_namespaces _ T) L)|exact (namespaces_proto_trunc v x)].
Qed.
Print Assumptions C65_namespaces.

Theorem C65_namespaces_message pb : namespaces_typed pb ->
  exists d, marshal_namespaces pb = Ok d /\ (zlen d < 2 ^ 63 -> unmarshal_namespaces d = Ok pb).
Proof.
  intros T. exists (marshal namespaces_fields pb). split; [exact (marshal_namespaces_ok _ T)|exact (proj2 (rw_namespaces _ T))].
Qed.
Print Assumptions C65_namespaces_message.

(** Reading any bytes at all, damaged or hostile, gives a message or an error but no panic, as long as no length in
    them is close to 2^63. *)
Theorem C65_any_bytes d : no_overflow d -> unmarshal_rule_set d <> Panic /\ unmarshal_namespaces d <> Panic.
Proof.
  intros (Len & No).
  assert (small (2 ^ 63 - 1 - zlen d) d) as Sm by (intros q s v r Eq D; specialize (No q s v r Eq D); lia).
  split; apply (unmarshal_safe _ (2 ^ 63 - 1 - zlen d)); auto; try lia; [exact safe_rule_set|exact safe_namespaces].
Qed.
Print Assumptions C65_any_bytes.

(** A decision procedure for the example below. *)
Definition int64b (z : Z) : bool := (- 2 ^ 63 <=? z) && (z <? 2 ^ 63).
Definition sp_fitsb (p : storage_policy) : bool := int64b (r_window (sp_resolution p)) && int64b (sp_retention p).
Definition numbers_fitb (rs : rule_set) : bool :=
  int64b (rs_created_at rs) && int64b (rs_updated_at rs) && int64b (rs_cutover rs) &&
  forallb (fun r => forallb (fun s => int64b (sn_cutover s) && int64b (sn_at s) && forallb sp_fitsb (mb_sps (sn_body s))) (ru_snapshots r)) (rs_mapping rs) &&
  forallb (fun r => forallb (fun s => int64b (sn_cutover s) && int64b (sn_at s) && forallb (fun t => forallb sp_fitsb (tg_sps t)) (sn_body s)) (ru_snapshots r)) (rs_rollup rs).
Lemma numbers_fitb_ok rs : numbers_fitb rs = true -> numbers_fit rs.
Proof.
  assert (I : forall z, int64b z = true -> int64 z).
  { intros z H. apply andb_prop in H as [H1 H2]. apply Z.leb_le in H1. apply Z.ltb_lt in H2. split; assumption. }
  assert (P : forall l, forallb sp_fitsb l = true -> Forall sp_fits l).
  { intros l H. rewrite forallb_forall in H. apply Forall_forall. intros p Hp. apply H, andb_prop in Hp as [H1 H2]. split; auto. }
  intros H. unfold numbers_fitb in H. repeat lazymatch type of H with _ && _ = true => apply andb_prop in H as [H ?] end. repeat match goal with K : forallb _ _ = true |- _ => rewrite forallb_forall in K end.
  split; [auto|]. split; [auto|]. split; [auto|]. split; intros r s Hr Hs.
  - match goal with K : forall x, In x (rs_mapping rs) -> _ |- _ => specialize (K r Hr); rewrite forallb_forall in K; specialize (K s Hs) end.
    repeat match goal with K : _ && _ = true |- _ => apply andb_prop in K as [? ?] end. split; [auto|]. split; [auto|]. now apply P.
  - match goal with K : forall x, In x (rs_rollup rs) -> _ |- _ => specialize (K r Hr); rewrite forallb_forall in K; specialize (K s Hs) end.
    repeat match goal with K : _ && _ = true |- _ => apply andb_prop in K as [? ?] end. split; [auto|]. split; [auto|].
    apply Forall_forall. intros t Ht. apply P. match goal with K : forallb _ (sn_body s) = true |- _ => rewrite forallb_forall in K; auto end.
Qed.

Definition legacy_pb : rule_set_pb :=
  mk_rsetp (B "id") (B "ns") 1 (-2) true 3
    [Some (mk_rp (B "m") [Some (mk_msp (B "a") true 7 (B "x:y")
       [Some {| pp_storage := Some {| spp_resolution := Some {| rp_window := 10; rp_precision := 1 |}; spp_retention := None |};
                pp_types := [6; 300] |}] 8 (B "me") [22; 0; 2 ^ 31 - 1] [] 1)])]
    [Some (mk_rp (B "r") [Some (mk_rsp [] false 0 [] [Some (mk_t1p (B "t") [B "a"; []] [])] 0 []
       [Some (mk_t2p (Some [{| opp_type := 3; opp_agg := None; opp_tf := None;
          opp_rollup := Some {| rop_name := B "n"; rop_tags := []; rop_types := [1] |} |}]) [])])])] (B "you").

Example C65_nonvacuous :
  numbers_fit after_session /\ storable ropts after_session /\ rule_set_typed code_ok legacy_pb /\
  match marshal_rule_set legacy_pb with Ok d => Some (length d) | _ => None end = Some 114%nat /\
  match rule_set_proto after_session with
  | Some pb => match marshal_rule_set pb with Ok d => Some (length d) | _ => None end
  | None => None
  end = Some 235%nat.
Proof.
  split; [|split; [|split; [|split]]].
  - apply numbers_fitb_ok. vm_compute. reflexivity.
  - destruct C36_nonvacuous as (S0 & C0 & _). unfold after_session. now apply run_edits_storable.
  - repeat split; try (cbn; lia); repeat (constructor || (eexists; split; [reflexivity|])); cbn; unfold int64, code_ok; try lia.
  - vm_compute. reflexivity.
  - vm_compute. reflexivity.
Qed.

(** The conditions matter.  A negative aggregation type is written as one byte although ten are announced for it, so the
    bytes of an enclosing message cannot be read; a nil element makes writing panic; a length near 2^63 makes reading
    panic. *)
Example C65_negative_code :
  let pb := mk_rsetp [] [] 0 0 false 0 [Some (mk_rp [] [Some (mk_msp [] false 0 [] [] 0 [] [-1] [] 0)])] [] [] in
  match marshal_rule_set pb with Ok d => match unmarshal_rule_set d with Err => true | _ => false end | _ => false end = true.
Proof. vm_compute. reflexivity. Qed.
Example C65_nil_element : marshal_rule_set (mk_rsetp [] [] 0 0 false 0 [None] [] []) = Panic.
Proof. reflexivity. Qed.
Example C65_overflow :
  match unmarshal_rule_set (map zb [10; 255; 255; 255; 255; 255; 255; 255; 255; 127]) with Panic => true | _ => false end = true.
Proof. vm_compute. reflexivity. Qed.

(** a nil storage policy in the only snapshot of the only mapping rule *)
Example C65_nil_nonvacuous :
  rule_set_has_nil (mk_rsetp [] [] 0 0 false 0
    [Some (mk_rp (B "u") [Some (mk_msp (B "m") false 0 (B "a:b") [] 0 [] [] [None] 0)])] [] []).
Proof.
  left. right. eexists. split; [left; reflexivity|]. right. eexists. split; [left; reflexivity|]. right. left. left. reflexivity.
Qed.
