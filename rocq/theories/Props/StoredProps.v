(** C79: exactly the stored rule sets with a meaning are accepted, and are read as what they say.  Stated with the
    vocabulary of [Spec/StoredSpec.v], and for bytes with that of [Spec/WireMeaningSpec.v]. *)
From Coq Require Import Ascii String Arith NArith ZArith Bool Lia Permutation Sorting.Sorted List.
From Verif.Base Require Import Bytes BytesFacts.
From Verif.Props Require Import RuleSetProtoProps WireMeaningProps.
From Verif.Proof Require Import ReadTypedProof StoredProof.
From Verif.Spec Require Import WireSpec WireMeaningSpec.
From Verif.Model Require Import AggType Policy Transformation Pipeline Metadata Filter MetricID Rules RuleSet RuleSetProto
  Namespace ProtoWire RuleWire.
From Verif.Spec Require Import AggSpec PolicySpec MetadataSpec RuleSetProtoSpec RuleWireSpec ProtoStreamSpec StoredSpec.
Import ListNotations.
Open Scope Z_scope.

(** A rule set message is accepted exactly if it stands for a rule set, and gives that one. *)
Theorem C79_message v o m rs : drops_fit m -> (rule_set_from_proto v m o = Some rs <-> rule_set_means v o m rs).
Proof. exact (rule_set_means_iff v o m rs). Qed.
Print Assumptions C79_message.

(** No message stands for two rule sets. *)
Theorem C79_one_meaning v o m rs rs' : drops_fit m -> rule_set_means v o m rs -> rule_set_means v o m rs' -> rs = rs'.
Proof. intros D M M'. apply rule_set_means_iff in M, M'; auto. congruence. Qed.
Print Assumptions C79_one_meaning.

(** The same from the stored bytes: they are read by the protobuf encoding guide, and what they say is taken as above. *)
Theorem C79_bytes v o d rs : no_overflow d ->
  ((exists m, unmarshal_rule_set d = Ok m /\ rule_set_from_proto v (Some m) o = Some rs) <->
   exists m, reads RuleSet_ d m /\ rule_set_means v o (Some m) rs).
Proof.
  intros N.
  assert (D : forall m, unmarshal_rule_set d = Ok m -> drops_fit (Some m)).
  { intros m U. apply read_rule_set_typed in U as (_ & _ & _ & T & _). intros x r y s E I J ->. injection E as <-.
    unfold each in T. rewrite Forall_forall in T. destruct (T _ I) as (r' & E & T'). injection E as <-.
    unfold rule_typed, each in T'. rewrite Forall_forall in T'. destruct (T' _ J) as (s' & E & T''). injection E as <-.
    exact (proj2 (proj2 (proj2 (proj2 (proj2 T''))))). }
  split; intros (m & E & H); exists m.
  - split; [now apply C73_rule_set|]. apply rule_set_means_iff; auto.
  - apply C73_rule_set in E; [|exact N]. split; [exact E|]. apply rule_set_means_iff; auto.
Qed.
Print Assumptions C79_bytes.

(** Namespaces: accepted as they are, unless an element is missing. *)
Theorem C79_namespaces v m x : new_namespaces v m = Some x <->
  exists l, m = Some l /\ nsx_version x = v /\
    Forall2 (fun n n' => exists y, n = Some y /\ ns_name n' = nsp_name y /\
      Forall2 (fun s s' => s = Some (mk_nssp (nss_version s') (nss_tomb s') (nss_at s') (nss_by s'))) (nsp_snapshots y) (ns_snapshots n'))
    l (nsx_list x).
Proof. exact (namespaces_mean_iff v m x). Qed.
Print Assumptions C79_namespaces.

(** a legacy rollup rule, and a mapping rule with two snapshots, the second a drop rule *)
Definition an_sp (w t : Z) : option sp_pb :=
  Some {| spp_resolution := Some {| rp_window := w; rp_precision := 10 ^ 9 |}; spp_retention := Some t |}.
Definition a_pol (w t : Z) (types : list Z) : option policy_pb := Some {| pp_storage := an_sp w t; pp_types := types |}.
Definition a_message (code : Z) : option rule_set_pb := Some (mk_rsetp (B "s") (B "ns") 1 2 false 3
  [Some (mk_rp (B "m") [Some (mk_msp (B "m") false 10 (B "env:prod") [] 4 (B "me") [6; 2] [an_sp 10 60] 0);
                        Some (mk_msp (B "m") false 20 (B "env:prod") [] 5 (B "me") [] [] code)])]
  [Some (mk_rp (B "r") [Some (mk_rsp (B "r") false 10 (B "env:prod") [Some (mk_t1p (B "roll") [B "b"; B "a"] [a_pol 60 3600 [6]; a_pol 10 60 [6]])] 6 (B "me") [])])]
  (B "me")).
Example C79_nonvacuous :
  drops_fit (a_message 1) /\ (exists rs, rule_set_means 7 ropts (a_message 1) rs) /\
  option_map (fun rs => (map (fun r => map (fun s => (mb_agg (sn_body s), mb_sps (sn_body s), mb_drop (sn_body s))) (ru_snapshots r)) (rs_mapping rs),
                         map (fun r => map (fun s => map tg_pipeline (sn_body s)) (ru_snapshots r)) (rs_rollup rs)))
    (rule_set_from_proto 7 (a_message 1) ropts) =
  Some ([[(68%N, [{| sp_resolution := {| r_window := 10; r_precision := 1 |}; sp_retention := 60 |}], 0); (0%N, [], 1)]],
        [[[[rollup_of (B "roll") [B "a"; B "b"] 64%N]]]]) /\
  (forall rs, ~ rule_set_means 7 ropts (a_message 0) rs) /\ (forall rs, ~ rule_set_means 7 ropts (a_message 3) rs).
Proof.
  assert (D : forall c, 0 <= c <= 3 -> drops_fit (a_message c)).
  { intros c Hc x r y s E I J Es. injection E as <-. cbn in I. destruct I as [E|[]]. injection E as <-. cbn in J.
    destruct J as [E|[E|[]]]; rewrite Es in E; injection E as <-; cbn; lia. }
  split; [apply D; lia|]. split; [|split; [vm_compute; reflexivity|split]].
  - destruct (rule_set_from_proto 7 (a_message 1) ropts) as [rs|] eqn:E; [|vm_compute in E; discriminate].
    exists rs. apply C79_message; [apply D; lia|exact E].
  - intros rs H. apply C79_message in H; [|apply D; lia]. vm_compute in H. discriminate.
  - intros rs H. apply C79_message in H; [|apply D; lia]. vm_compute in H. discriminate.
Qed.
