(** C73: the bytes of a protobuf message are read as the protobuf encoding guide says. *)
From Coq Require Import Ascii String NArith ZArith Bool Arith Lia List.
From Verif.Base Require Import Bytes BytesFacts.
From Verif.Proof Require Import ProtoWireProof MessagesProof ProtoSafeProof WireProof WireMeaning WireMeaningFields
  WireMeaningParts WireMeaningMessages.
From Verif.Model Require Import Policy Transformation Pipeline Metadata Rules RuleSetProto Namespace ProtoWire Messages
  RuleWire.
From Verif.Spec Require Import ProtoStreamSpec WireSpec WireMeaningSpec.
Import ListNotations.
Local Open Scope Z_scope.

Lemma overflow_small d : no_overflow d -> 8 <= 2 ^ 63 - 1 - zlen d /\ small (2 ^ 63 - 1 - zlen d) d.
Proof. intros (L & N). split; [lia|]. intros p s v r E D. specialize (N p s v r E D). lia. Qed.

(** A rule set is accepted exactly if its bytes are those of one, and is then the one that they say. *)
Theorem C73_rule_set d m : no_overflow d -> (unmarshal_rule_set d = Ok m <-> reads RuleSet_ d m).
Proof.
  intros No. destruct (overflow_small d No) as [V8 Sm]. split.
  - intros U. apply (ok_reads RuleSet_ rule_set_fields rule_set_parts zero_rule_set_pb (2 ^ 63 - 1 - zlen d) d m good_rule_set meant_rule_set V8 Sm); [lia|exact U].
  - intros R. destruct No as [L _]. apply (reads_ok RuleSet_ rule_set_fields rule_set_parts zero_rule_set_pb d m good_rule_set meant_rule_set); [lia|exact R].
Qed.
Print Assumptions C73_rule_set.

(** So are the namespaces. *)
Theorem C73_namespaces d m : no_overflow d -> (unmarshal_namespaces d = Ok m <-> reads Namespaces_ d m).
Proof.
  intros No. destruct (overflow_small d No) as [V8 Sm]. split.
  - intros U. apply (ok_reads Namespaces_ namespaces_fields namespaces_parts [] (2 ^ 63 - 1 - zlen d) d m good_namespaces meant_namespaces V8 Sm); [lia|exact U].
  - intros R. destruct No as [L _]. apply (reads_ok Namespaces_ namespaces_fields namespaces_parts [] d m good_namespaces meant_namespaces); [lia|exact R].
Qed.
Print Assumptions C73_namespaces.

(** And the message of a stream. *)
Theorem C73_metric d m : no_overflow d -> (unmarshal mm_fields d zero_mm = Ok m <-> reads MetricWithMetadatas_ d m).
Proof.
  intros No. destruct (overflow_small d No) as [V8 Sm]. split.
  - intros U. apply (ok_reads MetricWithMetadatas_ mm_fields mm_parts zero_mm (2 ^ 63 - 1 - zlen d) d m good_mm meant_mm V8 Sm); [lia|exact U].
  - intros R. destruct No as [L _]. apply (reads_ok MetricWithMetadatas_ mm_fields mm_parts zero_mm d m good_mm meant_mm); [lia|exact R].
Qed.
Print Assumptions C73_metric.

(** When the message read before is used again, as the stream iterator does, the same bytes are accepted and the members
    the bytes have are the same; a member they do not have is left out or empty. *)
Theorem C73_metric_reused d old m' : no_overflow d ->
  (unmarshal mm_fields d (reset_mm old) = Ok m' <-> exists m, reads MetricWithMetadatas_ d m /\ mm_type m' = mm_type m /\
    mm_counter m' = or_reset zero_cm_pb (mm_counter old) (mm_counter m) /\
    mm_timer m' = or_reset zero_bm_pb (mm_timer old) (mm_timer m) /\
    mm_gauge m' = or_reset zero_gm_pb (mm_gauge old) (mm_gauge m) /\
    mm_forwarded m' = or_reset zero_fwm_pb (mm_forwarded old) (mm_forwarded m) /\
    mm_timed m' = or_reset zero_tdm_pb (mm_timed old) (mm_timed m)).
Proof.
  intros No. destruct (overflow_small d No) as [V8 Sm]. destruct No as [L _]. destruct good_mm as [F Nd]. pose proof (proj1 meant_mm) as Et. split.
  - intros U. apply (unmarshal_means mm_fields mm_parts (2 ^ 63 - 1 - zlen d) d _ m' F V8 Sm ltac:(lia)) in U as (l & P & R).
    apply (runs_mm_reset l old m' (parsed_typed _ _ _ P)) in R as (m & Me & ->). exists m. split; [exists l; split; [rewrite Et; exact P|exact Me]|].
    cbn [mm_type mm_counter mm_timer mm_gauge mm_forwarded mm_timed]. auto 10.
  - intros (m & (l & P & Me) & E1 & E2 & E3 & E4 & E5 & E6). rewrite Et in P.
    apply (unmarshal_writes mm_fields mm_parts d l _ m' F Nd P); [|lia]. apply (runs_mm_reset l old m' (parsed_typed _ _ _ P)).
    exists m. split; [exact Me|]. destruct m' as [a1 a2 a3 a4 a5 a6].
    cbn [mm_type mm_counter mm_timer mm_gauge mm_forwarded mm_timed] in E1, E2, E3, E4, E5, E6. congruence.
Qed.
Print Assumptions C73_metric_reused.

(** Bytes that say something are accepted whatever numbers they hold. *)
Theorem C73_accepted : forall d, zlen d < 2 ^ 63 ->
  (forall m, reads RuleSet_ d m -> unmarshal_rule_set d = Ok m) /\
  (forall m, reads Namespaces_ d m -> unmarshal_namespaces d = Ok m) /\
  (forall m, reads MetricWithMetadatas_ d m -> unmarshal mm_fields d zero_mm = Ok m).
Proof.
  intros d L. split; [|split]; intros m R.
  - exact (reads_ok RuleSet_ rule_set_fields rule_set_parts zero_rule_set_pb d m good_rule_set meant_rule_set L R).
  - exact (reads_ok Namespaces_ namespaces_fields namespaces_parts [] d m good_namespaces meant_namespaces L R).
  - exact (reads_ok MetricWithMetadatas_ mm_fields mm_parts zero_mm d m good_mm meant_mm L R).
Qed.
Print Assumptions C73_accepted.

(** Bytes do not say two things. *)
Theorem C73_unambiguous : forall d, zlen d < 2 ^ 63 ->
  (forall m m', reads RuleSet_ d m -> reads RuleSet_ d m' -> m = m') /\
  (forall m m', reads Namespaces_ d m -> reads Namespaces_ d m' -> m = m') /\
  (forall m m', reads MetricWithMetadatas_ d m -> reads MetricWithMetadatas_ d m' -> m = m').
Proof.
  intros d L. destruct (C73_accepted d L) as (A1 & A2 & A3). split; [|split]; intros m m' R R'.
  - apply A1 in R, R'. congruence.
  - apply A2 in R, R'. congruence.
  - apply A3 in R, R'. congruence.
Qed.
Print Assumptions C73_unambiguous.

(** * Examples *)

(** A rule set whose namespace is given twice, with an unknown group, a mapping rule with a storage policy in two pieces
    (the resolution in one, the retention in the other, of which the precision is given twice) and aggregation types packed
    and not, and a cutover time written with more bytes than needed. *)
Definition ex_bytes (l : list Z) : bytes := map zb l.
Definition ex_policy : bytes := ex_bytes [10; 6; 10; 4; 8; 5; 16; 1] ++ ex_bytes [16; 3] ++ ex_bytes [10; 8; 10; 2; 16; 7; 18; 2; 8; 9]
  ++ ex_bytes [18; 2; 4; 5].
Definition ex_snapshot : bytes := ex_bytes [42; zlen ex_policy] ++ ex_policy ++ ex_bytes [66; 2; 1; 2; 64; 3; 16; 200; 1].
Definition ex_rule : bytes := ex_bytes [10; 1; 97; 18; zlen ex_snapshot] ++ ex_snapshot.
Definition ex_rule_set : bytes := ex_bytes [18; 1; 110] ++ ex_bytes [99; 8; 1; 107; 18; 0; 108; 100] ++ ex_bytes [48; 133; 128; 0]
  ++ ex_bytes [18; 2; 110; 115] ++ ex_bytes [58; zlen ex_rule] ++ ex_rule.
Definition ex_rule_set_pb : rule_set_pb :=
  mk_rsetp [] (B "ns") 0 0 false 5
    [Some (mk_rp (B "a") [Some (mk_msp [] true 0 []
       [Some {| pp_storage := Some {| spp_resolution := Some {| rp_window := 5; rp_precision := 7 |}; spp_retention := Some 9 |};
                pp_types := [3; 4; 5] |}] 0 [] [1; 2; 3] [] 0)])] [] [].

Example C73_nonvacuous : no_overflow ex_rule_set /\ unmarshal_rule_set ex_rule_set = Ok ex_rule_set_pb /\
  reads RuleSet_ ex_rule_set ex_rule_set_pb.
Proof.
  assert (no_overflow ex_rule_set) as No by (apply no_overflow_check; vm_compute; reflexivity).
  assert (unmarshal_rule_set ex_rule_set = Ok ex_rule_set_pb) as U by (vm_compute; reflexivity).
  split; [exact No|]. split; [exact U|]. apply C73_rule_set; assumption.
Qed.

(** A batch timer in two pieces, its values packed and not. *)
Definition ex_timer : bytes := ex_bytes [8; 2; 26; 12; 10; 10; 10; 1; 97; 18; 0; 10; 3; 98; 99; 100]
  ++ ex_bytes [26; 11; 10; 9; 17; 1; 0; 0; 0; 0; 0; 0; 128].
Example C73_metric_nonvacuous : exists m, no_overflow ex_timer /\ reads MetricWithMetadatas_ ex_timer m /\
  mm_timer m = Some (mk_bm_pb (mk_timer_pb (B "bcd") [2 ^ 63 + 1]) []).
Proof.
  assert (no_overflow ex_timer) as No by (apply no_overflow_check; vm_compute; reflexivity).
  eexists. split; [exact No|]. split; [apply (C73_metric _ _ No); vm_compute; reflexivity|]. vm_compute. reflexivity.
Qed.

(** The condition on the numbers is needed: bytes announcing a packed list of 2 ^ 63 - 1 bytes, none of which is there,
    are accepted as an empty list, although they do not say anything. *)
Definition ex_overflow : bytes := ex_bytes [18; 255; 255; 255; 255; 255; 255; 255; 255; 127].
Theorem C73_overflow_accepted : unmarshal timer_fields ex_overflow zero_timer_pb = Ok zero_timer_pb /\
  forall m, ~ reads BatchTimer_ ex_overflow m.
Proof.
  split; [vm_compute; reflexivity|]. intros m (l & P & _). inversion P as [E|t n wt k v it d l' T N S H P' E|t n wt v d l' T N S H P' E].
  - destruct T as (x & V & Wt & Nn).
    assert (dec_varint ex_overflow = Ok (x, v ++ d)) as D by (apply dec_varint_iff; exists t; split; [symmetry; exact E|exact V]).
    assert (dec_varint ex_overflow = Ok (18, ex_bytes [255; 255; 255; 255; 255; 255; 255; 255; 127])) as D' by (vm_compute; reflexivity).
    rewrite D' in D. injection D as <- Er. assert (n = 2) as En by (subst n; vm_compute; reflexivity). assert (wt = 2) as Ew by (subst wt; vm_compute; reflexivity).
    subst n wt. clear D'. rewrite En in S. cbn in S. injection S as <-. rewrite Ew in H.
    inversion H as [|?|?|?|p y e vs (z & Vz & -> & Lt) (ds & -> & _ & Le & _)|?|?]; subst v.
    assert (dec_varint (ex_bytes [255; 255; 255; 255; 255; 255; 255; 255; 127]) = Ok (z, concat ds ++ d)) as Dz by
      (apply dec_varint_iff; exists p; split; [rewrite app_assoc; exact Er|exact Vz]).
    assert (dec_varint (ex_bytes [255; 255; 255; 255; 255; 255; 255; 255; 127]) = Ok (2 ^ 63 - 1, [])) as Dz' by (vm_compute; reflexivity).
    rewrite Dz' in Dz. injection Dz as Ez Ed. symmetry in Ed. apply app_eq_nil in Ed as [Ed _]. rewrite Ed, <- Ez in Le.
    revert Le. vm_compute. congruence.
  - destruct T as (x & V & Wt & Nn).
    assert (dec_varint ex_overflow = Ok (x, v ++ d)) as D by (apply dec_varint_iff; exists t; split; [symmetry; exact E|exact V]).
    assert (dec_varint ex_overflow = Ok (18, ex_bytes [255; 255; 255; 255; 255; 255; 255; 255; 127])) as D' by (vm_compute; reflexivity).
    rewrite D' in D. injection D as <- _. assert (n = 2) as En by (subst n; vm_compute; reflexivity). rewrite En in S. discriminate S.
Qed.
Print Assumptions C73_overflow_accepted.
