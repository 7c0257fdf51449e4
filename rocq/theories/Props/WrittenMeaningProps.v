(** C76: what is written means, in the words of the protobuf encoding guide, what was written. *)
From Coq Require Import Ascii String NArith ZArith Bool Arith Lia List.
From Verif.Base Require Import Bytes BytesFacts.
From Verif.Proof Require Import ProtoWireProof MessagesProof ProtoSafeProof RuleWireProof StoreEditProof ProtoFrameProof ProtoSystemProof WireProof
  WireWritten WireMeaning WireMeaningFields WireMeaningParts WireMeaningMessages WireMeaningWritten StreamMeaning StreamUnique.
From Verif.Spec Require Import WireSpec WireMeaningSpec.
From Verif.Model Require Import ProtoStream.
From Verif.Model Require Import AggType Policy Transformation Pipeline Metadata Rules RuleSet RuleSetProto Namespace ProtoWire Messages
  RuleWire.
From Verif.Spec Require Import PolicySpec MetadataSpec RuleSetProtoSpec RuleWireSpec ProtoStreamSpec StreamMeaningSpec.
From Verif.Props Require Import EditProps RuleSetProtoProps RuleWireProps ProtoStreamProps.
Import ListNotations.
Local Open Scope Z_scope.

(** A rule set that is written is in the bytes. *)
Theorem C76_message pb : rule_set_typed code_ok pb ->
  exists d, marshal_rule_set pb = Ok d /\ (zlen d < 2 ^ 63 -> WireMeaningSpec.reads RuleSet_ d pb).
Proof.
  intros T. exists (marshal rule_set_fields pb). split.
  - apply marshal_rule_set_ok. refine (rule_set_typed_mono _ _ _ _ T). unfold code_ok, int32. lia.
  - intros L. apply (written_reads RuleSet_ rule_set_fields rule_set_parts zero_rule_set_pb pb pb good_rule_set meant_rule_set (w_rule_set pb T) L).
    exact (proj2 (rw_rule_set pb T) L).
Qed.
Print Assumptions C76_message.

(** So is any rule set in memory that can be stored. *)
Theorem C76_rule_set o rs : storable o rs -> numbers_fit rs ->
  exists pb d, rule_set_proto rs = Some pb /\ marshal_rule_set pb = Ok d /\
    (zlen d < 2 ^ 63 -> WireMeaningSpec.reads RuleSet_ d pb).
Proof.
  intros S N. destruct (storable_reads 0 o rs S) as (pb & rs' & E & _). exists pb.
  destruct (C76_message pb (rule_set_proto_typed rs pb N E)) as (d & M & R). exists d. auto.
Qed.
Print Assumptions C76_rule_set.

(** And the namespaces. *)
Theorem C76_namespaces x : ns_times_fit x ->
  exists d, marshal_namespaces (namespaces_proto x) = Ok d /\
    (zlen d < 2 ^ 63 -> WireMeaningSpec.reads Namespaces_ d (namespaces_proto x)).
Proof.
  intros N. pose proof (namespaces_proto_typed x N) as T. exists (marshal namespaces_fields (namespaces_proto x)).
  split; [exact (marshal_namespaces_ok _ T)|]. intros L.
  apply (written_reads Namespaces_ namespaces_fields namespaces_parts [] _ _ good_namespaces meant_namespaces (w_namespaces _ T) L).
  exact (proj2 (rw_namespaces _ T) L).
Qed.
Print Assumptions C76_namespaces.

(** Whatever was seen before, a message that has the member of its type says the same. *)
Lemma says_completed h pb x : says pb x -> says (completed h pb) x.
Proof.
  intros H. destruct H as [c ms T E F|c ms T E F|c ms T E F|c m T E R F|c m T E R F].
  - apply says_counter; [exact T|cbn [completed mm_counter]; rewrite E; reflexivity|exact F].
  - apply says_timer; [exact T|cbn [completed mm_timer]; rewrite E; reflexivity|exact F].
  - apply says_gauge; [exact T|cbn [completed mm_gauge]; rewrite E; reflexivity|exact F].
  - apply says_forwarded; [exact T|cbn [completed mm_forwarded]; rewrite E; reflexivity|exact R|exact F].
  - apply says_timed; [exact T|cbn [completed mm_timed]; rewrite E; reflexivity|exact R|exact F].
Qed.
Lemma frame_size n : 0 <= n < 2 ^ 63 -> is_size (enc_varint (zigzag n)) n.
Proof.
  intros H. unfold zigzag. rewrite (proj2 (Z.ltb_ge n 0)) by lia. exists (2 * n). split; [apply enc_varint_varint; lia|]. split; [lia|]. left. reflexivity.
Qed.

(** What an encoder holds after encoding some metrics is a stream of those metrics and nothing else. *)
Theorem C76_stream us max rmax ms fs : max < 2 ^ 34 -> max <= rmax ->
  Forall2 (fun u m => selected u = Some m /\ sendable m) us ms -> Forall2 (fun u f => alone u max f) us fs ->
  stream rmax nothing_yet (concat fs) (map as_received ms) (Ends EOF) /\
  forall ms' o, stream rmax nothing_yet (concat fs) ms' o -> ms' = map as_received ms /\ o = Ends EOF.
Proof.
  intros M L S A.
  cut (stream rmax nothing_yet (concat fs) (map as_received ms) (Ends EOF)).
  { intros St. split; [exact St|]. intros ms' o St'. exact (stream_unique _ _ _ _ _ St _ _ St'). }
  pose proof (alone_framed_all us max rmax ms fs M L S A) as Fr. clear S A us M L. generalize nothing_yet as h.
  induction Fr as [|m f ms fs (Sm & pb & E & -> & L1 & L2) _ IH]; intros h; cbn [map concat].
  - apply stream_end. constructor.
  - rewrite mm_size in L1, L2. destruct (message_back m Sm) as (pb0 & E0 & R). assert (pb0 = pb) by congruence; subst pb0.
    destruct (R zero_mm zero_union L2) as (pb' & u' & U & Fm & Se).
    assert (WireMeaningSpec.reads MetricWithMetadatas_ (marshal mm_fields pb) pb') as Rd.
    { apply (written_reads MetricWithMetadatas_ mm_fields mm_parts zero_mm pb pb' good_mm meant_mm (w_mm pb) L2). exact U. }
    unfold frame. rewrite <- app_assoc, mm_size. pose proof (zlen_nonneg (marshal mm_fields pb)).
    refine (stream_metric rmax h _ _ _ pb' (as_received m) _ _ _ L1 Rd _ (IH (also h pb'))).
    + apply frame_size. unfold zlen in *. lia.
    + apply says_completed, (mm_computes pb' zero_union). exists u'. auto.
Qed.
Print Assumptions C76_stream.

(** Also among other encoders and buffers over the same pool, whatever happens to those in between. *)
Theorem C76_encoder s l s' i max rmax ms :
  reachable s -> ProtoStreamSpec.runs s l s' -> Forall (fun y => op_ok (fst (fst y))) l ->
  Forall (fun y => keeps i (fst (fst y))) l -> nth_error (v_encs (observe s)) i = Some (max, []) ->
  Forall2 (fun u m => selected u = Some m /\ sendable m) (sent i l) ms -> max <= rmax ->
  exists d, nth_error (v_encs (observe s')) i = Some (max, d) /\ stream rmax nothing_yet d (map as_received ms) (Ends EOF).
Proof.
  intros Re R O K N S L. destruct (C48_frames s l s' i max [] Re R O K N) as (fs & A & N'). exists (concat fs).
  split; [exact N'|]. exact (proj1 (C76_stream _ max rmax ms fs (max_bound s i max [] (reachable_inv s Re) N) L S A)).
Qed.
Print Assumptions C76_encoder.

(** * Examples *)

(** The rule set of C36's example, and one with old forms in it. *)
Example C76_nonvacuous : storable ropts after_session /\ numbers_fit after_session /\ rule_set_typed code_ok legacy_pb /\
  exists d, marshal_rule_set legacy_pb = Ok d /\ zlen d = 114 /\ WireMeaningSpec.reads RuleSet_ d legacy_pb.
Proof.
  destruct C65_nonvacuous as (N & S & T & _). split; [exact S|]. split; [exact N|]. split; [exact T|].
  destruct (C76_message legacy_pb T) as (d & E & R). exists d. split; [exact E|].
  assert (zlen d = 114) as L.
  { assert (marshal_rule_set legacy_pb = Ok (marshal rule_set_fields legacy_pb)) as E' by (vm_compute; reflexivity).
    rewrite E' in E. injection E as <-. vm_compute. reflexivity. }
  split; [exact L|]. apply R. lia.
Qed.

(** A counter, and a gauge whose value is negative zero: it is zero in the stream. *)
Example C76_stream_nonvacuous : exists f1 f2,
  Forall2 (fun u m => selected u = Some m /\ sendable m) [ex_counter; ex_gauge]
    [MCounter (mk_counter (B "stats.foo") (-7)) []; MGauge (mk_gauge (B "g") negative_zero) ex_metas] /\
  Forall2 (fun u f => alone u 1000 f) [ex_counter; ex_gauge] [f1; f2] /\
  stream 1000 nothing_yet (f1 ++ f2) [MCounter (mk_counter (B "stats.foo") (-7)) []; MGauge (mk_gauge (B "g") 0) ex_metas] (Ends EOF).
Proof.
  assert (exists f, alone ex_counter 1000 f) as (f1 & A1) by (eexists; do 2 eexists; split; [vm_compute; reflexivity|reflexivity]).
  assert (exists f, alone ex_gauge 1000 f) as (f2 & A2) by (eexists; do 2 eexists; split; [vm_compute; reflexivity|reflexivity]).
  exists f1, f2.
  assert (Forall2 (fun u m => selected u = Some m /\ sendable m) [ex_counter; ex_gauge]
    [MCounter (mk_counter (B "stats.foo") (-7)) []; MGauge (mk_gauge (B "g") negative_zero) ex_metas]) as S.
  { constructor; [|constructor; [|constructor]]; (split; [reflexivity|]); cbn [sendable c_value g_value].
    - split; [unfold is_int64; lia|constructor].
    - split; [unfold is_float64, negative_zero; lia|]. constructor; [|constructor]. split; [unfold is_int64; cbn; lia|].
      constructor; [|constructor]. split; [reflexivity|]. split; [|split; [|cbn; lia]].
      + constructor; [|constructor]. split; [|split; unfold is_int64; cbn; lia]. unfold sp_ok, valid_precision. cbn. lia.
      + constructor; [|constructor]. split; [left; split; [reflexivity|split; [right; reflexivity|reflexivity]]|reflexivity]. }
  assert (Forall2 (fun u f => alone u 1000 f) [ex_counter; ex_gauge] [f1; f2]) as A by (repeat constructor; assumption).
  split; [exact S|]. split; [exact A|].
  pose proof (proj1 (C76_stream _ 1000 1000 _ _ ltac:(lia) ltac:(lia) S A)) as St. cbn [concat] in St. rewrite app_nil_r in St. exact St.
Qed.

(** A negative aggregation type is not in the bytes. *)
Example C76_negative_code :
  let pb := mk_rsetp [] [] 0 0 false 0 [Some (mk_rp [] [Some (mk_msp [] false 0 [] [] 0 [] [-1] [] 0)])] [] [] in
  exists d, marshal_rule_set pb = Ok d /\ forall m, ~ WireMeaningSpec.reads RuleSet_ d m.
Proof.
  eexists. split; [vm_compute; reflexivity|]. intros m R.
  apply (reads_ok RuleSet_ rule_set_fields rule_set_parts zero_rule_set_pb _ m good_rule_set meant_rule_set) in R; [|vm_compute; reflexivity].
  vm_compute in R. discriminate.
Qed.
