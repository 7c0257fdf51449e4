(** C54: streams that mix msgpack and protobuf messages. *)
From Coq Require Import Ascii String Arith NArith ZArith Bool Lia List.
From Verif.Base Require Import Bytes Slice.
From Verif.Proof Require Import ProtoFrameProof ProtoSystemProof MsgpackProof MigrationProof.
From Verif.Model Require Import AggType Policy Transformation Pipeline Metadata LegacyConvert ProtoWire Messages ProtoStream MsgpackLib
  Msgpack Migration.
From Verif.Spec Require Import PolicySpec MetadataSpec ProtoStreamSpec MsgpackSpec MigrationSpec.
Import ListNotations.
Open Scope Z_scope.

(** Any interleaving of what the two encoders write is read as exactly the messages written, each by its own decoder:
    a msgpack metric arrives with its policies converted to staged metadatas, a protobuf message as it was sent. *)
Theorem C54_stream items bs max rmax ignore : max < 2 ^ 34 -> max <= rmax -> Forall2 (written max) items bs ->
  exists seen, mig_decoded (new_mig (concat bs) ignore rmax) seen ReaderEnd /\ Forall2 received items seen.
Proof.
  intros M L W. apply (mig_decode rmax items bs); [|reflexivity|apply new_ready].
  apply (item_framed_all max rmax items bs M L). clear M L.
  induction W as [|i b items bs H _ IH]; constructor; [|exact IH]. destruct H as [j Sj|u m x S Sm A]; [|exact (recent_as max u m x S Sm A)].
  pose proof (encode_input_as j Sj) as H. destruct (encode_input_first j) as (x & E). rewrite E in *.
  apply old_as; [reflexivity|exact H].
Qed.
Print Assumptions C54_stream.

(** The same for msgpack messages written by others, in any form that starts with an odd byte. *)
Theorem C54_any_form items bs max rmax ignore : max < 2 ^ 34 -> max <= rmax -> Forall2 (item_as max) items bs ->
  exists seen, mig_decoded (new_mig (concat bs) ignore rmax) seen ReaderEnd /\ Forall2 received items seen.
Proof.
  intros M L W. apply (mig_decode rmax items bs); [|reflexivity|apply new_ready].
  exact (item_framed_all max rmax items bs M L W).
Qed.
Print Assumptions C54_any_form.

(** There is only one outcome, and it is not a panic. *)
Theorem C54_one_outcome it seen e : mig_decoded it seen e ->
  (forall seen' e', mig_decoded it seen' e' -> seen' = seen /\ e' = e) /\ (forall seen', ~ mig_crashed it seen').
Proof. intros D. split; [exact (mig_decoded_functional it seen e D)|exact (mig_not_both it seen e D)]. Qed.
Print Assumptions C54_one_outcome.

(** Cut anywhere, the stream gives just the messages that are whole, then an error. *)
Theorem C54_cut items bs max rmax ignore p q : max < 2 ^ 34 -> max <= rmax -> Forall2 (item_as max) items bs ->
  concat bs = p ++ q ->
  exists items1 items2 bs1 bs2 rest seen e,
    items = items1 ++ items2 /\ bs = bs1 ++ bs2 /\ length items1 = length bs1 /\ p = concat bs1 ++ rest /\
    (forall b bs', bs2 = b :: bs' -> (length rest < length b)%nat) /\
    mig_decoded (new_mig p ignore rmax) seen e /\ Forall2 received items1 seen.
Proof.
  intros M L W E. apply (mig_decode_cut rmax items bs (item_framed_all max rmax items bs M L W) p q _ E); [reflexivity|].
  apply new_ready.
Qed.
Print Assumptions C54_cut.

(** Whatever the input, the iteration ends; without lengths that overflow, it ends with an error and never panics: the
    negative sizes that make the protobuf iterator panic start with an odd byte, so they never reach it. *)
Theorem C54_ends d ignore rmax :
  exists seen, (exists e, mig_decoded (new_mig d ignore rmax) seen e) \/ mig_crashed (new_mig d ignore rmax) seen.
Proof. exact (mig_ends (length d) d _ (le_n _) (new_ready d ignore rmax)). Qed.
Print Assumptions C54_ends.
Theorem C54_no_panic d ignore rmax : no_overflow d -> exists seen e, mig_decoded (new_mig d ignore rmax) seen e.
Proof.
  intros No. destruct (C54_ends d ignore rmax) as (seen & [(e & D)|C]); [exists seen, e; exact D|].
  destruct (mig_never_crashes _ seen C d (new_ready d ignore rmax) No).
Qed.
Print Assumptions C54_no_panic.

(** After an error, [Next] returns false and changes nothing. *)
Theorem C54_stays_stopped it : mig_err it <> None -> mig_next it = QStop it.
Proof. exact (mig_next_stopped it). Qed.
Print Assumptions C54_stays_stopped.

(** ** Cases *)

Definition ex_policies : list staged_policies :=
  [{| stp_cutover := 1234; stp_tombstoned := false; stp_policies :=
        [{| p_storage := {| sp_resolution := {| r_window := 10000000000; r_precision := 1 |};
                            sp_retention := 172800000000000 |}; p_agg := 0%N |}] |}].
Definition ex_old1 : metric_input := (Counter (Some (B "foo")) (-1234567), Some ex_policies).
Definition ex_old2 : metric_input := (BatchTimer None [4607182418800017408; 0], None).
Definition ex_recent : union_of list :=
  mk_union 1 (mk_counter (B "stats.foo") (-7)) [] (mk_timer [] []) [] (mk_gauge [] 0) []
    (mk_forwarded 0 [] 0 []) (mk_fm 0%N empty_storage_policy [] 0 0) (mk_timed 0 [] 0 0)
    {| tm_agg := 0%N; tm_sp := empty_storage_policy |}.
Definition ex_recent_message : message := MCounter (mk_counter (B "stats.foo") (-7)) [].
Definition ex_frame : bytes :=
  match enc_message ex_recent (Fresh []) (fst (new_encoder false 0 1000 (Fresh []) empty_heap))
          (snd (new_encoder false 0 1000 (Fresh []) empty_heap)) with
  | EncOk e h => enc_bytes h e
  | _ => []
  end.
Lemma ex_frame_alone : alone ex_recent 1000 ex_frame.
Proof.
  unfold ex_frame.
  destruct (enc_message ex_recent (Fresh []) (fst (new_encoder false 0 1000 (Fresh []) empty_heap))
    (snd (new_encoder false 0 1000 (Fresh []) empty_heap))) as [e h| |] eqn:E; [|vm_compute in E; discriminate..].
  exists e, h. split; [exact E|reflexivity].
Qed.

Definition ex_items : list item := [Old (input_message ex_old1); Recent ex_recent_message; Old (input_message ex_old2); Recent ex_recent_message].
Definition ex_stream : list bytes := [encode_input ex_old1; ex_frame; encode_input ex_old2; ex_frame].
Lemma ex_written : Forall2 (written 1000) ex_items ex_stream.
Proof.
  assert (input_sendable ex_old1) as S1 by (repeat constructor; vm_compute; congruence).
  assert (input_sendable ex_old2) as S2 by (repeat constructor; vm_compute; congruence).
  assert (written 1000 (Recent ex_recent_message) ex_frame) as W.
  { apply (recent_written 1000 ex_recent); [reflexivity| |exact ex_frame_alone].
    split; [unfold is_int64; cbn; lia|constructor]. }
  unfold ex_items, ex_stream. repeat (constructor; [first [exact W|apply old_written; assumption]|]). constructor.
Qed.

(** The second metric was sent without policies: it is given those of the first. *)
Example C54_nonvacuous : Forall2 (written 1000) ex_items ex_stream /\
  mig_decoded (new_mig (concat ex_stream) false 1000)
    [MCounter (mk_counter (B "foo") (-1234567)) (to_staged_metadatas ex_policies); ex_recent_message;
     MTimer (mk_timer [] [4607182418800017408; 0]) (to_staged_metadatas ex_policies); ex_recent_message] ReaderEnd.
Proof.
  split; [exact ex_written|].
  repeat (eapply mig_decoded_more; [vm_compute; reflexivity|vm_compute; reflexivity|]).
  eapply mig_decoded_stop; vm_compute; reflexivity.
Qed.

(** Messages of newer versions are not told apart.  One with an even version goes to the protobuf decoder.  After one with an
    odd version, the msgpack iterator skips it and takes what follows for msgpack as well. *)
Definition ex_newer (v : Z) : bytes := map zb [v; 144].
Theorem C54_newer_versions_misread :
  newer (ex_newer 2) /\ newer (ex_newer 3) /\
  mig_decoded (new_mig (ex_newer 2 ++ concat ex_stream) true 1000) [] (OfProtobuf BadWire) /\
  mig_decoded (new_mig (ex_newer 3 ++ ex_frame) true 1000) [] (OfMsgpack Malformed) /\
  (exists l, mig_decoded (new_mig (ex_newer 3 ++ concat ex_stream) true 1000) l ReaderEnd /\ length l = 4%nat).
Proof.
  assert (forall v, 1 < v < 128 -> newer (ex_newer v)) as N.
  { intros v V. exists v, 0%nat, [code v], [code 144], []. split; [lia|]. split; [apply int_pos; lia|].
    split; [apply (array_fix 0); lia|]. split; [apply values_none|]. reflexivity. }
  split; [apply N; lia|]. split; [apply N; lia|].
  split; [eapply mig_decoded_stop; vm_compute; reflexivity|]. split; [eapply mig_decoded_stop; vm_compute; reflexivity|].
  eexists. split; [|shelve].
  repeat (eapply mig_decoded_more; [vm_compute; reflexivity|vm_compute; reflexivity|]).
  eapply mig_decoded_stop; vm_compute; reflexivity.
  Unshelve. reflexivity.
Qed.
Print Assumptions C54_newer_versions_misread.

(** A metric of version 0 is fine for the msgpack iterator; here it goes to the protobuf decoder. *)
Definition ex_version0 : bytes := zb 0 :: tl (encode_input ex_old2).
Example C54_version0 : message_as (input_message ex_old2) ex_version0 /\
  mig_decoded (new_mig ex_version0 true 1000) [] (OfProtobuf BadType).
Proof.
  split.
  - assert (input_sendable ex_old2) as S2 by (repeat constructor; vm_compute; congruence).
    pose proof (encode_input_as ex_old2 S2) as H. unfold ex_version0.
    change (encode_input ex_old2) with ([zb 1] ++ tl (encode_input ex_old2)) in H.
    inversion H as [m v t x b w V W T X O E1 E2|]; subst.
    assert (w = [zb 1] /\ b = tl (encode_input ex_old2)) as [-> ->].
    { destruct w as [|w0 w]; [inversion W|]. cbn [app] in E2.
      assert (w0 = zb 1) as -> by congruence. inversion W as [K1 K2|v0 V0 K1 K2|v0 V0 K1 K2|c d I0 K1 K2|c d I0 K1 K2]; subst.
      - split; [congruence|exact (f_equal (@tl ascii) E2)].
      - split; [congruence|exact (f_equal (@tl ascii) E2)].
      - exfalso. assert (code c = zb 1) as K by congruence. cbn [In] in I0.
        repeat (destruct I0 as [I0|I0]; [apply pair_equal_spec in I0 as [<- _]; vm_compute in K; discriminate|]). exact I0.
      - exfalso. assert (code c = zb 1) as K by congruence. cbn [In] in I0.
        repeat (destruct I0 as [I0|I0]; [apply pair_equal_spec in I0 as [<- _]; vm_compute in K; discriminate|]). exact I0. }
    apply (plain_as _ 0 t x (tl (encode_input ex_old2)) [zb 0]); [lia|apply (int_pos 0); lia|assumption..].
  - eapply mig_decoded_stop; vm_compute; reflexivity.
Qed.
