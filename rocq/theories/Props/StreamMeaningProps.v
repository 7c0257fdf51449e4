(** C74: the protobuf iterator yields what the bytes of the stream say, no more and no less. *)
From Coq Require Import Ascii String NArith ZArith Bool Arith Lia List.
From Verif.Base Require Import Bytes BytesFacts.
From Verif.Proof Require Import ProtoWireProof MessagesProof ProtoSafeProof WireProof WireMeaning WireMeaningMessages StreamMeaning StreamMeaningIter StreamUnique.
From Verif.Spec Require Import WireSpec WireMeaningSpec.
From Verif.Model Require Import ProtoWire ProtoStream.
From Verif.Model Require Import Policy Transformation Pipeline Metadata Messages.
From Verif.Spec Require Import ProtoStreamSpec StreamMeaningSpec.
Import ListNotations.
Local Open Scope Z_scope.

Lemma new_ready d max : ready nothing_yet (new_iter d max).
Proof. repeat split. Qed.

(** An iterator over bytes yields metrics and then an error exactly if the bytes say so. *)
Theorem C74_stream d max ms e : no_overflow d ->
  (decoded (new_iter d max) ms e <-> stream max nothing_yet d ms (Ends e)).
Proof.
  intros No. split; intros H.
  - exact (decoded_stream (new_iter d max) ms e H nothing_yet (new_ready d max) No).
  - exact (stream_read max nothing_yet d ms (Ends e) H (new_iter d max) (new_ready d max) No eq_refl eq_refl).
Qed.
Print Assumptions C74_stream.

(** It yields metrics and then panics exactly if, after these metrics, the bytes hold a negative size. *)
Theorem C74_panics d max ms : no_overflow d ->
  (panics_after (new_iter d max) ms <-> stream max nothing_yet d ms Panics).
Proof.
  intros No. split; intros H.
  - exact (panics_stream (new_iter d max) ms H nothing_yet (new_ready d max) No).
  - exact (stream_read max nothing_yet d ms Panics H (new_iter d max) (new_ready d max) No eq_refl eq_refl).
Qed.
Print Assumptions C74_panics.

(** All bytes say something, and one thing only. *)
Theorem C74_one_meaning d max : no_overflow d ->
  exists ms o, stream max nothing_yet d ms o /\ forall ms' o', stream max nothing_yet d ms' o' -> ms' = ms /\ o' = o.
Proof.
  intros No.
  destruct (ends (S (length d)) (new_iter d max)) as [(ms & e & D)|P]; [cbn [new_iter i_in]; lia|discriminate| |].
  - exists ms, (Ends e). split; [apply C74_stream; assumption|]. intros ms' [e'|] S.
    + apply C74_stream in S; [|exact No]. destruct (decoded_one _ _ _ _ _ D S) as [-> ->]. auto.
    + apply C74_panics in S; [|exact No]. destruct (decoded_or_panics _ _ _ _ D S).
  - destruct (panics_somewhere _ P nothing_yet (new_ready d max) No) as (ms & D).
    exists ms, Panics. split; [apply C74_panics; assumption|]. intros ms' [e'|] S.
    + apply C74_stream in S; [|exact No]. destruct (decoded_or_panics _ _ _ _ S D).
    + apply C74_panics in S; [|exact No]. rewrite (panics_one _ _ _ D S). auto.
Qed.
Print Assumptions C74_one_meaning.

(** No bytes at all say two things. *)
Theorem C74_unambiguous d max h ms o ms' o' : stream max h d ms o -> stream max h d ms' o' -> ms' = ms /\ o' = o.
Proof. intros S S'. exact (stream_unique max h d ms o S ms' o' S'). Qed.
Print Assumptions C74_unambiguous.

Definition ex_bytes (l : list Z) : bytes := map zb l.
(** A counter in two pieces, the second of them before the type, and an unknown field; a message of type counter with no
    counter in it; a message of which two bytes of three are there. *)
Definition ex_stream : bytes :=
  ex_bytes [36; 18; 5; 10; 3; 10; 1; 97; 18; 4; 10; 2; 16; 7; 8; 1; 122; 1; 0] ++ ex_bytes [4; 8; 1] ++ ex_bytes [6; 8; 1].
Example C74_nonvacuous : no_overflow ex_stream /\
  stream 100 nothing_yet ex_stream [MCounter (mk_counter (B "a") 7) []; MCounter (mk_counter [] 0) []] (Ends UnexpectedEOF).
Proof.
  assert (no_overflow ex_stream) as No by (apply no_overflow_check; vm_compute; reflexivity).
  split; [exact No|]. apply C74_stream; [exact No|].
  eapply decoded_more; [vm_compute; reflexivity|vm_compute; reflexivity|].
  eapply decoded_more; [vm_compute; reflexivity|vm_compute; reflexivity|].
  eapply decoded_stop; vm_compute; reflexivity.
Qed.
(** The same message of type counter with no counter in it, at the start of a stream, is an error. *)
Example C74_first_nonvacuous : no_overflow (ex_bytes [4; 8; 1]) /\ stream 100 nothing_yet (ex_bytes [4; 8; 1]) [] (Ends BadMessage).
Proof.
  assert (no_overflow (ex_bytes [4; 8; 1])) as No by (apply no_overflow_check; vm_compute; reflexivity).
  split; [exact No|]. apply C74_stream; [exact No|]. eapply decoded_stop; vm_compute; reflexivity.
Qed.
(** A metric, and then a size of minus three. *)
Example C74_panics_nonvacuous : no_overflow (ex_bytes [18; 18; 5; 10; 3; 10; 1; 97; 8; 1; 5]) /\
  panics_after (new_iter (ex_bytes [18; 18; 5; 10; 3; 10; 1; 97; 8; 1; 5]) 100) [MCounter (mk_counter (B "a") 0) []].
Proof.
  split; [apply no_overflow_check; vm_compute; reflexivity|].
  eapply panics_later_on; [vm_compute; reflexivity|vm_compute; reflexivity|]. apply panics_at_once. vm_compute. reflexivity.
Qed.
