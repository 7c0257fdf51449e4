(** C78: iterators that have been closed. *)
From Coq Require Import Ascii String Arith NArith ZArith Bool Lia List.
From Verif.Base Require Import Bytes Slice.
From Verif.Model Require Import AggType Policy Transformation Pipeline Metadata LegacyConvert ProtoWire Messages ProtoStream MsgpackLib
  Msgpack Migration.
From Verif.Spec Require Import PolicySpec MetadataSpec ProtoStreamSpec MsgpackSpec MigrationSpec.
From Verif.Props Require Import MsgpackProps.
Import ListNotations.
Open Scope Z_scope.

(** Whatever was left in the stream, a closed iterator yields nothing more, its state no longer changes, it reports no
    error, and closing it again does nothing. *)
Theorem C78_msgpack it :
  mnext (close_mit it) = (false, close_mit it) /\ close_mit (close_mit it) = close_mit it /\
  (x_closed it = false -> x_metric (close_mit it) = empty_mu /\ x_policies (close_mit it) = [] /\ d_err (x_st (close_mit it)) = None).
Proof.
  unfold close_mit, mnext. destruct (x_closed it) eqn:E.
  - split; [|split; [now rewrite E|discriminate]]. cbn [next_loop]. rewrite E. now destruct (d_err (x_st it)).
  - cbn. auto.
Qed.
Print Assumptions C78_msgpack.

Theorem C78_msgpack_aggregated it :
  anext (close_ait it) = (false, close_ait it) /\ close_ait (close_ait it) = close_ait it /\
  (g_closed it = false -> g_metric (close_ait it) = new_raw [] /\ d_err (g_st (close_ait it)) = None).
Proof.
  unfold close_ait, anext. destruct (g_closed it) eqn:E.
  - split; [|split; [now rewrite E|discriminate]]. cbn [anext_loop]. rewrite E. now destruct (d_err (g_st it)).
  - cbn. auto.
Qed.
Print Assumptions C78_msgpack_aggregated.

Theorem C78_protobuf it :
  next (close_iter it) = Stop (close_iter it) /\ close_iter (close_iter it) = close_iter it /\
  (i_closed it = false -> i_msg (close_iter it) = zero_union /\ i_err (close_iter it) = None).
Proof.
  unfold close_iter, next. destruct (i_closed it) eqn:E.
  - split; [|split; [now rewrite E|discriminate]]. rewrite E. now destruct (i_err it).
  - cbn. auto.
Qed.
Print Assumptions C78_protobuf.

(** The iterator over mixed streams closes both of its iterators and leaves the reader where it is. *)
Theorem C78_mixed it :
  mig_next (close_mig it) = QStop (close_mig it) /\ close_mig (close_mig it) = close_mig it /\
  q_in (close_mig it) = q_in it /\
  (q_closed it = false ->
     q_msg (close_mig it) = zero_message /\
     fst (mnext (q_mp (close_mig it))) = false /\ (exists pb, next (q_pb (close_mig it)) = Stop pb)).
Proof.
  unfold mig_next. destruct (q_closed it) eqn:E.
  - assert (C : close_mig it = it) by (unfold close_mig; now rewrite E). rewrite !C, E. repeat split; discriminate.
  - assert (C : close_mig it = mk_mig (q_in it) (close_mit (q_mp it)) (close_iter (q_pb it)) zero_message true None)
      by (unfold close_mig; now rewrite E).
    rewrite C. cbn [q_closed q_in q_msg q_mp q_pb]. split; [reflexivity|]. split; [reflexivity|]. split; [reflexivity|]. intros _.
    split; [reflexivity|]. split; [now rewrite (proj1 (C78_msgpack (q_mp it)))|]. exists (close_iter (q_pb it)). apply C78_protobuf.
Qed.
Print Assumptions C78_mixed.

(** A msgpack iterator that has been closed can be given a new stream: it then reads what an encoder wrote there, as a
    new one does. *)
Theorem C78_reset inputs it stale : Forall input_sendable inputs ->
  exists seen, mdecoded (reset_mit (concat (map encode_input inputs)) stale (close_mit it)) seen EndOfInput /\
    Forall2 agrees seen (map input_message inputs).
Proof. exact (C51_unaggregated_reset inputs (close_mit it) stale). Qed.
Print Assumptions C78_reset.

Theorem C78_reset_aggregated inputs it : Forall ainput_sendable inputs ->
  adecoded (reset_ait (concat (map encode_ainput inputs)) (close_ait it)) (map ainput_message inputs) EndOfInput.
Proof. intros S. exact (C51_aggregated inputs (reset_ait _ (close_ait it)) S eq_refl eq_refl). Qed.
Print Assumptions C78_reset_aggregated.

(** An iterator closed after the first of two counters: the second, which an open one would deliver, is not delivered. *)
Definition c78_counter (id : string) : metric_input := (Counter (Some (B id)) 5, None).
Definition c78_it : mit := new_mit (encode_input (c78_counter "a") ++ encode_input (c78_counter "b")) true.
Example C78_nonvacuous :
  Forall input_sendable [c78_counter "a"; c78_counter "b"] /\ (let it1 := snd (mnext c78_it) in
   fst (mnext c78_it) = true /\ mu_id (x_metric it1) = B "a" /\ fst (mnext it1) = true /\ mu_id (x_metric (snd (mnext it1))) = B "b" /\ fst (mnext (close_mit it1)) = false /\ d_in (x_st it1) <> []).
Proof.
  split; [repeat constructor; vm_compute; intuition discriminate|]. vm_compute. intuition discriminate.
Qed.
