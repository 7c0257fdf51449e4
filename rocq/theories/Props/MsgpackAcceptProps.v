(** C72: the msgpack readers accept nothing but the format. *)
From Verif.Proof Require Import ProtoWireProof MsgpackLibProof MsgpackProof MsgpackLocal MsgpackIterProof MsgpackAggProof
  MsgpackAccept MsgpackAcceptIter.
From Coq Require Import Ascii String NArith ZArith Bool Arith Lia List.
From Verif.Base Require Import Bytes.
From Verif.Model Require Import AggType Policy Transformation ProtoWire MsgpackLib Msgpack.
From Verif.Spec Require Import ProtoStreamSpec MsgpackSpec MsgpackAcceptSpec.
Import ListNotations.
Open Scope Z_scope.

(** A loop over any input whatsoever sees the messages of a stream the input starts with, and only those; it stops where no
    message of the format follows.  Without the option to skip newer messages, the stream is a row of messages. *)
Theorem C72_unaggregated d ignore seen e : mdecoded (new_mit d ignore) seen e ->
  exists l b r, d = b ++ r /\ stream_as l b /\ Forall2 agrees seen l /\
    (ignore = false -> exists bs, b = concat bs /\ Forall2 message_as l bs) /\
    ~ more ignore (fun b => exists mm, message_as mm b) r.
Proof. intros D. exact (mdecoded_accepts (new_mit d ignore) seen e D d (conj eq_refl eq_refl)). Qed.
Print Assumptions C72_unaggregated.

(** The first call of [Next] succeeds exactly if a message of the format starts the input, after newer ones if these are
    skipped. *)
Theorem C72_next d ignore : fst (mnext (new_mit d ignore)) = true <-> more ignore (fun b => exists mm, message_as mm b) d.
Proof.
  split.
  - intros H. destruct (mnext (new_mit d ignore)) as [ok it'] eqn:E. cbn [fst] in H. subst ok.
    destruct (mnext_accepts _ _ it' (le_n _) E) as (_ & _ & _ & ns & b & x & o & Ed & N & G & M & _).
    exists ns, b, (d_in (x_st it')). split; [exact Ed|]. split; [exact N|]. split; [exact G|]. exists (x, o). exact M.
  - intros M. destruct (mnext_more_ok (new_mit d ignore) d (conj eq_refl eq_refl) M) as (it' & ->). reflexivity.
Qed.
Print Assumptions C72_next.

(** The format is unambiguous: at most one message starts a given input, and its length is determined. *)
Theorem C72_unambiguous mm mm' b b' r r' : message_as mm b -> message_as mm' b' -> b ++ r = b' ++ r' -> mm = mm' /\ b = b'.
Proof. exact (message_unique mm mm' b b' r r'). Qed.
Print Assumptions C72_unambiguous.

(** Aggregated streams: the same, with the embedded metric as it came; the loop always ends. *)
Theorem C72_aggregated d ignore l e : received (new_ait d ignore) l e ->
  exists b r, d = b ++ r /\ carriers_as l b /\
    (ignore = false -> exists bs, b = concat bs /\ Forall2 carrier_as l bs) /\
    ~ more ignore (fun b => exists c, carrier_as c b) r.
Proof. intros D. exact (received_accepts (new_ait d ignore) l e D d (conj eq_refl eq_refl)). Qed.
Print Assumptions C72_aggregated.
Theorem C72_aggregated_ends d ignore : exists l e, received (new_ait d ignore) l e.
Proof. exact (received_total _ (new_ait d ignore) (le_n _) eq_refl eq_refl). Qed.
Print Assumptions C72_aggregated_ends.
Theorem C72_aggregated_next d ignore : fst (anext (new_ait d ignore)) = true <-> more ignore (fun b => exists c, carrier_as c b) d.
Proof.
  split.
  - intros H. destruct (anext (new_ait d ignore)) as [ok it'] eqn:E. cbn [fst] in H. subst ok.
    destruct (anext_accepts _ _ it' (le_n _) E) as (_ & _ & _ & ns & b & x & Ed & N & G & M & _).
    exists ns, b, (d_in (g_st it')). split; [exact Ed|]. split; [exact N|]. split; [exact G|]. eexists. exact M.
  - intros M. destruct (anext_more_ok (new_ait d ignore) d (conj eq_refl eq_refl) M) as (it' & ->). reflexivity.
Qed.
Print Assumptions C72_aggregated_next.
Theorem C72_aggregated_unambiguous c c' b b' r r' : carrier_as c b -> carrier_as c' b' -> b ++ r = b' ++ r' -> c = c' /\ b = b'.
Proof. exact (carrier_unique c c' b b' r r'). Qed.
Print Assumptions C72_aggregated_unambiguous.

(** The embedded metric is read exactly if its bytes start with one; and then every accessor, in any order, agrees. *)
Theorem C72_metric d id t v : fst (access GetMetric (new_raw d)) = AMetric id t v <-> starts_with_metric id t v d.
Proof.
  split; [exact (raw_accepts d id t v)|]. intros S. pose proof (accesses_right id t v d S [GetMetric]) as E.
  cbn [accesses map right_answer] in E. congruence.
Qed.
Print Assumptions C72_metric.
Theorem C72_metric_any_order d id t v calls : starts_with_metric id t v d ->
  accesses calls (new_raw d) = map (right_answer d id t v) calls.
Proof. intros S. exact (accesses_right id t v d S calls). Qed.
Print Assumptions C72_metric_any_order.

(** A loop that also reads each metric sees carriers whose bytes start with these metrics. *)
Theorem C72_aggregated_metrics d ignore l e : adecoded (new_ait d ignore) l e ->
  exists cs b r, d = b ++ r /\ carriers_as cs b /\
    Forall2 (fun am c => starts_with_metric (am_id am) (am_time am) (am_value am) (c_data c) /\
      am_sp am = c_sp c /\ am_at am = c_at c) l cs /\
    ~ more ignore (fun b => exists c, carrier_as c b) r.
Proof.
  intros D. destruct (adecoded_received _ l e D eq_refl) as (cs & R & F).
  destruct (C72_aggregated d ignore cs e R) as (b & r & E & S & _ & M). exists cs, b, r. auto.
Qed.
Print Assumptions C72_aggregated_metrics.

(** A counter with policies, written with nil, wide and wrapped numbers, and then rubbish: the loop sees the counter.  With
    an aggregation ID of two words instead of one, it sees nothing: no message starts that input. *)
Definition with_agg (agg : list Z) : bytes :=
  map zb ([1] ++ [146; 2] ++ [146] ++ [146; 161; 97; 192] ++
    [146; 11; 221; 0; 0; 0; 1; 147; 192; 194; 145] ++
    [146] ++ [146; 146; 14; 2; 146; 17; 207; 255; 255; 255; 255; 255; 255; 255; 254] ++ agg)%list.
Definition one_word : list Z := [146; 20; 145; 208; 255].
Definition two_words : list Z := [146; 20; 146; 8; 8].
Definition seen_policies : list staged_policies :=
  [{| stp_cutover := 0; stp_tombstoned := false;
      stp_policies := [{| p_storage := {| sp_resolution := {| r_window := 10000000000; r_precision := 1 |}; sp_retention := -2 |};
                          p_agg := 18446744073709551615%N |}] |}].
Example C72_nonvacuous :
  mdecoded (new_mit (with_agg one_word ++ map zb [255; 3]) false) [(SCounter (B "a") 0, seen_policies)] Malformed /\
  more false (fun b => exists mm, message_as mm b) (with_agg one_word ++ map zb [255; 3]) /\
  ~ more true (fun b => exists mm, message_as mm b) (with_agg two_words ++ map zb [255; 3]).
Proof.
  split; [|split].
  - assert (forall it it' m p l e, mnext it = (true, it') -> shown (x_metric it') = Some m -> x_policies it' = p ->
      mdecoded it' l e -> mdecoded it ((m, p) :: l) e) as K by (intros; subst p; eapply mdecoded_more; eassumption).
    eapply K; [vm_compute; reflexivity|reflexivity|vm_compute; reflexivity|].
    eapply mdecoded_stop; [vm_compute; reflexivity|reflexivity].
  - apply C72_next. vm_compute. reflexivity.
  - intros M. apply C72_next in M. vm_compute in M. discriminate M.
Qed.

(** A carrier whose metric is followed by rubbish inside its bytes, and one whose metric claims a higher version: the first
    is read, the second only carried. *)
Definition metric_data (ver : Z) : bytes :=
  map zb ([ver; 147; 161; 97; 192] ++ [203; 0; 0; 0; 0; 0; 0; 0; 9] ++ [193])%list.
Definition carried (ver : Z) : bytes :=
  (map zb [1; 146; 5; 146; 175] ++ metric_data ver ++ map zb [146; 146; 14; 2; 146; 16; 1])%list.
Definition carried_policy : storage_policy :=
  {| sp_resolution := {| r_window := 10000000000; r_precision := 1 |}; sp_retention := 3600000000000 |}.
Example C72_aggregated_nonvacuous :
  received (new_ait (carried 1 ++ carried 2) false)
    [mk_carrier (metric_data 1) carried_policy 0; mk_carrier (metric_data 2) carried_policy 0] EndOfInput /\
  starts_with_metric (B "a") 0 9 (metric_data 1) /\
  (forall id t v, ~ starts_with_metric id t v (metric_data 2)) /\
  ~ more true (fun b => exists c, carrier_as c b) (map zb [1; 146; 6] ++ carried 1).
Proof.
  assert (forall it it' d sp u l e, anext it = (true, it') -> fst (access GetBytes (g_metric it')) = ABytes d ->
    g_sp it' = sp -> g_at it' = u -> received it' l e -> received it (mk_carrier d sp u :: l) e) as K
    by (intros; subst sp u; eapply received_more; eassumption).
  split; [|split; [|split]].
  - eapply K; [vm_compute; reflexivity|vm_compute; reflexivity|vm_compute; reflexivity|reflexivity|].
    eapply K; [vm_compute; reflexivity|vm_compute; reflexivity|vm_compute; reflexivity|reflexivity|].
    eapply received_stop; [vm_compute; reflexivity|reflexivity].
  - apply C72_metric. vm_compute. reflexivity.
  - intros id t v S. apply C72_metric in S. vm_compute in S. discriminate S.
  - intros M. apply C72_aggregated_next in M. vm_compute in M. discriminate M.
Qed.
