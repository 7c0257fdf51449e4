(** C51, C52, C53 (msgpack) and C55: the msgpack streams. *)
From Verif.Proof Require Import ProtoWireProof MsgpackLibProof MsgpackProof MsgpackLocal MsgpackIterProof MsgpackAggProof.
From Coq Require Import Ascii String NArith ZArith Bool Arith Lia List.
From Verif.Base Require Import Bytes.
From Verif.Model Require Import AggType Policy Transformation ProtoWire MsgpackLib Msgpack.
From Verif.Spec Require Import PolicySpec MetadataSpec ProtoStreamSpec MsgpackSpec.
Import ListNotations.
Open Scope Z_scope.

(** * C51: round trips *)

(** An iterator (new, or reset from whatever state) over what the encoder wrote for any sequence of metrics delivers exactly
    these metrics, each with its policies if some were sent, then the end of the input. *)
Theorem C51_unaggregated inputs it : Forall input_sendable inputs ->
  x_st it = mk_st (concat (map encode_input inputs)) None -> x_closed it = false ->
  exists seen, mdecoded it seen EndOfInput /\ Forall2 agrees seen (map input_message inputs).
Proof.
  intros S E C. exists (with_lists (x_policies it) (map input_message inputs)). split; [|apply with_lists_agree].
  apply (decode_messages _ (map encode_input inputs)) with (r := []).
  - clear E. induction S as [|i l H S IH]; constructor; [exact (encode_input_as i H)|exact IH].
  - intros it' pl _ R _. destruct (mnext_end it' R) as (it2 & N & Ee). exact (mdecoded_stop it' it2 _ N Ee).
  - split; [rewrite app_nil_r; exact E|exact C].
Qed.
Print Assumptions C51_unaggregated.

Theorem C51_unaggregated_new inputs ignore : Forall input_sendable inputs ->
  exists seen, mdecoded (new_mit (concat (map encode_input inputs)) ignore) seen EndOfInput /\
    Forall2 agrees seen (map input_message inputs).
Proof. intros S. exact (C51_unaggregated inputs (new_mit _ ignore) S eq_refl eq_refl). Qed.
Print Assumptions C51_unaggregated_new.

Theorem C51_unaggregated_reset inputs it stale : Forall input_sendable inputs ->
  exists seen, mdecoded (reset_mit (concat (map encode_input inputs)) stale it) seen EndOfInput /\
    Forall2 agrees seen (map input_message inputs).
Proof. intros S. exact (C51_unaggregated inputs (reset_mit _ stale it) S eq_refl eq_refl). Qed.
Print Assumptions C51_unaggregated_reset.

(** What a loop over an iterator sees is determined: the theorems leave no other outcome. *)
Theorem C51_one_outcome it l e l' e' : mdecoded it l e -> mdecoded it l' e' -> l' = l /\ e' = e.
Proof. intros D D'. exact (mdecoded_functional it l e D l' e' D'). Qed.
Print Assumptions C51_one_outcome.

(** Whatever the input, the loop ends, with an error. *)
Theorem C51_loop_ends d ignore : exists l e, mdecoded (new_mit d ignore) l e.
Proof. exact (mdecoded_total _ (new_mit d ignore) (le_n _) eq_refl eq_refl). Qed.
Print Assumptions C51_loop_ends.

(** Aggregated metrics, with whole or chunked IDs, with or without an encoding time. *)
Theorem C51_aggregated inputs it : Forall ainput_sendable inputs ->
  g_st it = mk_st (concat (map encode_ainput inputs)) None -> g_closed it = false ->
  adecoded it (map ainput_message inputs) EndOfInput.
Proof.
  intros S E C. apply (adecode_messages _ (map encode_ainput inputs)) with (r := []).
  - clear E. induction S as [|i l H S IH]; constructor; [exact (encode_ainput_as i H)|exact IH].
  - intros it' _ R. destruct (anext_end it' R) as (it2 & N & Ee). exact (adecoded_stop it' it2 _ N Ee).
  - split; [rewrite app_nil_r; exact E|exact C].
Qed.
Print Assumptions C51_aggregated.

Theorem C51_aggregated_new inputs ignore : Forall ainput_sendable inputs ->
  adecoded (new_ait (concat (map encode_ainput inputs)) ignore) (map ainput_message inputs) EndOfInput.
Proof. intros S. exact (C51_aggregated inputs (new_ait _ ignore) S eq_refl eq_refl). Qed.
Print Assumptions C51_aggregated_new.

Theorem C51_aggregated_one_outcome it l e l' e' : adecoded it l e -> adecoded it l' e' -> l' = l /\ e' = e.
Proof. intros D D'. exact (adecoded_functional it l e D l' e' D'). Qed.
Print Assumptions C51_aggregated_one_outcome.

(** The known resolutions and retentions take three bytes on the wire, and are read back in full. *)
Theorem C51_resolution_abbreviated v w p : abbreviated_resolution v = Some (w, p) ->
  let r := {| r_window := w; r_precision := p |} in
  zlen (enc_resolution r) = 3 /\
  forall rest, dec_resolution (mk_st (enc_resolution r ++ rest) None) = (r, mk_st rest None).
Proof.
  intros H. assert (v = 1 \/ v = 2 \/ v = 3 \/ v = 4 \/ v = 5) as K.
  { destruct v as [|v|v]; try discriminate H. repeat (destruct v as [v|v|]; try discriminate H; try tauto). }
  cbv zeta. destruct K as [->|[->|[->|[->| ->]]]]; injection H as <- <-; (split; [vm_compute; reflexivity|]);
    intros rest; reflexivity.
Qed.
Print Assumptions C51_resolution_abbreviated.
Theorem C51_retention_abbreviated v t : abbreviated_retention v = Some t ->
  zlen (enc_retention t) = 3 /\
  forall rest, dec_retention (mk_st (enc_retention t ++ rest) None) = (t, mk_st rest None).
Proof.
  intros H. assert (v = 1 \/ v = 2 \/ v = 3 \/ v = 4 \/ v = 5 \/ v = 6 \/ v = 7 \/ v = 8 \/ v = 9) as K.
  { destruct v as [|v|v]; try discriminate H. repeat (destruct v as [v|v|]; try discriminate H; try tauto). }
  destruct K as [->|[->|[->|[->|[->|[->|[->|[->| ->]]]]]]]]; injection H as <-; (split; [vm_compute; reflexivity|]);
    intros rest; reflexivity.
Qed.
Print Assumptions C51_retention_abbreviated.

(** A stream cut anywhere shows only messages it holds whole, in order. *)
Theorem C51_cut l b p q seen e : stream_as l b -> b = p ++ q -> mdecoded (new_mit p true) seen e ->
  exists l1 l2, l = l1 ++ l2 /\ Forall2 agrees seen l1.
Proof.
  intros St E D. destruct (decode_cut l b p q (new_mit p true) St E eq_refl (conj eq_refl eq_refl) seen e D)
    as (l1 & l2 & El & ->). exists l1, l2. split; [exact El|apply with_lists_agree].
Qed.
Print Assumptions C51_cut.
Theorem C51_aggregated_cut l b p q seen e : astream_as l b -> b = p ++ q -> adecoded (new_ait p true) seen e ->
  exists l2, l = seen ++ l2.
Proof. intros St E D. exact (adecode_cut l b p q (new_ait p true) St E eq_refl (conj eq_refl eq_refl) seen e D). Qed.
Print Assumptions C51_aggregated_cut.

Definition ex_policies : list staged_policies :=
  [{| stp_cutover := 1234; stp_tombstoned := false; stp_policies :=
        [{| p_storage := {| sp_resolution := {| r_window := 10000000000; r_precision := 1 |};
                            sp_retention := 172800000000000 |}; p_agg := 0%N |};
         {| p_storage := {| sp_resolution := {| r_window := 123; r_precision := 4 |}; sp_retention := 777 |};
            p_agg := 9223372036854775816%N |}] |};
   {| stp_cutover := -5; stp_tombstoned := true; stp_policies := [] |}].
Definition ex_inputs : list metric_input :=
  [(Counter (Some (B "foo")) (-1234567), Some ex_policies);
   (BatchTimer None [4607182418800017408; 0], None);
   (Gauge (Some (B "bar")) 13830554455654793216, Some default_policies_list)].

Example C51_nonvacuous : Forall input_sendable ex_inputs /\
  exists seen, mdecoded (new_mit (concat (map encode_input ex_inputs)) false) seen EndOfInput /\
    map fst seen = [SCounter (B "foo") (-1234567); STimer [] [4607182418800017408; 0]; SGauge (B "bar") 13830554455654793216].
Proof.
  assert (Forall input_sendable ex_inputs) as S.
  { unfold ex_inputs. repeat constructor; try (vm_compute; congruence). }
  split; [exact S|]. destruct (C51_unaggregated_new ex_inputs false S) as (seen & D & A). exists seen. split; [exact D|].
  assert (forall s l, Forall2 agrees s l -> map fst s = map fst l) as K.
  { induction 1 as [|x y s l [H _] _ IH]; [reflexivity|]. cbn [map]. rewrite H, IH. reflexivity. }
  rewrite (K _ _ A). reflexivity.
Qed.

Definition ex_ainputs : list ainput :=
  [mk_ai (Chunked (B "pre.") (B "data") (B ".suf")) 1000 4607182418800017408
     {| sp_resolution := {| r_window := 60000000000; r_precision := 5 |}; sp_retention := 3600000000000 |} None;
   mk_ai (Raw (Some (B "foo"))) (-7) 0
     {| sp_resolution := {| r_window := 1; r_precision := 2 |}; sp_retention := 2 |} (Some 99)].
Example C51_aggregated_nonvacuous : Forall ainput_sendable ex_ainputs /\
  adecoded (new_ait (concat (map encode_ainput ex_ainputs)) false) (map ainput_message ex_ainputs) EndOfInput.
Proof.
  assert (Forall ainput_sendable ex_ainputs) as S.
  { unfold ex_ainputs. repeat constructor; try (vm_compute; congruence). }
  split; [exact S|]. exact (C51_aggregated_new ex_ainputs false S).
Qed.

(** The reader cannot tell from the error whether the stream was cut: here is one cut in the middle of a counter. *)
Theorem C51_cut_can_look_clean : exists i p q, input_sendable i /\ encode_input i = p ++ q /\ p <> [] /\ q <> [] /\
  mdecoded (new_mit p false) [] EndOfInput.
Proof.
  exists (Counter (Some (B "foo")) 5, None), (firstn 9 (encode_input (Counter (Some (B "foo")) 5, None))),
    (skipn 9 (encode_input (Counter (Some (B "foo")) 5, None))).
  split; [repeat constructor; vm_compute; congruence|]. split; [symmetry; apply firstn_skipn|].
  split; [vm_compute; discriminate|]. split; [vm_compute; discriminate|].
  eapply mdecoded_stop; [vm_compute; reflexivity|reflexivity].
Qed.
Print Assumptions C51_cut_can_look_clean.

(** * C52: newer writers *)

(** [stream_as] lets every value take any form the format allows, every object carry extra values of any kind after its
    fields, and messages of higher versions stand between those of this one: with the option set, the reader sees exactly
    the messages of this version. *)
Theorem C52_unaggregated l b : stream_as l b ->
  exists seen, mdecoded (new_mit b true) seen EndOfInput /\ Forall2 agrees seen l.
Proof.
  intros St. exists (with_lists [] l). split; [|apply with_lists_agree].
  exact (decode_stream l b (new_mit b true) St eq_refl (conj eq_refl eq_refl)).
Qed.
Print Assumptions C52_unaggregated.
Theorem C52_aggregated l b : astream_as l b -> adecoded (new_ait b true) l EndOfInput.
Proof. intros St. exact (adecode_stream l b (new_ait b true) St eq_refl (conj eq_refl eq_refl)). Qed.
Print Assumptions C52_aggregated.

(** Extra fields need no option; without it a message of a higher version stops the reader with an error, after all those
    before it were delivered. *)
Theorem C52_extra_fields l bs ignore : Forall2 message_as l bs ->
  exists seen, mdecoded (new_mit (concat bs) ignore) seen EndOfInput /\ Forall2 agrees seen l.
Proof.
  intros F. exists (with_lists [] l). split; [|apply with_lists_agree].
  apply (decode_messages l bs F [] EndOfInput (new_mit (concat bs) ignore)).
  - intros it' pl _ R _. destruct (mnext_end it' R) as (it2 & N & Ee). exact (mdecoded_stop it' it2 _ N Ee).
  - split; [rewrite app_nil_r; reflexivity|reflexivity].
Qed.
Print Assumptions C52_extra_fields.
Theorem C52_rejects l bs n rest : Forall2 message_as l bs -> newer n ->
  exists seen, mdecoded (new_mit (concat bs ++ n ++ rest) false) seen Malformed /\ Forall2 agrees seen l.
Proof.
  intros F N. exists (with_lists [] l). split; [|apply with_lists_agree].
  apply (decode_messages l bs F (n ++ rest) Malformed (new_mit (concat bs ++ n ++ rest) false)).
  - intros it' pl G R _. destruct (mnext_newer_reject n rest it' N G R) as (it2 & E & Ee). exact (mdecoded_stop it' it2 _ E Ee).
  - split; reflexivity.
Qed.
Print Assumptions C52_rejects.
Theorem C52_aggregated_extra_fields l bs ignore : Forall2 amessage_as l bs ->
  adecoded (new_ait (concat bs) ignore) l EndOfInput.
Proof.
  intros F. apply (adecode_messages l bs F [] EndOfInput (new_ait (concat bs) ignore)).
  - intros it' _ R. destruct (anext_end it' R) as (it2 & N & Ee). exact (adecoded_stop it' it2 _ N Ee).
  - split; [rewrite app_nil_r; reflexivity|reflexivity].
Qed.
Print Assumptions C52_aggregated_extra_fields.
Theorem C52_aggregated_rejects l bs n rest : Forall2 amessage_as l bs -> newer n ->
  adecoded (new_ait (concat bs ++ n ++ rest) false) l Malformed.
Proof.
  intros F N. apply (adecode_messages l bs F (n ++ rest) Malformed (new_ait (concat bs ++ n ++ rest) false)).
  - intros it' G R. destruct (anext_newer_reject n rest it' N G R) as (it2 & E & Ee). exact (adecoded_stop it' it2 _ E Ee).
  - split; reflexivity.
Qed.
Print Assumptions C52_aggregated_rejects.

(** A counter (version 0, in two bytes) whose object has a nested extra field and whose root has an extra string, then a
    message of version 2 holding a map, then a plain counter. *)
Definition ex_extra : bytes :=
  map zb ([204; 0] ++ [147; 6] ++ [147] ++ [161; 97] ++ [209; 255; 0] ++ [146; 192; 129; 1; 195] ++ [162; 104; 105]).
Definition ex_newer : bytes := map zb ([2] ++ [146] ++ [129; 192; 161; 98] ++ [203; 1; 2; 3; 4; 5; 6; 7; 8]).
Example C52_nonvacuous :
  stream_as [(SCounter (B "a") (-256), None); (SCounter (B "foo") 5, None)]
    (ex_extra ++ ex_newer ++ encode_plain (Counter (Some (B "foo")) 5)) /\ newer ex_newer.
Proof.
  assert (newer ex_newer) as N.
  { exists 2, 2%nat, (map zb [2]), (map zb [146]), (map zb [129; 192; 161; 98; 203; 1; 2; 3; 4; 5; 6; 7; 8]).
    split; [lia|]. split; [apply (int_pos 2); lia|]. split; [apply (array_fix 2); lia|]. split; [|reflexivity].
    apply (values_map 1 1 (map zb [129]) (map zb [192; 161; 98]) (map zb [203; 1; 2; 3; 4; 5; 6; 7; 8])).
    - apply (map_fix 1); lia.
    - apply (values_bytes 1 [] (map zb [192]) (map zb [161; 98])); [apply bytes_nil|].
      apply (values_bytes 0 (map zb [98]) (map zb [161; 98]) []); [|constructor]. apply (bytes_fix (map zb [98])). reflexivity.
    - apply (values_float 0 (number (map zb [1; 2; 3; 4; 5; 6; 7; 8])) (map zb [203; 1; 2; 3; 4; 5; 6; 7; 8]) []); [|constructor].
      apply (float_8 (map zb [1; 2; 3; 4; 5; 6; 7; 8])). reflexivity. }
  split; [|exact N].
  apply stream_message; [|apply stream_newer; [exact N|]].
  - refine (plain_as (SCounter (B "a") (-256)) 0 (map zb [6]) (map zb ([147] ++ [161; 97] ++ [209; 255; 0] ++ [146; 192; 129; 1; 195]))
      (map zb ([147; 6] ++ [147] ++ [161; 97] ++ [209; 255; 0] ++ [146; 192; 129; 1; 195] ++ [162; 104; 105])) (map zb [204; 0])
      _ _ _ _ _); [lia| | | |].
    + apply (int_unsigned 204 (map zb [0])). left. reflexivity.
    + apply (int_pos 6); lia.
    + apply (counter_as (B "a") (-256) (map zb [161; 97]) (map zb [209; 255; 0])).
      * apply (bytes_fix (B "a")). reflexivity.
      * apply (int_signed 209 (map zb [255; 0])). right. right. left. reflexivity.
      * exists 1%nat, (map zb [147]), (map zb [146; 192; 129; 1; 195]).
        split; [apply (array_fix 3); lia|]. split; [|reflexivity].
        apply (values_array 0 2 (map zb [146]) (map zb [192; 129; 1; 195]) []); [apply (array_fix 2); lia| |constructor].
        apply (values_bytes 1 [] (map zb [192]) (map zb [129; 1; 195])); [apply bytes_nil|].
        apply (values_map 0 1 (map zb [129]) (map zb [1; 195]) []); [apply (map_fix 1); lia| |constructor].
        apply (values_int 1 1 (map zb [1]) (map zb [195])); [apply (int_pos 1); lia|].
        apply (values_bool 0 true (map zb [195]) []); constructor.
    + exists 1%nat, (map zb [147]), (map zb [162; 104; 105]).
      split; [apply (array_fix 3); lia|]. split; [|reflexivity].
      apply (values_bytes 0 (map zb [104; 105]) (map zb [162; 104; 105]) []); [|constructor].
      apply (bytes_fix (map zb [104; 105])). reflexivity.
  - rewrite <- (app_nil_r (encode_plain _)). apply stream_message; [|constructor].
    apply (encode_input_as (Counter (Some (B "foo")) 5, None)). repeat constructor; vm_compute; congruence.
Qed.

(** * C53: what a message shows depends on its bytes *)

(** Whatever the input: if [Next] returned true, it read a block of bytes, and any other iterator with the same option that
    finds that block next, whatever it decoded before and whatever follows, shows the same metric; and either both show the
    policies found in the block, or both keep the policies they showed before. *)
Theorem C53_msgpack_partial it it' : d_err (x_st it) = None -> x_closed it = false -> mnext it = (true, it') ->
  exists b m o, d_in (x_st it) = b ++ d_in (x_st it') /\ shown (x_metric it') = Some m /\
    x_policies it' = match o with None => x_policies it | Some p => p end /\
    forall it2 r, x_ignore it2 = x_ignore it -> x_closed it2 = false -> x_st it2 = mk_st (b ++ r) None ->
      exists it2', mnext it2 = (true, it2') /\ x_st it2' = mk_st r None /\ shown (x_metric it2') = Some m /\
        x_policies it2' = match o with None => x_policies it2 | Some p => p end.
Proof.
  intros E C N. pose proof (mnext_any _ it (le_n _) E C) as H. rewrite N in H.
  destruct H as (b & m & Eb & _ & _ & _ & Sh & o & Po & All). exists b, m, o. split; [exact Eb|]. split; [exact Sh|].
  split; [exact Po|]. intros it2 r G C2 S2. destruct (All it2 r G (conj S2 C2)) as (it2' & N2 & [S' _] & Sh' & P').
  exists it2'. repeat (split; [assumption|]). exact P'.
Qed.
Print Assumptions C53_msgpack_partial.

(** Without its own policies a metric shows those of an earlier message: the same bytes, two histories, two results. *)
Theorem C53_msgpack_refuted : exists i j1 j2 p1 p2, Forall input_sendable [i; j1; j2] /\ snd i = None /\ p1 <> p2 /\
  (exists s1, mdecoded (new_mit (encode_input j1 ++ encode_input i) false) [s1; (content (fst i), p1)] EndOfInput) /\
  (exists s2, mdecoded (new_mit (encode_input j2 ++ encode_input i) false) [s2; (content (fst i), p2)] EndOfInput).
Proof.
  set (i := (Counter (Some (B "foo")) 5, None) : metric_input).
  set (j1 := (Gauge None 0, Some ex_policies) : metric_input).
  set (j2 := (Gauge None 0, Some default_policies_list) : metric_input).
  exists i, j1, j2, ex_policies, default_policies_list.
  assert (Forall input_sendable [i; j1; j2]) as S.
  { repeat constructor; try (vm_compute; congruence). }
  split; [exact S|]. split; [reflexivity|]. split; [discriminate|].
  assert (forall j pl, input_sendable j -> snd j = Some pl ->
    mdecoded (new_mit (encode_input j ++ encode_input i) false) [(content (fst j), pl); (content (fst i), pl)] EndOfInput) as K.
  { intros [m o] pl Sj Ej. cbn [snd] in Ej. subst o.
    apply (decode_messages [(content m, Some pl); (content (fst i), None)]
      [encode_input (m, Some pl); encode_input i]) with (r := []).
    - constructor; [exact (encode_input_as _ Sj)|]. constructor; [|constructor]. inversion S as [|? ? Si _]. exact (encode_input_as i Si).
    - intros it' pl' _ R _. destruct (mnext_end it' R) as (it2 & N & Ee). exact (mdecoded_stop it' it2 _ N Ee).
    - split; [|reflexivity]. cbn [concat]. rewrite !app_nil_r. reflexivity. }
  inversion S as [|? ? _ S1]. inversion S1 as [|? ? Sj1 S2]. inversion S2 as [|? ? Sj2 _].
  split; [exists (content (fst j1), ex_policies); exact (K j1 ex_policies Sj1 eq_refl)
         |exists (content (fst j2), default_policies_list); exact (K j2 default_policies_list Sj2 eq_refl)].
Qed.
Print Assumptions C53_msgpack_refuted.

(** The aggregated iterator carries nothing over. *)
Theorem C53_aggregated it it' : d_err (g_st it) = None -> g_closed it = false -> anext it = (true, it') ->
  exists b, d_in (g_st it) = b ++ d_in (g_st it') /\
    forall it2 r, g_ignore it2 = g_ignore it -> g_closed it2 = false -> g_st it2 = mk_st (b ++ r) None ->
      exists it2', anext it2 = (true, it2') /\ g_st it2' = mk_st r None /\ g_metric it2' = g_metric it' /\
        g_sp it2' = g_sp it' /\ g_at it2' = g_at it'.
Proof.
  intros E C N. pose proof (anext_any _ it (le_n _) E C) as H. rewrite N in H.
  destruct H as (b & Eb & _ & _ & _ & All). exists b. split; [exact Eb|].
  intros it2 r G C2 S2. destruct (All it2 r G (conj S2 C2)) as (it2' & N2 & [S' _] & Rest).
  exists it2'. split; [exact N2|]. split; [exact S'|exact Rest].
Qed.
Print Assumptions C53_aggregated.

Example C53_msgpack_nonvacuous : exists it, mnext (new_mit (encode_input (Counter (Some (B "foo")) 5, Some ex_policies)) false) = (true, it) /\
  shown (x_metric it) = Some (SCounter (B "foo") 5) /\ x_policies it = ex_policies.
Proof. eexists. split; [vm_compute; reflexivity|]. split; reflexivity. Qed.
Example C53_aggregated_nonvacuous : exists it, anext (new_ait (concat (map encode_ainput ex_ainputs)) false) = (true, it) /\
  fst (access GetID (g_metric it)) = AnID (B "pre.data.suf").
Proof. eexists. split; [vm_compute; reflexivity|]. reflexivity. Qed.

(** * C55: the raw metric *)

(** Every sequence of accessor calls on the data of a metric gets the metric's ID, time and value. *)
Theorem C55_any_order id t v d calls : raw_as id t v d -> accesses calls (new_raw d) = map (right_answer d id t v) calls.
Proof. intros R. exact (accesses_right id t v d (raw_starts id t v d R) calls). Qed.
Print Assumptions C55_any_order.

(** In particular on what the encoder writes. *)
Theorem C55_encoded id t v calls : zlen (id_of id) < 2 ^ 32 - 32 -> is_int64 t -> is_float64 v ->
  accesses calls (new_raw (enc_raw_metric id t v)) = map (right_answer (enc_raw_metric id t v) (id_of id) t v) calls.
Proof. intros L T V. exact (C55_any_order _ _ _ _ calls (proj1 (enc_raw_as id t v L T V))). Qed.
Print Assumptions C55_encoded.

(** On any data, even damaged: two calls of the same accessor that both succeed, in whatever histories, agree. *)
Theorem C55_consistent d : exists id t v, forall before a,
  (exists e, fst (access a (after before (new_raw d))) = AnError e) \/
  fst (access a (after before (new_raw d))) = right_answer d id t v a.
Proof. exact (raw_consistent d). Qed.
Print Assumptions C55_consistent.

Example C55_nonvacuous :
  accesses [GetValue; GetID; GetMetric; GetTime; GetBytes; GetID] (new_raw (enc_raw_metric (Raw (Some (B "foo"))) 12 34)) =
  [AValue 34; AnID (B "foo"); AMetric (B "foo") 12 34; ATime 12; ABytes (enc_raw_metric (Raw (Some (B "foo"))) 12 34); AnID (B "foo")].
Proof. apply C55_encoded; vm_compute; [reflexivity|split; congruence|split; congruence]. Qed.
(** Damaged data: the ID can be read, until somebody asks for the missing value. *)
Example C55_damaged :
  accesses [GetID; GetValue; GetID] (new_raw (firstn 7 (enc_raw_metric (Raw (Some (B "foo"))) 12 34))) =
  [AnID (B "foo"); AnError EndOfInput; AnError EndOfInput].
Proof. vm_compute. reflexivity. Qed.
