(** C48, C49, C50 and C53 for the protobuf streams. *)
From Verif.Proof Require Import ProtoWireProof MessagesProof ProtoPure ProtoFrameProof ProtoHeapProof ProtoSystemProof
  ProtoSafeProof ProtoStateProof.
From Coq Require Import Ascii String NArith ZArith Bool Arith Lia List.
From Verif.Base Require Import Bytes Slice.
From Verif.Model Require Import AggType Policy Transformation Pipeline Metadata ProtoWire Messages ProtoStream.
From Verif.Spec Require Import PolicySpec MetadataSpec ProtoStreamSpec.
Import ListNotations.
Open Scope Z_scope.

(** * C48: streams round-trip *)

(** In any program over any number of encoders sharing a pool with each other and with anybody else, an encoder's
    content grows by one frame per message successfully encoded, and a frame is what a new encoder makes of the
    message alone. *)
Theorem C48_frames s l s' i max x :
  reachable s -> runs s l s' -> Forall (fun y => op_ok (fst (fst y))) l ->
  Forall (fun y => keeps i (fst (fst y))) l -> nth_error (v_encs (observe s)) i = Some (max, x) ->
  exists fs, Forall2 (fun u f => alone u max f) (sent i l) fs /\
    nth_error (v_encs (observe s')) i = Some (max, x ++ concat fs).
Proof.
  intros Re R O K N. exact (history s l s' R O (reachable_inv s Re) i max x K N).
Qed.
Print Assumptions C48_frames.

(** An iterator over what an empty encoder came to hold delivers exactly the messages encoded (a gauge or timed
    value of minus zero arriving as zero), then end of stream. *)
Theorem C48_stream s l s' i max rmax ms :
  reachable s -> runs s l s' -> Forall (fun y => op_ok (fst (fst y))) l ->
  Forall (fun y => keeps i (fst (fst y))) l -> nth_error (v_encs (observe s)) i = Some (max, []) ->
  Forall2 (fun u m => selected u = Some m /\ sendable m) (sent i l) ms -> max <= rmax ->
  exists d, nth_error (v_encs (observe s')) i = Some (max, d) /\
    decoded (new_iter d rmax) (map as_received ms) EOF.
Proof.
  intros Re R O K N S L. destruct (C48_frames s l s' i max [] Re R O K N) as (fs & A & N'). exists (concat fs).
  split; [exact N'|]. pose proof (max_bound s i max [] (reachable_inv s Re) N) as M.
  apply (decode_frames rmax ms fs); [|split; reflexivity|reflexivity|reflexivity].
  exact (alone_framed_all _ max rmax ms fs M L S A).
Qed.
Print Assumptions C48_stream.

(** Cut anywhere, the stream gives just the messages whose frames are whole, then an error: the end of the stream or
    an unexpected end. *)
Theorem C48_cut us max rmax ms fs n :
  max < 2 ^ 34 -> max <= rmax ->
  Forall2 (fun u m => selected u = Some m /\ sendable m) us ms -> Forall2 (fun u f => alone u max f) us fs ->
  exists k e, decoded (new_iter (firstn n (concat fs)) rmax) (firstn k (map as_received ms)) e /\
    (e = EOF \/ e = UnexpectedEOF) /\ (k <= length fs)%nat /\
    ((n <= length (concat fs))%nat -> (length (concat (firstn k fs)) <= n)%nat) /\
    ((k < length fs)%nat -> (n < length (concat (firstn (S k) fs)))%nat) /\
    ((length (concat fs) <= n)%nat -> k = length fs).
Proof.
  intros M L S A.
  apply (decode_cut rmax ms fs); [|split; reflexivity|reflexivity|reflexivity].
  exact (alone_framed_all us max rmax ms fs M L S A).
Qed.
Print Assumptions C48_cut.

(** Everything but minus zero arrives as it was sent. *)
Theorem C48_exact m :
  (forall g ms, m = MGauge g ms -> g_value g <> negative_zero) ->
  (forall t md, m = MTimed t md -> td_value t <> negative_zero) -> as_received m = m.
Proof.
  intros G T. destruct m as [c ms|t ms|g ms|f md|t md]; try reflexivity; cbn [as_received].
  - specialize (G g ms eq_refl). unfold plus_zero. rewrite (proj2 (Z.eqb_neq _ _) G). destruct g; reflexivity.
  - specialize (T t md eq_refl). unfold plus_zero. rewrite (proj2 (Z.eqb_neq _ _) T). destruct t; reflexivity.
Qed.
Print Assumptions C48_exact.

(** Every sendable message encodes, unless it is above the limit. *)
Theorem C48_sendable_encodes u m : selected u = Some m -> sendable m ->
  exists body, forall max, max < 2 ^ 34 -> zlen body <= max -> alone u max (enc_varint (zigzag (zlen body)) ++ body).
Proof.
  intros S Sm. destruct (sendable_encodes u m S Sm) as (pb & _ & H). exists (marshal mm_fields pb).
  intros max M L. specialize (H max M). unfold frame in H. rewrite mm_size in H. exact (H L).
Qed.
Print Assumptions C48_sendable_encodes.

(** A concrete program: two encoders over one pool, a third party writing to what it gets from the pool. *)
Definition ex_counter : union_of list :=
  mk_union 1 (mk_counter (B "stats.foo") (-7)) [] (mk_timer [] []) [] (mk_gauge [] 0) []
    (mk_forwarded 0 [] 0 []) (mk_fm 0%N empty_storage_policy [] 0 0) (mk_timed 0 [] 0 0)
    {| tm_agg := 0%N; tm_sp := empty_storage_policy |}.
Definition ex_metas : staged_metadatas :=
  [mk_sm [mk_pm 6%N [{| sp_resolution := {| r_window := 10000000000; r_precision := 1 |}; sp_retention := 172800000000000 |}]
            [{| ao_kind := TransformationOp; ao_tf := 2; ao_rollup := empty_applied_rollup |}] 0] 1234 false].
Definition ex_gauge : union_of list :=
  mk_union 3 (mk_counter [] 0) [] (mk_timer [] []) [] (mk_gauge (B "g") negative_zero) ex_metas
    (mk_forwarded 0 [] 0 []) (mk_fm 0%N empty_storage_policy [] 0 0) (mk_timed 0 [] 0 0)
    {| tm_agg := 0%N; tm_sp := empty_storage_policy |}.
Definition ex_prefix : list (op * choice) :=
  [(New true 4 1000, Fresh []); (OtherGet 100, Fresh []); (New true 4 30, Reuse 0)].
Definition ex_prog : list (op * choice) :=
  [(Encode 0 ex_counter, Fresh []); (Encode 1 ex_gauge, Fresh []); (OtherPut 0, Fresh []); (Encode 1 ex_counter, Reuse 0);
   (Encode 0 ex_gauge, Reuse 0); (Reset 1 [], Reuse 0)].

Example C48_nonvacuous : exists s l s' max d ms,
  reachable s /\ runs s l s' /\ Forall (fun y => op_ok (fst (fst y))) l /\
  Forall (fun y => keeps 0%nat (fst (fst y))) l /\ nth_error (v_encs (observe s)) 0 = Some (max, []) /\
  Forall2 (fun u m => selected u = Some m /\ sendable m) (sent 0 l) ms /\ length ms = 2%nat /\
  nth_error (v_encs (observe s')) 0 = Some (max, d) /\ d <> [] /\
  decoded (new_iter d max) (map as_received ms) EOF.
Proof.
  destruct (exec empty_system ex_prefix) as [[s r]|] eqn:E1; [|discriminate].
  destruct (exec s ex_prog) as [[s' l]|] eqn:E2; [|exfalso; revert E2; injection E1 as <- _; vm_compute; discriminate].
  pose proof (exec_runs _ _ _ _ E1) as R1. pose proof (exec_runs _ _ _ _ E2) as R2.
  assert (r = map (fun x => (x, true)) ex_prefix) as Er by (injection E1 as _ <-; reflexivity).
  assert (map (fun x => (fst (fst x), snd x)) l =
    [(Encode 0 ex_counter, true); (Encode 1 ex_gauge, false); (OtherPut 0, true); (Encode 1 ex_counter, true);
     (Encode 0 ex_gauge, true); (Reset 1 [], true)]) as El.
  { assert (option_map (fun x => map (fun x => (fst (fst x), snd x)) (snd x)) (exec s ex_prog) =
      Some (map (fun x => (fst (fst x), snd x)) l)) as H by (rewrite E2; reflexivity).
    injection E1 as <- _. assert (forall A (a b : A), Some a = Some b -> a = b) as Inj by (intros A a b Q; congruence).
    apply Inj. rewrite <- H. vm_compute. reflexivity. }
  assert (sent 0 l = [ex_counter; ex_gauge]) as Se.
  { destruct l as [|[[o1 c1] b1] [|[[o2 c2] b2] [|[[o3 c3] b3] [|[[o4 c4] b4] [|[[o5 c5] b5] [|[[o6 c6] b6] [|? ?]]]]]]];
      try discriminate El. cbn [map fst snd] in El.
    injection El as -> -> -> -> -> -> -> -> -> -> -> ->. reflexivity. }
  assert (Forall (fun y => op_ok (fst (fst y)) /\ keeps 0%nat (fst (fst y))) l) as F.
  { assert (Forall (fun y => op_ok (fst y) /\ keeps 0%nat (fst y)) (map (fun x : op * choice * bool => (fst (fst x), snd x)) l))
      as H by (rewrite El; repeat constructor; cbn; lia).
    rewrite Forall_map in H. exact H. }
  assert (reachable s) as Re.
  { exists r. split; [exact R1|]. rewrite Er. repeat constructor; cbn; lia. }
  assert (nth_error (v_encs (observe s)) 0 = Some (1000, [])) as N by (injection E1 as <- _; vm_compute; reflexivity).
  assert (Forall2 (fun u m => selected u = Some m /\ sendable m) (sent 0 l)
    [MCounter (mk_counter (B "stats.foo") (-7)) []; MGauge (mk_gauge (B "g") negative_zero) ex_metas]) as S.
  { rewrite Se. constructor; [|constructor; [|constructor]]; (split; [reflexivity|]); cbn [sendable c_value g_value].
    - split; [unfold is_int64; lia|constructor].
    - split; [unfold is_float64, negative_zero; lia|]. constructor; [|constructor]. split; [unfold is_int64; cbn; lia|].
      constructor; [|constructor]. split; [reflexivity|]. split; [|split; [|cbn; lia]].
      + constructor; [|constructor]. split; [|split; unfold is_int64; cbn; lia]. unfold sp_ok, valid_precision. cbn. lia.
      + constructor; [|constructor]. split; [left; split; [reflexivity|split; [right; reflexivity|reflexivity]]|reflexivity]. }
  assert (Forall (fun y => op_ok (fst (fst y))) l) as F1 by (eapply Forall_impl; [|exact F]; cbn; tauto).
  assert (Forall (fun y => keeps 0%nat (fst (fst y))) l) as F2 by (eapply Forall_impl; [|exact F]; cbn; tauto).
  destruct (C48_stream s l s' 0 1000 1000 _ Re R2 F1 F2 N S ltac:(lia)) as (d & Nd & D).
  exists s, l, s', 1000, d, [MCounter (mk_counter (B "stats.foo") (-7)) []; MGauge (mk_gauge (B "g") negative_zero) ex_metas].
  repeat (split; [assumption|]). split; [reflexivity|]. split; [exact Nd|]. split; [|exact D].
  intros ->. inversion D as [|? ? ? ? ? X]; subst. vm_compute in X. discriminate.
Qed.

(** Cut right after its size, a message goes missing without a trace: the iterator reports the same end of stream as
    at the end of a whole stream. *)
Theorem C48_cut_can_look_clean : exists u m f n, selected u = Some m /\ sendable m /\ alone u 1000 f /\
  (0 < n < length f)%nat /\ decoded (new_iter (firstn n f) 1000) [] EOF.
Proof.
  exists ex_counter, (MCounter (mk_counter (B "stats.foo") (-7)) []).
  destruct (enc_message ex_counter (Fresh []) (fst (new_encoder false 0 1000 (Fresh []) empty_heap))
    (snd (new_encoder false 0 1000 (Fresh []) empty_heap))) as [e h| |] eqn:E; [|vm_compute in E; discriminate..].
  exists (enc_bytes h e), 1%nat. split; [reflexivity|]. split; [split; [cbn; unfold is_int64; lia|constructor]|].
  split; [exists e, h; split; [exact E|reflexivity]|].
  assert (enc_bytes h e = enc_bytes h e) as Eb by reflexivity.
  assert (match enc_message ex_counter (Fresh []) (fst (new_encoder false 0 1000 (Fresh []) empty_heap))
    (snd (new_encoder false 0 1000 (Fresh []) empty_heap)) with EncOk e h => enc_bytes h e | _ => [] end = enc_bytes h e) as Q
    by (rewrite E; reflexivity). rewrite <- Q. clear.
  split; [vm_compute; lia|]. eapply decoded_stop; vm_compute; reflexivity.
Qed.
Print Assumptions C48_cut_can_look_clean.

(** * C49: size limits, truncation, relinquished buffers *)

(** Every operation has exactly its own effect, whatever the pool hands out and whoever else uses it. *)
Theorem C49_effect s o c s' ok :
  reachable s -> op_ok o -> run_op s o c = Some (s', ok) -> effect (observe s) o ok (observe s').
Proof. intros Re O R. exact (proj2 (run_op_ok s o c s' ok (reachable_inv s Re) O R)). Qed.
Print Assumptions C49_effect.

(** No operation panics, but for cutting a buffer to a length it does not have. *)
Theorem C49_no_panic s o c : reachable s -> run_op s o c = None ->
  exists j n, o = BufTruncate j n /\
    forall x, nth_error (v_bufs (observe s)) j = Some (Some x) -> ~ 0 <= n <= zlen x.
Proof. intros Re R. exact (run_op_panic s o c (reachable_inv s Re) R). Qed.
Print Assumptions C49_no_panic.

(** A relinquished buffer keeps its content until its owner cuts or closes it. *)
Theorem C49_relinquished s l s' j x : reachable s -> runs s l s' -> Forall (fun y => op_ok (fst (fst y))) l ->
  Forall (fun y => leaves j (fst (fst y))) l -> nth_error (v_bufs (observe s)) j = Some x ->
  nth_error (v_bufs (observe s')) j = Some x.
Proof. intros Re R O L N. exact (buf_history s l s' R O (reachable_inv s Re) j x L N). Qed.
Print Assumptions C49_relinquished.

(** Truncating an encoder to an earlier length removes exactly what was encoded since. *)
Theorem C49_truncate_back s l s' i max x c :
  reachable s -> runs s l s' -> Forall (fun y => op_ok (fst (fst y))) l ->
  Forall (fun y => keeps i (fst (fst y))) l -> nth_error (v_encs (observe s)) i = Some (max, x) ->
  exists s'', run_op s' (Truncate i (zlen x)) c = Some (s'', true) /\ nth_error (v_encs (observe s'')) i = Some (max, x).
Proof.
  intros Re R O K N. destruct (C48_frames s l s' i max x Re R O K N) as (fs & _ & N').
  exact (truncate_back s' i max x _ c (runs_inv s l s' R O (reachable_inv s Re)) N').
Qed.
Print Assumptions C49_truncate_back.

(** The encoder accepts a message exactly when its body is within the limit. *)
Theorem C49_encoder_limit u big f : big < 2 ^ 34 -> alone u big f ->
  exists body, f = enc_varint (zigzag (zlen body)) ++ body /\
    forall max, max < 2 ^ 34 ->
      (alone u max f <-> zlen body <= max) /\ (zlen body > max -> forall f', ~ alone u max f').
Proof. exact (alone_limit u big f). Qed.
Print Assumptions C49_encoder_limit.

(** The decoder rejects a message announced as larger than its limit before reading it. *)
Theorem C49_decoder_limit it body rest :
  i_err it = None -> i_closed it = false -> i_in it = enc_varint (zigzag (zlen body)) ++ body ++ rest ->
  zlen body < 2 ^ 63 -> i_max it < zlen body ->
  exists it', next it = Stop it' /\ i_err it' = Some TooLarge.
Proof.
  intros E C I L M. unfold next. rewrite E, C, I. pose proof (zlen_nonneg body).
  rewrite read_enc_varint by lia. cbn [i_max]. rewrite (proj2 (Z.ltb_lt _ _) M). eexists. split; reflexivity.
Qed.
Print Assumptions C49_decoder_limit.

Definition ex_run := exec empty_system (ex_prefix ++ [(Encode 0 ex_counter, Fresh [])]).
Example C49_nonvacuous : exists s o c s', reachable s /\ op_ok o /\ run_op s o c = Some (s', true) /\
  o = Relinquish 0 /\ exists x, x <> [] /\ nth_error (v_bufs (observe s')) 0 = Some (Some x).
Proof.
  assert (option_map snd ex_run = Some (map (fun x => (x, true)) (ex_prefix ++ [(Encode 0 ex_counter, Fresh [])]))) as R
    by (vm_compute; reflexivity).
  assert (match ex_run with
    | Some (s, _) =>
        match run_op s (Relinquish 0) (Fresh []) with
        | Some (s', true) => match nth_error (v_bufs (observe s')) 0 with Some (Some (_ :: _)) => true | _ => false end
        | _ => false
        end
    | None => false
    end = true) as O by (vm_compute; reflexivity).
  destruct ex_run as [[s r]|] eqn:E1; [|discriminate O].
  destruct (run_op s (Relinquish 0) (Fresh [])) as [[s' [|]]|] eqn:E2; [|discriminate O|discriminate O].
  destruct (nth_error (v_bufs (observe s')) 0) as [[[|a x]|]|] eqn:E3; try discriminate O.
  assert (r = map (fun x => (x, true)) (ex_prefix ++ [(Encode 0 ex_counter, Fresh [])])) as Er.
  { cbn [option_map snd] in R. congruence. }
  exists s, (Relinquish 0), (Fresh []), s'. split; [|split; [exact I|split; [exact E2|split; [reflexivity|]]]].
  - exists r. split; [exact (exec_runs _ _ _ _ E1)|]. rewrite Er. repeat constructor; cbn; lia.
  - exists (a :: x). split; [discriminate|exact E3].
Qed.

(** * C50: malformed input *)

(** Whatever the input, the iteration ends: with an error, or with a panic. *)
Theorem C50_ends d max : (exists ms e, decoded (new_iter d max) ms e) \/ panics (new_iter d max).
Proof.
  apply (ends (S (length d))); cbn [new_iter i_in i_closed]; [lia|discriminate].
Qed.
Print Assumptions C50_ends.

(** It panics only where a negative message size is read, unless the input holds a number that overflows when added to
    a position. *)
Theorem C50_no_panic_partial d max : no_overflow d -> panics (new_iter d max) ->
  exists p s n r, d = p ++ s /\ read_varint s = inl (n, r) /\ n < 0.
Proof. intros No P. exact (panics_negative (new_iter d max) P No). Qed.
Print Assumptions C50_no_panic_partial.

(** A message size of minus one. *)
Theorem C50_negative_size_refuted : exists d max, no_overflow d /\ panics (new_iter d max).
Proof.
  exists [zb 1], 1000. split; [|apply panics_now; vm_compute; reflexivity].
  split; [vm_compute; reflexivity|]. intros p s v r E D.
  assert (s = [] \/ s = [zb 1]) as [->| ->].
  { destruct p as [|a [|b p]]; cbn [app] in E; [right; congruence|left; congruence|discriminate]. }
  - discriminate.
  - injection D as <- <-. vm_compute. reflexivity.
Qed.
Print Assumptions C50_negative_size_refuted.

(** A field of length 2^63 - 1 in a message of twelve bytes, and no negative size. *)
Theorem C50_overflow_refuted : exists d max, panics (new_iter d max) /\
  exists n r, read_varint d = inl (n, r) /\ 0 <= n /\ n <= max /\ n = zlen r.
Proof.
  exists (zb 20 :: tag 2 2 ++ enc_varint (2 ^ 63 - 1)), 1000. split; [apply panics_now; vm_compute; reflexivity|].
  eexists _, _. split; [vm_compute; reflexivity|]. vm_compute. repeat split; discriminate.
Qed.
Print Assumptions C50_overflow_refuted.

(** A malformed stream that meets the condition: an unknown field, a group, a truncated length. *)
Definition ex_bad : bytes := [zb 16; zb 123; zb 8; zb 4; zb 124; zb 18; zb 9; zb 1; zb 1].
Example C50_nonvacuous : no_overflow ex_bad /\ ~ panics (new_iter ex_bad 100) /\
  decoded (new_iter ex_bad 100) [] BadWire.
Proof.
  assert (decoded (new_iter ex_bad 100) [] BadWire) as D by (eapply decoded_stop; vm_compute; reflexivity).
  split; [|split; [|exact D]].
  - split; [vm_compute; reflexivity|]. intros p s v r E D'. unfold ex_bad in *.
    do 10 (destruct p as [|? p]; cbn [app] in E;
      [try discriminate; subst s; first [discriminate D'|vm_compute in D'; injection D' as <- <-; vm_compute; reflexivity]
      |try discriminate; injection E as _ E]).
  - intros P. inversion P as [it N|it it' N]; subst; vm_compute in N; discriminate.
Qed.

(** * C53: iterators carry nothing over *)

(** What a new iterator accepts, any other accepts as the same message; what it rejects any other rejects with the same
    error, except that a message announcing its type and lacking its body may be taken for an empty message. *)
Theorem C53_protobuf_partial it : i_err it = None -> i_closed it = false ->
  match next (new_iter (i_in it) (i_max it)) with
  | More it1 => exists it2, next it = More it2 /\ current it2 = current it1 /\ i_in it2 = i_in it1
  | Crash => next it = Crash
  | Stop it1 =>
      (exists it2, next it = Stop it2 /\ i_err it2 = i_err it1) \/
      (i_err it1 = Some BadMessage /\ exists it2 m, next it = More it2 /\ current it2 = Some m /\ empty_message m)
  end.
Proof. exact (next_used it). Qed.
Print Assumptions C53_protobuf_partial.

(** A message of type counter without a counter: an error, but after another counter an empty counter. *)
Definition ex_no_body : bytes := [zb 4; zb 8; zb 1].
Definition ex_body : bytes := [zb 12; zb 8; zb 1; zb 18; zb 2; zb 10; zb 0].
Theorem C53_protobuf_refuted : exists d1 d2 m,
  decoded (new_iter d2 100) [] BadMessage /\
  decoded (new_iter (d1 ++ d2) 100) [m; MCounter (mk_counter [] 0) []] EOF.
Proof.
  exists ex_body, ex_no_body, (MCounter (mk_counter [] 0) []). split.
  - eapply decoded_stop; vm_compute; reflexivity.
  - eapply decoded_more; [vm_compute; reflexivity|vm_compute; reflexivity|].
    eapply decoded_more; [vm_compute; reflexivity|vm_compute; reflexivity|].
    eapply decoded_stop; vm_compute; reflexivity.
Qed.
Print Assumptions C53_protobuf_refuted.
