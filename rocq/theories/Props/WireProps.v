(** C66: messages of newer writers.  The wire format, what a newer or reordered form of a message is, and the .proto
    files are those of [Spec/WireSpec.v]. *)
From Coq Require Import Ascii String Arith NArith ZArith Bool Lia List.
From Verif.Base Require Import Bytes BytesFacts.
From Verif.Proof Require Import ProtoWireProof MessagesProof ProtoPure ProtoFrameProof ProtoHeapProof ProtoSystemProof RuleWireProof
  StoreEditProof NamespaceProof WireProof WireWritten.
From Verif.Model Require Import AggType Policy Transformation Pipeline Metadata Filter MetricID Rules RuleSet RuleSetProto
  Namespace ProtoWire Messages ProtoStream RuleWire.
From Verif.Spec Require Import AggSpec PolicySpec MetadataSpec FilterSpec RulesSpec EditSpec RuleSetProtoSpec NamespaceSpec
  ProtoStreamSpec RuleWireSpec WireSpec.
From Verif.Props Require Import RulesProps EditProps RuleSetProtoProps NamespaceProps ProtoStreamProps RuleWireProps.
Import ListNotations.
Open Scope Z_scope.

(** * Decoders *)

(** A rule set is read the same from any newer or reordered form of its bytes, and nothing else is read from them. *)
Theorem C66_rule_set d d' pb : newer rule_set_schema d d' -> zlen d < 2 ^ 63 -> zlen d' < 2 ^ 63 ->
  (unmarshal_rule_set d = Ok pb <-> unmarshal_rule_set d' = Ok pb).
Proof. intros N L L'. exact (r_rule_set d d' _ pb N L L'). Qed.
Print Assumptions C66_rule_set.

Theorem C66_namespaces d d' pb : newer namespaces_schema d d' -> zlen d < 2 ^ 63 -> zlen d' < 2 ^ 63 ->
  (unmarshal_namespaces d = Ok pb <-> unmarshal_namespaces d' = Ok pb).
Proof. intros N L L'. exact (r_namespaces d d' _ pb N L L'). Qed.
Print Assumptions C66_namespaces.

(** A metric of a stream, read into whatever message was there before. *)
Theorem C66_metric d d' old m : newer metric_with_metadatas_schema d d' -> zlen d < 2 ^ 63 -> zlen d' < 2 ^ 63 ->
  (unmarshal mm_fields d old = Ok m <-> unmarshal mm_fields d' old = Ok m).
Proof. intros N L L'. exact (r_metric d d' old m N L L'). Qed.
Print Assumptions C66_metric.

(** * What this version writes *)

(** What is written is a sequence of fields, so that there are newer forms of it. *)
Theorem C66_written :
  (forall pb, rule_set_typed code_ok pb -> zlen (marshal rule_set_fields pb) < 2 ^ 63 ->
     well_formed rule_set_schema (marshal rule_set_fields pb)) /\
  (forall pb, namespaces_typed pb -> zlen (marshal namespaces_fields pb) < 2 ^ 63 ->
     well_formed namespaces_schema (marshal namespaces_fields pb)) /\
  (forall pb, zlen (marshal mm_fields pb) < 2 ^ 63 -> well_formed metric_with_metadatas_schema (marshal mm_fields pb)) /\
  (forall s d, well_formed s d -> newer s d d).
Proof.
  split; [exact written_rule_set|]. split; [exact written_namespaces|]. split; [exact written_metric|exact well_formed_newer].
Qed.
Print Assumptions C66_written.

(** * End to end *)

(** A stored rule set to which a newer version has added fields still reads back as the same rules. *)
Theorem C66_stored v o rs : storable o rs -> numbers_fit rs ->
  exists pb d, rule_set_proto rs = Some pb /\ marshal_rule_set pb = Ok d /\
    forall d', newer rule_set_schema d d' -> zlen d < 2 ^ 63 -> zlen d' < 2 ^ 63 ->
    exists pb' rs', unmarshal_rule_set d' = Ok pb' /\ rule_set_from_proto v (Some pb') o = Some rs' /\ read_back v o rs rs'.
Proof.
  intros S N. destruct (C65_rule_set v o rs S N) as (pb & d & E1 & E2 & R). exists pb, d. split; [exact E1|]. split; [exact E2|].
  intros d' Nw L L'. destruct (R L) as (pb' & rs' & U & F & B). exists pb', rs'. split; [|split; assumption].
  exact (proj1 (C66_rule_set d d' pb' Nw L L') U).
Qed.
Print Assumptions C66_stored.

Theorem C66_stored_namespaces v x : ns_times_fit x ->
  exists d, marshal_namespaces (namespaces_proto x) = Ok d /\
    forall d', newer namespaces_schema d d' -> zlen d < 2 ^ 63 -> zlen d' < 2 ^ 63 ->
    exists pb, unmarshal_namespaces d' = Ok pb /\
       new_namespaces v (Some pb) = Some (mk_nsx v (map (fun n => mk_ns (ns_name n)
         (map (fun s => mk_nss (to_int32 (nss_version s)) (nss_tomb s) (nss_at s) (nss_by s)) (ns_snapshots n))) (nsx_list x))).
Proof.
  intros F. destruct (C65_namespaces v x F) as (d & E & R). exists d. split; [exact E|].
  intros d' N L L'. destruct (R L) as (pb & U & Q). exists pb. split; [|exact Q]. exact (proj1 (C66_namespaces d d' pb N L L') U).
Qed.
Print Assumptions C66_stored_namespaces.

(** A frame: the size of a message, then the message. *)
Definition frame_of (b : bytes) : bytes := enc_varint (zigzag (zlen b)) ++ b.

(** An iterator over a stream of newer forms [bs] of encoded messages delivers the messages encoded. *)
Theorem C66_stream us max rmax ms fs bs : max < 2 ^ 34 ->
  Forall2 (fun u m => selected u = Some m /\ sendable m) us ms -> Forall2 (fun u f => alone u max f) us fs ->
  Forall2 (fun f b' => exists b, f = frame_of b /\ newer metric_with_metadatas_schema b b' /\ zlen b < 2 ^ 63 /\
    zlen b' <= rmax /\ zlen b' < 2 ^ 63) fs bs ->
  decoded (new_iter (concat (map frame_of bs)) rmax) (map as_received ms) EOF.
Proof.
  intros M S A F. pose proof (alone_framed_all us max (Z.max max rmax) ms fs M ltac:(lia) S A) as Fr. clear S A us.
  assert (G : forall it, fresh_iter it -> i_max it = rmax -> i_in it = concat (map frame_of bs) ->
    decoded it (map as_received ms) EOF).
  2: { apply G; [split|..]; reflexivity. }
  revert bs F. induction Fr as [|m f ms fs (Sm & pb & E & -> & L1 & L2) _ IH]; intros bs F it Fi Mx In.
  - inversion F; subst. destruct (next_end it Fi In) as (it' & N & Er). exact (decoded_stop _ _ _ N Er).
  - inversion F as [|f0 b' fs0 bs0 (b & Eb & Nw & Lb0 & Lb & Lb') F' X Y]. subst f0 fs0 bs. clear F.
    assert (b = marshal mm_fields pb) as ->.
    { unfold frame, frame_of in Eb. rewrite mm_size in Eb. set (x := marshal mm_fields pb) in *.
      rewrite mm_size in L2. fold x in L2. pose proof (zlen_nonneg x). pose proof (zlen_nonneg b).
      assert (R1 : read_varint (enc_varint (zigzag (zlen x)) ++ x) = inl (zlen x, x)) by (apply read_enc_varint; lia).
      rewrite Eb, read_enc_varint in R1 by lia. congruence. }
    destruct Fi as [F1 F2]. cbn [map concat] in *. pose proof (zlen_nonneg b').
    destruct (message_back m Sm) as (pb0 & E0 & R). assert (pb0 = pb) by congruence; subst pb0.
    destruct (R (i_pb it) (i_msg it) Lb0) as (pb' & u' & U & Fm & Se).
    apply (C66_metric _ _ _ _ Nw Lb0 Lb') in U. set (r := concat (map frame_of bs0)) in *.
    assert (exists it', next it = More it' /\ current it' = Some (as_received m) /\ fresh_iter it' /\
      i_in it' = r /\ i_max it' = i_max it) as (it' & N & C & Fi' & I' & M').
    { unfold next. rewrite F1, F2, In. unfold frame_of. rewrite <- app_assoc, read_enc_varint by lia.
      cbn [i_max]. rewrite (proj2 (Z.ltb_ge (i_max it) _)) by lia.
      unfold decode_message. cbn [i_in i_pb i_msg i_max i_closed i_err]. rewrite (proj2 (Z.ltb_ge _ 0)) by lia.
      unfold read_full. rewrite zlen_app. pose proof (zlen_nonneg r).
      rewrite (proj2 (Z.leb_le _ _)) by lia.
      unfold zlen at 1 2. rewrite Nat2Z.id.
      rewrite firstn_app, firstn_all, Nat.sub_diag, firstn_O, app_nil_r.
      rewrite skipn_app, skipn_all, Nat.sub_diag. cbn [skipn app]. rewrite U, Fm.
      eexists; split; [reflexivity|]. repeat split; cbn; auto. }
    refine (decoded_more _ _ _ _ _ N C _). exact (IH bs0 F' it' Fi' (eq_trans M' Mx) I').
Qed.
Print Assumptions C66_stream.

(** * Concrete cases *)

Lemma varint_of_dec d v : dec_varint d = Ok (v, []) -> varint d v.
Proof.
  assert (H : forall k w acc d v, get_varint k w acc d = Ok (v, []) ->
    exists x, v = acc + x * w /\ base128 d x /\ (length d <= k)%nat).
  { induction k as [|k IH]; intros w acc d0 v0 E; [discriminate|]. destruct d0 as [|b d0]; [discriminate|]. cbn [get_varint] in E.
    pose proof (bz_range b). destruct (bz b <? 128) eqn:Q.
    - apply Z.ltb_lt in Q. injection E as <- ->. exists (byte_value b). change (byte_value b) with (bz b).
      rewrite Z.mod_small by lia. repeat split; [|cbn; lia]. constructor. exact Q.
    - apply Z.ltb_ge in Q. destruct (IH _ _ _ _ E) as (x & -> & Bx & L). exists (byte_value b - 128 + 128 * x).
      change (byte_value b) with (bz b). replace (bz b mod 128) with (bz b - 128) by (apply Z.mod_unique with 1; lia).
      repeat split; [lia| |cbn; lia]. constructor; [exact Q|exact Bx]. }
  intros E. destruct (H _ _ _ _ _ E) as (x & -> & Bx & L). split; [|exact L]. replace (0 + x * 1) with x by lia. exact Bx.
Qed.
Ltac vi := apply varint_of_dec; vm_compute; reflexivity.
Ltac is_field t wt v := split; [lia|]; exists (map zb t), wt, (map zb v); split; [reflexivity|]; split; [unfold is_tag; vi|].

(** A namespace "a" with one snapshot (version 3, last updated at 200).  The newer form has an unknown varint of number
    2000 before the namespace; within it the snapshot comes first and an unknown four-byte field of number 5 next; within
    the snapshot the time comes before the version and an unknown string of number 20 between them. *)
Definition old_snapshot := [8; 3; 24; 200; 1].
Definition new_snapshot := [24; 200; 1; 162; 1; 2; 104; 105; 8; 3].
Definition old_namespace := [10; 1; 97] ++ [18; 5] ++ old_snapshot.
Definition new_namespace := [18; 10] ++ new_snapshot ++ [45; 1; 2; 3; 4] ++ [10; 1; 97].
Definition old_namespaces := [10; 10] ++ old_namespace.
Definition new_namespaces_bytes := [128; 125; 7] ++ [10; 20] ++ new_namespace.

Example C66_nonvacuous :
  newer namespaces_schema (map zb old_namespaces) (map zb new_namespaces_bytes) /\
  unmarshal_namespaces (map zb new_namespaces_bytes) = Ok [Some (mk_nsp (B "a") [Some (mk_nssp 3 false 200 [])])].
Proof.
  split; [|vm_compute; reflexivity].
  assert (S : newer namespace_snapshot_schema (map zb old_snapshot) (map zb new_snapshot)).
  { refine (newer_kept _ 1 (map zb [8; 3]) (map zb [24; 200; 1; 162; 1; 2; 104; 105]) (map zb [24; 200; 1]) [] _ _ _).
    - is_field [8] 0 [3]. apply (value_varint _ _ 3). vi.
    - refine (others_cons _ _ 3 (map zb [24; 200; 1]) (map zb [162; 1; 2; 104; 105]) _ _ _); [lia| |].
      + is_field [24] 0 [200; 1]. apply (value_varint _ _ 200). vi.
      + refine (others_cons _ _ 20 (map zb [162; 1; 2; 104; 105]) [] _ _ (others_nil _ _)); [lia|].
        is_field [162; 1] 2 [2; 104; 105]. apply (value_block _ (map zb [2]) (map zb [104; 105])); [vi|exact I].
    - refine (newer_kept _ 3 (map zb [24; 200; 1]) [] [] (map zb [162; 1; 2; 104; 105]) _ (others_nil _ _) _).
      + is_field [24] 0 [200; 1]. apply (value_varint _ _ 200). vi.
      + refine (newer_added namespace_snapshot_schema 20 (map zb [162; 1; 2; 104; 105]) [] [] eq_refl _ (newer_end _)).
        is_field [162; 1] 2 [2; 104; 105]. apply (value_block _ (map zb [2]) (map zb [104; 105])); [vi|exact I]. }
  assert (N : newer namespace_schema (map zb old_namespace) (map zb new_namespace)).
  { refine (newer_kept _ 1 (map zb [10; 1; 97]) (map zb ([18; 10] ++ new_snapshot ++ [45; 1; 2; 3; 4])) (map zb ([18; 5] ++ old_snapshot)) [] _ _ _).
    - is_field [10] 2 [1; 97]. apply (value_block _ (map zb [1]) (map zb [97])); [vi|exact I].
    - refine (others_cons _ _ 2 (map zb ([18; 10] ++ new_snapshot)) (map zb [45; 1; 2; 3; 4]) _ _ _); [lia| |].
      + is_field [18] 2 (10 :: new_snapshot). apply (value_block _ (map zb [10]) (map zb new_snapshot)); [vi|exact I].
      + refine (others_cons _ _ 5 (map zb [45; 1; 2; 3; 4]) [] _ _ (others_nil _ _)); [lia|].
        is_field [45] 5 [1; 2; 3; 4]. now constructor.
    - refine (newer_within namespace_schema 2 namespace_snapshot_schema (map zb [18]) (map zb [18]) (map zb [5]) (map zb [10]) (map zb old_snapshot)
        (map zb new_snapshot) [] [] (map zb [45; 1; 2; 3; 4]) eq_refl _ _ _ _ S (others_nil _ _) _); [unfold is_tag; vi|unfold is_tag; vi|vi|vi|].
      refine (newer_added namespace_schema 5 (map zb [45; 1; 2; 3; 4]) [] [] eq_refl _ (newer_end _)).
      is_field [45] 5 [1; 2; 3; 4]. now constructor. }
  refine (newer_added namespaces_schema 2000 (map zb [128; 125; 7]) _ (map zb ([10; 20] ++ new_namespace)) eq_refl _ _).
  - is_field [128; 125] 0 [7]. apply (value_varint _ _ 7). vi.
  - refine (newer_within namespaces_schema 1 namespace_schema (map zb [10]) (map zb [10]) (map zb [10]) (map zb [20]) (map zb old_namespace)
      (map zb new_namespace) [] [] [] eq_refl _ _ _ _ N (others_nil _ _) (newer_end _)); [unfold is_tag; vi|unfold is_tag; vi|vi|vi].
Qed.

(** Every stored rule set has newer forms: a field of number 15 in front. *)
Example C66_stored_nonvacuous : exists pb d, rule_set_proto after_session = Some pb /\ marshal_rule_set pb = Ok d /\
  newer rule_set_schema d (map zb [120; 1] ++ d) /\ zlen d < 2 ^ 63 /\ zlen (map zb [120; 1] ++ d) < 2 ^ 63 /\ (100 < length d)%nat.
Proof.
  destruct C65_nonvacuous as (N & S & _ & _ & L). destruct (C65_rule_set 0 ropts after_session S N) as (pb & d & E1 & E2 & _).
  exists pb, d. split; [exact E1|]. split; [exact E2|]. rewrite E1, E2 in L. injection L as L.
  assert (B : zlen d < 2 ^ 62) by (unfold zlen; rewrite L; lia).
  assert (d = marshal rule_set_fields pb) as Ed
    by (unfold marshal_rule_set, marshal_checked in E2; destruct (negb _); [discriminate|]; destruct (_ <? _); [discriminate|]; congruence).
  split; [|split; [lia|]; rewrite zlen_app; change (zlen (map zb [120; 1])) with 2; split; lia].
  refine (newer_added rule_set_schema 15 (map zb [120; 1]) d d eq_refl _ _).
  - is_field [120] 0 [1]. apply (value_varint _ _ 1). vi.
  - apply well_formed_newer. rewrite Ed. apply written_rule_set; [exact (rule_set_proto_typed _ _ N E1)|]. rewrite <- Ed. lia.
Qed.

(** A counter as this version encodes it with an unknown field behind it. *)
Example C66_stream_nonvacuous : exists fs bs ms,
  Forall2 (fun u m => selected u = Some m /\ sendable m) [ex_counter] ms /\ Forall2 (fun u f => alone u 1000 f) [ex_counter] fs /\
  Forall2 (fun f b' => exists b, f = frame_of b /\ newer metric_with_metadatas_schema b b' /\ zlen b < 2 ^ 63 /\
    zlen b' <= 1000 /\ zlen b' < 2 ^ 63 /\ b <> b') fs bs.
Proof.
  assert (S : selected ex_counter = Some (MCounter (mk_counter (B "stats.foo") (-7)) [])) by reflexivity.
  assert (Sm : sendable (MCounter (mk_counter (B "stats.foo") (-7)) [])) by (split; [unfold is_int64; cbn; lia|constructor]).
  destruct (sendable_encodes _ _ S Sm) as (pb & E & H).
  assert (pb = mk_mm 1 (Some (mk_cm_pb (mk_counter_pb (B "stats.foo") (-7)) [])) None None None None) as ->
    by (vm_compute in E; injection E as <-; reflexivity).
  set (pb := mk_mm _ _ _ _ _ _) in *. assert (L : zlen (marshal mm_fields pb) = 30) by (vm_compute; reflexivity).
  exists [frame pb], [marshal mm_fields pb ++ map zb [120; 1]], [MCounter (mk_counter (B "stats.foo") (-7)) []].
  split; [|split].
  - constructor; [split; assumption|constructor].
  - constructor; [|constructor]. apply (H 1000); [lia|]. rewrite mm_size, L. lia.
  - constructor; [|constructor]. exists (marshal mm_fields pb).
    split; [unfold frame, frame_of; rewrite mm_size; reflexivity|].
    split; [|rewrite zlen_app, L; change (zlen (map zb [120; 1])) with 2; repeat split; try lia; intros Q; apply (f_equal zlen) in Q; rewrite zlen_app, L in Q; discriminate Q].
    assert (F : field_in metric_with_metadatas_schema 15 (map zb [120; 1])) by (is_field [120] 0 [1]; apply (value_varint _ _ 1); vi).
    assert (W : well_formed metric_with_metadatas_schema (marshal mm_fields pb)) by (apply written_metric; lia).
    clear - F W. induction W as [|n f d Ff _ IH].
    + rewrite <- (app_nil_r (map zb [120; 1])). exact (newer_added metric_with_metadatas_schema 15 _ [] [] eq_refl F (newer_end _)).
    + rewrite <- app_assoc. exact (newer_kept _ n f [] d (d ++ map zb [120; 1]) Ff (others_nil _ _) IH).
Qed.

(** What the claim does not say: a field of a known number with another wire type is an error, not ignored. *)
Example C66_wrong_type : unmarshal_namespaces (map zb [8; 1]) = Err.
Proof. vm_compute. reflexivity. Qed.
