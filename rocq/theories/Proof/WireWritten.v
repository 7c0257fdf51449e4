(** What the generated code writes is a sequence of fields as the .proto files have them. *)
From Coq Require Import Ascii String Arith NArith ZArith Bool Lia List.
From Verif.Base Require Import Bytes BytesFacts.
From Verif.Proof Require Import ProtoWireProof MessagesProof RuleWireProof WireProof.
From Verif.Model Require Import AggType Policy Transformation Pipeline Metadata Rules RuleSetProto Namespace ProtoWire Messages
  RuleWire.
From Verif.Spec Require Import RuleWireSpec WireSpec.
Import ListNotations.
Open Scope Z_scope.

Lemma put_varint_base128 k : forall v, 0 <= v < 128 ^ Z.of_nat (S k) -> base128 (put_varint (S k) v) v.
Proof.
  induction k as [|k IH]; intros v H.
  - cbn [put_varint]. change (128 ^ Z.of_nat 1) with 128 in H. rewrite (proj2 (Z.ltb_lt _ _)) by lia.
    replace v with (byte_value (zb v)) at 2 by (apply bz_zb; lia). constructor. change (bz (zb v) < 128). rewrite bz_zb by lia. lia.
  - remember (S k) as n. cbn [put_varint]. destruct (v <? 128) eqn:E.
    + apply Z.ltb_lt in E. replace v with (byte_value (zb v)) at 2 by (apply bz_zb; lia). constructor.
      change (bz (zb v) < 128). rewrite bz_zb by lia. lia.
    + apply Z.ltb_ge in E. subst n. pose proof (Z.mod_pos_bound v 128 ltac:(lia)) as P.
      assert (byte_value (zb (v mod 128 + 128)) = v mod 128 + 128) as Q by (apply bz_zb; lia).
      replace v with (byte_value (zb (v mod 128 + 128)) - 128 + 128 * (v / 128)) at 3
        by (rewrite Q; pose proof (Z.div_mod v 128 ltac:(lia)); lia).
      constructor; [lia|]. apply IH. split; [apply Z.div_pos; lia|]. apply Z.div_lt_upper_bound; [lia|].
      rewrite (Nat2Z.inj_succ (S k)), Z.pow_succ_r in H by lia. set (P2 := 128 ^ Z.of_nat (S k)) in *. lia.
Qed.
Lemma put_varint_len k : forall v, (length (put_varint k v) <= k)%nat.
Proof. induction k as [|k IH]; intros v; cbn [put_varint]; [cbn; lia|]. destruct (v <? 128); cbn [length]; [lia|]. specialize (IH (v / 128)). lia. Qed.

Lemma enc_varint_varint v : 0 <= v < 2 ^ 64 -> varint (enc_varint v) v.
Proof.
  intros H. split; [|apply put_varint_len]. apply (put_varint_base128 9). change (128 ^ Z.of_nat 10) with (2 ^ 70). lia.
Qed.
Lemma tag_varint n wt : 1 <= n < 16 -> 0 <= wt < 8 -> is_tag (tag n wt) n wt.
Proof.
  intros H1 H2. unfold is_tag, tag. replace (8 * n + wt) with (byte_value (zb (n * 8 + wt)))
    by (change (bz (zb (n * 8 + wt)) = 8 * n + wt); rewrite bz_zb by lia; lia).
  split; [|cbn; lia]. constructor. change (bz (zb (n * 8 + wt)) < 128). rewrite bz_zb by lia. lia.
Qed.

Lemma well_formed_app s a b : well_formed s a -> well_formed s b -> well_formed s (a ++ b).
Proof. induction 1 as [|n f d F _ IH]; intros W; [exact W|]. rewrite <- app_assoc. exact (well_formed_cons s n f _ F (IH W)). Qed.
Lemma well_formed_one s n f : field_in s n f -> well_formed s f.
Proof. intros F. rewrite <- (app_nil_r f). exact (well_formed_cons s n f [] F (well_formed_nil s)). Qed.
Lemma well_formed_newer s d : well_formed s d -> newer s d d.
Proof. induction 1 as [|n f d F _ IH]; [constructor|]. exact (newer_kept s n f [] d d F (others_nil s n) IH). Qed.

Section Written.
  Context (s : schema) {M : Type}.
  Lemma field_written n k wt v : 1 <= n < 16 -> lookup s n = Some k -> value (Some k) wt v -> well_formed s (tag n wt ++ v).
  Proof.
    intros N K V. apply (well_formed_one s n). split; [lia|]. exists (tag n wt), wt, v. split; [reflexivity|].
    split; [|rewrite K; exact V]. apply tag_varint; [exact N|]. destruct V; lia.
  Qed.
  Lemma block_written n k b : 1 <= n < 16 -> lookup s n = Some k -> zlen b < 2 ^ 63 -> block_ok (Some k) b ->
    well_formed s (tag n 2 ++ enc_varint (zlen b) ++ b).
  Proof.
    intros N K L Ok. apply (field_written n k 2 _ N K). constructor; [|exact Ok]. apply enc_varint_varint.
    pose proof (zlen_nonneg b). unfold zlen in *. lia.
  Qed.
  Lemma block_bound n b : zlen (tag n 2 ++ enc_varint (zlen b) ++ b) < 2 ^ 63 -> zlen b < 2 ^ 63.
  Proof.
    rewrite !zlen_app. pose proof (zlen_nonneg (tag n 2)). pose proof (zlen_nonneg (enc_varint (zlen b))). lia.
  Qed.

  Lemma w_varint n conv (get : M -> Z) set m : 1 <= n < 16 -> lookup s n = Some Plain ->
    well_formed s (f_enc (varint_field n conv get set) m).
  Proof.
    intros N K. cbn [f_enc varint_field]. destruct (get m =? 0); [constructor|]. apply (field_written n Plain 0 _ N K).
    apply (value_varint _ _ (u64 (get m))). apply enc_varint_varint, u64_range.
  Qed.
  Lemma w_double n (get : M -> Z) set m : 1 <= n < 16 -> lookup s n = Some Plain ->
    well_formed s (f_enc (double_field n get set) m).
  Proof.
    intros N K. cbn [f_enc double_field]. destruct (double_is_zero (get m)); [constructor|].
    apply (field_written n Plain 1 _ N K). constructor. apply put_le_length.
  Qed.
  Lemma w_bytes n (get : M -> bytes) set m : 1 <= n < 16 -> lookup s n = Some Plain ->
    zlen (f_enc (bytes_field n get set) m) < 2 ^ 63 -> well_formed s (f_enc (bytes_field n get set) m).
  Proof.
    intros N K. cbn [f_enc bytes_field]. destruct (get m) as [|a b]; [constructor|]. intros L.
    apply (block_written n Plain); auto. - exact (block_bound n _ L). - exact I.
  Qed.
  Lemma w_doubles n (get : M -> list Z) set m : 1 <= n < 16 -> lookup s n = Some Doubles ->
    zlen (f_enc (doubles_field n get set) m) < 2 ^ 63 -> well_formed s (f_enc (doubles_field n get set) m).
  Proof.
    intros N K. cbn [f_enc doubles_field]. destruct (get m) as [|a b]; [constructor|]. set (vs := a :: b). clearbody vs.
    assert (E : forall l, length (concat (map (put_le 8) l)) = (8 * length l)%nat).
    { induction l as [|x l IH]; [reflexivity|]. cbn [map concat]. rewrite app_length, put_le_length, IH. cbn [length]. lia. }
    replace (zlen vs * 8) with (zlen (concat (map (put_le 8) vs))) by (unfold zlen; rewrite E; lia). intros L.
    apply (block_written n Doubles); auto; [exact (block_bound n _ L)|]. exists (length vs). apply E.
  Qed.
  Lemma w_enums n (get : M -> list Z) set m : 1 <= n < 16 -> lookup s n = Some Enums -> Forall code_ok (get m) ->
    zlen (f_enc (enums_field n get set) m) < 2 ^ 63 -> well_formed s (f_enc (enums_field n get set) m).
  Proof.
    intros N K. cbn [f_enc enums_field]. destruct (get m) as [|a b]; [constructor|]. set (vs := a :: b). clearbody vs. intros F L.
    apply (block_written n Enums); auto; [exact (block_bound n _ L)|]. exists (map enc_enum vs). split; [reflexivity|].
    rewrite Forall_map. eapply Forall_impl; [|exact F]. cbv beta. intros v Hv. exists v. rewrite enc_enum_eq by exact Hv.
    apply enc_varint_varint. unfold code_ok in Hv. lia.
  Qed.

  Lemma concat_written {A} (w : A -> bytes) l : (forall a, In a l -> zlen (w a) < 2 ^ 63 -> well_formed s (w a)) ->
    zlen (concat (map w l)) < 2 ^ 63 -> well_formed s (concat (map w l)).
  Proof.
    induction l as [|a l IH]; intros H L; [constructor|]. cbn [map concat] in *. rewrite zlen_app in L.
    pose proof (zlen_nonneg (w a)). pose proof (zlen_nonneg (concat (map w l))).
    apply well_formed_app; [apply H; [now left|lia]|]. apply IH; [|lia]. intros x I. apply H. now right.
  Qed.
  Lemma w_strings n (get : M -> list bytes) set m : 1 <= n < 16 -> lookup s n = Some Plain ->
    zlen (f_enc (strings_field n get set) m) < 2 ^ 63 -> well_formed s (f_enc (strings_field n get set) m).
  Proof.
    intros N K. cbn [f_enc strings_field]. apply concat_written. intros b _ L.
    apply (block_written n Plain); auto. - exact (block_bound n _ L). - exact I.
  Qed.

  Lemma msg_written {S} n k (fs : list (field S)) x : 1 <= n < 16 -> lookup s n = Some (Message k) -> size fs x = zlen (marshal fs x) ->
    zlen (enc_msg n fs x) < 2 ^ 63 -> well_formed s (enc_msg n fs x).
  Proof.
    intros N K E. unfold enc_msg. rewrite E. intros L. apply (block_written n (Message k)); auto. - exact (block_bound n _ L). - exact I.
  Qed.
  Lemma w_msg {S} n k (fs : list (field S)) (get : M -> S) set m : 1 <= n < 16 -> lookup s n = Some (Message k) ->
    size fs (get m) = zlen (marshal fs (get m)) ->
    zlen (f_enc (msg_field n fs get set) m) < 2 ^ 63 -> well_formed s (f_enc (msg_field n fs get set) m).
  Proof. intros N K E L. exact (msg_written n k fs (get m) N K E L). Qed.
  Lemma w_ptr {S} n k (fs : list (field S)) z (get : M -> option S) set m : 1 <= n < 16 -> lookup s n = Some (Message k) ->
    if_set (fun x => size fs x = zlen (marshal fs x)) (get m) ->
    zlen (f_enc (ptr_field n fs z get set) m) < 2 ^ 63 -> well_formed s (f_enc (ptr_field n fs z get set) m).
  Proof.
    intros N K. cbn [f_enc ptr_field]. destruct (get m) as [x|]; [|constructor]. cbn [if_set]. intros E L.
    exact (msg_written n k fs x N K E L).
  Qed.
  Lemma w_ptrs {S} n k (fs : list (field S)) z (get : M -> list (option S)) set m : 1 <= n < 16 -> lookup s n = Some (Message k) ->
    each (fun x => size fs x = zlen (marshal fs x)) (get m) ->
    zlen (f_enc (ptrs_field n fs z get set) m) < 2 ^ 63 -> well_formed s (f_enc (ptrs_field n fs z get set) m).
  Proof.
    intros N K E. cbn [f_enc ptrs_field]. apply concat_written. intros o I L. unfold each in E. rewrite Forall_forall in E.
    destruct (E o I) as (x & -> & Ex). exact (msg_written n k fs x N K Ex L).
  Qed.

  Lemma marshal_written (fs : list (field M)) m :
    Forall (fun f => zlen (f_enc f m) < 2 ^ 63 -> well_formed s (f_enc f m)) fs ->
    zlen (marshal fs m) < 2 ^ 63 -> well_formed s (marshal fs m).
  Proof.
    intros F. apply concat_written. intros f I. rewrite Forall_forall in F. exact (F f I).
  Qed.
End Written.

Ltac written := apply marshal_written; repeat (apply Forall_cons; [|]); try apply Forall_nil; intros L;
  first [apply w_varint; [lia|reflexivity] | apply w_bytes; [lia|reflexivity|exact L] | idtac].

Lemma written_rule_set m : rule_set_typed code_ok m -> zlen (marshal rule_set_fields m) < 2 ^ 63 ->
  well_formed rule_set_schema (marshal rule_set_fields m).
Proof.
  intros (H1 & H2 & H3 & H4 & H5). written.
  - eapply w_ptrs; [lia|reflexivity| |exact L]. exact (each_impl _ _ _ (fun x Hx => proj1 (rw_rule _ _ _ rw_mapping_snapshot x Hx)) H4).
  - eapply w_ptrs; [lia|reflexivity| |exact L]. exact (each_impl _ _ _ (fun x Hx => proj1 (rw_rule _ _ _ rw_rollup_snapshot x Hx)) H5).
Qed.

Lemma written_namespaces m : namespaces_typed m -> zlen (marshal namespaces_fields m) < 2 ^ 63 ->
  well_formed namespaces_schema (marshal namespaces_fields m).
Proof.
  intros H. written. eapply w_ptrs; [lia|reflexivity| |exact L]. exact (each_impl _ _ _ (fun x Hx => proj1 (rw_namespace x Hx)) H).
Qed.

Lemma written_metric m : zlen (marshal mm_fields m) < 2 ^ 63 -> well_formed metric_with_metadatas_schema (marshal mm_fields m).
Proof.
  written; (eapply w_ptr; [lia|reflexivity| |exact L]).
  - destruct (mm_counter m) as [x|]; [|exact I]. exact (size_marshal _ sized_cm x).
  - destruct (mm_timer m) as [x|]; [|exact I]. exact (size_marshal _ sized_bm x).
  - destruct (mm_gauge m) as [x|]; [|exact I]. exact (size_marshal _ sized_gm x).
  - destruct (mm_forwarded m) as [x|]; [|exact I]. exact (size_marshal _ sized_fwm x).
  - destruct (mm_timed m) as [x|]; [|exact I]. exact (size_marshal _ sized_tdm x).
Qed.
