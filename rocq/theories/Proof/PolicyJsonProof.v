(** Staged policies as JSON. *)
From Coq Require Import Ascii String Arith NArith ZArith Bool Lia List.
From Verif.Base Require Import Bytes BytesFacts.
From Verif.Proof Require Import AggProof PolicyProof MetadataProof RuleSetProtoProof JsonText JsonProof JsonReadProof.
From Verif.Model Require Import AggType Policy Transformation Pipeline Rules RuleSet Namespace Json PolicyJson.
From Verif.Spec Require Import AggSpec PolicySpec MetadataSpec JsonSpec PolicyJsonSpec.
Import ListNotations.
Open Scope Z_scope.

Section RT.
  Context (dt : duration_text) (ok : duration_text_ok dt) (nl : bool).

  Lemma text_string p s : policy_string dt p = Some s -> policy_text dt p = s.
  Proof.
    unfold policy_string, policy_text, id_text. destruct (id_is_default (p_agg p)); [congruence|].
    destruct (id_string (p_agg p)); congruence.
  Qed.
  Lemma policy_rt p : policy_valid p -> exists j, e_policy dt p = Some j /\ d_policy dt j = Some p.
  Proof.
    intros [V W]. destruct (parse_policy_string dt ok p V (proj1 W) (valid_agg_decompress _ W)) as (s & E1 & E2).
    exists (JStr s). unfold e_policy. rewrite (text_string p s E1). split; [reflexivity|exact E2].
  Qed.
  Lemma staged_rt p : staged_valid p -> exists j, e_staged dt nl p = Some j /\ d_staged dt j = Some p.
  Proof.
    intros [C F]. destruct (list_rt nl (e_policy dt) (d_policy dt) (fun p => p) (stp_policies p)) as (j & E1 & E2).
    { eapply Forall_impl; [|exact F]. exact policy_rt. }
    unfold e_staged. rewrite E1. cbn [bind]. eexists. split; [reflexivity|]. unfold d_staged. cbn [d_struct bind]. keys.
    rewrite d_int64_ok by exact C. cbn [bind d_bool]. rewrite E2, map_id. cbn [bind]. destruct p; reflexivity.
  Qed.
  Lemma versioned_rt v : versioned_valid v -> exists j, e_versioned dt nl v = Some j /\ d_versioned dt j = Some v.
  Proof.
    intros [C F]. destruct (list_rt nl (e_staged dt nl) (d_staged dt) (fun p => p) (snd v)) as (j & E1 & E2).
    { eapply Forall_impl; [|exact F]. exact staged_rt. }
    unfold e_versioned. rewrite E1. cbn [bind]. eexists. split; [reflexivity|]. unfold d_versioned. cbn [d_struct bind]. keys.
    rewrite d_int64_ok by exact C. cbn [bind d_bool]. rewrite E2, map_id. destruct v; reflexivity.
  Qed.

  (** An ID that does not decompress prints text that does not parse. *)
  Lemma split_head c a t : a <> c -> exists x r, split_on c (a :: t) = (a :: x) :: r.
  Proof.
    intros N. cbn [split_on]. destruct (Ascii.eqb_spec a c) as [E|_]; [now elim N|]. destruct (split_on c t) as [|p ps]; eauto.
  Qed.
  Lemma bracket_not_type x : parse_type ("["%char :: x) = None.
  Proof.
    destruct (parse_type ("["%char :: x)) as [t|] eqn:E; [|reflexivity]. exfalso. apply parse_type_inv in E as [V E].
    unfold valid_type in V.
    assert (t = 1 \/ t = 2 \/ t = 3 \/ t = 4 \/ t = 5 \/ t = 6 \/ t = 7 \/ t = 8 \/ t = 9 \/ t = 10 \/ t = 11 \/ t = 12 \/ t = 13 \/
      t = 14 \/ t = 15 \/ t = 16 \/ t = 17 \/ t = 18 \/ t = 19 \/ t = 20 \/ t = 21 \/ t = 22) as C by lia.
    repeat (destruct C as [->|C]; [discriminate E|]). subst t. discriminate E.
  Qed.
  Lemma bracket_not_types x : parse_types ("["%char :: x) = None.
  Proof.
    unfold parse_types. destruct (split_head types_separator "["%char x) as (y & r & ->); [discriminate|].
    cbn [map_opt]. now rewrite bracket_not_type.
  Qed.
  Lemma invalid_text p : (p_agg p < 2 ^ 64)%N -> ~ valid_agg_id (p_agg p) ->
    exists x, policy_text dt p = sp_string dt (p_storage p) ++ bar_sep :: "["%char :: x.
  Proof.
    intros W N. unfold policy_text. destruct (id_is_default (p_agg p)) eqn:D.
    { exfalso. apply N. unfold id_is_default in D. apply N.eqb_eq in D. rewrite D. split; [reflexivity|].
      intros k H. unfold default_id in H. rewrite N.bits_0 in H. discriminate. }
    unfold id_text, id_string. destruct (decompress_spec (p_agg p) W) as [(l & _ & _ & _ & B & _)|(E & _)].
    - exfalso. apply N. split; [exact W|]. intros k H. apply B in H. unfold valid_type in H. lia.
    - rewrite E. eexists. reflexivity.
  Qed.
  Lemma policy_unreadable p : valid_precision (r_precision (sp_resolution (p_storage p))) -> (p_agg p < 2 ^ 64)%N ->
    ~ valid_agg_id (p_agg p) -> parse_policy dt (policy_text dt p) = None.
  Proof.
    intros V W N. destruct (invalid_text p W N) as (x & ->). unfold parse_policy.
    rewrite split_on_app by exact (sp_string_no_bar dt ok _ V).
    destruct (split_head bar_sep "["%char x) as (y & r & ->); [discriminate|]. destruct r; [|reflexivity].
    rewrite bracket_not_types. destruct (parse_sp dt _); reflexivity.
  Qed.
  Lemma staged_unreadable p x : In x (stp_policies p) -> valid_precision (r_precision (sp_resolution (p_storage x))) ->
    (p_agg x < 2 ^ 64)%N -> ~ valid_agg_id (p_agg x) -> exists j, e_staged dt nl p = Some j /\ d_staged dt j = None.
  Proof.
    intros I V W N. assert (map_opt (e_policy dt) (stp_policies p) = Some (map (fun y => JStr (policy_text dt y)) (stp_policies p))) as E.
    { apply map_opt_map. reflexivity. }
    unfold e_staged, e_list. destruct (stp_policies p) as [|y l] eqn:L; [destruct I|]. rewrite <- L in *. rewrite E.
    cbn [option_map bind]. eexists. split; [reflexivity|]. unfold d_staged. cbn [d_struct bind]. keys. destruct (d_int64 _); [|reflexivity].
    cbn [bind d_bool d_list]. rewrite (proj2 (map_opt_none (d_policy dt) _)); [reflexivity|].
    exists (JStr (policy_text dt x)). split; [exact (in_map (fun y => JStr (policy_text dt y)) _ _ I)|].
    exact (policy_unreadable x V W N).
  Qed.
End RT.

(** Reading. *)
Section Read.
  Context (dt : duration_text) (U : forall w, valid_precision (dt_max_unit dt w)).

  Lemma policy_received j p : d_policy dt j = Some p -> policy_valid p.
  Proof.
    destruct j; try discriminate. cbn [d_policy]. unfold parse_policy. intros E.
    assert (forall a sp, parse_sp dt a = Some sp -> valid_precision (r_precision (sp_resolution sp))) as V.
    { intros a sp H. exact (d_sp_ok dt U (JStr a) sp H). }
    destruct (split_on bar_sep s) as [|a [|b [|]]]; try discriminate; destruct (parse_sp dt a) as [sp|] eqn:P; try discriminate.
    - injection E as <-. split; [exact (V a sp P)|]. cbn [p_agg]. split; [reflexivity|]. intros k H.
      unfold default_id in H. rewrite N.bits_0 in H. discriminate.
    - destruct (parse_types b) as [ts|] eqn:T; [|discriminate]. destruct (compress_types ts) as [id err] eqn:C.
      destruct err; [discriminate|]. injection E as <-. split; [exact (V a sp P)|]. cbn [p_agg].
      apply parse_types_inv in T as (_ & F & _). apply (RuleSetProtoProof.id_from_proto_types_valid ts). unfold id_from_proto_types.
      now rewrite (proj2 (types_from_proto_some ts ts)) by auto.
  Qed.
  Lemma staged_received j p : d_staged dt j = Some p -> staged_valid p.
  Proof.
    unfold d_staged. intros E. inv_do E. injection E as <-. split; [exact (d_int64_inv _ _ E1)|].
    exact (d_list_forall' (d_policy dt) policy_valid _ _ policy_received E3).
  Qed.
  Lemma versioned_received j v : d_versioned dt j = Some v -> versioned_valid v.
  Proof.
    unfold d_versioned. intros E. inv_do E. injection E as <-. split; [exact (d_int64_inv _ _ E1)|].
    exact (d_list_forall' (d_staged dt) staged_valid _ _ staged_received E2).
  Qed.
End Read.
