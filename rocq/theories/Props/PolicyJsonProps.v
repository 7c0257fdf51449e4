(** C75: staged policies survive being written as JSON. *)
From Coq Require Import Ascii String NArith ZArith Bool Lia List.
From Verif.Base Require Import Bytes BytesFacts.
From Verif.Proof Require Import AggProof PolicyProof MetadataProof JsonProof JsonReadProof PolicyJsonProof.
From Verif.Model Require Import AggType Policy Json PolicyJson.
From Verif.Spec Require Import AggSpec PolicySpec MetadataSpec JsonSpec PolicyJsonSpec.
Import ListNotations.
Open Scope Z_scope.

(** Valid staged policies are read as they were written; [nl]: whether empty lists are nil. *)
Theorem C75_staged dt nl p : duration_text_ok dt -> staged_valid p ->
  exists j, e_staged dt nl p = Some j /\ d_staged dt j = Some p.
Proof. intros ok V. exact (staged_rt dt ok nl p V). Qed.
Print Assumptions C75_staged.

Theorem C75_versioned dt nl v : duration_text_ok dt -> versioned_valid v ->
  exists j, e_versioned dt nl v = Some j /\ d_versioned dt j = Some v.
Proof. intros ok V. exact (versioned_rt dt ok nl v V). Qed.
Print Assumptions C75_versioned.

(** Whatever document is accepted, what is read is valid, so that it can be written and read again. *)
Theorem C75_received dt j v : (forall w, valid_precision (dt_max_unit dt w)) -> d_versioned dt j = Some v -> versioned_valid v.
Proof. intros U E. exact (versioned_received dt U j v E). Qed.
Print Assumptions C75_received.

(** So validity is what is needed: staged policies with an aggregation ID that has an undefined type are written without
    an error, but cannot be read. *)
Theorem C75_invalid_unreadable dt nl p x : duration_text_ok dt ->
  In x (stp_policies p) -> valid_precision (r_precision (sp_resolution (p_storage x))) -> (p_agg x < 2 ^ 64)%N ->
  ~ valid_agg_id (p_agg x) ->
  exists j, e_staged dt nl p = Some j /\ d_staged dt j = None.
Proof. intros ok I V W N. exact (staged_unreadable dt ok nl p x I V W N). Qed.
Print Assumptions C75_invalid_unreadable.

Definition ex_policy (id : N) : policy :=
  {| p_storage := {| sp_resolution := {| r_window := 10000000000; r_precision := 1 |}; sp_retention := 3600000000000 |}; p_agg := id |}.
Definition ex_staged (id : N) : staged_policies :=
  {| stp_cutover := -5; stp_tombstoned := true; stp_policies := [ex_policy 0; ex_policy id] |}.
Lemma ex_valid id : (id < 2 ^ 64)%N -> (forall k, N.testbit id k = true -> (1 <= k <= 22)%N) -> staged_valid (ex_staged id).
Proof.
  intros W H. split; [vm_compute; split; congruence|]. constructor; [|constructor; [|constructor]]; (split; [vm_compute; split; congruence|]).
  - split; [reflexivity|]. intros k Hk. cbn [p_agg ex_policy] in Hk. rewrite N.bits_0 in Hk. discriminate.
  - split; assumption.
Qed.
Example C75_nonvacuous : versioned_valid (3, [ex_staged 64; default_staged_policies]) /\
  e_staged simple_duration_text true (ex_staged 64) =
    Some (JObj [(B "cutoverNanos", JInt (-5)); (B "tombstoned", JBool true);
      (B "policies", JArr [JStr (B "10000000000ns:3600000000000ns"); JStr (B "10000000000ns:3600000000000ns|Count")])]).
Proof.
  split; [|vm_compute; reflexivity]. split; [vm_compute; split; congruence|]. constructor; [|constructor; [|constructor]].
  - apply ex_valid; [reflexivity|]. intros k Hk. destruct (N.eq_dec k 6) as [->|N6]; [split; discriminate|].
    change 64%N with (2 ^ 6)%N in Hk. rewrite N.pow2_bits_false in Hk by congruence. discriminate.
  - split; [vm_compute; split; congruence|constructor].
Qed.
Example C75_invalid_nonvacuous : ~ valid_agg_id (2 ^ 40)%N /\
  policy_text simple_duration_text (ex_policy (2 ^ 40)) = B "10000000000ns:3600000000000ns|[invalid ID: invalid Type: Type(40)]".
Proof.
  split; [|vm_compute; reflexivity]. intros [_ H]. assert (N.testbit (2 ^ 40) 40 = true) as T by reflexivity. apply H in T. lia.
Qed.
