(** C06-C08: storage policies and policies. *)
From Coq Require Import Ascii String NArith ZArith Bool List Sorting Permutation Lia.
From Verif.Base Require Import Bytes.
From Verif.Model Require Import AggType Policy.
From Verif.Spec Require Import AggSpec PolicySpec.
From Verif.Proof Require Import AggProof PolicyProof.
Import ListNotations.
Open Scope Z_scope.

(** C06: for every procedure that sorts by the code's "less". *)
Theorem C06_equal_iff_permutation :
  forall (sort : list storage_policy -> list storage_policy) (a b : list storage_policy),
  sorts sp_less sort -> (sps_equal_with sort a b = true <-> Permutation a b).
Proof. exact sps_equal_perm. Qed.
Print Assumptions C06_equal_iff_permutation.

Example C06_nonvacuous :
  let sp w p t := {| sp_resolution := {| r_window := w; r_precision := p |}; sp_retention := t |} in
  sorts sp_less sp_sort /\
  sps_equal_with sp_sort [sp 10 1 5; sp 10 2 5; sp 10 1 5] [sp 10 1 5; sp 10 1 5; sp 10 2 5] = true /\
  sps_equal_with sp_sort [sp 10 1 5; sp 10 2 5; sp 10 1 5] [sp 10 1 5; sp 10 2 5; sp 10 2 5] = false.
Proof. split; [exact sp_sort_sorts|vm_compute; auto]. Qed.

(** C07 *)
Theorem C07_storage_policy_text : forall (dt : duration_text) (p : storage_policy),
  duration_text_ok dt -> valid_precision (r_precision (sp_resolution p)) ->
  parse_sp dt (sp_string dt p) = Some p.
Proof. exact (fun dt p ok => parse_sp_string dt ok p). Qed.
Print Assumptions C07_storage_policy_text.

Theorem C07_policy_text : forall (dt : duration_text) (p : policy),
  duration_text_ok dt -> valid_precision (r_precision (sp_resolution (p_storage p))) ->
  (p_agg p < 2 ^ 64)%N -> (exists types, decompress (p_agg p) = (types, false)) ->
  exists s, policy_string dt p = Some s /\ parse_policy dt s = Some p.
Proof. exact (fun dt p ok => parse_policy_string dt ok p). Qed.
Print Assumptions C07_policy_text.

Theorem C07_storage_policy_malformed : forall (dt : duration_text) (s : bytes) (p : storage_policy),
  parse_sp dt s = Some p ->
  exists a b, s = a ++ ":"%char :: b /\ ~ In ":"%char a /\ ~ In ":"%char b /\
    parse_resolution dt a = Some (sp_resolution p) /\ dt_parse dt b = Some (sp_retention p).
Proof. exact parse_sp_shape. Qed.
Print Assumptions C07_storage_policy_malformed.

Theorem C07_policy_malformed : forall (dt : duration_text) (s : bytes) (p : policy),
  parse_policy dt s = Some p ->
  (~ In "|"%char s /\ parse_sp dt s = Some (p_storage p) /\ p_agg p = 0%N) \/
  (exists a b ts, s = a ++ "|"%char :: b /\ ~ In "|"%char a /\ ~ In "|"%char b /\
     parse_sp dt a = Some (p_storage p) /\ parse_types b = Some ts /\ compress_types ts = (p_agg p, false)).
Proof. exact parse_policy_shape. Qed.
Print Assumptions C07_policy_malformed.

Example C07_nonvacuous :
  let dt := simple_duration_text in
  let p := {| p_storage := {| sp_resolution := {| r_window := 10000000000; r_precision := 4 |};
                              sp_retention := 3600000000000 |}; p_agg := 4194434%N |} in
  duration_text_ok dt /\
  policy_string dt p = Some (B "10000000000ns@1ns:3600000000000ns|Last,Sum,P9999") /\
  parse_policy dt (B "10s@1ns:1h|Last,Sum,P9999") = Some p /\
  parse_policy dt (B "10s:1h|Last|Sum") = None /\ parse_sp dt (B "10s:1h:2h") = None.
Proof. split; [exact simple_duration_text_ok|vm_compute; auto]. Qed.

(** C08: [old_pb] and [old] are the previous contents of the reused message and value. *)
Theorem C08_storage_policy_proto :
  forall (p : storage_policy) (old_pb : sp_pb) (old : storage_policy),
  valid_precision (r_precision (sp_resolution p)) ->
  exists pb, sp_to_proto p old_pb = (pb, false) /\ sp_from_proto old pb = (p, false).
Proof. exact sp_proto_roundtrip. Qed.
Print Assumptions C08_storage_policy_proto.

Theorem C08_invalid_precision : forall (p : storage_policy) (old_pb : sp_pb),
  ~ valid_precision (r_precision (sp_resolution p)) -> snd (sp_to_proto p old_pb) = true.
Proof. exact sp_to_proto_invalid. Qed.
Print Assumptions C08_invalid_precision.

Theorem C08_malformed_message : forall (old : storage_policy) (pb : sp_pb),
  snd (sp_from_proto old pb) = true <->
  (spp_resolution pb = None \/ spp_retention pb = None \/
   exists r, spp_resolution pb = Some r /\ unit_from_duration (rp_precision r) = None).
Proof. exact sp_from_proto_err_iff. Qed.
Print Assumptions C08_malformed_message.

Theorem C08_storage_policies_proto : forall l : list storage_policy,
  Forall (fun p => valid_precision (r_precision (sp_resolution p))) l ->
  exists pbs, sps_proto l = Some pbs /\ new_sps_from_proto (map Some pbs) = Some l.
Proof. exact sps_proto_roundtrip. Qed.
Print Assumptions C08_storage_policies_proto.

Theorem C08_policy_proto : forall p : policy,
  valid_precision (r_precision (sp_resolution (p_storage p))) -> (p_agg p < 2 ^ 64)%N ->
  (exists types, decompress (p_agg p) = (types, false)) ->
  exists pb, policy_proto p = Some pb /\ new_policy_from_proto (Some pb) = Some p.
Proof. exact policy_proto_roundtrip. Qed.
Print Assumptions C08_policy_proto.

Example C08_nonvacuous :
  let p := {| sp_resolution := {| r_window := 10000000000; r_precision := 5 |}; sp_retention := 7 |} in
  sp_from_proto {| sp_resolution := {| r_window := 3; r_precision := 1 |}; sp_retention := 9 |}
    (fst (sp_to_proto p {| spp_resolution := Some {| rp_window := 1; rp_precision := 1 |};
                           spp_retention := Some 8 |})) = (p, false) /\
  valid_precision 5 /\ ~ valid_precision 9.
Proof. split; [vm_compute; reflexivity|unfold valid_precision; lia]. Qed.
