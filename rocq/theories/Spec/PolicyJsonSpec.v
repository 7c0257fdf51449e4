(** Specification vocabulary for the JSON form of staged policies. *)
From Coq Require Import Ascii String NArith ZArith Bool List.
From Verif.Base Require Import Bytes.
From Verif.Model Require Import AggType Policy Json PolicyJson.
From Verif.Spec Require Import PolicySpec MetadataSpec JsonSpec.
Import ListNotations.
Open Scope Z_scope.

(** A precision that exists and aggregation types that exist. *)
Definition policy_valid (p : policy) : Prop :=
  valid_precision (r_precision (sp_resolution (p_storage p))) /\ valid_agg_id (p_agg p).
Definition staged_valid (p : staged_policies) : Prop := fits_int64 (stp_cutover p) /\ Forall policy_valid (stp_policies p).
Definition versioned_valid (v : Z * list staged_policies) : Prop := fits_int64 (fst v) /\ Forall staged_valid (snd v).
