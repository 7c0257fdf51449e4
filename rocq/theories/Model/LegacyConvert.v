(** Model of encoding/migration/convert.go: legacy policies lists to staged metadatas. *)
From Coq Require Import Ascii String NArith ZArith Bool List.
From Verif.Base Require Import Bytes.
From Verif.Model Require Import AggType Policy Pipeline Metadata.
Import ListNotations.
Open Scope Z_scope.

(** encoding/migration/convert.go:112-129: add a storage policy to a pipeline unless present. *)
Definition add_sp (p : storage_policy) (m : pipeline_metadata) : pipeline_metadata :=
  if existsb (fun q => sp_eqb q p) (pm_sps m) then m
  else mk_pm (pm_agg m) (pm_sps m ++ [p]) (pm_pipeline m) (pm_drop m).

(** encoding/migration/convert.go:96-129, one round of the loop: the pipeline with the policy's
    aggregation ID is found, or appended, and receives the storage policy. *)
Fixpoint add_policy (p : policy) (ms : list pipeline_metadata) : list pipeline_metadata :=
  match ms with
  | [] => [add_sp (p_storage p) (mk_pm (p_agg p) [] [] DropNone)]
  | m :: ms => if (p_agg p =? pm_agg m)%N then add_sp (p_storage p) m :: ms
               else m :: add_policy p ms
  end.

(** encoding/migration/convert.go:91-131 [toMetadata] *)
Definition to_metadata (ps : list policy) : list pipeline_metadata :=
  fold_left (fun ms p => add_policy p ms) ps [].

(** encoding/migration/convert.go:70-88 [ToStagedMetadatas]; policy/staged_policy.go:62-64 [Policies] *)
Definition to_staged_metadata (sp : staged_policies) : staged_metadata :=
  mk_sm (if is_default_policies (stp_policies sp) then [default_pipeline_metadata]
         else to_metadata (stp_policies sp))
        (stp_cutover sp) (stp_tombstoned sp).
(** encoding/migration/convert.go:70-88 [ToStagedMetadatas] *)
Definition to_staged_metadatas (l : list staged_policies) : staged_metadatas :=
  map to_staged_metadata l.
