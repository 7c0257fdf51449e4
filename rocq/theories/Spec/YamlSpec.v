(** Specification vocabulary for the YAML form of pipelines and policies. *)
From Coq Require Import Ascii String NArith ZArith Bool List.
From Verif.Base Require Import Bytes.
From Verif.Model Require Import AggType Policy Transformation Pipeline Json Yaml.
From Verif.Spec Require Import AggSpec PolicySpec MetadataSpec JsonSpec.
Import ListNotations.
Open Scope Z_scope.

(** A JSON document of strings, arrays and objects is also a YAML document. *)
Inductive same_document : json -> yaml -> Prop :=
| sd_null : same_document JNull YNull
| sd_string s : same_document (JStr s) (YScalar s)
| sd_array l m : Forall2 same_document l m -> same_document (JArr l) (YSeq m)
| sd_object l m : Forall2 (fun x y => fst x = fst y /\ same_document (snd x) (snd y)) l m -> same_document (JObj l) (YMap m).

(** There is no null anywhere. *)
Inductive null_free : yaml -> Prop :=
| nf_scalar s : null_free (YScalar s)
| nf_seq l : (forall y, In y l -> null_free y) -> null_free (YSeq l)
| nf_map l : (forall k y, In (k, y) l -> null_free y) -> null_free (YMap l).

(** The keys of pipelines. *)
Definition pipeline_keys : list bytes := map B ["aggregation"; "transformation"; "rollup"; "newName"; "tags"]%string.
(** Keys are spelled the way they are documented: none is one of the keys of pipelines in another case. *)
Inductive spelled : json -> Prop :=
| spl_null : spelled JNull
| spl_string s : spelled (JStr s)
| spl_array l : (forall j, In j l -> spelled j) -> spelled (JArr l)
| spl_object l : (forall k j, In (k, j) l -> spelled j /\ forall k', In k' pipeline_keys -> same_key k k' = true -> k = k') ->
    spelled (JObj l).

(** A mapping says one thing about each key of [ks], and nothing about others. *)
Definition keys_within (ks : list bytes) (l : list (bytes * yaml)) : Prop :=
  NoDup (map fst l) /\ forall k y, In (k, y) l -> In k ks.
(** Documents that have only the keys that pipelines have, each once in a mapping. *)
Inductive tidy_rollup : yaml -> Prop :=
| tr_map l : keys_within (map B ["newName"; "tags"; "aggregation"]%string) l -> tidy_rollup (YMap l)
| tr_other y : (forall l, y <> YMap l) -> tidy_rollup y.
Inductive tidy_op : yaml -> Prop :=
| to_map l : keys_within (map B ["aggregation"; "transformation"; "rollup"]%string) l ->
    (forall y, In (B "rollup", y) l -> tidy_rollup y) -> tidy_op (YMap l)
| to_other y : (forall l, y <> YMap l) -> tidy_op y.
Inductive tidy_pipeline : yaml -> Prop :=
| tp_seq l : (forall y, In y l -> tidy_op y) -> tidy_pipeline (YSeq l)
| tp_other y : (forall l, y <> YSeq l) -> tidy_pipeline y.
