(** What it means for bytes to be a protobuf message, and for one message to be a newer or reordered form of another,
    in the words of the protobuf encoding guide and independent of the generated code: a message is a sequence of
    fields, a field is a tag (its number and wire type) followed by a value, and which fields are known is given by
    the .proto files. *)
From Coq Require Import Ascii String NArith ZArith Bool List.
From Verif.Base Require Import Bytes.
Import ListNotations.
Open Scope Z_scope.

Definition byte_value (b : ascii) : Z := Z.of_N (N_of_ascii b).

(** Base 128, least significant group first, a byte of 128 or more means that another follows; at most ten bytes. *)
Inductive base128 : bytes -> Z -> Prop :=
| base128_last b : byte_value b < 128 -> base128 [b] (byte_value b)
| base128_more b d v : 128 <= byte_value b -> base128 d v -> base128 (b :: d) (byte_value b - 128 + 128 * v).
Definition varint (d : bytes) (v : Z) : Prop := base128 d v /\ (length d <= 10)%nat.

(** What a .proto file says of the values of a field: a number, string or byte array; a packed list of doubles; a packed
    list of enums; a message with these fields. *)
Inductive kind := Plain | Doubles | Enums | Message (fields : list (Z * kind)).
Notation schema := (list (Z * kind)) (only parsing).

Definition lookup (s : schema) (n : Z) : option kind :=
  match find (fun x => fst x =? n) s with Some (_, k) => Some k | None => None end.

(** A block of bytes holds what the field needs.  The content of a block of any other kind is not restricted. *)
Definition block_ok (k : option kind) (b : bytes) : Prop :=
  match k with
  | Some Doubles => exists n, length b = (8 * n)%nat
  | Some Enums => exists l, b = concat l /\ Forall (fun x => exists v, varint x v) l
  | _ => True
  end.

(** The wire types of proto3: 0 a varint, 1 eight bytes, 2 a length and that many bytes, 5 four bytes. *)
Inductive value (k : option kind) : Z -> bytes -> Prop :=
| value_varint d v : varint d v -> value k 0 d
| value_eight d : length d = 8%nat -> value k 1 d
| value_block p b : varint p (Z.of_nat (length b)) -> block_ok k b -> value k 2 (p ++ b)
| value_four d : length d = 4%nat -> value k 5 d.

Definition is_tag (t : bytes) (n wt : Z) : Prop := varint t (8 * n + wt).

(** The bytes [f] are one field of number [n]. *)
Definition field_in (s : schema) (n : Z) (f : bytes) : Prop :=
  1 <= n < 2 ^ 29 /\ exists t wt v, f = t ++ v /\ is_tag t n wt /\ value (lookup s n) wt v.

(** A message: a sequence of fields. *)
Inductive well_formed (s : schema) : bytes -> Prop :=
| well_formed_nil : well_formed s []
| well_formed_cons n f d : field_in s n f -> well_formed s d -> well_formed s (f ++ d).

(** A sequence of fields none of which has number [n]. *)
Inductive others (s : schema) (n : Z) : bytes -> Prop :=
| others_nil : others s n []
| others_cons n' f d : n' <> n -> field_in s n' f -> others s n d -> others s n (f ++ d).

(** The message [d'] is the message [d] with fields added that [s] does not know, at any place and at any depth, and
    with fields of different numbers in any order. *)
Inductive newer : schema -> bytes -> bytes -> Prop :=
| newer_end s : newer s [] []
| newer_added s n f d d' : lookup s n = None -> field_in s n f -> newer s d d' -> newer s d (f ++ d')
| newer_kept s n f a d b : field_in s n f -> others s n a -> newer s d (a ++ b) -> newer s (f ++ d) (a ++ f ++ b)
| newer_within s n s' t t' p p' x x' a d b : lookup s n = Some (Message s') -> is_tag t n 2 -> is_tag t' n 2 ->
    varint p (Z.of_nat (length x)) -> varint p' (Z.of_nat (length x')) -> newer s' x x' ->
    others s n a -> newer s d (a ++ b) -> newer s (t ++ p ++ x ++ d) (a ++ t' ++ p' ++ x' ++ b).

(** * The .proto files *)

(** generated/proto/aggregationpb/aggregation.proto, policypb/policy.proto *)
Definition aggregation_id_schema : schema := [(1, Plain)].
Definition resolution_schema : schema := [(1, Plain); (2, Plain)].
Definition retention_schema : schema := [(1, Plain)].
Definition storage_policy_schema : schema := [(1, Message resolution_schema); (2, Message retention_schema)].
Definition policy_schema : schema := [(1, Message storage_policy_schema); (2, Enums)].

(** pipelinepb/pipeline.proto *)
Definition aggregation_op_schema : schema := [(1, Plain)].
Definition transformation_op_schema : schema := [(1, Plain)].
Definition rollup_op_schema : schema := [(1, Plain); (2, Plain); (3, Enums)].
Definition pipeline_op_schema : schema :=
  [(1, Plain); (2, Message aggregation_op_schema); (3, Message transformation_op_schema); (4, Message rollup_op_schema)].
Definition pipeline_schema : schema := [(1, Message pipeline_op_schema)].
Definition applied_rollup_op_schema : schema := [(1, Plain); (2, Message aggregation_id_schema)].
Definition applied_pipeline_op_schema : schema :=
  [(1, Plain); (2, Message transformation_op_schema); (3, Message applied_rollup_op_schema)].
Definition applied_pipeline_schema : schema := [(1, Message applied_pipeline_op_schema)].

(** rulepb/rule.proto *)
Definition mapping_rule_snapshot_schema : schema :=
  [(1, Plain); (2, Plain); (3, Plain); (4, Plain); (5, Message policy_schema); (6, Plain); (7, Plain); (8, Enums);
   (9, Message storage_policy_schema); (10, Plain)].
Definition mapping_rule_schema : schema := [(1, Plain); (2, Message mapping_rule_snapshot_schema)].
Definition rollup_target_schema : schema := [(1, Plain); (2, Plain); (3, Message policy_schema)].
Definition rollup_target_v2_schema : schema := [(1, Message pipeline_schema); (2, Message storage_policy_schema)].
Definition rollup_rule_snapshot_schema : schema :=
  [(1, Plain); (2, Plain); (3, Plain); (4, Plain); (5, Message rollup_target_schema); (6, Plain); (7, Plain);
   (8, Message rollup_target_v2_schema)].
Definition rollup_rule_schema : schema := [(1, Plain); (2, Message rollup_rule_snapshot_schema)].
Definition rule_set_schema : schema :=
  [(1, Plain); (2, Plain); (3, Plain); (4, Plain); (5, Plain); (6, Plain); (7, Message mapping_rule_schema);
   (8, Message rollup_rule_schema); (9, Plain)].

(** rulepb/namespace.proto *)
Definition namespace_snapshot_schema : schema := [(1, Plain); (2, Plain); (3, Plain); (4, Plain)].
Definition namespace_schema : schema := [(1, Plain); (2, Message namespace_snapshot_schema)].
Definition namespaces_schema : schema := [(1, Message namespace_schema)].

(** metricpb/metric.proto *)
Definition counter_schema : schema := [(1, Plain); (2, Plain)].
Definition batch_timer_schema : schema := [(1, Plain); (2, Doubles)].
Definition gauge_schema : schema := [(1, Plain); (2, Plain)].
Definition timed_metric_schema : schema := [(1, Plain); (2, Plain); (3, Plain); (4, Plain)].
Definition forwarded_metric_schema : schema := [(1, Plain); (2, Plain); (3, Plain); (4, Doubles)].

(** metricpb/metadata.proto *)
Definition pipeline_metadata_schema : schema :=
  [(1, Message aggregation_id_schema); (2, Message storage_policy_schema); (3, Message applied_pipeline_schema); (4, Plain)].
Definition metadata_schema : schema := [(1, Message pipeline_metadata_schema)].
Definition staged_metadata_schema : schema := [(1, Plain); (2, Plain); (3, Message metadata_schema)].
Definition staged_metadatas_schema : schema := [(1, Message staged_metadata_schema)].
Definition forward_metadata_schema : schema :=
  [(1, Message aggregation_id_schema); (2, Message storage_policy_schema); (3, Message applied_pipeline_schema);
   (4, Plain); (5, Plain)].
Definition timed_metadata_schema : schema := [(1, Message aggregation_id_schema); (2, Message storage_policy_schema)].

(** metricpb/composite.proto *)
Definition metric_with_metadatas_schema : schema :=
  [(1, Plain);
   (2, Message [(1, Message counter_schema); (2, Message staged_metadatas_schema)]);
   (3, Message [(1, Message batch_timer_schema); (2, Message staged_metadatas_schema)]);
   (4, Message [(1, Message gauge_schema); (2, Message staged_metadatas_schema)]);
   (5, Message [(1, Message forwarded_metric_schema); (2, Message forward_metadata_schema)]);
   (6, Message [(1, Message timed_metric_schema); (2, Message timed_metadata_schema)])].
