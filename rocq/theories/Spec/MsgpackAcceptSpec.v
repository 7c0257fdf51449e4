(** Specification vocabulary for what the msgpack readers accept (C72): the carrier of an aggregated metric, whose embedded
    metric is any byte string. *)
From Coq Require Import Ascii String NArith ZArith Bool List.
From Verif.Base Require Import Bytes.
From Verif.Model Require Import Policy MsgpackLib Msgpack.
From Verif.Spec Require Import MsgpackSpec.
Import ListNotations.
Open Scope Z_scope.

(** [more ignore ok r]: a message with a form in [ok] follows in [r], after messages of newer writers if these are skipped. *)
Definition more (ignore : bool) (ok : bytes -> Prop) (r : bytes) : Prop :=
  exists ns b r', r = concat ns ++ b ++ r' /\ Forall newer ns /\ (ignore = false -> ns = []) /\ ok b.

(** What the loop over an aggregated stream is handed: the bytes of the metric, its policy and encoding time. *)
Record carrier := mk_carrier { c_data : bytes; c_sp : storage_policy; c_at : Z }.

Inductive carrier_as : carrier -> bytes -> Prop :=
| carrier_without sp ver w r d x y z b : ver <= 1 -> int_as ver w -> int_as 5 r -> bytes_as d x ->
    sp_as sp y -> object 2 (x ++ y) z -> object 2 (r ++ z) b -> carrier_as (mk_carrier d sp 0) (w ++ b)
| carrier_with sp at_nanos ver w r d x y a z b : ver <= 1 -> int_as ver w -> int_as 22 r ->
    bytes_as d x -> sp_as sp y -> int_as at_nanos a -> object 3 (x ++ y ++ a) z -> object 2 (r ++ z) b ->
    carrier_as (mk_carrier d sp at_nanos) (w ++ b).

Inductive carriers_as : list carrier -> bytes -> Prop :=
| carriers_end : carriers_as [] []
| carriers_message c l b r : carrier_as c b -> carriers_as l r -> carriers_as (c :: l) (b ++ r)
| carriers_newer l b r : newer b -> carriers_as l r -> carriers_as l (b ++ r).

(** [received it l e]: the loop [for it.Next() { metric, sp, at := it.Value(); use(metric.Bytes(), sp, at) }] sees exactly
    [l], ends, and finds [it.Err() = e]. *)
Inductive received : ait -> list carrier -> merr -> Prop :=
| received_stop it it' e : anext it = (false, it') -> d_err (g_st it') = Some e -> received it [] e
| received_more it it' d l e : anext it = (true, it') -> fst (access GetBytes (g_metric it')) = ABytes d ->
    received it' l e -> received it (mk_carrier d (g_sp it') (g_at it') :: l) e.
