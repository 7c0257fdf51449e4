(** Specification vocabulary for the way of a metric from the rules to the aggregator. *)
From Coq Require Import Ascii String NArith ZArith Bool List.
From Verif.Base Require Import Bytes Slice.
From Verif.Model Require Import ProtoStream.
From Verif.Model Require Import AggType Policy Transformation Pipeline Metadata Rules RuleSetProto ProtoWire Messages Store Cache
  Matcher System.
From Verif.Spec Require Import ProtoStreamSpec RuleWireSpec StoreSpec CacheSpec MatcherSpec SystemSpec.
Import ListNotations.
Open Scope Z_scope.

(** A value to be sent: a counter's, a batch timer's or a gauge's (float64 values as their bits). *)
Inductive sample := SCounter (v : Z) | STimer (vs : list Z) | SGauge (v : Z).
Definition sample_ok (x : sample) : Prop :=
  match x with SCounter v => is_int64 v | STimer vs => Forall is_float64 vs | SGauge v => is_float64 v end.

(** The message for a sample of the metric [id] with the given metadatas. *)
Definition message_of (x : sample) (id : bytes) (ms : staged_metadatas) : message :=
  match x with
  | SCounter v => MCounter (mk_counter id v) ms
  | STimer vs => MTimer (mk_timer id vs) ms
  | SGauge v => MGauge (mk_gauge id v) ms
  end.

(** The messages a user of a match result sends at time [t] for one sample of the metric [id]: one for the metric itself
    and one for each of the rollup metrics it contributes to. *)
Definition to_send (r : match_result) (t : Z) (id : bytes) (x : sample) : list message :=
  message_of x id (mr_existing_at r t) ::
  map (fun e => message_of x (fst e) (active_stages_at (snd e) t)) (mr_news r).

(** Every stage in a match result can be sent. *)
Definition result_sendable (r : match_result) : Prop :=
  Forall sm_sendable (mr_existing r) /\ Forall (fun e => Forall sm_sendable (snd e)) (mr_news r).

(** The rule sets in the store are messages of their Go types without nil pointers in lists: those that bytes can be
    read as (C71_read). *)
Definition rules_typed (s : kv) : Prop := forall k v pb, s k = Some (v, VRules pb) -> rule_set_typed int32 pb.
(** The writes are of rule sets whose times and durations are 64-bit integers. *)
Definition writes_typed (ws : list store_write) : Prop :=
  Forall (fun w => forall rs, writes_rules w = Some rs -> numbers_fit rs) ws.

(** [handed_out o p d xs m]: in the run [xs] of a store holding [d] and a matcher, the matcher answered a request about a
    metric, and [m] is one of the messages that its user sends, at some time, for some sample of that metric. *)
Definition handed_out (o : store_opts) (p : matcher_opts) (d : kv) (xs : list saction) (m : message) : Prop :=
  exists s tr ns id from to res a t x,
    system_run o p (new_system d) xs = Some (s, tr) /\ In (MEv (EvServe ns id from to res a)) tr /\
    sample_ok x /\ In m (to_send res t id x).
