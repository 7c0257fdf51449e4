(** C71: what the rules decide reaches the aggregator. *)
From Verif.Proof Require Import ReadTypedProof DeliveryProof DeliverySystemProof RulesProof ProtoStateProof ProtoSystemProof.
From Coq Require Import Ascii String Arith NArith ZArith Bool Lia List.
From Verif.Base Require Import Bytes BMap Slice.
From Verif.Model Require Import ProtoStream.
From Verif.Model Require Import AggType Policy Transformation Pipeline Metadata Filter MetricID Rules RuleSet RuleSetProto
  Namespace ProtoWire Messages RuleWire Store CacheList Cache Matcher System.
From Verif.Spec Require Import PolicySpec MetadataSpec RuleSetProtoSpec RuleWireSpec StoreSpec CacheSpec MatcherSpec SystemSpec
  ProtoStreamSpec DeliverySpec.
From Verif.Props Require Import RulesProps EditProps RuleSetProtoProps StoreProps MatcherProps SystemProps ProtoStreamProps
  RuleWireProps.
Import ListNotations.
Open Scope Z_scope.

(** Whatever bytes are read as a rule set or as namespaces, what is read is a value of the Go types without nil pointers in
    its lists, so it can be written again; namespaces then read the same. *)
Theorem C71_read d pb : unmarshal_rule_set d = Ok pb -> rule_set_typed int32 pb /\ exists d', marshal_rule_set pb = Ok d'.
Proof. intros H. pose proof (read_rule_set_typed d pb H) as T. split; [exact T|exact (C65_writes pb T)]. Qed.
Print Assumptions C71_read.

Theorem C71_read_namespaces d pb : unmarshal_namespaces d = Ok pb ->
  exists d', marshal_namespaces pb = Ok d' /\ (zlen d' < 2 ^ 63 -> unmarshal_namespaces d' = Ok pb).
Proof. intros H. exact (C65_namespaces_message pb (read_namespaces_typed d pb H)). Qed.
Print Assumptions C71_read_namespaces.

(** Whatever bytes are accepted as a rule set: every result of matching against it, of every kind and for every metric and
    time range, is made of stages that can be sent, and so are the messages for every sample of the metric. *)
Theorem C71_matches v o d pb rs t id from to r :
  unmarshal_rule_set d = Ok pb -> rule_set_from_proto v (Some pb) o = Some rs ->
  r = forward_match (active_set rs t) id from to \/ r = full_match rs id from to \/
  (exists mt at_ multi opts, r = reverse_match (active_set rs t) id from to mt at_ multi opts) ->
  result_sendable r /\ forall now x, sample_ok x -> Forall sendable (to_send r now id x).
Proof.
  intros D E R. pose proof (read_rule_set_typed d pb D) as T.
  assert (S : result_sendable r).
  { destruct R as [->|[->|(mt & at_ & multi & opts & ->)]].
    - exact (proj1 (read_forward v pb o rs t id from to T E)).
    - exact (proj2 (read_forward v pb o rs t id from to T E)).
    - exact (read_reverse v pb o rs t id from to mt at_ multi opts T E). }
  split; [exact S|]. intros now x X. exact (to_send_sendable r now id x S X).
Qed.
Print Assumptions C71_matches.

(** The same of the results that a matcher hands out, whatever happens to the store, the matcher and its cache: every
    interleaving of writes, deliveries, evictions and requests. *)
Theorem C71_served o p d xs m :
  0 <= co_capacity (mo_cache_opts p) -> 0 <= co_evict_batch (mo_cache_opts p) -> rules_typed d -> writes_typed (writes_of xs) ->
  handed_out o p d xs m -> sendable m.
Proof.
  intros C1 C2 D W (s & tr & ns & id & from & to & res & a & t & x & R & I & X & M).
  pose proof (served_sendable o p d xs s tr ns id from to res a C1 C2 D W R I) as S.
  pose proof (to_send_sendable res t id x S X) as F. rewrite Forall_forall in F. exact (F m M).
Qed.
Print Assumptions C71_served.

(** Such a message is encoded, unless its encoding is above the limit of the encoder. *)
Theorem C71_encodes o p d xs u m :
  0 <= co_capacity (mo_cache_opts p) -> 0 <= co_evict_batch (mo_cache_opts p) -> rules_typed d -> writes_typed (writes_of xs) ->
  handed_out o p d xs m -> selected u = Some m ->
  exists body, forall max, max < 2 ^ 34 -> zlen body <= max -> alone u max (enc_varint (zigzag (zlen body)) ++ body).
Proof. intros C1 C2 D W H S. exact (C48_sendable_encodes u m S (C71_served o p d xs m C1 C2 D W H)). Qed.
Print Assumptions C71_encodes.

(** From the rules to the aggregator: in any program over any encoders, if what was sent with one of them are messages from
    the matcher's results, an iterator over its content delivers exactly those messages (see C48_exact), then end of stream.
    Each message may stem from another store and matcher. *)
Theorem C71_delivered s l s' i max rmax ms :
  reachable s -> runs s l s' -> Forall (fun y => op_ok (fst (fst y))) l ->
  Forall (fun y => keeps i (fst (fst y))) l -> nth_error (v_encs (observe s)) i = Some (max, []) ->
  Forall2 (fun u m => selected u = Some m /\
    exists o p d xs, 0 <= co_capacity (mo_cache_opts p) /\ 0 <= co_evict_batch (mo_cache_opts p) /\ rules_typed d /\
      writes_typed (writes_of xs) /\ handed_out o p d xs m) (sent i l) ms -> max <= rmax ->
  exists d, nth_error (v_encs (observe s')) i = Some (max, d) /\
    decoded (new_iter d rmax) (map as_received ms) EOF.
Proof.
  intros Re R O K N S L. apply (C48_stream s l s' i max rmax ms Re R O K N); [|exact L].
  induction S as [|u m us ms' (E & o & p & d & xs & C1 & C2 & D & W & H) S IH]; constructor; [|exact IH].
  split; [exact E|exact (C71_served o p d xs m C1 C2 D W H)].
Qed.
Print Assumptions C71_delivered.

(** ** A concrete case *)

(** The store and the matcher of C67; a metric that a mapping rule and a rollup rule apply to. *)
Definition c71_id : bytes := B "m3+cpu+dc=x,env=prod,namespace=a".
Definition c71_run : list saction :=
  c67_early ++ [SMatcher (MRead c71_id 100 101 100); SMatcher (MWrite c71_id 100 101 100 0)].
Definition c71_results : list (bytes * match_result) :=
  match system_run c67_opts c47_opts (new_system (fun _ => None)) c71_run with
  | Some (_, tr) => flat_map (fun e => match e with MEv (EvServe _ id _ _ r _) => [(id, r)] | _ => [] end) tr
  | None => []
  end.
Definition c71_messages : list message := flat_map (fun r => to_send (snd r) 100 (fst r) (SCounter 5)) c71_results.
Definition c71_union (m : message) : union_of list :=
  match m with
  | MCounter c ms => mk_union 1 c ms (mk_timer [] []) [] (mk_gauge [] 0) []
      (mk_forwarded 0 [] 0 []) (mk_fm 0%N empty_storage_policy [] 0 0) (mk_timed 0 [] 0 0)
      {| tm_agg := 0%N; tm_sp := empty_storage_policy |}
  | _ => ex_gauge
  end.
Definition c71_prog : list (ProtoStream.op * choice) :=
  map (fun m => (Encode 0 (c71_union m), Fresh [])) c71_messages.


(** Two messages are handed out, for the metric and for the rolled up one; both are encoded and delivered. *)
Example C71_nonvacuous :
  0 <= co_capacity (mo_cache_opts c47_opts) /\ 0 <= co_evict_batch (mo_cache_opts c47_opts) /\
  rules_typed (fun _ => None) /\ writes_typed (writes_of c71_run) /\
  Forall (handed_out c67_opts c47_opts (fun _ => None) c71_run) c71_messages /\
  map (fun m => match m with MCounter c ms => (c_id c, c_value c, map (fun x => length (sm_pipelines x)) ms) | _ => ([], 0, []) end)
    c71_messages = [(c71_id, 5, [2%nat]); (B "m3+new+dc=x,m3_rollup=true", 5, [1%nat])] /\
  Forall (fun m => selected (c71_union m) = Some m) c71_messages /\
  exists s l s' d, reachable s /\ runs s l s' /\ Forall (fun y => op_ok (fst (fst y))) l /\
    Forall (fun y => keeps 0%nat (fst (fst y))) l /\ nth_error (v_encs (observe s)) 0 = Some (1000, []) /\
    sent 0 l = map c71_union c71_messages /\
    nth_error (v_encs (observe s')) 0 = Some (1000, d) /\ decoded (new_iter d 1000) c71_messages EOF.
Proof.
  assert (A : 0 <= co_capacity (mo_cache_opts c47_opts)) by (cbn; lia).
  assert (B1 : 0 <= co_evict_batch (mo_cache_opts c47_opts)) by (cbn; lia).
  assert (C : rules_typed (fun _ => None)) by (intros k v pb E; discriminate).
  assert (W : writes_typed (writes_of c71_run)).
  { change (writes_typed [c67_write1]). constructor; [|constructor]. intros rs [= <-]. apply numbers_fitb_ok. vm_compute. reflexivity. }
  assert (H : Forall (handed_out c67_opts c47_opts (fun _ => None) c71_run) c71_messages).
  { unfold c71_messages, c71_results. destruct (system_run _ _ _ _) as [[s tr]|] eqn:E; [|constructor].
    apply Forall_forall. intros m M. apply in_flat_map in M as (r & R & M). apply in_flat_map in R as (e & Ie & R).
    destruct e; try contradiction. all: try (match type of R with In _ (match ?x with _ => _ end) => destruct x end; try contradiction).
    destruct R as [<-|[]]. do 10 eexists. split; [exact E|]. split; [exact Ie|]. split; [|exact M]. cbn. unfold is_int64. lia. }
  assert (S : Forall (fun m => selected (c71_union m) = Some m) c71_messages) by (vm_compute; repeat constructor).
  split; [exact A|]. split; [exact B1|]. split; [exact C|]. split; [exact W|]. split; [exact H|].
  split; [vm_compute; reflexivity|]. split; [exact S|].
  destruct (exec empty_system [(New true 4 1000, Fresh [])]) as [[s r]|] eqn:E1; [|discriminate].
  destruct (exec s c71_prog) as [[s' l]|] eqn:E2; [|exfalso; revert E2; injection E1 as <- _; vm_compute; discriminate].
  pose proof (exec_runs _ _ _ _ E1) as R1. pose proof (exec_runs _ _ _ _ E2) as R2.
  assert (Er : r = [(New true 4 1000, Fresh [], true)]) by (injection E1 as _ <-; reflexivity).
  assert (El : map (fun x => (fst (fst x), snd x)) l = map (fun m => (Encode 0 (c71_union m), true)) c71_messages).
  { assert (option_map (fun x => map (fun x => (fst (fst x), snd x)) (snd x)) (exec s c71_prog) =
      Some (map (fun x => (fst (fst x), snd x)) l)) as Q by (rewrite E2; reflexivity).
    injection E1 as <- _. assert (forall A (a b : A), Some a = Some b -> a = b) as Inj by (intros ? a b ?; congruence).
    apply Inj. rewrite <- Q. vm_compute. reflexivity. }
  assert (F : Forall (fun y => op_ok (fst (fst y)) /\ keeps 0%nat (fst (fst y))) l).
  { assert (Forall (fun y => op_ok (fst y) /\ keeps 0%nat (fst y)) (map (fun x : ProtoStream.op * choice * bool => (fst (fst x), snd x)) l)) as Q.
    { rewrite El. apply Forall_map. apply Forall_forall. intros m _. split; exact Logic.I. }
    rewrite Forall_map in Q. exact Q. }
  assert (O : Forall (fun y => op_ok (fst (fst y))) l) by (eapply Forall_impl; [|exact F]; intros ? [? ?]; assumption).
  assert (K : Forall (fun y => keeps 0%nat (fst (fst y))) l) by (eapply Forall_impl; [|exact F]; intros ? [? ?]; assumption).
  assert (Se : sent 0 l = map c71_union c71_messages).
  { clear - El. revert l El. induction c71_messages as [|m ms IH]; intros [|[[a c] b] l] El; try discriminate El; [reflexivity|].
    cbn [map fst snd] in El. injection El as -> -> El. cbn. f_equal. exact (IH l El). }
  assert (Re : reachable s). { exists r. split; [exact R1|]. rewrite Er. repeat constructor; cbn; lia. }
  assert (N : nth_error (v_encs (observe s)) 0 = Some (1000, [])) by (injection E1 as <- _; vm_compute; reflexivity).
  destruct (C71_delivered s l s' 0 1000 1000 c71_messages Re R2 O K N) as (d & D1 & D2); [|lia|].
  { rewrite Se. clear - A B1 C W H S. revert H S. induction c71_messages as [|m ms IH]; intros H S; constructor;
      inversion H; subst; inversion S; subst; [|auto].
    split; [assumption|]. exists c67_opts, c47_opts, (fun _ => None), c71_run. auto 10. }
  exists s, l, s', d. split; [exact Re|]. split; [exact R2|]. split; [exact O|]. split; [exact K|]. split; [exact N|].
  split; [exact Se|]. split; [exact D1|].
  assert (Eq : map as_received c71_messages = c71_messages) by (vm_compute; reflexivity). rewrite <- Eq. exact D2.
Qed.
