(** What a matcher that follows the store answers can be sent. *)
From Coq Require Import Arith ZArith Bool Lia List.
From Verif Require Import Proof.MatcherProof Proof.MatcherServeProof Proof.CacheRunProof Proof.SystemProof Proof.RuleWireProof
  Proof.DeliveryProof.
From Verif.Model Require Import Metadata Rules RuleSetProto Store CacheList Cache Matcher System.
From Verif.Base Require Import Bytes BytesFacts BMap.
From Verif.Spec Require Import ProtoStreamSpec RuleWireSpec StoreSpec CacheSpec MatcherSpec SystemSpec DeliverySpec.
Import ListNotations.
Local Open Scope Z_scope.

Lemma kv_set_typed s k x : rules_typed s -> (forall pb, x = VRules pb -> rule_set_typed int32 pb) -> rules_typed (kv_set s k x).
Proof.
  intros H X k' v pb. unfold kv_set. destruct (beqb k' k); [|apply H]. intros [= _ ->]. auto.
Qed.
Lemma run_write_typed o s w : rules_typed s -> (forall rs, writes_rules w = Some rs -> numbers_fit rs) ->
  rules_typed (fst (run_write o s w)).
Proof.
  intros H W.
  assert (forall rs c k x, writes_rules w = rs -> rule_set_transaction o rs = inl (c, (k, x)) ->
    forall pb, x = VRules pb -> rule_set_typed int32 pb) as T.
  { intros rs c k x Ew. unfold rule_set_transaction. destruct rs as [rs|]; [|discriminate].
    destruct (rule_set_proto rs) as [pb|] eqn:E; [|discriminate]. intros [= _ _ <-] pb' [= <-].
    refine (rule_set_typed_mono code_ok int32 pb _ (rule_set_proto_typed rs pb (W rs Ew) E)). unfold code_ok, int32. lia. }
  assert (forall conds sets f, Forall (fun kx => forall pb, snd kx = VRules pb -> rule_set_typed int32 pb) sets ->
    rules_typed (fst (kv_commit s conds sets f))) as C.
  { intros conds sets f F. assert (rules_typed (fold_left (fun s x => kv_set s (fst x) (snd x)) sets s)) as HF.
    { revert s H F. clear. induction sets as [|x sets IH]; intros s H F; cbn [fold_left]; [exact H|]. inversion F; subst.
      apply IH; [now apply kv_set_typed|assumption]. }
    unfold kv_commit. destruct f; cbn [fst]; [destruct (forallb _ _)|exact H|destruct (forallb _ _)]; assumption. }
  destruct w as [rs f|x rs f]; cbn [run_write writes_rules] in *.
  - unfold write_rule_set. destruct (store_validate o rs); [exact H|].
    destruct (rule_set_transaction o rs) as [[c [k x]]|] eqn:Et; [|exact H].
    destruct (kv_commit s [c] [(k, x)] f) as [s' r] eqn:Ec. cbn [fst]. change s' with (fst (s', r)). rewrite <- Ec. apply C.
    constructor; [|constructor]. cbn [snd]. exact (T _ _ _ _ eq_refl Et).
  - unfold write_all. destruct (store_validate o rs); [exact H|].
    destruct (rule_set_transaction o rs) as [[c [k x1]]|] eqn:Et; [|exact H].
    unfold namespaces_transaction. destruct x as [x|]; [|exact H].
    match goal with |- context [kv_commit ?a ?b ?c ?d] => destruct (kv_commit a b c d) as [s' r] eqn:Ec end.
    cbn [fst]. change s' with (fst (s', r)). rewrite <- Ec. apply C.
    constructor; [cbn [snd]; exact (T _ _ _ _ eq_refl Et)|]. constructor; [cbn [snd]; discriminate|constructor].
Qed.
Lemma run_writes_typed o ws : forall s, rules_typed s -> writes_typed ws -> rules_typed (run_writes o s ws).
Proof.
  induction ws as [|w ws IH]; intros s H W; [exact H|]. inversion W; subst. cbn [run_writes fold_left]. apply IH; [|assumption].
  now apply run_write_typed.
Qed.
Lemma writes_of_app a b : writes_of (a ++ b) = writes_of a ++ writes_of b.
Proof. unfold writes_of. now rewrite flat_map_app. Qed.

Lemma empty_result_sendable : result_sendable empty_match_result.
Proof.
  split; [|constructor]. constructor; [|constructor]. split; [exact is_int64_0|].
  constructor; [exact default_pm_sendable|constructor].
Qed.
Lemma matched_sendable o p d xs s tr u v ns id from to : rules_typed d -> writes_typed (writes_of xs) ->
  system_run o p (new_system d) xs = Some (s, tr) -> tr = u ++ v -> result_sendable (matched_by (rules_of u ns) id from to).
Proof.
  intros T W R E. destruct (rules_of u ns) as [[[rs t]|]|] eqn:K; [|exact empty_result_sendable|exact empty_result_sendable].
  cbn [matched_by]. destruct (rules_of_processed u ns rs t K) as [ob I].
  destruct (processed_held o p d xs s tr ns ob rs t R) as (a & b & Ea & S); [rewrite E; apply in_or_app; now left|].
  unfold stored_rules, read_rule_set in S. destruct (store_after o d a _) as [[ver x]|] eqn:Ek; [|discriminate].
  destruct x as [pb| |]; try discriminate.
  destruct (rule_set_from_proto ver (Some pb) _) as [rs0|] eqn:Ep; [|discriminate]. injection S as <-.
  refine (proj1 (read_forward _ pb _ _ t id from to _ Ep)). refine (run_writes_typed o (writes_of a) d T _ _ _ _ Ek).
  rewrite Ea, writes_of_app in W. unfold writes_typed in *. apply Forall_app in W as [W _]. exact W.
Qed.
Lemma served_sendable o p d xs s tr ns id from to res a :
  0 <= co_capacity (mo_cache_opts p) -> 0 <= co_evict_batch (mo_cache_opts p) ->
  rules_typed d -> writes_typed (writes_of xs) ->
  system_run o p (new_system d) xs = Some (s, tr) -> In (MEv (EvServe ns id from to res a)) tr -> result_sendable res.
Proof.
  intros Hc Hb T W R I. apply in_split in I as (u & v & E).
  destruct (fo_run _ _ _ _ _ _ (follows_run _ _ _ _ _ _ R)) as [ys M].
  destruct (reachable_J _ _ _ _ Hc Hb M) as [Bs _]. pose proof (b_trace _ _ _ _ _ _ _ Bs) as Tr.
  destruct (b_cache _ _ _ _ _ _ _ Bs) as [zs C].
  assert (CE : cache_events tr = cache_events u ++ EvServe ns id from to res a :: cache_events v).
  { rewrite E, cache_events_app. reflexivity. }
  pose proof (served_what_may _ _ _ _ _ _ _ _ _ _ _ _ Hc Hb C CE) as S.
  unfold may_serve in S. destruct (registered (cache_events u) ns) as [ob|]; [|rewrite S; exact empty_result_sendable].
  destruct S as (t1 & f' & to' & t2 & S1 & _). destruct (cache_events_split _ _ _ _ S1) as (u1 & u2 & Eu & _ & _).
  assert (res = matched_by (rules_of u1 ns) id f' to') as ->.
  { apply (Tr u1 (MEv (EvSource ns ob id f' to' res)) (u2 ++ MEv (EvServe ns id from to res a) :: v)).
    rewrite E, Eu, <- app_assoc. reflexivity. }
  refine (matched_sendable o p d xs s tr u1 _ ns id f' to' T W R _). rewrite E, Eu, <- app_assoc. reflexivity.
Qed.
