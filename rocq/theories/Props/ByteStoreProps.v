(** C92: the rule store and a matcher, with a key-value store that holds bytes. *)
From Coq Require Import Ascii String Arith NArith ZArith Bool Lia List.
From Verif Require Import Proof.RuleWireProof Proof.StoreEditProof Proof.StoreProof Proof.SystemProof Proof.ServedProof Proof.ByteStoreProof.
From Verif.Model Require Import AggType Policy Transformation Pipeline Metadata Filter MetricID Rules RuleSet RuleSetProto
  Namespace ProtoWire RuleWire Store CacheList Cache Matcher System ByteStore.
From Verif.Base Require Import Bytes BytesFacts BMap.
From Verif.Spec Require Import RulesSpec EditSpec RuleSetProtoSpec RuleWireSpec StoreSpec CacheSpec MatcherSpec SystemSpec ByteStoreSpec.
From Verif.Spec Require ProtoStreamSpec.
From Verif.Props Require Import RulesProps EditProps RuleSetProtoProps StoreProps MatcherProps RuleWireProps SystemProps.
Import ListNotations.
Open Scope Z_scope.

(** Whatever bytes the keys hold, damaged or of another type, the store stands for one that holds messages, as
    long as no length in them is close to 2^63. *)
Theorem C92_any_bytes o d : (forall k v b, d k = Some (v, b) -> ProtoStreamSpec.no_overflow b) -> exists s, stands_for o d s.
Proof.
  intros H. exists (messages_of o d). apply messages_stand. intros k v b E. destruct (C65_any_bytes b (H k v b E)). auto.
Qed.
Print Assumptions C92_any_bytes.

(** Any writes, one after the other, by any number of writers, with lost requests and replies: the writers are
    told the same as by a store of messages, and the bytes keep standing for what that one holds. *)
Theorem C92_writes o d s ws : keys_distinct o -> Forall write_fits ws -> stands_for o d s ->
  stands_for o (fst (bwrites o d ws)) (fst (writes o s ws)) /\ snd (bwrites o d ws) = snd (writes o s ws).
Proof. intros K F H. exact (writes_stand o ws K F d s H). Qed.
Print Assumptions C92_writes.

(** Readers read the same. *)
Theorem C92_reads o d s ns : keys_distinct o -> stands_for o d s ->
  bread_rule_set o d ns = Ok (read_rule_set o s ns) /\ bread_namespaces o d = Ok (read_namespaces o s).
Proof. intros K H. split; [now apply (read_rules_stands o o)|now apply read_names_stands]. Qed.
Print Assumptions C92_reads.

(** So, on bytes: a rule set that was written is read back, as the next version, until its namespace is written again. *)
Theorem C92_read_back o d rs f d' ws : keys_distinct o -> readable o d -> storable (so_rule o) rs -> rules_fit rs ->
  brun_write o d (WriteRules (Some rs) f) = (d', WOk) -> Forall write_fits ws ->
  Forall (fun w => forall rs', writes_rules w = Some rs' -> rs_namespace rs' <> rs_namespace rs) ws ->
  exists rs', bread_rule_set o (fst (bwrites o d' ws)) (rs_namespace rs) = Ok (ROk rs') /\
    read_back (rs_version rs + 1) (so_rule o) rs rs'.
Proof.
  intros K R S Fr E Fw N. pose proof (messages_stand o d R) as H.
  assert (W : write_fits (WriteRules (Some rs) f)) by (split; [intros x [= <-]; exact Fr|discriminate]).
  destruct (write_stands o d _ _ K W H) as [H1 E1]. rewrite E in H1, E1. cbn [fst snd] in H1, E1.
  destruct (run_write o (messages_of o d) (WriteRules (Some rs) f)) as [s' r] eqn:Es. cbn [fst snd] in H1, E1. subst r.
  destruct (writes_stand o ws K Fw d' s' H1) as [H2 _]. rewrite writes_run in H2.
  destruct (C40_read_back o _ rs f s' ws K S Es N) as (rs' & E2 & B). exists rs'. split; [|exact B].
  rewrite (read_rules_stands o o _ _ _ K eq_refl eq_refl H2). now rewrite E2.
Qed.
Print Assumptions C92_read_back.

(** And of two writes of a namespace based on the same version at most one succeeds, whatever is written in
    between; the other sets no key. *)
Theorem C92_one_winner o d w1 between w2 rs1 rs2 : keys_distinct o -> readable o d ->
  Forall write_fits (w1 :: between) -> write_fits w2 ->
  writes_rules w1 = Some rs1 -> writes_rules w2 = Some rs2 ->
  rs_namespace rs2 = rs_namespace rs1 -> rs_version rs2 = rs_version rs1 ->
  snd (brun_write o d w1) = WOk ->
  let d2 := fst (bwrites o d (w1 :: between)) in
  snd (brun_write o d2 w2) <> WOk /\ forall k, bkv_version (fst (brun_write o d2 w2)) k = bkv_version d2 k.
Proof.
  intros K R F F2 W1 W2 En Ev O d2. pose proof (messages_stand o d R) as H.
  pose proof (proj2 (write_stands o d _ w1 K (Forall_inv F) H)) as E1. rewrite O in E1.
  destruct (writes_stand o _ K F d _ H) as [H2 _]. rewrite writes_run in H2. fold d2 in H2.
  destruct (write_stands o d2 _ w2 K F2 H2) as [H3 E3].
  destruct (C40_one_winner o _ w1 between w2 rs1 rs2 W1 W2 En Ev (eq_sym E1)) as [A B]. split.
  - now rewrite E3.
  - intros k. rewrite (stands_version o _ _ k H3), (stands_version o _ _ k H2). now rewrite B.
Qed.
Print Assumptions C92_one_winner.

(** A matcher that follows the store of bytes does exactly what one that follows the store of messages does: the
    same runs are possible, with the same events, that is, the same answers. *)
Theorem C92_matcher o p d s xs : keys_distinct o -> Forall write_fits (writes_of xs) -> stands_for o d s ->
  match bsystem_run o p (new_bsystem d) xs, system_run o p (new_system s) xs with
  | None, None => True
  | Some (b', e), Some (s', e') => e = e' /\ system_stands_for o b' s'
  | _, _ => False
  end.
Proof.
  intros K F H. apply (run_stands o p xs K F). split; [exact H|]. split; [constructor|reflexivity].
Qed.
Print Assumptions C92_matcher.

(** So what was written is what metrics are matched against, as in C67_written. *)
Theorem C92_written o p d a w rs b s tr x s' ev id from to res adm :
  0 <= co_capacity (mo_cache_opts p) -> 0 <= co_evict_batch (mo_cache_opts p) -> keys_distinct o -> readable o d ->
  (forall k v y, d k = Some (v, y) -> 0 < v) ->
  storable (mo_rule_opts p) rs -> histories_ascend rs ->
  writes_rules w = Some rs -> snd (brun_write o (fst (bwrites o d (writes_of a))) w) = WOk ->
  Forall (fun w' => forall rs', writes_rules w' = Some rs' -> rs_namespace rs' <> rs_namespace rs) (writes_of b) ->
  let xs := a ++ SWrite w :: b in
  Forall write_fits (writes_of xs) -> (forall w', x = SWrite w' -> write_fits w') ->
  bsystem_run o p (new_bsystem d) xs = Some (s, tr) -> resting (bs_matcher s) ->
  ns_version (bs_matcher s) (rs_namespace rs) = rs_version rs + 1 ->
  bsystem_act o p s x = Some (s', ev) -> In (MEv (EvServe (rs_namespace rs) id from to res adm)) ev -> within_range p (xs ++ [x]) ->
  exists rs' from' T, read_back (rs_version rs + 1) (mo_rule_opts p) rs rs' /\ asked_from (xs ++ [x]) id from' /\ to <= T /\
    res = full_match rs' id from' T.
Proof.
  intros Hc Hb K R P S As W O N xs F Fx Run Rest V A I Rg. pose proof (messages_stand o d R) as H.
  pose proof (C92_matcher o p d _ xs K F H) as M. rewrite Run in M.
  destruct (system_run o p (new_system (messages_of o d)) xs) as [[sm e']|] eqn:Em; [|contradiction]. destruct M as [<- Sm].
  pose proof (act_stands o p s sm x K Fx Sm) as M. rewrite A in M.
  destruct (system_act o p sm x) as [[sm' e']|] eqn:Ea; [|contradiction]. destruct M as [<- Sm'].
  assert (Fa : Forall write_fits (writes_of a) /\ write_fits w).
  { unfold xs, writes_of in F. rewrite flat_map_app in F. apply Forall_app in F as [F1 F2]. split; [exact F1|].
    cbn [flat_map] in F2. apply Forall_app in F2 as [F2 _]. now inversion F2. }
  destruct Fa as [Fa Fw]. destruct (writes_stand o _ K Fa d _ H) as [Ha _]. rewrite writes_run in Ha.
  pose proof (proj2 (write_stands o _ _ w K Fw Ha)) as Ow. rewrite O in Ow.
  assert (Pm : versions_positive (messages_of o d)).
  { intros k v y E. unfold messages_of in E. destruct (d k) as [[v0 b0]|] eqn:Ed; [|discriminate]. injection E as <- _. exact (P k v0 b0 Ed). }
  rewrite (proj2 (proj2 Sm)) in Rest, V.
  exact (C67_written o p (messages_of o d) a w rs b sm tr x sm' ev id from to res adm Hc Hb Pm K S As W (eq_sym Ow) N Em Rest V Ea I Rg).
Qed.
Print Assumptions C92_written.

(** ** A concrete run: that of C67, on bytes, beside keys with bytes of the wrong type and with no message at all *)

Definition c92_start : bkv :=
  fun k => if beqb k (B "rules/b") then Some (4, B "no message")
           else if beqb k (B "rules/c") then Some (1, map zb [10; 4; 10; 2; 104; 105]) else None.

Definition c92_summary (r : option (bsystem * list mevent)) :=
  match r with
  | Some (s, tr) =>
      Some (match m_thread (bs_matcher s) with NIdle => true | _ => false end, m_refreshing (bs_matcher s),
            bkv_version (bs_kv s) (B "rules/a"), ns_version (bs_matcher s) (B "a"), c47_versions tr,
            match bs_kv s (B "rules/a") with Some (_, b) => length b | None => 0%nat end,
            match bread_rule_set c67_opts (bs_kv s) (B "b") with Ok RErr => true | _ => false end)
  | None => None
  end.

Lemma c92_fits rs : numbers_fitb rs = true ->
  match rule_set_proto rs with
  | Some pb => match marshal_rule_set pb with Ok b => zlen b <? 2 ^ 63 | _ => true end
  | None => true
  end = true -> rules_fit rs.
Proof.
  intros N L. split; [now apply numbers_fitb_ok|]. intros pb b E M. rewrite E, M in L. now apply Z.ltb_lt.
Qed.

Example C92_nonvacuous :
  readable c67_opts c92_start /\ (forall k v b, c92_start k = Some (v, b) -> 0 < v) /\
  Forall write_fits (writes_of c67_all) /\
  map (fun xs => c92_summary (bsystem_run c67_opts c47_opts (new_bsystem c92_start) xs)) [c67_early; c67_all ++ [c67_match; c67_fill]] =
  [Some (true, [], 1, 1, [], 234%nat, true); Some (true, [], 2, 2, [1; 1; 2], 259%nat, true)].
Proof.
  split; [|split; [|split]].
  - intros k v b E. unfold c92_start in E.
    destruct (beqb k (B "rules/b")); [injection E as _ <-; split; intros _ H; vm_compute in H; discriminate H|].
    destruct (beqb k (B "rules/c")); [injection E as _ <-; split; intros _ H; vm_compute in H; discriminate H|discriminate].
  - intros k v b E. unfold c92_start in E.
    destruct (beqb k (B "rules/b")); [injection E as <- _; lia|]. destruct (beqb k (B "rules/c")); [injection E as <- _; lia|discriminate].
  - assert (F1 : rules_fit c67_rules1) by (apply c92_fits; vm_compute; reflexivity).
    assert (F2 : rules_fit c67_rules2) by (apply c92_fits; vm_compute; reflexivity).
    assert (Fn : names_fit c67_names).
    { split; [intros n s [<-|[]] [<-|[]]; cbn; unfold int64; lia|]. intros b E. vm_compute in E. injection E as <-. vm_compute. reflexivity. }
    change (writes_of c67_all) with [c67_write1; c67_write2].
    constructor; [|constructor; [|constructor]]; split.
    + intros rs [= <-]. exact F1.
    + intros y [= <-]. exact Fn.
    + intros rs [= <-]. exact F2.
    + intros y E. discriminate E.
  - vm_compute. reflexivity.
Qed.
