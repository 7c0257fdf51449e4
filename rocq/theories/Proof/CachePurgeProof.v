(** Refreshing and unregistering purge. *)
From Coq Require Import Arith ZArith Bool Lia List.
From Verif Require Import Base.Bytes Base.BytesFacts Base.BMap
  Model.Rules Model.CacheList Model.Cache Spec.CacheListSpec Spec.CacheSpec
  Proof.CacheListProof Proof.CacheProof Proof.CacheRunProof.
Import ListNotations.
Local Open Scope nat_scope.

Lemma purged o xs c tr u e w ns id from to res a v :
  (0 <= co_capacity o)%Z -> (0 <= co_evict_batch o)%Z -> cache_run o new_cache xs = Some (c, tr) ->
  tr = u ++ e :: w ++ EvServe ns id from to res a :: v -> clears u ns e ->
  match registered (u ++ e :: w) ns with
  | None => res = empty_match_result
  | Some s => exists w1 from' to' w2, w = w1 ++ EvSource ns s id from' to' res :: w2
  end.
Proof.
  intros H1 H2 H3 E C.
  assert (E' : tr = (u ++ e :: w) ++ EvServe ns id from to res a :: v) by (rewrite E, <- app_assoc; reflexivity).
  pose proof (served_what_may _ _ _ _ _ _ _ _ _ _ _ _ H1 H2 H3 E') as M. unfold may_serve in M.
  destruct (registered (u ++ e :: w) ns) as [s|]; [|exact M].
  destruct M as (t1 & f & t & t2 & F1 & F2 & _).
  symmetry in F1. apply split_app in F1 as [(k & G1 & G2)|(k & G1 & G2)].
  - exfalso. apply (F2 k e w G2). rewrite <- app_assoc. cbn. rewrite <- G1. exact C.
  - destruct k as [|k0 k]; cbn in G1; injection G1 as G0 G1.
    + subst e. destruct C.
    + exists k, f, t, t2. exact G1.
Qed.

Lemma registered_none ns w : forall cur,
  (forall s, ~ In (EvRegister ns s) w) -> cur = None -> fold_left (registered_step ns) w cur = None.
Proof.
  induction w as [|e w IH]; intros cur H Hc; [exact Hc|]. cbn. apply IH.
  - intros s X. apply (H s). right. exact X.
  - destruct e; cbn; try exact Hc.
    + destruct (beqb ns0 ns) eqn:Eb; [|exact Hc]. apply beqb_eq in Eb. subst.
      exfalso. apply (H source). left. reflexivity.
    + destruct (beqb ns0 ns); [reflexivity|exact Hc].
Qed.

Lemma unregistered_empty o xs c tr u w ns id from to res a v :
  (0 <= co_capacity o)%Z -> (0 <= co_evict_batch o)%Z -> cache_run o new_cache xs = Some (c, tr) ->
  tr = u ++ EvUnregister ns :: w ++ EvServe ns id from to res a :: v ->
  (forall s, ~ In (EvRegister ns s) w) ->
  res = empty_match_result.
Proof.
  intros H1 H2 H3 E N.
  pose proof (purged _ _ _ _ _ _ _ _ _ _ _ _ _ _ H1 H2 H3 E eq_refl) as P.
  rewrite registered_app in P. cbn in P. rewrite beqb_refl in P.
  rewrite registered_none in P; [exact P|exact N|reflexivity].
Qed.
