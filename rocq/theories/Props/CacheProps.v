(** C43, C44, C45: the matcher cache. *)
From Coq Require Import Ascii String Arith ZArith Bool List.
From Verif Require Import Proof.CacheListProof Proof.CacheProof Proof.CacheRunProof
  Proof.CacheLruProof Proof.CachePurgeProof Proof.CacheFreshProof.
From Verif Require Import Base.Bytes Base.BMap Model.Rules Model.CacheList Model.Cache
  Spec.CacheListSpec Spec.CacheSpec.
Import ListNotations.
Open Scope Z_scope.

(** ** C43 *)

(** In every interleaving each result served for a metric is the empty one if
    the namespace is not registered, and otherwise what its registered source
    returned for the same metric, obtained for this call or not expired. *)
Theorem C43_served : forall o xs c tr u ns id from to res a v,
  0 <= co_capacity o -> 0 <= co_evict_batch o ->
  cache_run o new_cache xs = Some (c, tr) ->
  tr = u ++ EvServe ns id from to res a :: v ->
  may_serve u ns id from to res.
Proof. exact served_what_may. Qed.
Print Assumptions C43_served.

Definition c43_opts : cache_opts := mk_co 2 0 0 1 true.
Definition c43_res (v : Z) : match_result := mk_mr v 100 [] [].

Definition c43_actions : list action :=
  [ ARead (B "ns") (B "m") 0 10 1;
    ARegister (B "ns") 7%nat;
    ARead (B "ns") (B "m") 0 10 1;
    AWrite (B "ns") (B "m") 0 10 2 0 (c43_res 1);
    ARead (B "ns") (B "m") 0 10 3;
    ARead (B "ns") (B "m") 0 50 4;
    APromote 1 0; APromote 0 0;
    ARefresh (B "ns") 8%nat;
    ARead (B "ns") (B "m") 0 10 2;
    ARefresh (B "ns") 7%nat;
    AWrite (B "ns") (B "m") 0 10 5 0 (c43_res 2);
    AWrite (B "ns") (B "m") 90 120 6 0 (c43_res 3);
    ADeleteRecv; ADeleteTake; ADeleteOne 1; ADeleteOne 0;
    AUnregister (B "ns");
    ARead (B "ns") (B "m") 0 10 7 ].

Definition served (tr : list event) : list Z :=
  flat_map (fun e => match e with EvServe _ _ _ _ r _ => [mr_version r] | _ => [] end) tr.

(** hits, misses, a concurrent pair of promotions, a stale refresh, a real one,
    an expired entry, deletions and an unregistration: every kind of result *)
Example C43_nonvacuous :
  match cache_run c43_opts new_cache c43_actions with
  | Some (_, tr) => served tr = [0; 1; 1; 1; 1; 2; 3; 0]
  | None => False
  end.
Proof. vm_compute. reflexivity. Qed.

(** ** C44 *)

(** After a registration, or a refresh for the registered source, everything
    served for the namespace was computed afterwards. *)
Theorem C44_purged : forall o xs c tr u e w ns id from to res a v,
  0 <= co_capacity o -> 0 <= co_evict_batch o ->
  cache_run o new_cache xs = Some (c, tr) ->
  tr = u ++ e :: w ++ EvServe ns id from to res a :: v -> clears u ns e ->
  match registered (u ++ e :: w) ns with
  | None => res = empty_match_result
  | Some s => exists w1 from' to' w2, w = w1 ++ EvSource ns s id from' to' res :: w2
  end.
Proof. exact purged. Qed.
Print Assumptions C44_purged.

(** After an unregistration, and until the namespace is registered again, the
    empty result is served. *)
Theorem C44_unregistered : forall o xs c tr u w ns id from to res a v,
  0 <= co_capacity o -> 0 <= co_evict_batch o ->
  cache_run o new_cache xs = Some (c, tr) ->
  tr = u ++ EvUnregister ns :: w ++ EvServe ns id from to res a :: v ->
  (forall s, ~ In (EvRegister ns s) w) ->
  res = empty_match_result.
Proof. exact unregistered_empty. Qed.
Print Assumptions C44_unregistered.

(** the run above serves again after a refresh for the registered source and
    after an unregistration *)
Example C44_nonvacuous :
  match cache_run c43_opts new_cache c43_actions with
  | Some (_, tr) =>
      match nth_error tr 10, nth_error tr 13, nth_error tr 17, nth_error tr 18 with
      | Some (EvRefresh n1 s1), Some (EvServe n2 _ _ _ _ _), Some (EvUnregister n3), Some (EvServe n4 _ _ _ _ _) =>
          map (fun n => beqb n (B "ns")) [n1; n2; n3; n4] = [true; true; true; true] /\
          registered (firstn 10 tr) (B "ns") = Some s1
      | _, _, _, _ => False
      end
  | None => False
  end.
Proof. vm_compute. split; reflexivity. Qed.

(** ** C45 *)

(** The list holds each element once, the most recently inserted or promoted
    first. *)
Theorem C45_order : forall o xs c tr,
  0 <= co_capacity o -> 0 <= co_evict_batch o ->
  cache_run o new_cache xs = Some (c, tr) ->
  exists q, shows (c_ls c) q /\ NoDup q /\ latest_first promotes tr q.
Proof. exact list_order. Qed.
Print Assumptions C45_order.

(** An eviction pass always succeeds and keeps exactly the first 'capacity'
    elements of that order. *)
Theorem C45_evict : forall o xs c tr q,
  0 <= co_capacity o -> 0 <= co_evict_batch o ->
  cache_run o new_cache xs = Some (c, tr) ->
  c_evicting c = true -> c_readers c = [] -> shows (c_ls c) q ->
  exists c', cache_act o c AEvict = Some (c', []) /\
    shows (c_ls c') (firstn (Z.to_nat (co_capacity o)) q) /\
    dl_len (ls_list (c_ls c')) <= co_capacity o.
Proof. exact evict_ok. Qed.
Print Assumptions C45_evict.

(** What the maps of registered namespaces lead to is in the list, is the
    element of that metric, and is not awaiting deletion. *)
Theorem C45_reachable : forall o xs c tr ns id a,
  0 <= co_capacity o -> 0 <= co_evict_batch o ->
  cache_run o new_cache xs = Some (c, tr) ->
  reachable c ns id a ->
  exists q, shows (c_ls c) q /\ In a q /\ ~ awaits_deletion c a /\
    el_ns (ls_heap (c_ls c) a) = ns /\ el_id (ls_heap (c_ls c) a) = id /\
    el_deleted (ls_heap (c_ls c) a) = false.
Proof. exact reachable_in_list. Qed.
Print Assumptions C45_reachable.

(** Whenever the list is over the limit an eviction is under way or signalled,
    and whenever maps await deletion a deletion is. *)
Theorem C45_signalled : forall o xs c tr,
  0 <= co_capacity o -> 0 <= co_evict_batch o ->
  cache_run o new_cache xs = Some (c, tr) ->
  (co_capacity o + co_evict_batch o < dl_len (ls_list (c_ls c)) -> c_evict c = true \/ c_evicting c = true) /\
  (c_to_delete c <> [] -> c_delete c = true \/ c_deleting c = true).
Proof. exact tokens_pending. Qed.
Print Assumptions C45_signalled.

(** What the deletion goroutine removes is out of the list. *)
Theorem C45_deleted : forall o xs c tr n a,
  0 <= co_capacity o -> 0 <= co_evict_batch o ->
  cache_run o new_cache xs = Some (c, tr) ->
  nth_error (c_pending c) n = Some a ->
  exists c' q, cache_act o c (ADeleteOne n) = Some (c', []) /\ shows (c_ls c') q /\ ~ In a q.
Proof. exact deleted_gone. Qed.
Print Assumptions C45_deleted.

(** With zero freshness durations, a clock that does not go back and calls that
    do not overlap, the list is in order of last use: an eviction, which keeps
    a prefix, removes the least recently used elements. *)
Theorem C45_lru : forall o ps c tr,
  0 <= co_capacity o -> 0 <= co_evict_batch o ->
  co_fresh o = 0 -> co_stutter o = 0 -> clock_from 0 ps ->
  seq_run o new_cache ps = Some (c, tr) ->
  exists q, shows (c_ls c) q /\ latest_first uses tr q.
Proof. exact lru. Qed.
Print Assumptions C45_lru.

Definition c45_match (id : bytes) (now : Z) : seq_op := SMatch (B "ns") id 0 10 now 0 (c43_res now).

Definition c45_ops : list seq_op :=
  [ SOther (ARegister (B "ns") 7%nat);
    c45_match (B "a") 1; c45_match (B "b") 2; c45_match (B "a") 3; c45_match (B "c") 4;
    c45_match (B "b") 5; c45_match (B "d") 6; SOther AEvictRecv ].

Definition walk_ids (c : cache) : list bytes :=
  (fix go (n : nat) (p : option nat) :=
     match n, p with
     | S n', Some a => el_id (ls_heap (c_ls c) a) :: go n' (el_next (ls_heap (c_ls c) a))
     | _, _ => []
     end) (Z.to_nat (dl_len (ls_list (c_ls c)))) (dl_head (ls_list (c_ls c))).

(** four elements, the eviction signalled; the pass leaves the two used last *)
Example C45_nonvacuous :
  clock_from 0 c45_ops /\
  match seq_run c43_opts new_cache c45_ops with
  | Some (c, _) =>
      walk_ids c = [B "d"; B "b"; B "c"; B "a"] /\ c_evicting c = true /\ c_readers c = [] /\
      match cache_act c43_opts c AEvict with
      | Some (c', _) => walk_ids c' = [B "d"; B "b"]
      | None => False
      end
  | None => False
  end.
Proof. vm_compute. intuition discriminate. Qed.

(** With any freshness durations an entry is promoted at most once per freshness duration, in every
    interleaving: that is what the durations save. *)
Theorem C45_fresh : forall o xs c tr u a t v t' w,
  0 <= co_capacity o -> 0 <= co_evict_batch o ->
  cache_run o new_cache xs = Some (c, tr) ->
  tr = u ++ EvPromote a t :: v ++ EvPromote a t' :: w -> (forall t'', ~ In (EvPromote a t'') v) ->
  t + co_fresh o <= t'.
Proof. exact promotions_apart. Qed.
Print Assumptions C45_fresh.

(** And what the order of the list loses by it is bounded: a call made while no other is in progress
    promotes the entry it serves, unless that entry was promoted less than the freshness duration and
    the stutter ago. *)
Theorem C45_stale : forall o xs c tr ns id from to now st answer c' ev res a,
  0 <= co_capacity o -> 0 <= co_evict_batch o ->
  cache_run o new_cache xs = Some (c, tr) -> c_readers c = [] ->
  forward_match_call o c ns id from to now st answer = Some (c', ev) ->
  In (EvServe ns id from to res (Some a)) ev ->
  In (EvPromote a now) ev \/
  exists t, last_promotion tr a t /\ now < t + co_fresh o + Z.max 0 (co_stutter o).
Proof. exact use_promotes. Qed.
Print Assumptions C45_stale.

(** freshness 10, no stutter: used at 1, 5, 11 and 12, promoted at 1 and 11 *)
Example C45_fresh_nonvacuous :
  match seq_run (mk_co 2 10 0 1 true) new_cache
    [ SOther (ARegister (B "ns") 7%nat); SMatch (B "ns") (B "a") 0 10 1 0 (c43_res 1);
      SMatch (B "ns") (B "a") 0 10 5 0 (c43_res 1); SMatch (B "ns") (B "a") 0 10 11 0 (c43_res 1);
      SMatch (B "ns") (B "a") 0 10 12 0 (c43_res 1) ] with
  | Some (c, tr) =>
      flat_map (fun e => match e with EvPromote a t => [(a, t)] | _ => [] end) tr = [(0%nat, 1); (0%nat, 11)] /\
      length (filter (fun e => match e with EvServe _ _ _ _ _ _ => true | _ => false end) tr) = 4%nat
  | None => False
  end.
Proof. vm_compute. split; reflexivity. Qed.

(** Evicting an element orphaned by a refresh also forgets the newer entry of
    the same metric: after the eviction "b" is in the list, and yet the next
    look-up of "b" misses. *)
Example C45_orphan_hides_newer :
  match seq_run c43_opts new_cache
    [ SOther (ARegister (B "ns") 7%nat); c45_match (B "b") 1; SOther (ARefresh (B "ns") 7%nat);
      c45_match (B "b") 2; c45_match (B "a") 3; c45_match (B "c") 4; c45_match (B "b") 5;
      SOther AEvictRecv; SOther AEvict ] with
  | Some (c, _) =>
      walk_ids c = [B "b"; B "c"] /\
      match try_get c (B "ns") (B "b") 10 with Miss _ _ => True | _ => False end
  | None => False
  end.
Proof. vm_compute. repeat split. Qed.
