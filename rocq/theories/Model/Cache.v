(** Model of the matcher cache: matcher/cache/cache.go.

    The state machine's actions are the critical sections of the program, so a
    list of actions is an interleaving of any number of concurrent calls with
    the two background goroutines.

    - Sections under [c.Lock] ([Register], [Refresh], [Unregister], the second
      half of [ForwardMatch], [doEvict], the first part of [doDelete], [Close])
      are one action each and are enabled only when no call holds the read lock.
    - The first half of [ForwardMatch] runs under [c.RLock].  The look-up is one
      action; when the element found is due for promotion the call stays in
      [c_readers], holding the read lock, until its [promote], which is a second
      action under the list lock.  Others reading, and the deletion goroutine,
      can run in between.
    - The deletion goroutine takes the maps awaiting deletion in one action and
      then removes their elements under the list lock only.  Each removal is an
      action of its own and they happen in any order: batches, whose size only
      determines when the list lock is released, and map iteration order are
      special cases.
    - In [setWithLock] the two list sections (removing the invalid element,
      adding the new one) are in one action.  Only removals by the deletion
      goroutine could run between them, of other elements than these two, and
      they can as well run after.

    Simplifications: the generated hash maps (matcher/cache/elem_map_gen.go and
    matcher/cache/namespace_results_map_gen.go, see C46) are ideal finite maps; a map of
    elements is owned either by a registered namespace or by the list of maps
    awaiting deletion, so it is a value here; metrics are left out; what a
    source answers is an input, so a source may change its answers at any time;
    integers are unbounded; the second half of [ForwardMatch] can be taken
    without the first.  Sources are compared by identity, a number here. *)
From Coq Require Import Arith ZArith Bool List.
From Verif Require Import Base.Bytes Base.BMap Model.Rules Model.CacheList.
Import ListNotations.
Open Scope Z_scope.

(** matcher/cache/cache.go 108-118, the options used: capacity, fresh and stutter durations,
    eviction batch size, invalidation mode ([InvalidateAll] or
    [InvalidateOne]; matcher/cache/options.go 30-38) *)
Record cache_opts := mk_co {
  co_capacity : Z; co_fresh : Z; co_stutter : Z; co_evict_batch : Z; co_invalidate_all : bool }.

(** matcher/cache/cache.go 79-89 [results], [newResults] *)
Record results := mk_results { r_elems : bmap nat; r_source : nat }.
(** matcher/cache/cache.go:86-91 [newResults] *)
Definition new_results (source : nat) : results := mk_results [] source.

(** matcher/cache/cache.go 105-130 [cache].  [c_alloc] is the next free address.  [c_evict]
    and [c_delete] are the channels of capacity one; [c_evicting] and
    [c_deleting] say that the goroutine has received and not yet taken the
    lock; [c_pending] are the elements the deletion goroutine has still to
    remove. *)
Record cache := mk_cache {
  c_ls : lstate;
  c_alloc : nat;
  c_ns : bmap results;
  c_to_delete : list (bmap nat);
  c_evict : bool;
  c_delete : bool;
  c_closed : bool;
  c_readers : list (nat * Z);
  c_evicting : bool;
  c_deleting : bool;
  c_pending : list nat }.

(** matcher/cache/cache.go 133-161 [NewCache] *)
Definition new_cache : cache :=
  mk_cache (mk_ls (fun _ => new_element [] [] empty_match_result) empty_dlist)
    0%nat [] [] false false false [] false false [].

(** Assignment to [list], matcher/cache/cache.go:141. *)
Definition with_ls (c : cache) (s : lstate) : cache :=
  mk_cache s (c_alloc c) (c_ns c) (c_to_delete c) (c_evict c) (c_delete c) (c_closed c)
    (c_readers c) (c_evicting c) (c_deleting c) (c_pending c).
(** The next free address for matcher/cache/list.go:42-51 [newElement]. *)
Definition with_alloc (c : cache) (n : nat) : cache :=
  mk_cache (c_ls c) n (c_ns c) (c_to_delete c) (c_evict c) (c_delete c) (c_closed c)
    (c_readers c) (c_evicting c) (c_deleting c) (c_pending c).
(** Assignment to [namespaces], matcher/cache/cache.go:128-149 [cache]. *)
Definition with_ns (c : cache) (m : bmap results) : cache :=
  mk_cache (c_ls c) (c_alloc c) m (c_to_delete c) (c_evict c) (c_delete c) (c_closed c)
    (c_readers c) (c_evicting c) (c_deleting c) (c_pending c).
(** Assignment to [toDelete], matcher/cache/cache.go:128-149 [cache]. *)
Definition with_to_delete (c : cache) (l : list (bmap nat)) : cache :=
  mk_cache (c_ls c) (c_alloc c) (c_ns c) l (c_evict c) (c_delete c) (c_closed c)
    (c_readers c) (c_evicting c) (c_deleting c) (c_pending c).
(** The holders of the read lock, matcher/cache/cache.go:178-191. *)
Definition with_readers (c : cache) (l : list (nat * Z)) : cache :=
  mk_cache (c_ls c) (c_alloc c) (c_ns c) (c_to_delete c) (c_evict c) (c_delete c) (c_closed c)
    l (c_evicting c) (c_deleting c) (c_pending c).
(** Assignment to [closed], matcher/cache/cache.go:128-149 [cache]. *)
Definition with_closed (c : cache) (b : bool) : cache :=
  mk_cache (c_ls c) (c_alloc c) (c_ns c) (c_to_delete c) (c_evict c) (c_delete c) b
    (c_readers c) (c_evicting c) (c_deleting c) (c_pending c).
(** The state of matcher/cache/cache.go:381-392 [cache.evict]. *)
Definition with_eviction (c : cache) (chan running : bool) : cache :=
  mk_cache (c_ls c) (c_alloc c) (c_ns c) (c_to_delete c) chan (c_delete c) (c_closed c)
    (c_readers c) running (c_deleting c) (c_pending c).
(** The state of matcher/cache/cache.go:418-429 [cache.delete]. *)
Definition with_deletion (c : cache) (chan running : bool) (pending : list nat) : cache :=
  mk_cache (c_ls c) (c_alloc c) (c_ns c) (c_to_delete c) (c_evict c) chan (c_closed c)
    (c_readers c) (c_evicting c) running pending.

(** What can be observed: the calls, the calls to sources, the results served
    with the element they came from, and the insertions and promotions.
    (matcher/cache/cache.go:178-487) *)
Inductive event :=
| EvRegister (ns : bytes) (source : nat)
| EvRefresh (ns : bytes) (source : nat)
| EvUnregister (ns : bytes)
| EvSource (ns : bytes) (source : nat) (id : bytes) (from to : Z) (res : match_result)
| EvServe (ns id : bytes) (from to : Z) (res : match_result) (elem : option nat)
| EvPromote (elem : nat) (now : Z).

(** matcher/cache/cache.go 467-479 [notifyEviction], [notifyDeletion] *)
Definition notify_eviction (c : cache) : cache := with_eviction c true (c_evicting c).
(** matcher/cache/cache.go:474-479 [cache.notifyDeletion] *)
Definition notify_deletion (c : cache) : cache := with_deletion c true (c_deleting c) (c_pending c).

(** matcher/cache/cache.go 481-487 [newPromotionExpiry]; [st] is what rand.Int63n returned *)
Definition new_promotion_expiry (o : cache_opts) (now st : Z) : Z :=
  let expiry := now + co_fresh o in
  if 0 <? co_stutter o then expiry + st else expiry.

(** the values rand.Int63n can return
    (matcher/cache/cache.go:481-487 [cache.newPromotionExpiry]) *)
Definition stutter_ok (o : cache_opts) (st : Z) : bool :=
  if 0 <? co_stutter o then (0 <=? st) && (st <? co_stutter o) else true.

(** matcher/cache/cache.go 350-362 [promote] *)
Definition promote (o : cache_opts) (c : cache) (now st : Z) (elem : nat) : cache * list event :=
  if should_promote (ls_heap (c_ls c) elem) now
  then (with_ls c (list_run (c_ls c)
          [ LSetExpiry elem (new_promotion_expiry o now st); LMoveToFront (Some elem) ]),
        [EvPromote elem now])
  else (c, []).

(** matcher/cache/cache.go 334-340 [refreshWithLock] *)
Definition refresh_with_lock (c : cache) (ns : bytes) (source : nat) (r : results) : cache :=
  let c1 := notify_deletion (with_to_delete c (c_to_delete c ++ [r_elems r])) in
  with_ns c1 (bset (c_ns c1) ns (mk_results [] source)).

(** matcher/cache/cache.go 364-379 [invalidateWithLock] *)
Definition invalidate_with_lock (o : cache_opts) (c : cache) (ns id : bytes) (r : results)
  : cache * results :=
  if co_invalidate_all o then
    let c1 := notify_deletion (with_to_delete c (c_to_delete c ++ [r_elems r])) in
    let r1 := mk_results [] (r_source r) in
    (with_ns c1 (bset (c_ns c1) ns r1), r1)
  else
    let elem := bget (r_elems r) id in
    let r1 := mk_results (bdel (r_elems r) id) (r_source r) in
    (with_ls (with_ns c (bset (c_ns c) ns r1)) (list_remove (c_ls c) elem), r1).

(** matcher/cache/cache.go 306-330 [setWithLock] with [add] 342-348; [answer] is what the
    source returned *)
Definition set_with_lock (o : cache_opts) (c : cache) (ns id : bytes) (from to : Z)
    (r : results) (invalidate : bool) (now st : Z) (answer : match_result)
  : cache * list event :=
  let '(c1, r1) := if invalidate then invalidate_with_lock o c ns id r else (c, r) in
  let a := c_alloc c1 in
  let c2 := with_ns c1 (bset (c_ns c1) ns (mk_results (bset (r_elems r1) id a) (r_source r1))) in
  let c3 := with_ls (with_alloc c2 (S a))
              (list_run (c_ls c2)
                 [ LNew a ns id answer; LSetExpiry a (new_promotion_expiry o now st);
                   LPushFront (Some a) ]) in
  let c4 := if co_capacity o + co_evict_batch o <? dl_len (ls_list (c_ls c3))
            then notify_eviction c3 else c3 in
  (c4, [ EvSource ns (r_source r1) id from to answer; EvPromote a now;
         EvServe ns id from to answer (Some a) ]).

(** matcher/cache/cache.go 262-304 [tryGetWithLock]: the namespace and element look-up.  A
    hit is an element whose result is not expired at the end of the window. *)
Inductive lookup := NoNamespace | Hit (a : nat) (res : match_result) | Miss (r : results) (expired : bool).

(** matcher/cache/cache.go:262-304 [cache.tryGetWithLock] *)
Definition try_get (c : cache) (ns id : bytes) (to : Z) : lookup :=
  match bget (c_ns c) ns with
  | None => NoNamespace
  | Some r =>
      match bget (r_elems r) id with
      | None => Miss r false
      | Some a =>
          let res := el_result (ls_heap (c_ls c) a) in
          if mr_has_expired res to then Miss r true else Hit a res
      end
  end.

(** matcher/cache/cache.go 394-416 [doEvict]: the loop; [None] is the panic on an empty list *)
Fixpoint evict_loop (fuel : nat) (o : cache_opts) (c : cache) : option cache :=
  if dl_len (ls_list (c_ls c)) <=? co_capacity o then Some c
  else match fuel with
       | O => None
       | S fuel' =>
           match dl_tail (ls_list (c_ls c)) with
           | None => None
           | Some a =>
               let e := ls_heap (c_ls c) a in
               let c1 := with_ls c (list_remove (c_ls c) (Some a)) in
               match bget (c_ns c1) (el_ns e) with
               | None => evict_loop fuel' o c1
               | Some r =>
                   evict_loop fuel' o
                     (with_ns c1 (bset (c_ns c1) (el_ns e)
                        (mk_results (bdel (r_elems r) (el_id e)) (r_source r))))
               end
           end
       end.

(** the loop needs at most one round per element
    matcher/cache/cache.go:394-416 [cache.doEvict] *)
Definition do_evict (o : cache_opts) (c : cache) : option cache :=
  evict_loop (Z.to_nat (dl_len (ls_list (c_ls c)))) o c.

(** the critical sections  (matcher/cache/cache.go:178-465) *)
Inductive action :=
| ARead (ns id : bytes) (from to now : Z)
| APromote (reader : nat) (st : Z)
| AWrite (ns id : bytes) (from to now st : Z) (answer : match_result)
| ARegister (ns : bytes) (source : nat)
| ARefresh (ns : bytes) (source : nat)
| AUnregister (ns : bytes)
| AClose
| AEvictRecv
| AEvict
| ADeleteRecv
| ADeleteTake
| ADeleteOne (n : nat).

(** One of several concurrent readers leaves the lock (matcher/cache/cache.go:181). *)
Fixpoint remove_nth {A} (n : nat) (l : list A) : list A :=
  match l, n with
  | [], _ => []
  | _ :: l', O => l'
  | x :: l', S n' => x :: remove_nth n' l'
  end.

(** Whether the write lock can be taken (matcher/cache/cache.go:186). *)
Definition unlocked (c : cache) : bool := match c_readers c with [] => true | _ => false end.

(** One action: the state after it and what was observed, or [None] when it is
    not enabled.  (matcher/cache/cache.go:178-465) *)
Definition cache_act (o : cache_opts) (c : cache) (x : action) : option (cache * list event) :=
  match x with
  (** matcher/cache/cache.go 178-183, the first half of [ForwardMatch] *)
  | ARead ns id from to now =>
      match try_get c ns id to with
      | NoNamespace => Some (c, [EvServe ns id from to empty_match_result None])
      | Hit a res =>
          let c1 := if should_promote (ls_heap (c_ls c) a) now
                    then with_readers c (c_readers c ++ [(a, now)]) else c in
          Some (c1, [EvServe ns id from to res (Some a)])
      | Miss _ _ => Some (c, [])
      end
  (** matcher/cache/cache.go 283-286 and 350-362, the promotion of a call holding the read lock *)
  | APromote n st =>
      if stutter_ok o st then
        match nth_error (c_readers c) n with
        | None => None
        | Some (a, now) =>
            Some (promote o (with_readers c (remove_nth n (c_readers c))) now st a)
        end
      else None
  (** matcher/cache/cache.go 185-190, the second half of [ForwardMatch] *)
  | AWrite ns id from to now st answer =>
      if unlocked c && stutter_ok o st then
        match try_get c ns id to with
        | NoNamespace => Some (c, [EvServe ns id from to empty_match_result None])
        | Hit a res =>
            let '(c1, ev) :=
              if should_promote (ls_heap (c_ls c) a) now then promote o c now st a else (c, []) in
            Some (c1, ev ++ [EvServe ns id from to res (Some a)])
        | Miss r expired => Some (set_with_lock o c ns id from to r expired now st answer)
        end
      else None
  (** matcher/cache/cache.go 193-204 [Register] *)
  | ARegister ns source =>
      if unlocked c then
        match bget (c_ns c) ns with
        | None => Some (with_ns c (bset (c_ns c) ns (new_results source)), [EvRegister ns source])
        | Some r => Some (refresh_with_lock c ns source r, [EvRegister ns source])
        end
      else None
  (** matcher/cache/cache.go 206-228 [Refresh] *)
  | ARefresh ns source =>
      if unlocked c then
        match bget (c_ns c) ns with
        | None => Some (c, [EvRefresh ns source])
        | Some r =>
            if Nat.eqb (r_source r) source
            then Some (refresh_with_lock c ns source r, [EvRefresh ns source])
            else Some (c, [EvRefresh ns source])
        end
      else None
  (** matcher/cache/cache.go 230-243 [Unregister] *)
  | AUnregister ns =>
      if unlocked c then
        match bget (c_ns c) ns with
        | None => Some (c, [EvUnregister ns])
        | Some r =>
            let c1 := with_ns c (bdel (c_ns c) ns) in
            Some (notify_deletion (with_to_delete c1 (c_to_delete c1 ++ [r_elems r])), [EvUnregister ns])
        end
      else None
  (** matcher/cache/cache.go 245-257 [Close]; closing again is an error and changes nothing.
      A goroutine that does not return at once is not excluded. *)
  | AClose => if unlocked c then Some (with_closed c true, []) else None
  (** matcher/cache/cache.go 381-392 [evict] *)
  | AEvictRecv =>
      if c_evict c && negb (c_evicting c) then Some (with_eviction c false true, []) else None
  | AEvict =>
      if unlocked c && c_evicting c then
        match do_evict o (with_eviction c (c_evict c) false) with
        | None => None
        | Some c1 => Some (c1, [])
        end
      else None
  (** matcher/cache/cache.go 418-429 [delete] and 431-465 [doDelete] *)
  | ADeleteRecv =>
      match c_pending c with
      | [] => if c_delete c && negb (c_deleting c) then Some (with_deletion c false true [], []) else None
      | _ => None
      end
  | ADeleteTake =>
      if unlocked c && c_deleting c then
        Some (with_to_delete
                (with_deletion c (c_delete c) false (c_pending c ++ map snd (concat (c_to_delete c)))) [], [])
      else None
  | ADeleteOne n =>
      match nth_error (c_pending c) n with
      | None => None
      | Some a =>
          Some (with_ls (with_deletion c (c_delete c) (c_deleting c) (remove_nth n (c_pending c)))
                  (list_remove (c_ls c) (Some a)), [])
      end
  end.

Fixpoint cache_run (o : cache_opts) (c : cache) (xs : list action) : option (cache * list event) :=
  match xs with
  | [] => Some (c, [])
  | x :: xs' =>
      match cache_act o c x with
      | None => None
      | Some (c1, e1) =>
          match cache_run o c1 xs' with
          | None => None
          | Some (c2, e2) => Some (c2, e1 ++ e2)
          end
      end
  end.

(** matcher/cache/cache.go 178-191 [ForwardMatch], uninterrupted: the look-up under the read
    lock with the promotion of the element found, and on a miss the second
    look-up under the write lock. *)
Definition forward_match_call (o : cache_opts) (c : cache) (ns id : bytes) (from to now st : Z)
    (answer : match_result) : option (cache * list event) :=
  match cache_act o c (ARead ns id from to now) with
  | None => None
  | Some (c1, ev1) =>
      match c_readers c1 with
      | [] =>
          match ev1 with
          | [] => cache_act o c1 (AWrite ns id from to now st answer)
          | _ => Some (c1, ev1)
          end
      | _ =>
          match cache_act o c1 (APromote 0 st) with
          | None => None
          | Some (c2, ev2) => Some (c2, ev1 ++ ev2)
          end
      end
  end.

(** histories without concurrent calls: whole calls, and any other action
    (matcher/cache/cache.go:178-257) *)
Inductive seq_op :=
| SMatch (ns id : bytes) (from to now st : Z) (answer : match_result)
| SOther (x : action).

(** One whole call or other action: matcher/cache/cache.go:178-465. *)
Definition seq_act (o : cache_opts) (c : cache) (p : seq_op) : option (cache * list event) :=
  match p with
  | SMatch ns id from to now st answer => forward_match_call o c ns id from to now st answer
  | SOther (ARead _ _ _ _ _) | SOther (APromote _ _) | SOther (AWrite _ _ _ _ _ _ _) => None
  | SOther x => cache_act o c x
  end.

(** A sequence of them: matcher/cache/cache.go:178-465. *)
Fixpoint seq_run (o : cache_opts) (c : cache) (ps : list seq_op) : option (cache * list event) :=
  match ps with
  | [] => Some (c, [])
  | p :: ps' =>
      match seq_act o c p with
      | None => None
      | Some (c1, e1) =>
          match seq_run o c1 ps' with
          | None => None
          | Some (c2, e2) => Some (c2, e1 ++ e2)
          end
      end
  end.
