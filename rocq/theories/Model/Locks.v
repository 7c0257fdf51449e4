(** Model of the locks, channels and goroutines of the matcher: matcher/cache/cache.go, matcher/namespaces.go,
    matcher/ruleset.go and matcher/match.go.  Definitions only.

    Model.Cache and Model.Matcher say what the critical sections do; here only what can block is kept: each call is the
    sequence of its operations on locks, channels and the wait group, and of its accesses to what goroutines share.  What a call finds decides which operations it does,
    and how often; these findings are parameters of the code of the call and can be anything, so the model has every
    sequence the program can have, and more.

    Locks are Go's: any number of readers or one writer; a call of [Lock] first announces itself, one writer at a time,
    and from then on no new reader gets in; it then waits for the readers that are in.  A lock is not reentrant.

    The runtime values come from m3cluster and are not modelled beyond this: a value has a lock that is held by [Watch],
    [Unwatch] and the processing of an update (the comment at matcher/namespaces.go:214-217 says so), and [Watch] waits for
    the first value for a limited time only. *)
From Coq Require Import Arith Bool List.
Import ListNotations.

(** The locks: matcher/namespaces.go:101-103, matcher/ruleset.go:74-75 (with the locks of the embedded values), matcher/cache/cache.go:129
    and the list's (matcher/cache/list.go:162-165).  Rule sets are numbered. *)
Inductive lock := NsValue | Ns | RsValue (o : nat) | CacheLock | ListLock | Rs (o : nat).

(** Go [==] on locks, which are objects (matcher/ruleset.go:74). *)
Definition lock_eqb (a b : lock) : bool :=
  match a, b with
  | NsValue, NsValue | Ns, Ns | CacheLock, CacheLock | ListLock, ListLock => true
  | RsValue o, RsValue p | Rs o, Rs p => Nat.eqb o p
  | _, _ => false
  end.

(** What the goroutines share: the fields [namespaces], [toDelete] and [closed] of the cache and the links of its list
    (matcher/cache/cache.go:139-147), its maps of elements, which are numbered in the order they are made, the fields of the namespaces
    (matcher/namespaces.go:115-116) and those of a rule set (matcher/ruleset.go:86-90).  The promotion times of elements are accessed
    atomically (matcher/cache/list.go:55-62), and what never changes is not listed: the other fields of elements, and those set
    by the constructors. *)
Inductive location := LNamespaces | LToDelete | LClosed | LList | LMap (m : nat) | LRules | LRuleSet (o : nat).

(** Accesses.  A goroutine has a variable for the map of the namespace it deals with ([results.elems], matcher/cache/cache.go:268), and the
    deleting one a variable for the maps it has taken ([toDelete], 439).  [Touch] accesses one of the fixed locations, for
    writing or for reading; [FindMap n] looks up the map of namespace [n] (268, 407); [TouchMap] accesses that map;
    [DetachMap n] moves it to [toDelete] (335, 366, 240-241); [InstallMap n] makes a new one (198, 338-339, 368-369); [TakeMaps] takes all of
    [toDelete] (439-440); [ReadTaken i] reads the [i]th of these (446-447).  When a namespace is refreshed, its old map is replaced and
    not removed first, as it is here; the cache's lock is held throughout. *)
Inductive access :=
| Touch (x : location) (w : bool) | FindMap (n : nat) | TouchMap (w : bool) | DetachMap (n : nat) | InstallMap (n : nat)
| TakeMaps | ReadTaken (i : nat).

(** What can block, or wakes others up: matcher/cache/cache.go:129, 141-146. [IIfClosed yes no] is the test of [closed] together
    with its assignment (245-252). *)
Inductive instr :=
| IAccess (a : access)
| ILock (l : lock) | IUnlock (l : lock) | IRLock (l : lock) | IRUnlock (l : lock)
| INotifyEviction | INotifyDeletion | IIfClosed (yes no : list instr) | ICloseChannel | IWaitWorkers.

(** * The code of the calls *)

(** Any access of the list's links (matcher/cache/list.go:71-160) with its lock: [add] and [promote] (matcher/cache/cache.go:342-362), and 374-376. *)
Definition list_code : list instr := [ILock ListLock; IAccess (Touch LList true); IUnlock ListLock].

(** What [tryGetWithLock] finds (matcher/cache/cache.go:262-304): no namespace; a valid result, to be promoted or not; or none, or
    an expired one, with the rule set to ask, the invalidation mode and whether there are too many elements then. *)
Inductive found :=
| NoNamespace
| Valid (promote : bool)
| Missing (expired : bool) (o : nat) (all full : bool).

(** matcher/cache/cache.go:332-340 [refreshWithLock] *)
Definition replace_code (n : nat) : list instr :=
  [IAccess (DetachMap n); INotifyDeletion; IAccess (InstallMap n)].

(** matcher/cache/cache.go:364-379 [invalidateWithLock] *)
Definition invalidate_code (n : nat) (all : bool) : list instr :=
  if all then replace_code n else [IAccess (TouchMap false); IAccess (TouchMap true)] ++ list_code.

(** matcher/ruleset.go:151-163 [ForwardMatch], 165-184 [ReverseMatch], and 123-149, the accessors *)
Definition read_rule_set (o : nat) : list instr := [IRLock (Rs o); IAccess (Touch (LRuleSet o) false); IRUnlock (Rs o)].

(** matcher/cache/cache.go:306-330 [setWithLock] *)
Definition set_code (n : nat) (expired : bool) (o : nat) (all full : bool) : list instr :=
  (if expired then invalidate_code n all else []) ++ read_rule_set o ++ [IAccess (TouchMap true)] ++ list_code ++
  (if full then [INotifyEviction] else []).

(** matcher/cache/cache.go:262-304 [tryGetWithLock] *)
Definition try_get_code (n : nat) (f : found) (set : bool) : list instr :=
  [IAccess (FindMap n)] ++
  match f with
  | NoNamespace => []
  | Valid promote => [IAccess (TouchMap false)] ++ (if promote then list_code else [])
  | Missing e o a full => [IAccess (TouchMap false)] ++ (if set then set_code n e o a full else [])
  end.

(** matcher/cache/cache.go:178-191 [ForwardMatch]; [f1] is found under the read lock and [f2] under the write lock.
    matcher/match.go:78-84 [ForwardMatch] does nothing else that could block. *)
Definition forward_code (n : nat) (f1 f2 : found) : list instr :=
  [IRLock CacheLock] ++ try_get_code n f1 false ++ [IRUnlock CacheLock] ++
  match f1 with
  | Missing _ _ _ _ => [ILock CacheLock] ++ try_get_code n f2 true ++ [IUnlock CacheLock]
  | _ => []
  end.

(** matcher/cache/cache.go:193-204 [Register]; [known]: the namespace is there *)
Definition register_code (n : nat) (known : bool) : list instr :=
  [ILock CacheLock; IAccess (FindMap n)] ++ (if known then replace_code n else [IAccess (InstallMap n)]) ++ [IUnlock CacheLock].
(** matcher/cache/cache.go:206-228 [Refresh]; [current]: the namespace is there with this source *)
Definition refresh_code (n : nat) (current : bool) : list instr :=
  [ILock CacheLock; IAccess (FindMap n)] ++ (if current then replace_code n else []) ++ [IUnlock CacheLock].
(** matcher/cache/cache.go:230-243 [Unregister] *)
Definition unregister_code (n : nat) (known : bool) : list instr :=
  [ILock CacheLock; IAccess (FindMap n)] ++ (if known then [IAccess (DetachMap n); INotifyDeletion] else []) ++ [IUnlock CacheLock].

(** matcher/cache/cache.go:245-257 [Close] *)
Definition close_code : list instr :=
  [ILock CacheLock; IIfClosed [IUnlock CacheLock] [IUnlock CacheLock; ICloseChannel; IWaitWorkers]].

(** matcher/cache/cache.go:394-416 [doEvict]; [ns] are the namespaces of the elements evicted *)
Definition evict_code (ns : list nat) : list instr :=
  [ILock CacheLock; ILock ListLock; IAccess (Touch LList true)] ++
  concat (map (fun n => [IAccess (FindMap n); IAccess (TouchMap true)]) ns) ++
  [IUnlock ListLock; IUnlock CacheLock].

(** matcher/cache/cache.go:431-465 [doDelete]: nothing to delete, or a number of elements, each from one of the maps and with or without a
    pause after it *)
Definition delete_code (todo : option (list (nat * bool))) : list instr :=
  [ILock CacheLock; IAccess (Touch LToDelete false)] ++
  match todo with
  | None => [IUnlock CacheLock]
  | Some xs =>
      [IAccess TakeMaps; IUnlock CacheLock; ILock ListLock] ++
      concat (map (fun x : nat * bool => [IAccess (ReadTaken (fst x)); IAccess (Touch LList true)] ++
                            (if snd x then [IUnlock ListLock; ILock ListLock] else [])) xs) ++
      [IUnlock ListLock]
  end.

(** matcher/ruleset.go:186-199 [toRuleSet] and 201-217 [process], with the callback of matcher/match.go:59-61; what becomes of a
    value: it cannot be read, or it is processed. *)
Inductive value := Unreadable | Processed (current : bool).
(** matcher/ruleset.go:186-199 [toRuleSet] and the locked part of [process] (202-208) *)
Definition write_rule_set (o : nat) : list instr := [ILock (Rs o); IAccess (Touch (LRuleSet o) true); IUnlock (Rs o)].
(** matcher/ruleset.go:186-217 [toRuleSet], [process] *)
Definition rule_set_value_code (n o : nat) (v : value) : list instr :=
  write_rule_set o ++
  match v with
  | Unreadable => []
  | Processed current => write_rule_set o ++ refresh_code n current
  end.

(** [Watch], [Unwatch] and the processing of an update of a rule set's value (matcher/namespaces.go:289, 292, 319): with the lock of
    the value, and perhaps a value. *)
Definition rule_set_update_code (n o : nat) (v : option value) : list instr :=
  [ILock (RsValue o)] ++ match v with None => [] | Some v => rule_set_value_code n o v end ++ [IUnlock (RsValue o)].

(** matcher/namespaces.go:258-304, an entry of the update: its namespace and rule set, whether its version is looked at, the value that
    [Watch] gets, and whether it is new to the matcher. *)
Record entry := mk_entry { en_namespace : nat; en_rule_set : nat; en_version : bool; en_value : option value; en_new : option bool }.
(** matcher/namespaces.go:258-304 [process], the body of the first loop *)
Definition entry_code (e : entry) : list instr :=
  [IAccess (Touch LRules true)] ++
  (if en_version e then read_rule_set (en_rule_set e) else []) ++
  rule_set_update_code (en_namespace e) (en_rule_set e) (en_value e) ++
  match en_new e with None => [] | Some known => register_code (en_namespace e) known end.

(** matcher/namespaces.go:306-322, an entry of [n.rules]: in the update; not deleted; deleted lately; or removed. *)
Inductive swept := Kept | Live (o : nat) | Recent (o : nat) | Removed (n o : nat) (known : bool).
(** matcher/namespaces.go:306-322 [process], the body of the second loop *)
Definition sweep_code (x : swept) : list instr :=
  [IAccess (Touch LRules false)] ++
  match x with
  | Kept => []
  | Live o => read_rule_set o
  | Recent o => read_rule_set o ++ read_rule_set o
  | Removed n o known =>
      read_rule_set o ++ read_rule_set o ++ read_rule_set o ++ unregister_code n known ++
      [IAccess (Touch LRules true)] ++ rule_set_update_code n o None
  end.

(** matcher/namespaces.go:228-240 [toNamespaces] and 242-325 [process], if the value can be read *)
Definition namespaces_value_code (v : option (list entry * list swept)) : list instr :=
  [ILock Ns; IAccess (Touch LRules true); IUnlock Ns] ++
  match v with
  | None => []
  | Some (es, xs) => [ILock Ns] ++ concat (map entry_code es) ++ concat (map sweep_code xs) ++ [IUnlock Ns]
  end.

(** The processing of an update of the namespaces, and [Watch] in [Open] (matcher/namespaces.go:147-168) *)
Definition namespaces_update_code (v : option (option (list entry * list swept))) : list instr :=
  [ILock NsValue] ++ match v with None => [] | Some v => namespaces_value_code v end ++ [IUnlock NsValue].

(** matcher/namespaces.go:170-178 [Version], 180-211 [ForwardMatch], [ReverseMatch], [ruleSet] *)
Definition namespaces_read_code (o : option nat) : list instr :=
  [IRLock Ns; IAccess (Touch LRules false); IRUnlock Ns] ++ match o with None => [] | Some o => read_rule_set o end.

(** matcher/namespaces.go:213-226 [Close]; [xs] are the namespaces and rule sets in [n.rules] *)
Definition namespaces_close_code (xs : list (nat * nat)) : list instr :=
  namespaces_update_code None ++
  [IRLock Ns; IAccess (Touch LRules false)] ++
  concat (map (fun x => rule_set_update_code (fst x) (snd x) None) xs) ++ [IRUnlock Ns].

(** The calls: of the cache (matcher/cache/cache.go:178-257), of the namespaces (matcher/namespaces.go:147-226), of the matcher (matcher/match.go:78-89), and
    the goroutines that process updates. *)
Inductive call :=
| CForward (n : nat) (f1 f2 : found)
| CRegister (n : nat) (known : bool) | CRefresh (n : nat) (current : bool) | CUnregister (n : nat) (known : bool)
| CClose
| NRead (o : option nat)
| NClose (xs : list (nat * nat))
| NUpdate (v : option (option (list entry * list swept)))
| RUpdate (n o : nat) (v : option value)
| MClose (xs : list (nat * nat)).

(** The code of a call.  matcher/match.go:86-89 [Close] for the last. *)
Definition code_of (c : call) : list instr :=
  match c with
  | CForward n f1 f2 => forward_code n f1 f2
  | CRegister n p => register_code n p
  | CRefresh n p => refresh_code n p
  | CUnregister n p => unregister_code n p
  | CClose => close_code
  | NRead o => namespaces_read_code o
  | NClose xs => namespaces_close_code xs
  | NUpdate v => namespaces_update_code v
  | RUpdate n o v => rule_set_update_code n o v
  | MClose xs => namespaces_close_code xs ++ close_code
  end.

(** * Goroutines *)

(** Callers, and the two goroutines of the cache: matcher/cache/cache.go:381-392 [evict] and 418-429 [delete] *)
Inductive kind := Caller | Evictor | Deleter.

(** The variables of a goroutine: the map it deals with and the maps it has taken (matcher/cache/cache.go:268, 439). *)
Record local := mk_local { l_map : option nat; l_taken : list nat }.
(** No value yet  (matcher/cache/cache.go:268, 439). *)
Definition no_local : local := mk_local None [].

(** A goroutine: what it holds ([true]: for writing), whether it has announced the write lock it is at, what it has still to
    do, whether it has returned from its loop, and its variables.  (matcher/cache/cache.go:157-159, 381-429) *)
Record thread := mk_thread {
  t_kind : kind; t_held : list (lock * bool); t_pending : bool; t_code : list instr; t_gone : bool; t_local : local }.

(** The maps of elements: those of the namespaces, those to be deleted, and the number of the next to be made
    (matcher/cache/cache.go:139, 143). *)
Record maps := mk_maps { m_namespaces : list (nat * nat); m_to_delete : list nat; m_next : nat }.

(** All goroutines, the channels, [closed] and the maps: matcher/cache/cache.go:128-149 *)
Record system := mk_system {
  s_threads : list thread; s_evict : bool; s_delete : bool; s_closed : bool; s_channel_closed : bool; s_maps : maps }.

(** The map of a namespace (matcher/cache/cache.go:268) *)
Definition map_of (n : nat) (l : list (nat * nat)) : option nat :=
  match find (fun x => Nat.eqb (fst x) n) l with Some (_, m) => Some m | None => None end.
(** The namespaces but one (matcher/cache/cache.go:239) *)
Definition without (n : nat) (l : list (nat * nat)) : list (nat * nat) := filter (fun x => negb (Nat.eqb (fst x) n)) l.

(** What an access does to the maps and the variables of the goroutine (matcher/cache/cache.go:193-243, 262-340, 364-379, 407-413, 431-465) *)
Definition accessed (a : access) (d : maps) (v : local) : maps * local :=
  match a with
  | Touch _ _ | TouchMap _ | ReadTaken _ => (d, v)
  | FindMap n => (d, mk_local (map_of n (m_namespaces d)) (l_taken v))
  | DetachMap n =>
      (mk_maps (without n (m_namespaces d))
         (m_to_delete d ++ match map_of n (m_namespaces d) with Some m => [m] | None => [] end) (m_next d), v)
  | InstallMap n =>
      (mk_maps ((n, m_next d) :: without n (m_namespaces d)) (m_to_delete d) (S (m_next d)),
       mk_local (Some (m_next d)) (l_taken v))
  | TakeMaps => (mk_maps (m_namespaces d) [] (m_next d), mk_local (l_map v) (m_to_delete d))
  end.

(** The locations it touches ([true]: for writing); matcher/cache/cache.go:193-243, 262-340, 364-379, 407-413, 431-465 *)
Definition touches (a : access) (v : local) : list (location * bool) :=
  match a with
  | Touch x w => [(x, w)]
  | FindMap _ => [(LNamespaces, false)]
  | TouchMap w => match l_map v with Some m => [(LMap m, w)] | None => [] end
  | DetachMap _ => [(LNamespaces, true); (LToDelete, true)]
  | InstallMap _ => [(LNamespaces, true)]
  | TakeMaps => [(LToDelete, true)]
  | ReadTaken i => match nth_error (l_taken v) i with Some m => [(LMap m, false)] | None => [] end
  end.

(** What a goroutine is about to touch (matcher/cache/cache.go:178-465, matcher/namespaces.go:147-325, matcher/ruleset.go:123-217) *)
Definition about_to_touch (t : thread) : list (location * bool) :=
  match t_code t with
  | IAccess a :: _ => touches a (t_local t)
  | IIfClosed _ _ :: _ => [(LClosed, true)]
  | _ => []
  end.

(** matcher/cache/cache.go:157-159 in [NewCache] *)
Definition new_system : system :=
  mk_system [mk_thread Evictor [] false [] false no_local; mk_thread Deleter [] false [] false no_local]
    false false false false (mk_maps [] [] 0).

(** Whether a goroutine holds a lock, for writing or for reading (sync.RWMutex, used at matcher/cache/cache.go:129). *)
Definition holds (w : bool) (l : lock) (t : thread) : bool :=
  existsb (fun h => lock_eqb (fst h) l && Bool.eqb (snd h) w) (t_held t).
(** Whether a goroutine has announced a write (sync.RWMutex, used at matcher/cache/cache.go:129). *)
Definition announced (l : lock) (t : thread) : bool :=
  t_pending t && match t_code t with ILock l' :: _ => lock_eqb l' l | _ => false end.

(** Writing one goroutine (matcher/cache/cache.go:178-465). *)
Definition set_thread (s : system) (i : nat) (t : thread) : system :=
  mk_system (firstn i (s_threads s) ++ t :: skipn (S i) (s_threads s)) (s_evict s) (s_delete s) (s_closed s) (s_channel_closed s) (s_maps s).

(** What a goroutine holds after giving up a lock; [None] is Go's fatal error for a lock that is not held (sync.RWMutex, used
    at matcher/cache/cache.go:129) *)
Fixpoint give_up (l : lock) (w : bool) (held : list (lock * bool)) : option (list (lock * bool)) :=
  match held with
  | [] => None
  | (l', w') :: held' =>
      if lock_eqb l' l && Bool.eqb w' w then Some held'
      else option_map (cons (l', w')) (give_up l w held')
  end.

(** What one step of a goroutine can lead to (matcher/cache/cache.go:178-465). *)
Inductive result := Blocked | Panics | Steps (s : system).

(** Whether the goroutine has returned, for the wait group (matcher/cache/cache.go:255, 382, 419) *)
Definition still_working (t : thread) : bool :=
  match t_kind t with Caller => false | _ => negb (t_gone t) end.

(** The next operation of goroutine [i]  (matcher/cache/cache.go:178-465, matcher/namespaces.go:147-325, matcher/ruleset.go:123-217) *)
Definition run (s : system) (i : nat) : result :=
  match nth_error (s_threads s) i with
  | None => Blocked
  | Some t =>
      let continue held code := set_thread s i (mk_thread (t_kind t) held false code (t_gone t) (t_local t)) in
      match t_code t with
      | [] => Blocked
      | IAccess a :: k =>
          let (d, v) := accessed a (s_maps s) (t_local t) in
          let s1 := set_thread s i (mk_thread (t_kind t) (t_held t) false k (t_gone t) v) in
          Steps (mk_system (s_threads s1) (s_evict s1) (s_delete s1) (s_closed s1) (s_channel_closed s1) d)
      | ILock l :: k =>
          if t_pending t then
            if existsb (holds false l) (s_threads s) then Blocked
            else Steps (continue ((l, true) :: t_held t) k)
          else if existsb (announced l) (s_threads s) || existsb (holds true l) (s_threads s) then Blocked
          else Steps (set_thread s i (mk_thread (t_kind t) (t_held t) true (t_code t) (t_gone t) (t_local t)))
      | IRLock l :: k =>
          if existsb (announced l) (s_threads s) || existsb (holds true l) (s_threads s) then Blocked
          else Steps (continue ((l, false) :: t_held t) k)
      | IUnlock l :: k =>
          match give_up l true (t_held t) with None => Panics | Some held => Steps (continue held k) end
      | IRUnlock l :: k =>
          match give_up l false (t_held t) with None => Panics | Some held => Steps (continue held k) end
      | INotifyEviction :: k =>
          let s1 := continue (t_held t) k in
          Steps (mk_system (s_threads s1) true (s_delete s1) (s_closed s1) (s_channel_closed s1) (s_maps s1))
      | INotifyDeletion :: k =>
          let s1 := continue (t_held t) k in
          Steps (mk_system (s_threads s1) (s_evict s1) true (s_closed s1) (s_channel_closed s1) (s_maps s1))
      | IIfClosed yes no :: k =>
          let s1 := continue (t_held t) ((if s_closed s then yes else no) ++ k) in
          Steps (mk_system (s_threads s1) (s_evict s1) (s_delete s1) true (s_channel_closed s1) (s_maps s1))
      | ICloseChannel :: k =>
          if s_channel_closed s then Panics
          else
            let s1 := continue (t_held t) k in
            Steps (mk_system (s_threads s1) (s_evict s1) (s_delete s1) (s_closed s1) true (s_maps s1))
      | IWaitWorkers :: k =>
          if existsb still_working (s_threads s) then Blocked else Steps (continue (t_held t) k)
      end
  end.

(** A goroutine of the cache receives from its channel: matcher/cache/cache.go:384-388, 421-425; [ns] and [xs] are what it finds then. *)
Definition receive (s : system) (i : nat) (ns : list nat) (xs : option (list (nat * bool))) : result :=
  match nth_error (s_threads s) i with
  | Some (mk_thread Evictor [] false [] false v) =>
      if s_evict s then
        let s1 := set_thread s i (mk_thread Evictor [] false (evict_code ns) false v) in
        Steps (mk_system (s_threads s1) false (s_delete s1) (s_closed s1) (s_channel_closed s1) (s_maps s1))
      else Blocked
  | Some (mk_thread Deleter [] false [] false v) =>
      if s_delete s then
        let s1 := set_thread s i (mk_thread Deleter [] false (delete_code xs) false v) in
        Steps (mk_system (s_threads s1) (s_evict s1) false (s_closed s1) (s_channel_closed s1) (s_maps s1))
      else Blocked
  | _ => Blocked
  end.

(** A goroutine of the cache finds the channel closed and returns: matcher/cache/cache.go:388-390, 425-427 *)
Definition leave (s : system) (i : nat) : result :=
  match nth_error (s_threads s) i with
  | Some (mk_thread k [] false [] false v) =>
      match k with
      | Caller => Blocked
      | _ => if s_channel_closed s then Steps (set_thread s i (mk_thread k [] false [] true v)) else Blocked
      end
  | _ => Blocked
  end.

(** A new call (matcher/cache/cache.go:178-257, matcher/namespaces.go:147-226, matcher/match.go:78-89) *)
Definition begin_call (s : system) (c : call) : system :=
  mk_system (s_threads s ++ [mk_thread Caller [] false (code_of c) false no_local])
    (s_evict s) (s_delete s) (s_closed s) (s_channel_closed s) (s_maps s).

(** What can happen: a call begins, a goroutine goes on  (matcher/cache/cache.go:178-465) *)
Inductive happening := Begin (c : call) | Run (i : nat) | Receive (i : nat) (ns : list nat) (xs : option (list (nat * bool))) | Leave (i : nat).

(** One of these  (matcher/cache/cache.go:178-465, matcher/namespaces.go:147-325, matcher/match.go:78-89) *)
Definition happen (s : system) (h : happening) : result :=
  match h with
  | Begin c => Steps (begin_call s c)
  | Run i => run s i
  | Receive i ns xs => receive s i ns xs
  | Leave i => leave s i
  end.
