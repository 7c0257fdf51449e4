(** What callers of the cache can rely on, in terms of the trace of calls. *)
From Coq Require Import Arith ZArith Bool List.
From Verif Require Import Base.Bytes Base.BMap Model.Rules Model.CacheList Model.Cache.
Import ListNotations.
Open Scope Z_scope.

(** the source registered for a namespace after the given events *)
Definition registered_step (ns : bytes) (cur : option nat) (e : event) : option nat :=
  match e with
  | EvRegister n s => if beqb n ns then Some s else cur
  | EvUnregister n => if beqb n ns then None else cur
  | _ => cur
  end.
Definition registered (tr : list event) (ns : bytes) : option nat :=
  fold_left (registered_step ns) tr None.

(** [clears tr ns e]: after [tr], the event [e] makes everything known about the
    namespace stale: registering it (again), unregistering it, or refreshing it
    for the source that is registered. *)
Definition clears (tr : list event) (ns : bytes) (e : event) : Prop :=
  match e with
  | EvRegister n _ => n = ns
  | EvUnregister n => n = ns
  | EvRefresh n s => n = ns /\ registered tr ns = Some s
  | _ => False
  end.

(** nothing among the events [t2], which follow [t1], clears the namespace *)
Definition uncleared (t1 : list event) (ns : bytes) (t2 : list event) : Prop :=
  forall u e v, t2 = u ++ e :: v -> ~ clears (t1 ++ u) ns e.

Definition is_promotion (e : event) : Prop := match e with EvPromote _ _ => True | _ => False end.

(** What may be served for a metric after the events [tr]: the empty result
    when the namespace is not registered; otherwise what the source registered
    for the namespace returned for this metric since the namespace was last
    cleared.  It was either obtained for this very call, or it is not expired
    at the end of the window. *)
Definition may_serve (tr : list event) (ns id : bytes) (from to : Z) (res : match_result) : Prop :=
  match registered tr ns with
  | None => res = empty_match_result
  | Some s =>
      exists t1 from' to' t2,
        tr = t1 ++ EvSource ns s id from' to' res :: t2 /\
        uncleared (t1 ++ [EvSource ns s id from' to' res]) ns t2 /\
        (from' = from /\ to' = to /\ Forall is_promotion t2 \/ to < mr_expire res)
  end.

(** [more_recent P tr a b]: the last event of [a] in [tr] is after the last
    event of [b] *)
Definition more_recent (P : event -> nat -> Prop) (tr : list event) (a b : nat) : Prop :=
  exists t1 e t2, tr = t1 ++ e :: t2 /\ P e a /\ forall e', In e' t2 -> ~ P e' b.

(** the elements are in order of their last events, the latest first *)
Definition latest_first (P : event -> nat -> Prop) (tr : list event) (q : list nat) : Prop :=
  forall l1 a l2 b l3, q = l1 ++ a :: l2 ++ b :: l3 -> more_recent P tr a b.

Definition promotes (e : event) (a : nat) : Prop := exists now, e = EvPromote a now.
Definition uses (e : event) (a : nat) : Prop :=
  exists ns id from to res, e = EvServe ns id from to res (Some a).

(** the elements reachable through the maps of the registered namespaces *)
Definition reachable (c : cache) (ns id : bytes) (a : nat) : Prop :=
  exists r, bget (c_ns c) ns = Some r /\ bget (r_elems r) id = Some a.

(** the elements the deletion goroutine has been or will be handed *)
Definition awaits_deletion (c : cache) (a : nat) : Prop :=
  In a (c_pending c) \/ exists m, In m (c_to_delete c) /\ In a (map snd m).

(** the clock readings of a history never go back, from [t] on *)
Fixpoint clock_from (t : Z) (ps : list seq_op) : Prop :=
  match ps with
  | [] => True
  | SMatch _ _ _ _ now _ _ :: ps' => t <= now /\ clock_from now ps'
  | SOther _ :: ps' => clock_from t ps'
  end.

(** the last insertion or promotion of an element in a trace, and its time *)
Definition last_promotion (tr : list event) (a : nat) (t : Z) : Prop :=
  exists t1 t2, tr = t1 ++ EvPromote a t :: t2 /\ forall t', ~ In (EvPromote a t') t2.
