(** Vocabulary for C86 and C87: what can be reached, what goes on without new calls, and what it means that all is done. *)
From Coq Require Import Arith Bool List.
From Verif.Model Require Import Locks.
Import ListNotations.

(** The states a new cache can get into, whatever is called and however the goroutines are scheduled. *)
Inductive reachable : system -> Prop :=
| reach_new : reachable new_system
| reach_step s h s' : reachable s -> happen s h = Steps s' -> reachable s'.

(** One step of a goroutine that is there: a call going on, or one of the cache's two. *)
Definition goes_on (s s' : system) : Prop :=
  exists h, (forall c, h <> Begin c) /\ happen s h = Steps s'.

(** Any number of them. *)
Inductive runs_to : system -> system -> Prop :=
| runs_none s : runs_to s s
| runs_more s s' s'' : goes_on s s' -> runs_to s' s'' -> runs_to s s''.

(** Every call has returned, and has given up every lock. *)
Definition all_returned (s : system) : Prop :=
  forall t, In t (s_threads s) -> t_kind t = Caller -> t_code t = [] /\ t_held t = [].

(** The goroutines of the cache hold nothing and are in the middle of nothing. *)
Definition workers_at_rest (s : system) : Prop :=
  forall t, In t (s_threads s) -> t_kind t <> Caller -> t_code t = [] /\ t_held t = [].

(** The goroutines of the cache have returned. *)
Definition workers_gone (s : system) : Prop :=
  forall t, In t (s_threads s) -> t_kind t <> Caller -> t_gone t = true.

(** Goroutine [i] holds a lock, for writing or in any way. *)
Definition has_written (s : system) (i : nat) (l : lock) : Prop :=
  exists t, nth_error (s_threads s) i = Some t /\ In (l, true) (t_held t).
Definition has (s : system) (i : nat) (l : lock) : Prop :=
  exists t w, nth_error (s_threads s) i = Some t /\ In (l, w) (t_held t).

(** Two goroutines race: both are about to access the same location, and one of them to write it. *)
Definition races (s : system) : Prop :=
  exists i j t u x w w', i <> j /\ nth_error (s_threads s) i = Some t /\ nth_error (s_threads s) j = Some u /\
    In (x, w) (about_to_touch t) /\ In (x, w') (about_to_touch u) /\ (w = true \/ w' = true).
