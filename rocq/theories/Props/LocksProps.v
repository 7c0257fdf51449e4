(** C86: no call into the matcher or its cache blocks for ever.  C87: goroutines that use them do not race. *)
From Verif.Proof Require Import LocksProof.
From Coq Require Import Arith Bool List.
From Verif.Model Require Import Locks.
From Verif.Spec Require Import LocksSpec.
Import ListNotations.

(** Whatever has been called and however it was scheduled: as long as some call has not returned, some goroutine can go on. *)
Theorem C86_no_deadlock : forall s t,
  reachable s -> In t (s_threads s) -> t_kind t = Caller -> t_code t <> [] ->
  exists s', goes_on s s'.
Proof.
  intros s t R X K C. destruct (stuck_or_goes s) as [St|G]; [|exact G].
  destruct (stuck_code s t (reachable_inv s R) St X) as (Z & _). now contradiction C.
Qed.
Print Assumptions C86_no_deadlock.

(** And the goroutines cannot go on for ever without new calls, however they are scheduled. *)
Theorem C86_no_endless_run : forall f : nat -> system, ~ (forall n, goes_on (f n) (f (S n))).
Proof. exact no_infinite_run. Qed.
Print Assumptions C86_no_endless_run.

(** So when nothing can go on, every call has returned with its locks given up, the cache's goroutines hold nothing and have
    nothing left to do; and such a state is reached from every other. *)
Theorem C86_settled : forall s,
  reachable s -> (forall s', ~ goes_on s s') ->
  all_returned s /\ workers_at_rest s /\
  (workers_gone s \/
   forall t, In t (s_threads s) -> (t_kind t = Evictor -> s_evict s = false) /\ (t_kind t = Deleter -> s_delete s = false)).
Proof.
  intros s R St. pose proof (reachable_inv s R) as I. repeat split.
  - now apply (stuck_code s t I St).
  - now apply (stuck_code s t I St).
  - now apply (stuck_code s t I St).
  - now apply (stuck_code s t I St).
  - destruct (s_channel_closed s) eqn:CC.
    + left. intros t X K. now apply (stuck_worker s t I St X K).
    + right. intros t X. apply (stuck_signals s I St t X).
      destruct (t_gone t) eqn:G; [|reflexivity]. destruct (i_gone s I t X G). congruence.
Qed.
Print Assumptions C86_settled.

Theorem C86_all_return : forall s, reachable s ->
  exists s', runs_to s s' /\ (forall s'', ~ goes_on s' s'') /\ all_returned s'.
Proof.
  intros s R. destruct (runs_to_stuck s) as (s' & T & St). exists s'. split; [exact T|]. split; [exact St|].
  apply C86_settled; [now apply (reachable_runs s)|exact St].
Qed.
Print Assumptions C86_all_return.

(** No call panics: none unlocks what it has not locked, and the channel is closed once, however often [Close] is called. *)
Theorem C86_no_panic : forall s h, reachable s -> happen s h <> Panics.
Proof. intros s h R. apply (inv_happen s h (reachable_inv s R)). Qed.
Print Assumptions C86_no_panic.

(** Once the cache is closed and the calls have returned, its goroutines have returned. *)
Theorem C86_close : forall s,
  reachable s -> s_closed s = true -> all_returned s -> workers_gone s.
Proof. exact closed_all_returned. Qed.
Print Assumptions C86_close.

(** Who holds a lock for writing holds it alone. *)
Theorem C86_exclusive : forall s i j l,
  reachable s -> has_written s i l -> has s j l -> i = j.
Proof.
  intros s i j l R (t & Et & Ht) (u & w & Eu & Hu). destruct (Nat.eq_dec i j) as [E|Ne]; [exact E|].
  destruct (e_held s (excl_reachable s R) i j t u l w Ne Et Eu Ht Hu).
Qed.
Print Assumptions C86_exclusive.

(** A busy example: two matches that miss, an update of the namespaces that watches one rule set and drops another, an update
    of a rule set, and two calls of [Close]. *)
Definition busy : system :=
  fold_left begin_call
    [CForward 0 (Missing false 0 true true) (Missing true 0 true true);
     CForward 0 (Valid true) NoNamespace;
     NUpdate (Some (Some ([mk_entry 0 0 true (Some (Processed true)) (Some true)], [Live 0; Removed 1 1 true])));
     RUpdate 0 0 (Some (Processed true));
     MClose [(0, 0); (1, 1)]; CClose]
    new_system.

(** The schedules used: everything happens in turn, if it can. *)
Fixpoint in_turn (hs : list happening) (s : system) : system :=
  match hs with
  | [] => s
  | h :: hs => in_turn hs (match happen s h with Steps s' => s' | _ => s end)
  end.

Lemma in_turn_reachable hs s : reachable s -> reachable (in_turn hs s).
Proof.
  revert s. induction hs as [|h hs IH]; intros s R; [exact R|]. cbn [in_turn]. apply IH.
  destruct (happen s h) as [| |s'] eqn:E; try exact R. now apply (reach_step s h).
Qed.

Definition forwards : list happening :=
  [Run 2; Run 3; Run 4; Run 5; Run 6; Run 7; Run 0; Run 1; Receive 0 [0] None; Receive 1 [] (Some [(0, true); (0, false)]); Leave 0; Leave 1].

Example C86_nonvacuous :
  reachable busy /\
  (* in the middle, goroutines wait for each other *)
  (let s := in_turn (concat (repeat forwards 4)) busy in
   reachable s /\ run s 2 = Blocked /\ run s 6 = Blocked /\ run s 7 = Blocked /\ length (filter (fun t => negb (length (t_code t) =? 0)) (s_threads s)) = 6) /\
  (* in the end, all have returned *)
  (let s := in_turn (concat (repeat forwards 150)) busy in
   reachable s /\ map t_code (s_threads s) = repeat [] 8 /\ map t_gone (s_threads s) = [true; true; false; false; false; false; false; false]
   /\ s_closed s = true).
Proof.
  assert (B : reachable busy).
  { unfold busy. generalize new_system reach_new.
    match goal with |- forall s, _ -> reachable (fold_left _ ?cs _) => induction cs as [|c l IH] end.
    - intros s R. exact R.
    - intros s R. cbn [fold_left]. apply IH. now apply (reach_step s (Begin c)). }
  split; [exact B|]. split; (split; [now apply in_turn_reachable|]); vm_compute; repeat split; reflexivity.
Qed.

(** The order of the locks matters: were the cache refreshed with the rule set's lock held, this could happen, and nothing
    could go on. *)
Example C86_wrong_order :
  let s := mk_system
    [mk_thread Evictor [] false [] false no_local; mk_thread Deleter [] false [] false no_local;
     mk_thread Caller [(Rs 0, true); (RsValue 0, true)] false (refresh_code 0 true ++ [IUnlock (Rs 0); IUnlock (RsValue 0)]) false no_local;
     mk_thread Caller [(CacheLock, true)] false (read_rule_set 0 ++ [IUnlock CacheLock]) false no_local] false false false false (mk_maps [(0, 0)] [] 1) in
  forall h, (forall c, h <> Begin c) -> happen s h = Blocked.
Proof.
  intros s [c|i|i ns b|i] NB; [now destruct (NB c)| | |]; destruct i as [|[|[|[|[|i]]]]]; reflexivity.
Qed.

(** Whatever has been called and however it was scheduled, no two goroutines are about to access the same location, one of
    them for writing. *)
Theorem C87_no_race : forall s, reachable s -> ~ races s.
Proof. exact no_races. Qed.
Print Assumptions C87_no_race.

(** In particular nobody is about to write a map that a goroutine has taken to delete its elements, although that goroutine reads it
    without the cache's lock. *)
Theorem C87_taken_maps_at_rest : forall s i j t u m w,
  reachable s -> i <> j -> nth_error (s_threads s) i = Some t -> nth_error (s_threads s) j = Some u ->
  In m (l_taken (t_local t)) -> In (LMap m, w) (about_to_touch u) -> w = false.
Proof.
  intros s i j t u m w R Ne Ei Ej M H.
  pose proof (reachable_inv s R) as I. pose proof (data_reachable s R) as D.
  destruct (about_guarded s u (LMap m) w I D (nth_error_In _ _ Ej) H) as [(_ & A)|(E & _)]; [|exact E].
  destruct (d_taken s D t m (nth_error_In _ _ Ei) M) as (_ & N). destruct (N (A m eq_refl)).
Qed.
Print Assumptions C87_taken_maps_at_rest.

(** An example: a namespace is registered and refreshed; the cache's goroutine takes the old map and is about to read it while a match,
    that misses, is about to write the new one. *)
Definition refreshed : system :=
  in_turn (repeat (Run 2) 20)
    (fold_left begin_call [CRegister 0 false; CRefresh 0 true; CForward 0 (Missing false 0 true false) (Missing false 0 true false)] new_system).
Definition apart : system :=
  in_turn (repeat (Run 3) 20 ++ [Receive 1 [] (Some [(0, false)])] ++ repeat (Run 1) 7 ++ repeat (Run 4) 11) refreshed.
Definition next_of (s : system) (i : nat) : list (location * bool) :=
  match nth_error (s_threads s) i with Some t => about_to_touch t | None => [] end.

Example C87_nonvacuous :
  reachable apart /\ next_of apart 1 = [(LMap 0, false)] /\ next_of apart 4 = [(LMap 1, true)] /\
  m_namespaces (s_maps apart) = [(0, 1)].
Proof.
  split; [|vm_compute; repeat split; reflexivity].
  unfold apart, refreshed. apply in_turn_reachable, in_turn_reachable.
  generalize new_system reach_new.
  match goal with |- forall s, _ -> reachable (fold_left _ ?cs _) => induction cs as [|c l IH] end.
  - intros s R. exact R.
  - intros s R. cbn [fold_left]. apply IH. now apply (reach_step s (Begin c)).
Qed.

(** Races can be expressed: were the old map kept when a namespace is refreshed, the two would be about to access the same one. *)
Example C87_race_possible :
  races (mk_system
    [mk_thread Deleter [(ListLock, true)] false [IAccess (ReadTaken 0); IAccess (Touch LList true); IUnlock ListLock] false (mk_local None [0]);
     mk_thread Caller [(CacheLock, true)] false [IAccess (TouchMap true); IUnlock CacheLock] false (mk_local (Some 0) [])]
    false false false false (mk_maps [(0, 0)] [] 1)).
Proof.
  exists 0, 1. do 2 eexists. exists (LMap 0), false, true.
  split; [discriminate|]. split; [reflexivity|]. split; [reflexivity|]. split; [now left|]. split; [now left|]. now right.
Qed.
