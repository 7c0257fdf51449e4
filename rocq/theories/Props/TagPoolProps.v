(** C90: calls that use pooled tag iterators, in any number of goroutines. *)
From Verif.Proof Require Import TagProof TagPoolProof.
From Coq Require Import Ascii String Arith Bool Lia List.
From Verif.Base Require Import Bytes.
From Verif.Model Require Import MetricID Filter Rules TagPool.
From Verif.Spec Require Import TagPoolSpec.
Import ListNotations.

Lemma set_call_same l : forall c x y, nth_error l c = Some x -> (c_kind y, c_tags y) = (c_kind x, c_tags x) ->
  map (fun z => (c_kind z, c_tags z)) (set_call l c y) = map (fun z => (c_kind z, c_tags z)) l.
Proof.
  induction l as [|z l IH]; intros [|c] x y E Q; cbn [set_call map nth_error] in *; try reflexivity; try discriminate E.
  - injection E as ->. now rewrite Q.
  - now rewrite (IH c x y E Q).
Qed.
Lemma step_begun w e : map (fun z => (c_kind z, c_tags z)) (g_calls (step w e)) = map (fun z => (c_kind z, c_tags z)) (g_calls w) ++ begun [e].
Proof.
  destruct e as [k tags pooled|c i keep|c keep]; cbn [step begun flat_map]; rewrite ?app_nil_r.
  - cbn [g_calls]. now rewrite map_app.
  - destruct (nth_error (g_calls w) c) as [x|] eqn:E; [|reflexivity]. cbv zeta.
    assert (S : forall a p f n pool, map (fun z => (c_kind z, c_tags z)) (g_calls (move w c x a p f n pool)) = map (fun z => (c_kind z, c_tags z)) (g_calls w)).
    { intros a p f n pool. unfold move. cbn [g_calls]. now apply (set_call_same _ c x). }
    destruct (c_place x) as [| |[l|l|l|r]|r]; try apply S; try reflexivity.
    + destruct (if c_pooled x then nth_error (g_pool w) i else None); apply S.
    + destruct (titer_next (g_iter w (c_iter x))); apply S.
  - destruct (nth_error (g_calls w) c) as [x|]; [|reflexivity]. now destruct (c_place x).
Qed.
Lemma run_begun l : forall w, map (fun z => (c_kind z, c_tags z)) (g_calls (run w l)) = map (fun z => (c_kind z, c_tags z)) (g_calls w) ++ begun l.
Proof.
  induction l as [|e l IH]; intros w; cbn [run]; [unfold begun; cbn [flat_map]; now rewrite app_nil_r|].
  rewrite IH, step_begun, <- app_assoc. unfold begun. cbn [flat_map]. now rewrite app_nil_r.
Qed.
Lemma begun_call l c k tags : nth_error (begun l) c = Some (k, tags) ->
  exists x, nth_error (g_calls (run empty_world l)) c = Some x /\ c_kind x = k /\ c_tags x = tags.
Proof.
  intros B. pose proof (run_begun l empty_world) as R. cbn [empty_world g_calls map app] in R. rewrite <- R in B.
  rewrite nth_error_map in B. destruct (nth_error (g_calls (run empty_world l)) c) as [x|]; [|discriminate B]. injection B as <- <-. now exists x.
Qed.

(** Whatever calls are made, in whatever order their steps are done and whatever the pool does: a call that has returned has returned what it returns alone. *)
Theorem C90_results : forall l c k tags,
  no_second_close l -> nth_error (begun l) c = Some (k, tags) ->
  exists x, nth_error (g_calls (run empty_world l)) c = Some x /\ forall r, c_place x = HasReturned r -> r = alone k tags.
Proof.
  intros l c k tags N B. destruct (begun_call l c k tags B) as (x & E & <- & <-). exists x. split; [exact E|]. intros r P.
  pose proof (v_ok _ (run_inv l empty_world inv_empty N) c x E) as K. unfold call_ok in K. now rewrite P in K.
Qed.
Print Assumptions C90_results.

(** A call returns when it has had so many turns as twice the length of the tags and six more, whatever happens in between. *)
Theorem C90_returns : forall l l' c k tags,
  no_second_close (l ++ l') -> nth_error (begun l) c = Some (k, tags) -> 2 * length tags + 6 <= turns c l' ->
  exists x, nth_error (g_calls (run empty_world (l ++ l'))) c = Some x /\ c_place x = HasReturned (alone k tags).
Proof.
  intros l l' c k tags N B T.
  assert (N1 : no_second_close l) by (intros d keep Z; apply (N d keep), in_or_app; now left).
  assert (N2 : no_second_close l') by (intros d keep Z; apply (N d keep), in_or_app; now right).
  destruct (begun_call l c k tags B) as (x & E & Ek & Et). pose proof (run_inv l empty_world inv_empty N1) as V.
  destruct (run_turns l' _ c x V N2 E) as (x' & E' & Hk & Ht & L).
  assert (R : forall l1 l2 w, run w (l1 ++ l2) = run (run w l1) l2) by (induction l1 as [|e l1 IH]; intros l2 w; [reflexivity|apply IH]).
  rewrite R. exists x'. split; [exact E'|]. pose proof (left_start x (g_iter (run empty_world l) (c_iter x))) as L0. rewrite Et in L0.
  destruct (left_zero x' (g_iter (run (run empty_world l) l') (c_iter x'))) as (r & P); [lia|]. rewrite P. f_equal.
  pose proof (v_ok _ (run_inv l' _ V N2) c x' E') as K. unfold call_ok in K. rewrite P in K. congruence.
Qed.
Print Assumptions C90_returns.

(** No two calls ever have the same iterator, and the pool keeps no iterator twice and none that a call has.  (So the methods of an iterator are not called by two goroutines at a time.) *)
Theorem C90_one_user : forall l,
  no_second_close l ->
  let w := run empty_world l in
  NoDup (g_pool w) /\
  forall c x a, nth_error (g_calls w) c = Some x -> uses x a ->
    ~ In a (g_pool w) /\ forall d y, nth_error (g_calls w) d = Some y -> uses y a -> d = c.
Proof.
  intros l N w. pose proof (run_inv l empty_world inv_empty N) as V. fold w in V. split; [exact (v_nodup w V)|]. intros c x a E U.
  apply uses_holds in U as (H & <-). split; [exact (proj2 (v_uses w V c x E H))|]. intros d y E' U'. apply uses_holds in U' as (H' & Q).
  exact (v_one w V d c y x E' E H' H Q).
Qed.
Print Assumptions C90_one_user.

(** Three calls at once, then a fourth that uses an iterator again. *)
Definition at_once : list event :=
  [Begin (TagValueOf (B "b")) (B "a=1,b=2") true; Begin (TargetTags [B "d"; B "e"]) (B "c=3,d=4,e=5") true; Begin HasRollupTag (B "m3_rollup=true") false]
  ++ flat_map (fun _ => [Go 1 0 true; Go 0 0 true; Go 2 0 true]) (seq 0 12)
  ++ [Begin AllTags (B "x=1,y") true]
  ++ flat_map (fun _ => [Go 3 0 true; Go 1 0 true; Go 0 0 true; Go 2 0 true]) (seq 0 12).
Example C90_nonvacuous :
  map c_place (g_calls (run empty_world at_once)) =
    [HasReturned (AValue (Some (B "2"))); HasReturned (SomePairs (Some [(B "d", B "4"); (B "e", B "5")])); HasReturned (AnAnswer true);
     HasReturned (AllPairs [(B "x", B "1")] true)] /\
  map c_iter (g_calls (run empty_world at_once)) = [1; 0; 2; 1] /\ g_pool (run empty_world at_once) = [0; 1] /\
  no_second_close at_once /\ turns 0 at_once = 24.
Proof.
  split; [vm_compute; reflexivity|]. split; [vm_compute; reflexivity|]. split; [vm_compute; reflexivity|]. split; [|vm_compute; reflexivity].
  intros c keep H. assert (Z : existsb (fun e => match e with CloseAgain _ _ => true | _ => false end) at_once = false) by (vm_compute; reflexivity).
  enough (existsb (fun e => match e with CloseAgain _ _ => true | _ => false end) at_once = true) by congruence. apply existsb_exists. now exists (CloseAgain c keep).
Qed.

(** [Close] does not look whether the iterator is closed: closed twice, it goes to two calls, and one of them reads the other's tags. *)
Definition closed_twice : list event :=
  [Begin AllTags (B "a=1") true] ++ map (fun _ => Go 0 0 true) (seq 0 8) ++ [CloseAgain 0 true; Begin AllTags (B "b=2,c=3") true; Begin AllTags (B "d=4") true]
  ++ [Go 1 0 true; Go 1 0 true; Go 2 0 true; Go 2 0 true] ++ map (fun _ => Go 1 0 true) (seq 0 8).
Example C90_closed_twice :
  nth_error (map c_place (g_calls (run empty_world closed_twice))) 1 = Some (HasReturned (AllPairs [(B "d", B "4")] false)) /\
  alone AllTags (B "b=2,c=3") = AllPairs [(B "b", B "2"); (B "c", B "3")] false.
Proof. split; vm_compute; reflexivity. Qed.
