(** C83: msgpack iterators, the buffers they use again and the pool of large batches. *)
From Verif.Proof Require Import ProtoWireProof MsgpackLibProof MsgpackProof MsgpackLocal MsgpackIterProof IterMemArrays
  IterMemNext IterMemWorld IterMemKept.
From Verif.Props Require Import MsgpackProps.
From Coq Require Import Ascii String NArith ZArith Bool Arith Lia List.
From Verif.Base Require Import Bytes.
From Verif.Model Require Import AggType Policy Transformation ProtoWire MsgpackLib Msgpack IterMem.
From Verif.Spec Require Import PolicySpec MetadataSpec ProtoStreamSpec MsgpackSpec IterMemSpec.
Import ListNotations.
Open Scope nat_scope.

(** * C83 *)

(** Whatever happened before, [Next] does not panic, and what is seen afterwards is what [Next] of the model without
    memory gives for what was seen before. *)
Theorem C83_next w i it grow pick : lives w -> nth_error (w_iters w) i = Some it ->
  exists ok it' m', mem_next grow pick it (w_mem w) = Some (ok, it', m') /\
    mnext (seen (w_mem w) it) = (ok, seen m' it').
Proof.
  intros L E. destruct (mem_next_ok grow pick it (w_mem w) (inv_good w i it (lives_inv w L) E)) as (ok & it' & m' & N & V & _).
  exists ok, it', m'. split; [exact N|symmetry; exact V].
Qed.
Print Assumptions C83_next.

(** The same for a new iterator, [Reset] and [Close]. *)
Theorem C83_new d ignore large m it m' : mem_new d ignore large m = (it, m') -> seen m' it = new_mit d ignore.
Proof.
  unfold mem_new. destruct (make (h_floats m) 0 (repeat 0%Z 16)) as [s A]. intros E. injection E as <- <-. reflexivity.
Qed.
Theorem C83_reset d m it : seen m (mem_reset d it) = reset_mit d (x_policies (seen m it)) (seen m it).
Proof. reflexivity. Qed.
Theorem C83_close m it : seen m (mem_close it) = close_mit (seen m it).
Proof. unfold mem_close, close_mit. change (x_closed (seen m it)) with (i_closed it). destruct (i_closed it); reflexivity. Qed.
Print Assumptions C83_new.
Print Assumptions C83_reset.
Print Assumptions C83_close.

(** The metric and the policies that an iterator showed stay as they are while others decode, are reset, closed or made,
    while large batches come from the pool and go back to it, and even when the iterator itself is reset or closed; until it
    decodes again, or their holder writes to them.  For values that came from the pool this holds until they are given back. *)
Theorem C83_kept w l w' i it : lives w -> nth_error (w_iters w) i = Some it -> steps w l w' ->
  Forall (leaves_alone i) l ->
  (i_pooled it = true -> In (i_timer it) (w_out w) /\ Forall (keeps_batch (i_timer it)) l) ->
  metric_seen (w_mem w') it = metric_seen (w_mem w) it /\
  policies_seen (w_mem w') (i_policies it) = policies_seen (w_mem w) (i_policies it).
Proof. intros L. exact (kept w l w' i it (lives_inv w L)). Qed.
Print Assumptions C83_kept.

(** A large batch stays as it is until it is given back or written to: also while its iterator decodes on. *)
Theorem C83_batch w l w' s : lives w -> In s (w_out w) -> steps w l w' -> Forall (keeps_batch s) l ->
  In s (w_out w') /\ elements (h_floats (w_mem w')) s = elements (h_floats (w_mem w)) s.
Proof. intros L I S K. exact (steps_batch w l w' s S (lives_inv w L) K I). Qed.
Print Assumptions C83_batch.

(** No two holders of large batches ever share memory, nor does a large batch share memory with what is in the pool. *)
Theorem C83_apart w k1 k2 s1 s2 : lives w -> nth_error (w_out w) k1 = Some s1 -> nth_error (w_out w ++ h_free (w_mem w)) k2 = Some s2 ->
  k1 <> k2 -> forall a, In a (addrs s1) -> In a (addrs s2) -> False.
Proof.
  intros L E1 E2 N a. pose proof (iv_floats _ (lives_inv w L)) as D. unfold floats_of in D. apply nodup_app in D.
  destruct D as (_ & D & _).
  assert (D' : NoDup (flat_map addrs (w_out w ++ h_free (w_mem w)))).
  { rewrite flat_app. apply count_le. intros x. pose proof (proj1 (count_le _) D x) as C. rewrite !count_occ_app in *. lia. }
  refine (flat_disjoint addrs _ k1 k2 s1 s2 a _ E2 N D'). rewrite nth_error_app1; [exact E1|]. apply nth_error_Some. congruence.
Qed.
Print Assumptions C83_apart.

(** The default policies list, which the whole program shares, never changes. *)
Theorem C83_default w : lives w -> policies_seen (w_mem w) default_list = default_policies_list.
Proof. intros L. exact (default_seen _ (iv_default _ (lives_inv w L))). Qed.
Print Assumptions C83_default.

(** Whatever else happens in between, the calls of [Next] on an iterator have the outcomes that they would have if the iterator were
    alone. *)
Theorem C83_run w l w' i it : lives w -> nth_error (w_iters w) i = Some it -> steps w l w' -> Forall (only_read i) l ->
  outcomes i l = alone (length (outcomes i l)) (seen (w_mem w) it).
Proof. intros L E S R. exact (run_alone w l w' i S (lives_inv w L) it E R). Qed.
Print Assumptions C83_run.

Lemma mdecoded_alone x l e : mdecoded x l e -> forall n,
  map (option_map (fun y => (shown (fst y), snd y))) (alone n x) =
  firstn n (map (fun y => Some (Some (fst y), snd y)) l ++ repeat None n).
Proof.
  induction 1 as [x x' e N Ee|x x' u l e N Sh D IH]; intros n.
  - assert (Stop : forall n y, d_err (x_st y) = Some e -> map (option_map (fun y => (shown (fst y), snd y))) (alone n y) = repeat None n).
    { clear. induction n as [|n IH]; intros y H; [reflexivity|]. cbn [alone repeat].
      unfold mnext. cbn [next_loop]. rewrite H. cbn [map option_map]. f_equal. exact (IH y H). }
    cbn [map app]. destruct n as [|n]; [reflexivity|]. cbn [alone repeat]. rewrite N. cbn [map option_map firstn]. f_equal.
    rewrite (Stop n x' Ee). rewrite firstn_all2; [reflexivity|rewrite repeat_length; lia].
  - destruct n as [|n]; [reflexivity|]. cbn [alone]. rewrite N. cbn [map option_map fst snd app firstn]. rewrite Sh. f_equal.
    rewrite (IH n). cbn [repeat].
    generalize (map (fun y : sample * list staged_policies => Some (Some (fst y), snd y)) l). intros l0. clear.
    revert l0. assert (G : forall (a b : list (option (option sample * list staged_policies))) k, firstn k a = firstn k b -> forall l0, firstn k (l0 ++ a) = firstn k (l0 ++ b)).
    { intros a b k E l0. rewrite !firstn_app. f_equal.
      assert (M : firstn (k - length l0) (firstn k a) = firstn (k - length l0) (firstn k b)) by congruence.
      rewrite !firstn_firstn in M. replace (Nat.min (k - length l0) k) with (k - length l0) in M by lia. exact M. }
    intros l0. apply G. clear. rewrite firstn_all2 by (rewrite repeat_length; lia).
    change (@None (option sample * list staged_policies) :: repeat None n) with (repeat (@None (option sample * list staged_policies)) (S n)).
    replace (S n) with (n + 1) by lia. rewrite repeat_app. rewrite firstn_app, repeat_length, Nat.sub_diag, firstn_O, app_nil_r.
    rewrite firstn_all2; [reflexivity|rewrite repeat_length; lia].
Qed.

(** So an iterator over what the encoder wrote shows the metrics that were sent, each with its policies if some were sent, one
    after the other, and then nothing, whatever happens in between. *)
Theorem C83_stream inputs w l w' i it : lives w -> nth_error (w_iters w) i = Some it ->
  Forall input_sendable inputs -> i_st it = mk_st (concat (map encode_input inputs)) None -> i_closed it = false ->
  steps w l w' -> Forall (only_read i) l ->
  exists shows, Forall2 agrees shows (map input_message inputs) /\
    map (option_map (fun x => (shown (fst x), snd x))) (outcomes i l) =
    firstn (length (outcomes i l)) (map (fun y => Some (Some (fst y), snd y)) shows ++ repeat None (length (outcomes i l))).
Proof.
  intros L E S Es Ec St R.
  destruct (C51_unaggregated inputs (seen (w_mem w) it) S Es Ec) as (shows & D & A).
  exists shows. split; [exact A|]. rewrite (C83_run w l w' i it L E St R) at 1. exact (mdecoded_alone _ _ _ D _).
Qed.
Print Assumptions C83_stream.

(** * Concrete runs *)

(** What the examples do, executed. *)
Inductive command := DoNew (d : bytes) (large : Z) | DoNext (i : nat) (pick : option nat) | DoGiveBack | DoReset (i : nat) (d : bytes).
Definition exec (c : command) (w : world) : option (action * world) :=
  match c with
  | DoNew d large => let '(it, m) := mem_new d false large (w_mem w) in Some (New, mk_world m (w_iters w ++ [it]) (w_out w))
  | DoNext i pick =>
      match nth_error (w_iters w) i with
      | None => None
      | Some it =>
          match mem_next (fun n => n) pick it (w_mem w) with
          | None => None
          | Some (ok, it', m) =>
              Some (Next i ok (metric_seen m it', policies_seen m (i_policies it')),
                    mk_world m (set_nth i it' (w_iters w)) (if took it it' then i_timer it' :: w_out w else w_out w))
          end
      end
  | DoGiveBack =>
      match w_out w with
      | [] => None
      | s :: b => Some (GiveBack s, mk_world (pool_put s (w_mem w)) (w_iters w) b)
      end
  | DoReset i d =>
      match nth_error (w_iters w) i with
      | None => None
      | Some it => Some (Reset i, mk_world (w_mem w) (set_nth i (mem_reset d it) (w_iters w)) (w_out w))
      end
  end.
Fixpoint execs (l : list command) (w : world) : option (list action * world) :=
  match l with
  | [] => Some ([], w)
  | c :: l => match exec c w with
              | None => None
              | Some (a, w1) => match execs l w1 with None => None | Some (r, w2) => Some (a :: r, w2) end
              end
  end.
Lemma exec_sound c w a w' : exec c w = Some (a, w') -> step w a w'.
Proof.
  destruct c as [d large|i pick| |i d]; cbn [exec].
  - destruct (mem_new d false large (w_mem w)) as [it m] eqn:E. intros H. injection H as <- <-. exact (step_new w d false large it m E).
  - destruct (nth_error (w_iters w) i) as [it|] eqn:E; [|discriminate].
    destruct (mem_next (fun n => n) pick it (w_mem w)) as [[[ok it'] m]|] eqn:N; [|discriminate].
    intros H. injection H as <- <-. exact (step_next w i it _ pick ok it' m E N).
  - destruct (w_out w) as [|s b] eqn:E; [discriminate|]. intros H. injection H as <- <-. exact (step_give_back w [] s b E).
  - destruct (nth_error (w_iters w) i) as [it|] eqn:E; [|discriminate]. intros H. injection H as <- <-. exact (step_reset w i it d E).
Qed.
Lemma execs_sound l : forall w r w', execs l w = Some (r, w') -> steps w r w'.
Proof.
  induction l as [|c l IH]; intros w r w' H; cbn [execs] in H.
  - injection H as <- <-. constructor.
  - destruct (exec c w) as [[a w1]|] eqn:E; [|discriminate].
    destruct (execs l w1) as [[r' w2]|] eqn:E2; [|discriminate]. injection H as <- <-.
    exact (steps_cons _ _ _ _ _ (exec_sound _ _ _ _ E) (IH _ _ _ E2)).
Qed.
Lemma execs_shows l (Q : list action -> world -> Prop) :
  match execs l start with Some (r, w) => Q r w | None => False end -> exists r w, steps start r w /\ Q r w.
Proof.
  destruct (execs l start) as [[r w]|] eqn:E; [|intros []]. intros H. exists r, w. split; [exact (execs_sound _ _ _ _ E)|exact H].
Qed.

Definition ex_batch (n : nat) : metric_input := (BatchTimer (Some (B "lat")) (map Z.of_nat (List.seq 1 n)), None).
Definition ex_stream1 : bytes := concat (map encode_input ([ex_batch 20] ++ ex_inputs)).
Definition ex_stream2 : bytes := concat (map encode_input ([(Counter (Some (B "other")) 7%Z, None)] ++ [ex_batch 30; ex_batch 18])).

(** Two iterators over different streams, called in turn; batches of more than 17 values come from the pool, and the third batch uses
    the memory of the first, which was given back. *)
Example C83_nonvacuous : exists l w, steps start l w /\
  map (option_map (fun x => (shown (fst x), length (snd x)))) (outcomes 0 l) =
    [Some (Some (STimer (B "lat") (map Z.of_nat (List.seq 1 20))), 0);
     Some (Some (SCounter (B "foo") (-1234567)%Z), 2);
     Some (Some (STimer [] [4607182418800017408; 0]%Z), 2);
     Some (Some (SGauge (B "bar") 13830554455654793216%Z), 1); None] /\
  map (option_map (fun x => shown (fst x))) (outcomes 1 l) =
    [Some (Some (SCounter (B "other") 7%Z)); Some (Some (STimer (B "lat") (map Z.of_nat (List.seq 1 30))));
     Some (Some (STimer (B "lat") (map Z.of_nat (List.seq 1 18))))] /\
  Forall (only_read 0) l /\ Forall (only_read 1) l /\
  map (fun s => (sl_len s, addrs s)) (w_out w) = [(18, [2]); (30, [3])] /\ h_free (w_mem w) = [].
Proof.
  apply (execs_shows [DoNew ex_stream1 17; DoNew ex_stream2 17; DoNext 1 None; DoNext 0 None; DoNext 0 None;
    DoGiveBack; DoNext 1 None; DoNext 0 None; DoNext 1 (Some 0); DoNext 0 None; DoNext 0 None]).
  vm_compute. split; [reflexivity|]. split; [reflexivity|].
  split; [repeat constructor; discriminate|]. split; [repeat constructor; discriminate|]. split; reflexivity.
Qed.

(** Without the condition of [C83_kept] what was seen does change: a second [Next] overwrites the ID and the policies of the first. *)
Example C83_next_overwrites : exists l1 w l2 w' it, steps start l1 w /\ steps w l2 w' /\ nth_error (w_iters w) 0 = Some it /\
  mu_id (metric_seen (w_mem w) it) = B "foo" /\ mu_id (metric_seen (w_mem w') it) = B "bar".
Proof.
  set (d := encode_input (Counter (Some (B "foo")) 1%Z, None) ++ encode_input (Counter (Some (B "bar")) 2%Z, None)).
  assert (G : forall c1 c2 (Q : world -> iter -> world -> Prop),
    match execs c1 start with
    | Some (_, w) => match execs c2 w with Some (_, w') => match nth_error (w_iters w) 0 with Some it => Q w it w' | None => False end
                                         | None => False end
    | None => False end -> exists l1 w l2 w' it, steps start l1 w /\ steps w l2 w' /\ nth_error (w_iters w) 0 = Some it /\ Q w it w').
  { intros c1 c2 Q. destruct (execs c1 start) as [[l1 w]|] eqn:E1; [|intros []].
    destruct (execs c2 w) as [[l2 w']|] eqn:E2; [|intros []]. destruct (nth_error (w_iters w) 0) as [it|] eqn:E3; [|intros []].
    intros H. exists l1, w, l2, w', it. split; [exact (execs_sound _ _ _ _ E1)|]. split; [exact (execs_sound _ _ _ _ E2)|].
    split; [exact E3|exact H]. }
  apply (G [DoNew d 17; DoNext 0 None] [DoNext 0 None]
    (fun w it w' => mu_id (metric_seen (w_mem w) it) = B "foo" /\ mu_id (metric_seen (w_mem w') it) = B "bar")).
  vm_compute. split; reflexivity.
Qed.
