(** C89: protobuf iterators, encoders and buffers that share a pool of byte slices. *)
From Verif.Proof Require Import ProtoWireProof ProtoHeapProof ProtoSystemProof ProtoPoolProof.
From Coq Require Import Ascii String NArith ZArith Bool Arith Lia List.
From Verif.Base Require Import Bytes Slice.
From Verif.Model Require Import AggType Policy Transformation Pipeline Metadata ProtoWire Messages ProtoStream ProtoPool.
From Verif.Spec Require Import PolicySpec MetadataSpec ProtoStreamSpec ProtoPoolSpec.
Import ListNotations.
Open Scope Z_scope.

(** Whatever happens, and even between the two halves of [Next]: the calls of an iterator return what they would return if it were alone. *)
Theorem C89_like_alone : forall x l x' k p,
  xreachable x -> steps x l x' -> all_fine l -> nth_error (x_iters x) k = Some p ->
  exists p', nth_error (x_iters x') k = Some p' /\ alone_calls (p_it p) (calls k l) (p_it p').
Proof. intros x l x' k p R S F E. exact (steps_iter x l x' S F (xreachable_inv x R) k p E). Qed.
Print Assumptions C89_like_alone.

(** A new iterator is one that has read nothing. *)
Theorem C89_new : forall x pool init d max c,
  xreachable x ->
  exists x' p, step x (IterNew pool init d max) c = Some (x', Nothing) /\ x_iters x' = x_iters x ++ [p] /\ p_it p = new_iter d max.
Proof.
  intros x pool init d max c R. pose proof (xreachable_inv x R) as X.
  destruct (step x (IterNew pool init d max) c) as [[x' a]|] eqn:S.
  - destruct (step_ok x (IterNew pool init d max) c x' a X I S) as (_ & _ & p & E & N). exists x', p. split; [|now split].
    cbn [step] in S. destruct (iter_new pool init d max c (s_heap (x_sys x))). injection S as <- <-. reflexivity.
  - destruct (step_panics x _ c X S) as [(k & p & [Z|Z] & _)|(j & n & Z & _)]; discriminate Z.
Qed.
Print Assumptions C89_new.

(** So over a stream that reads as the messages [ms] and the error [e], an iterator shows a first part of [ms], one by one; and once [Next] has
    returned false, all of them, with the error [e], unless it was closed. *)
Theorem C89_shown : forall x pool init d max c x0 a l x' ms e,
  xreachable x -> step x (IterNew pool init d max) c = Some (x0, a) -> steps x0 l x' -> all_fine l ->
  decoded (new_iter d max) ms e ->
  let cs := calls (length (x_iters x)) l in
  (exists n, shown cs = firstn n (map Some ms)) /\
  (~ In Closed cs -> In NextFalse cs ->
   shown cs = map Some ms /\
   exists p, nth_error (x_iters x') (length (x_iters x)) = Some p /\ i_err (p_it p) = Some e).
Proof.
  intros x pool init d max c x0 a l x' ms e R N S F D cs. pose proof (xreachable_inv x R) as X.
  destruct (step_ok x (IterNew pool init d max) c x0 a X I N) as (X0 & _ & p & E & P).
  assert (Ek : nth_error (x_iters x0) (length (x_iters x)) = Some p) by (rewrite E, nth_error_app2, Nat.sub_diag by lia; reflexivity).
  destruct (steps_iter x0 l x' S F X0 _ p Ek) as (p' & E' & A). rewrite P in A. destruct (shown_ok _ _ _ D _ _ A) as (H1 & H2).
  split; [exact H1|]. intros NC NF. destruct (H2 NC NF) as (Z1 & Z2). split; [exact Z1|]. exists p'. now split.
Qed.
Print Assumptions C89_shown.

(** Iterators do nothing to encoders and relinquished buffers; and every operation on those has exactly the effect that it has without
    iterators (C49), and none on iterators. *)
Theorem C89_others : forall x o c x' a,
  xreachable x -> fine o -> step x o c = Some (x', a) ->
  match o with
  | On o => exists ok, a = Did ok /\ effect (observe (x_sys x)) o ok (observe (x_sys x')) /\ x_iters x' = x_iters x
  | _ => observe (x_sys x') = observe (x_sys x)
  end.
Proof.
  intros x o c x' a R F S. destruct (step_ok x o c x' a (xreachable_inv x R) F S) as (_ & H). destruct o; try exact H; apply H.
Qed.
Print Assumptions C89_others.

(** Nothing panics but what panics without others: [Next] where the iterator alone would panic, and cutting a buffer to a length that it does not have. *)
Theorem C89_panics : forall x o c,
  xreachable x -> step x o c = None ->
  (exists k p, (o = IterStart k \/ o = IterFinish k) /\ nth_error (x_iters x) k = Some p /\ next (p_it p) = Crash) \/
  (exists j n, o = On (BufTruncate j n) /\ forall y, nth_error (v_bufs (observe (x_sys x))) j = Some (Some y) -> ~ 0 <= n <= zlen y).
Proof. intros x o c R S. exact (step_panics x o c (xreachable_inv x R) S). Qed.
Print Assumptions C89_panics.

(** A call of [Next] that goes on after its first half returns with the second, if it is the iterator's next step. *)
Theorem C89_next_returns : forall x k p c,
  xreachable x -> nth_error (x_iters x) k = Some p -> p_todo p <> None ->
  step x (IterFinish k) c = None \/ exists x' a, step x (IterFinish k) c = Some (x', a) /\ (a = No \/ exists u, a = Yes u).
Proof.
  intros x k p c R E T. cbn [step]. rewrite E. unfold iter_finish. destruct (p_todo p) as [[size rest]|]; [|now destruct T]. cbv zeta.
  destruct (unmarshal mm_fields (buf_prefix (s_heap (x_sys x)) (p_buf p) size) _) as [pb| |]; cbn [after_step].
  - destruct (from_mm pb _); cbn [after_step]; right; eexists; eexists; (split; [reflexivity|]); eauto.
  - right. eexists. eexists. split; [reflexivity|]. now left.
  - now left.
Qed.
Print Assumptions C89_next_returns.

(** An encoder and two iterators over one pool. *)
Fixpoint exec_steps (x : world) (l : list (xop * choice)) : option (world * list (xop * choice * answer)) :=
  match l with
  | [] => Some (x, [])
  | (o, c) :: r =>
      match step x o c with
      | Some (x1, a) => match exec_steps x1 r with Some (x2, t) => Some (x2, (o, c, a) :: t) | None => None end
      | None => None
      end
  end.
Lemma exec_steps_ok l : forall x x' t, exec_steps x l = Some (x', t) -> steps x t x' /\ map fst t = l.
Proof.
  induction l as [|[o c] r IH]; intros x x' t E; cbn [exec_steps] in E; [injection E as <- <-; split; [apply steps_nil|reflexivity]|].
  destruct (step x o c) as [[x1 a]|] eqn:S; [|discriminate E]. destruct (exec_steps x1 r) as [[x2 t1]|] eqn:R; [|discriminate E].
  injection E as <- <-. destruct (IH _ _ _ R) as (H1 & H2). split; [now apply (steps_cons x o c a x1)|]. cbn [map fst]. now rewrite H2.
Qed.
Lemma fine_map l t : map fst t = l -> Forall (fun y : xop * choice => fine (fst y)) l -> all_fine t.
Proof. intros <- F. unfold all_fine. apply Forall_forall. intros y Y. rewrite Forall_forall in F. apply (F (fst y)). now apply in_map. Qed.

Definition counter_union (id : bytes) (v : Z) : union_of list :=
  mk_union 1 (mk_counter id v) [] (mk_timer [] []) [] (mk_gauge [] 0) [] (mk_forwarded 0 [] 0 [])
    (mk_fm 0%N empty_storage_policy [] 0 0) (mk_timed 0 [] 0 0) {| tm_agg := 0%N; tm_sp := empty_storage_policy |}.
Definition two_counters : bytes :=
  match exec_steps empty_world
    [(On (New true 4 1000), Fresh []); (On (Encode 0 (counter_union (B "foo") 7)), Fresh []);
     (On (Encode 0 (counter_union (B "barbaz") (-1))), Fresh [])] with
  | Some (x, _) => match nth_error (v_encs (observe (x_sys x))) 0 with Some (_, d) => d | None => [] end
  | None => []
  end.
(** Iterator 0 is between the halves of its [Next] while iterator 1 is closed and an encoder takes the array that iterator 1 gave back and writes to it. *)
Definition busy : list (xop * choice) :=
  [(IterNew true 1 two_counters 1000, Fresh []); (IterNew true 64 two_counters 1000, Fresh []);
   (IterStart 0, Fresh []); (IterClose 1, Fresh []); (On (New true 8 1000), Reuse 0);
   (On (Encode 0 (counter_union (B "other") 3)), Reuse 0); (IterFinish 0, Fresh []);
   (IterStart 0, Reuse 0); (On (OtherGet 1), Reuse 0); (On (OtherWrite 0 (B "x")), Fresh []); (IterFinish 0, Fresh []);
   (IterStart 0, Fresh []); (IterClose 0, Fresh []); (IterClose 0, Fresh [])].
Definition world_of (r : option (world * list (xop * choice * answer))) : world := match r with Some (x, _) => x | None => empty_world end.
Definition trace_of (r : option (world * list (xop * choice * answer))) : list (xop * choice * answer) := match r with Some (_, t) => t | None => [] end.
Definition ran (r : option (world * list (xop * choice * answer))) : bool := match r with Some _ => true | None => false end.
Lemma ran_ok l : ran (exec_steps empty_world l) = true ->
  steps empty_world (trace_of (exec_steps empty_world l)) (world_of (exec_steps empty_world l)) /\ map fst (trace_of (exec_steps empty_world l)) = l.
Proof. destruct (exec_steps empty_world l) as [[x t]|] eqn:E; intros Z; [|discriminate Z]. exact (exec_steps_ok _ _ _ _ E). Qed.
Notation busy_world := (world_of (exec_steps empty_world busy)).
Notation busy_trace := (trace_of (exec_steps empty_world busy)).
Lemma busy_ok : steps empty_world busy_trace busy_world /\ map fst busy_trace = busy.
Proof. apply ran_ok. vm_compute. reflexivity. Qed.

(** Reading a stream to its end. *)
Fixpoint read_all (n : nat) (it : iter) : option (list message * decode_error) :=
  match n with
  | O => None
  | S n =>
      match next it with
      | More it' => match current it', read_all n it' with Some m, Some (ms, e) => Some (m :: ms, e) | _, _ => None end
      | Stop it' => match i_err it' with Some e => Some ([], e) | None => None end
      | Crash => None
      end
  end.
Lemma read_all_ok n : forall it ms e, read_all n it = Some (ms, e) -> decoded it ms e.
Proof.
  induction n as [|n IH]; intros it ms e R; cbn [read_all] in R; [discriminate R|]. destruct (next it) as [it'|it'|] eqn:N; [| |discriminate R].
  - destruct (current it') as [m|] eqn:C; [|discriminate R]. destruct (read_all n it') as [[ms' e']|] eqn:Z; [|discriminate R].
    injection R as <- <-. apply (decoded_more it it' m ms' e' N C). now apply IH.
  - destruct (i_err it') as [x|] eqn:X; [|discriminate R]. injection R as <- <-. exact (decoded_stop it it' x N X).
Qed.

Example C89_nonvacuous :
  steps empty_world busy_trace busy_world /\ all_fine busy_trace /\
  calls 0 busy_trace =
    [NextTrue (Some (MCounter (mk_counter (B "foo") 7) [])); NextTrue (Some (MCounter (mk_counter (B "barbaz") (-1)) []));
     NextFalse; Closed; Closed] /\
  calls 1 busy_trace = [Closed] /\
  map (fun y => length (snd y)) (v_encs (observe (x_sys busy_world))) = [18%nat] /\
  decoded (new_iter two_counters 1000) [MCounter (mk_counter (B "foo") 7) []; MCounter (mk_counter (B "barbaz") (-1)) []] EOF.
Proof.
  destruct busy_ok as (S & M). split; [exact S|]. split.
  { apply (fine_map _ _ M). unfold busy. repeat (apply Forall_cons; [cbn [fine fst op_ok]; try exact I; lia|]). apply Forall_nil. }
  split; [vm_compute; reflexivity|]. split; [vm_compute; reflexivity|]. split; [vm_compute; reflexivity|].
  apply (read_all_ok 5). vm_compute. reflexivity.
Qed.
