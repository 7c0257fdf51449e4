(** What msgpack iterators that live in one memory show, and what may happen in it. *)
From Coq Require Import Ascii String Arith NArith ZArith Bool List.
From Verif.Base Require Import Bytes.
From Verif.Model Require Import AggType Policy Transformation ProtoWire MsgpackLib Msgpack IterMem.
Import ListNotations.
Open Scope nat_scope.

(** ** What is seen *)

(** What a caller of [Metric()] and [PoliciesList()] sees, following all slices.  Both return structs of slices
    and numbers: the same struct can be looked at again later, in another memory. *)
Definition staged_seen (m : memory) (c : cell) : staged_policies :=
  {| stp_cutover := ce_cutover c; stp_tombstoned := ce_tomb c; stp_policies := elements (h_policies m) (ce_policies c) |}.
Definition policies_seen (m : memory) (s : slice) : list staged_policies := map (staged_seen m) (elements (h_staged m) s).
Definition metric_seen (m : memory) (it : iter) : munion :=
  mk_mu (i_type it) (elements (h_ids m) (i_id it)) (i_counter it) (elements (h_floats m) (i_timer it)) (i_gauge it).
Definition seen (m : memory) (it : iter) : mit :=
  mk_mit (i_st it) (i_ignore it) (i_closed it) (metric_seen m it) (policies_seen m (i_policies it)).

(** ** What may happen *)

(** The memory, the iterators, and the large batches of timer values that were taken from the pool and not
    given back yet. *)
Record world := mk_world { w_mem : memory; w_iters : list iter; w_out : list slice }.

(** An array that a slice gives access to. *)
Definition addrs (s : slice) : list nat := match sl_cap s with O => [] | S _ => [sl_arr s] end.

(** [A'] is [A] with other elements in the arrays [l]. *)
Definition rewritten {X} (A A' : arrays X) (l : list nat) : Prop :=
  ar_next A' = ar_next A /\ (forall a, length (ar_at A' a) = length (ar_at A a)) /\
  forall a, ~ In a l -> ar_at A' a = ar_at A a.

(** The holder of what [it] shows writes into it: other bytes, numbers, policies; not into the default list that
    all share, and not into a large batch, for which see [WriteBatch]. *)
Definition holder_wrote (m m' : memory) (it : iter) : Prop :=
  rewritten (h_ids m) (h_ids m') (addrs (i_id it)) /\
  rewritten (h_floats m) (h_floats m') (if i_pooled it then [] else addrs (i_timer it)) /\
  rewritten (h_policies m) (h_policies m') (flat_map (fun c => addrs (ce_policies c)) (elements (h_staged m) (i_policies it))) /\
  rewritten (h_staged m) (h_staged m') (List.filter (fun a => negb (Nat.eqb a 0)) (addrs (i_policies it))) /\
  (forall a, map ce_policies (ar_at (h_staged m') a) = map ce_policies (ar_at (h_staged m) a)) /\
  h_free m' = h_free m.

Inductive action :=
| New                                                            (* a new iterator, the last one *)
| Next (i : nat) (ok : bool) (shown : munion * list staged_policies) (* a call of [Next] on the i-th, its result,
                                                                    and what is then seen *)
| Reset (i : nat) | Close (i : nat)
| GiveBack (s : slice)                                           (* a large batch is put in the pool *)
| Write (i : nat)                                                (* what the i-th shows is written to *)
| WriteBatch (s : slice).                                        (* a large batch is written to *)

(** [Next] took a large batch from the pool. *)
Definition took (it it' : iter) : bool :=
  match d_err (i_st it) with Some _ => false | None => negb (i_closed it) && i_pooled it' end.

Inductive step : world -> action -> world -> Prop :=
| step_new w d ignore large it m :
    mem_new d ignore large (w_mem w) = (it, m) ->
    step w New (mk_world m (w_iters w ++ [it]) (w_out w))
| step_next w i it grow pick ok it' m :
    nth_error (w_iters w) i = Some it -> mem_next grow pick it (w_mem w) = Some (ok, it', m) ->
    step w (Next i ok (metric_seen m it', policies_seen m (i_policies it')))
      (mk_world m (set_nth i it' (w_iters w)) (if took it it' then i_timer it' :: w_out w else w_out w))
| step_reset w i it d : nth_error (w_iters w) i = Some it ->
    step w (Reset i) (mk_world (w_mem w) (set_nth i (mem_reset d it) (w_iters w)) (w_out w))
| step_close w i it : nth_error (w_iters w) i = Some it ->
    step w (Close i) (mk_world (w_mem w) (set_nth i (mem_close it) (w_iters w)) (w_out w))
| step_give_back w a s b : w_out w = a ++ s :: b ->
    step w (GiveBack s) (mk_world (pool_put s (w_mem w)) (w_iters w) (a ++ b))
| step_write w i it m : nth_error (w_iters w) i = Some it -> holder_wrote (w_mem w) m it ->
    step w (Write i) (mk_world m (w_iters w) (w_out w))
| step_write_batch w s A : In s (w_out w) -> rewritten (h_floats (w_mem w)) A (addrs s) ->
    step w (WriteBatch s)
      (mk_world (mk_memory (h_ids (w_mem w)) A (h_policies (w_mem w)) (h_staged (w_mem w)) (h_free (w_mem w)))
         (w_iters w) (w_out w)).

Inductive steps : world -> list action -> world -> Prop :=
| steps_nil w : steps w [] w
| steps_cons w a w1 l w2 : step w a w1 -> steps w1 l w2 -> steps w (a :: l) w2.

(** No iterator yet, an empty pool, and the default policies list in its place. *)
Definition start : world :=
  mk_world (mk_memory (mk_ar (fun _ => []) 0) (mk_ar (fun _ => []) 0) (mk_ar (fun _ => []) 0)
              (mk_ar (fun a => match a with O => [default_cell] | S _ => [] end) 1) []) [] [].

Definition lives (w : world) : Prop := exists l, steps start l w.

(** ** Who disturbs what *)

(** Nothing is decoded by the i-th iterator, and nobody writes to what it shows. *)
Definition leaves_alone (i : nat) (a : action) : Prop :=
  match a with Next j _ _ | Write j => j <> i | _ => True end.
(** The large batch is neither given back nor written to. *)
Definition keeps_batch (s : slice) (a : action) : Prop := a <> GiveBack s /\ a <> WriteBatch s.

(** The outcomes of the calls of [Next] on the i-th iterator. *)
Fixpoint outcomes (i : nat) (l : list action) : list (option (munion * list staged_policies)) :=
  match l with
  | [] => []
  | Next j ok x :: l => if Nat.eqb j i then (if ok then Some x else None) :: outcomes i l else outcomes i l
  | _ :: l => outcomes i l
  end.
(** The i-th iterator is only used to call [Next], and what it shows is not written to. *)
Definition only_read (i : nat) (a : action) : Prop :=
  match a with Reset j | Close j | Write j => j <> i | _ => True end.
(** The outcomes of [n] calls of [Next] on an iterator that is alone in the world. *)
Fixpoint alone (n : nat) (it : mit) : list (option (munion * list staged_policies)) :=
  match n with
  | O => []
  | S n => let '(ok, it') := mnext it in (if ok then Some (x_metric it', x_policies it') else None) :: alone n it'
  end.
