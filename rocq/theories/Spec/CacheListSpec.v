(** What the operations of the cache's list mean: a sequence of elements
    without repetitions, and the set of elements that have been removed. *)
From Coq Require Import Arith ZArith Bool List.
From Verif Require Import Base.Bytes Model.Rules Model.CacheList.
Import ListNotations.

(** [walks next a s]: starting at [a] and following [next] until nil visits
    exactly [s], in order. *)
Inductive walks (next : nat -> option nat) : option nat -> list nat -> Prop :=
| walks_end : walks next None []
| walks_step a s : walks next (next a) s -> walks next (Some a) (a :: s).

(** [shows s q]: the list presents the sequence [q]: following the next pointers
    from the front gives [q], following the prev pointers from the back gives
    [q] reversed, and the length counter is the number of elements. *)
Definition shows (s : lstate) (q : list nat) : Prop :=
  walks (fun a => el_next (ls_heap s a)) (dl_head (ls_list s)) q /\
  walks (fun a => el_prev (ls_heap s a)) (dl_tail (ls_list s)) (rev q) /\
  dl_len (ls_list s) = Z.of_nat (length q).

Definition drop_elem (a : nat) (q : list nat) : list nat :=
  filter (fun b => negb (Nat.eqb b a)) q.

(** the abstract list: the sequence, the allocated elements that were never
    pushed, and the removed ones *)
Record abs_list := mk_al { al_seq : list nat; al_fresh : list nat; al_gone : list nat }.

Definition known (x : abs_list) : list nat := al_seq x ++ al_fresh x ++ al_gone x.

Definition memb (a : nat) (q : list nat) : bool := existsb (Nat.eqb a) q.

(** The effect of a call.  Pushing or moving a removed element, or removing it
    again, changes nothing, and so does any call on nil. *)
Definition abs_step (x : abs_list) (c : list_call) : abs_list :=
  match c with
  | LNew a _ _ _ => mk_al (al_seq x) (a :: al_fresh x) (al_gone x)
  | LPushFront (Some a) =>
      if memb a (al_gone x) then x
      else mk_al (a :: al_seq x) (drop_elem a (al_fresh x)) (al_gone x)
  | LPushBack (Some a) =>
      if memb a (al_gone x) then x
      else mk_al (al_seq x ++ [a]) (drop_elem a (al_fresh x)) (al_gone x)
  | LRemove (Some a) =>
      if memb a (al_gone x) then x
      else mk_al (drop_elem a (al_seq x)) (al_fresh x) (a :: al_gone x)
  | LMoveToFront (Some a) =>
      if memb a (al_gone x) then x
      else mk_al (a :: drop_elem a (al_seq x)) (al_fresh x) (al_gone x)
  | _ => x
  end.

(** The calls the list supports: elements are allocated at addresses not used
    before, pushed once, and only removed or moved after being pushed. *)
Definition allowed (x : abs_list) (c : list_call) : Prop :=
  match c with
  | LNew a _ _ _ => ~ In a (known x)
  | LPushFront (Some a) | LPushBack (Some a) => In a (al_fresh x) \/ In a (al_gone x)
  | LRemove (Some a) | LMoveToFront (Some a) => In a (al_seq x) \/ In a (al_gone x)
  | LSetExpiry a _ => In a (known x)
  | _ => True
  end.

Fixpoint all_allowed (x : abs_list) (cs : list list_call) : Prop :=
  match cs with
  | [] => True
  | c :: cs' => allowed x c /\ all_allowed (abs_step x c) cs'
  end.

Definition abs_run (x : abs_list) (cs : list list_call) : abs_list := fold_left abs_step cs x.

Definition abs_empty : abs_list := mk_al [] [] [].
