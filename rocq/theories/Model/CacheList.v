(** Model of the pointer based list of the matcher cache:
    matcher/cache/list.go.

    Elements live at addresses of a heap; nil is [None].  The heap is a total
    function: what it holds at an address that was never allocated is never
    looked at.  Every assignment through a pointer is one update of the heap,
    in the order of the program, so aliasing is modelled. *)
From Coq Require Import Arith ZArith Bool List.
From Verif Require Import Base.Bytes Model.Rules.
Import ListNotations.
Open Scope Z_scope.

Notation addr := nat (only parsing).

(** matcher/cache/list.go 32-40 [element] *)
Record element := mk_el {
  el_ns : bytes;
  el_id : bytes;
  el_result : match_result;
  el_deleted : bool;
  el_expiry : Z;
  el_prev : option addr;
  el_next : option addr }.

(** The elements by address: matcher/cache/list.go:32-40 [element]. *)
Notation heap := (nat -> element).

(** Writing through a pointer to an element, as at matcher/cache/list.go:83-160. *)
Definition upd (h : heap) (a : addr) (e : element) : heap :=
  fun b => if Nat.eqb b a then e else h b.

(** the assignments [p.prev = v], [p.next = v], [p.deleted = v] and matcher/cache/list.go
    60-62 [SetPromotionExpiry] *)
Definition set_prev (h : heap) (a : addr) (v : option addr) : heap :=
  let e := h a in
  upd h a (mk_el (el_ns e) (el_id e) (el_result e) (el_deleted e) (el_expiry e) v (el_next e)).
(** [e.next = v], as at matcher/cache/list.go:93. *)
Definition set_next (h : heap) (a : addr) (v : option addr) : heap :=
  let e := h a in
  upd h a (mk_el (el_ns e) (el_id e) (el_result e) (el_deleted e) (el_expiry e) (el_prev e) v).
(** [e.deleted = v], as at matcher/cache/list.go:159. *)
Definition set_deleted (h : heap) (a : addr) (v : bool) : heap :=
  let e := h a in
  upd h a (mk_el (el_ns e) (el_id e) (el_result e) v (el_expiry e) (el_prev e) (el_next e)).
(** matcher/cache/list.go:60-62 [element.SetPromotionExpiry] *)
Definition set_expiry (h : heap) (a : addr) (v : Z) : heap :=
  let e := h a in
  upd h a (mk_el (el_ns e) (el_id e) (el_result e) (el_deleted e) v (el_prev e) (el_next e)).

(** matcher/cache/list.go 42-51 [newElement]; the copies of the two byte slices are values here *)
Definition new_element (ns id : bytes) (r : match_result) : element :=
  mk_el ns id r false 0 None None.

(** matcher/cache/list.go 55-57 [ShouldPromote] *)
Definition should_promote (e : element) (now : Z) : bool := el_expiry e <=? now.

(** matcher/cache/list.go 67-71 [list]; the length is unbounded here, an int there *)
Record dlist := mk_dl { dl_head : option addr; dl_tail : option addr; dl_len : Z }.

(** a heap and a list in it; matcher/cache/list.go 75-81 [Len], [Front], [Back] are the fields *)
Record lstate := mk_ls { ls_heap : heap; ls_list : dlist }.

(** The zero value of matcher/cache/list.go:67-71 [list]. *)
Definition empty_dlist : dlist := mk_dl None None 0.

(** matcher/cache/list.go 83-99 [PushFront] *)
Definition push_front (s : lstate) (elem : option addr) : lstate :=
  match elem with
  | None => s
  | Some e =>
      let h := ls_heap s in
      let l := ls_list s in
      if el_deleted (h e) then s
      else match dl_head l with
           | None =>
               mk_ls (set_next (set_prev h e None) e None)
                     (mk_dl (Some e) (Some e) (dl_len l + 1))
           | Some hd =>
               mk_ls (set_prev (set_prev (set_next h e (Some hd)) e None) hd (Some e))
                     (mk_dl (Some e) (dl_tail l) (dl_len l + 1))
           end
  end.

(** matcher/cache/list.go 102-118 [PushBack] *)
Definition push_back (s : lstate) (elem : option addr) : lstate :=
  match elem with
  | None => s
  | Some e =>
      let h := ls_heap s in
      let l := ls_list s in
      if el_deleted (h e) then s
      else match dl_tail l with
           | None =>
               mk_ls (set_next (set_prev h e None) e None)
                     (mk_dl (Some e) (Some e) (dl_len l + 1))
           | Some tl =>
               mk_ls (set_next (set_next (set_prev h e (Some tl)) e None) tl (Some e))
                     (mk_dl (dl_head l) (Some e) (dl_len l + 1))
           end
  end.

(** matcher/cache/list.go 143-160 [remove] *)
Definition unlink (s : lstate) (e : addr) (mark_deleted : bool) : lstate :=
  let h := ls_heap s in
  let l := ls_list s in
  let prev := el_prev (h e) in
  let next := el_next (h e) in
  let '(h1, head1) :=
    match prev with
    | None => (h, next)
    | Some p => (set_next h p next, dl_head l)
    end in
  let '(h2, tail1) :=
    match next with
    | None => (h1, prev)
    | Some n => (set_prev h1 n prev, dl_tail l)
    end in
  mk_ls (set_deleted (set_next (set_prev h2 e None) e None) e mark_deleted)
        (mk_dl head1 tail1 (dl_len l - 1)).

(** matcher/cache/list.go 121-128 [Remove] *)
Definition list_remove (s : lstate) (elem : option addr) : lstate :=
  match elem with
  | None => s
  | Some e => if el_deleted (ls_heap s e) then s else unlink s e true
  end.

(** matcher/cache/list.go 131-141 [MoveToFront] *)
Definition move_to_front (s : lstate) (elem : option addr) : lstate :=
  match elem with
  | None => s
  | Some e =>
      if el_deleted (ls_heap s e) then s
      else push_front (unlink s e false) (Some e)
  end.

(** the calls a client of the list can make; an allocation of an element by
    [newElement] at a fresh address  The methods at matcher/cache/list.go:60-141. *)
Inductive list_call :=
| LNew (a : addr) (ns id : bytes) (r : match_result)
| LPushFront (e : option addr)
| LPushBack (e : option addr)
| LRemove (e : option addr)
| LMoveToFront (e : option addr)
| LSetExpiry (a : addr) (t : Z).

(** One call of a method at matcher/cache/list.go:60-141. *)
Definition list_step (s : lstate) (c : list_call) : lstate :=
  match c with
  | LNew a ns id r => mk_ls (upd (ls_heap s) a (new_element ns id r)) (ls_list s)
  | LPushFront e => push_front s e
  | LPushBack e => push_back s e
  | LRemove e => list_remove s e
  | LMoveToFront e => move_to_front s e
  | LSetExpiry a t => mk_ls (set_expiry (ls_heap s) a t) (ls_list s)
  end.

(** A sequence of calls of the methods at matcher/cache/list.go:60-141. *)
Definition list_run (s : lstate) (cs : list list_call) : lstate := fold_left list_step cs s.
