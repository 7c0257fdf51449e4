(** C42: the cache's linked list is a sequence. *)
From Coq Require Import Ascii String Arith ZArith Bool List.
From Verif Require Import Proof.CacheListProof.
From Verif Require Import Base.Bytes Model.Rules Model.CacheList Spec.CacheListSpec.
Import ListNotations.
Local Open Scope nat_scope.

(** After any supported calls on an empty list the pointers, walked from either
    end, and the length counter present the sequence the calls describe, with no
    repetition; its elements are not marked deleted and the removed ones are. *)
Theorem C42_sequence : forall h cs,
  all_allowed abs_empty cs ->
  let s := list_run (mk_ls h empty_dlist) cs in
  let x := abs_run abs_empty cs in
  shows s (al_seq x) /\ NoDup (al_seq x) /\
  (forall a, In a (al_seq x) -> el_deleted (ls_heap s a) = false /\ ~ In a (al_gone x)) /\
  (forall a, In a (al_gone x) -> el_deleted (ls_heap s a) = true).
Proof. exact list_is_sequence. Qed.
Print Assumptions C42_sequence.

(** what the pointers present is determined: there is no second reading *)
Theorem C42_one_reading : forall s q q', shows s q -> shows s q' -> q = q'.
Proof. exact shows_unique. Qed.
Print Assumptions C42_one_reading.

(** An element that was removed is never in the list again, and pushing, moving
    or removing it changes nothing at all. *)
Theorem C42_removed : forall h cs a cs',
  all_allowed abs_empty (cs ++ cs') -> In a (al_gone (abs_run abs_empty cs)) ->
  ~ In a (al_seq (abs_run abs_empty (cs ++ cs'))) /\
  forall c, c = LPushFront (Some a) \/ c = LPushBack (Some a) \/
            c = LRemove (Some a) \/ c = LMoveToFront (Some a) ->
    list_step (list_run (mk_ls h empty_dlist) (cs ++ cs')) c =
    list_run (mk_ls h empty_dlist) (cs ++ cs').
Proof. exact removed_for_good. Qed.
Print Assumptions C42_removed.

Definition c42_calls : list list_call :=
  [ LNew 0 (B "ns") (B "a") empty_match_result; LPushFront (Some 0);
    LNew 1 (B "ns") (B "b") empty_match_result; LPushFront (Some 1);
    LNew 2 (B "ns") (B "c") empty_match_result; LPushBack (Some 2);
    LNew 3 (B "ns") (B "d") empty_match_result; LPushFront (Some 3);
    LMoveToFront (Some 2); LRemove (Some 1); LPushFront (Some 1);
    LMoveToFront (Some 0); LSetExpiry 3 7; LRemove (Some 1); LRemove None ].

Example C42_nonvacuous :
  all_allowed abs_empty c42_calls /\
  abs_run abs_empty c42_calls = mk_al [0; 2; 3] [] [1] /\
  In 1 (al_gone (abs_run abs_empty (firstn 10 c42_calls))).
Proof. vm_compute. intuition discriminate. Qed.

(** The supported calls matter: moving an element that was never pushed loses
    the rest of the list. *)
Example C42_never_pushed :
  let s := list_run (mk_ls (fun _ => new_element [] [] empty_match_result) empty_dlist)
             [ LPushFront (Some 0); LPushFront (Some 1); LMoveToFront (Some 2) ] in
  dl_head (ls_list s) = Some 2 /\ dl_tail (ls_list s) = Some 2 /\ dl_len (ls_list s) = 2%Z.
Proof. vm_compute. repeat split. Qed.
