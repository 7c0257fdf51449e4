(** C88: users of pooled msgpack encoders do not see each other's data. *)
From Verif.Proof Require Import EncPoolProof.
From Coq Require Import Ascii String Arith Bool Lia List.
From Verif.Base Require Import Bytes.
From Verif.Model Require Import EncPool.
From Verif.Spec Require Import EncPoolSpec.
Import ListNotations.



(** Whatever users did and whatever the pool chose: the bytes of an encoder are what has been written to it since it was made or reset. *)
Theorem C88_own_bytes : forall max os w b e c,
  history max os w b -> entry b e = Some (Some c) ->
  exists a n, step max w (Look e) = (w, ASlice a n) /\ shows w a n = c.
Proof.
  intros max os w b e c H E. exists (e_array (w_encoder w e)), (e_len (w_encoder w e)). split; [reflexivity|].
  apply (i_bytes _ _ _ (inv_history _ _ _ _ H)). now apply entry_in.
Qed.
Print Assumptions C88_own_bytes.

(** A slice of them stays as it is whatever others do, and whatever its user writes afterwards, until the encoder is reset, closed or given back. *)
Theorem C88_slices_stay : forall max os w b e c a n os' w' b',
  history max os w b -> entry b e = Some (Some c) -> step max w (Look e) = (w, ASlice a n) ->
  does max w b os' w' b' -> (forall o, In o os' -> ends e o = false) ->
  shows w' a n = c.
Proof.
  intros max os w b e c a n os' w' b' H E L D F. cbn [step] in L. injection L as <- <-. pose proof (inv_history _ _ _ _ H) as I.
  apply (s_shows w' b' e). apply (stays_does max w b os'); try assumption.
  - apply forallb_forall. intros o Z. rewrite (F o Z). reflexivity.
  - now apply (stays_look max).
Qed.
Print Assumptions C88_slices_stay.

(** Nobody is handed an encoder that somebody has. *)
Theorem C88_single_owner : forall max os w b i size w' r,
  history max os w b -> step max w (Get i size) = (w', r) ->
  exists e, r = AnEncoder e /\ entry b e = None.
Proof.
  intros max os w b i size w' r H E. destruct (inv_get max w b i size (inv_history _ _ _ _ H)) as (e & Ee & _ & N).
  cbn [step] in E. rewrite E in Ee. exists e. split; [exact Ee|].
  destruct (entry b e) as [c|] eqn:Z; [|reflexivity]. exfalso. apply N. apply (in_map fst _ _ (entry_in _ _ _ Z)).
Qed.
Print Assumptions C88_single_owner.

(** What the pool keeps is nobody's, is kept once, and has at most the pool's maximum capacity. *)
Theorem C88_pool : forall max os w b,
  history max os w b ->
  NoDup (w_pool w) /\
  forall e, In e (w_pool w) -> entry b e = None /\ length (w_array w (e_array (w_encoder w e))) <= max.
Proof.
  intros max os w b H. pose proof (inv_history _ _ _ _ H) as I. split; [apply (i_pool_nodup _ _ _ I)|].
  intros e P. split; [|now apply (i_pool _ _ _ I)].
  destruct (entry b e) as [c|] eqn:Z; [|reflexivity]. exfalso.
  destruct (i_mine _ _ _ I e c (entry_in _ _ _ Z)) as (_ & N & _). contradiction.
Qed.
Print Assumptions C88_pool.

(** Closing an encoder once more that has been closed and not been taken since changes nothing. *)
Theorem C88_close_twice : forall max os w b e keep,
  history max os w b -> In e (returned b) -> step max w (Close e keep) = (w, Nothing).
Proof.
  intros max os w b e keep H R. destruct (i_returned _ _ _ (inv_history _ _ _ _ H) e R) as (_ & C).
  cbn [step]. unfold close_encoder. now rewrite C.
Qed.
Print Assumptions C88_close_twice.

(** The state and the books after some operations. *)
Fixpoint run (max : nat) (w : world) (b : books) (os : list op) : world * books :=
  match os with
  | [] => (w, b)
  | o :: r => let (w1, a) := step max w o in run max w1 (note b o a) r
  end.
Definition allowedb (b : books) (o : op) : bool :=
  let has e := match entry b e with Some _ => true | None => false end in
  match o with
  | New _ _ | Get _ _ => true
  | Reset e | Write e _ _ | Look e | Give e _ => has e
  | Close e _ => has e || existsb (Nat.eqb e) (returned b)
  end.
Fixpoint legal (max : nat) (w : world) (b : books) (os : list op) : bool :=
  match os with
  | [] => true
  | o :: r => allowedb b o && let (w1, a) := step max w o in legal max w1 (note b o a) r
  end.
Lemma legal_does max os : forall w b, legal max w b os = true -> does max w b os (fst (run max w b os)) (snd (run max w b os)).
Proof.
  induction os as [|o r IH]; intros w b L; [apply does_nothing|]. cbn [legal run] in *. apply andb_true_iff in L as (A & L).
  destruct (step max w o) as [w1 a] eqn:E. eapply does_more; [|exact E|now apply IH].
  assert (Has : forall e, match entry b e with Some _ => true | None => false end = true -> exists c, entry b e = Some c)
    by (intros e Z; destruct (entry b e) as [c|]; [now exists c|discriminate Z]).
  destruct o; cbn [allowedb allowed] in *; try exact I; try (now apply Has).
  apply orb_true_iff in A as [A|A]; [left; now apply Has|right].
  apply existsb_exists in A as (x & X & Z). apply Nat.eqb_eq in Z. now subst.
Qed.

(** Two users of a pool: one writes, closes twice, and another one gets the encoder, resets it and writes; a slice of the second survives growth, and
    the first one gets another encoder; a large one is not kept. *)
Definition a_history : list op :=
  [Get 0 4; Reset 0; Write 0 (B "abc") 0; Close 0 true; Close 0 true; Get 0 4; Get 0 4; Reset 0; Reset 1;
   Write 0 (B "xy") 0; Write 1 (B "first") 3].
Definition more : list op := [Write 0 (B "z") 0; Write 0 (B "grows") 5; Close 1 true; Get 0 0; Reset 1; Write 1 (B "new") 0].
Definition wb1 := run 8 empty_world no_books a_history.
Definition wb2 := run 8 (fst wb1) (snd wb1) more.
Definition wb3 := run 8 (fst wb2) (snd wb2) [Close 0 true; Close 1 true].
Example C88_nonvacuous :
  history 8 a_history (fst wb1) (snd wb1) /\ entry (snd wb1) 0 = Some (Some (B "xy")) /\ entry (snd wb1) 1 = Some (Some (B "first")) /\
  snd (step 8 (fst wb1) (Look 0)) = ASlice 0 2 /\
  does 8 (fst wb1) (snd wb1) more (fst wb2) (snd wb2) /\ (forall o, In o more -> ends 0 o = false) /\
  entry (snd wb2) 0 = Some (Some (B "xyzgrows")) /\ entry (snd wb2) 1 = Some (Some (B "new")) /\
  shows (fst wb2) 0 2 = B "xy" /\ snd (step 8 (fst wb2) (Look 0)) = ASlice 3 8 /\
  does 8 (fst wb2) (snd wb2) [Close 0 true; Close 1 true] (fst wb3) (snd wb3) /\ w_pool (fst wb3) = [1].
Proof.
  split; [apply legal_does; vm_compute; reflexivity|]. do 3 (split; [vm_compute; reflexivity|]).
  split; [apply legal_does; vm_compute; reflexivity|]. split.
  { intros o H. repeat destruct H as [<-|H]; try reflexivity. destruct H. }
  do 4 (split; [vm_compute; reflexivity|]). split; [apply legal_does; vm_compute; reflexivity|]. vm_compute. reflexivity.
Qed.

(** An encoder from the pool that is not reset shows what its last user wrote, and cannot be closed: the pool does not reset them. *)
Example C88_get_does_not_reset :
  let (w, b) := run 8 empty_world no_books [Get 0 4; Reset 0; Write 0 (B "abc") 0; Close 0 true; Get 0 4] in
  entry b 0 = Some None /\ snd (step 8 w (Look 0)) = ASlice 0 3 /\ shows w 0 3 = B "abc" /\ w_pool (fst (step 8 w (Close 0 true))) = [].
Proof. repeat split; vm_compute; reflexivity. Qed.

(** Why users must not close an encoder again that somebody may have taken and reset, nor one that they gave to the pool themselves: afterwards
    two users get the same one. *)
Example C88_late_close :
  let (w, _) := run 8 empty_world no_books [Get 0 4; Reset 0; Close 0 true; Get 0 4; Reset 0; Close 0 true] in
  snd (step 8 w (Get 0 4)) = AnEncoder 0.
Proof. vm_compute. reflexivity. Qed.
Example C88_give_and_close :
  let (w, _) := run 8 empty_world no_books [Get 0 4; Reset 0; Give 0 true; Close 0 true] in w_pool w = [0; 0].
Proof. vm_compute. reflexivity. Qed.
