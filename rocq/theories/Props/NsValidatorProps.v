(** C70: a namespace validator that follows a key of the key-value store answers by a list the key really held (or the
    default list), catches up with the latest one, ignores unreadable values, and is closed cleanly under every schedule. *)
From Coq Require Import Ascii String Arith NArith ZArith Bool Lia List.
From Verif.Proof Require Import NsValidatorProof.
From Verif.Base Require Import Bytes BytesFacts.
From Verif.Model Require Import NsValidator.
From Verif.Spec Require Import NsValidatorSpec.
Import ListNotations.

(** Every answer is given by the default namespaces or by a list the key has held; the error of a closed validator is
    given only if [Close] was called, and always once a call of [Close] has returned. *)
Theorem C70_answers : forall dflt v0 tr s h ns s' o,
  vrun dflt (new_validator dflt v0) tr = Some (s, h) ->
  vstep dflt s (Validate ns) = Some (s', o) ->
  s' = s /\ exists a, o = Some a /\
  (a = ClosedError -> In CallClose tr) /\
  ((exists i, close_returned s i) -> a = ClosedError) /\
  (a <> ClosedError ->
     exists L, (a = Valid <-> In ns L) /\ (L = dflt \/ In (Strings L) (values v0 tr))).
Proof.
  intros dflt v0 tr s h ns s' o Hr Hs. pose proof (inv_reach dflt v0 tr s h Hr) as I.
  apply validate_step in Hs. destruct Hs as [Hs Ho]. subst s' o. split; [reflexivity|].
  exists (validate s ns). split; [reflexivity|]. unfold validate. destruct (vs_closed s) eqn:EC.
  - split; [|split; [reflexivity | congruence]]. intros _. apply (i_called _ _ _ _ I).
    destruct (i_closed _ _ _ _ I EC) as [H | [_ H]]; [|exact H]. intros E. rewrite E in H. exact H.
  - split; [destruct (existsb (beqb ns) (vs_valid s)); discriminate|]. split.
    + intros [i Hi]. apply nth_error_In in Hi. pose proof (i_after _ _ _ _ I Returned Hi (or_intror eq_refl)). congruence.
    + intros _. exists (vs_valid s). split; [|exact (i_valid _ _ _ _ I)]. rewrite <- in_existsb.
      destruct (existsb (beqb ns) (vs_valid s)); split; congruence.
Qed.
Print Assumptions C70_answers.

(** Once it has said that it is closed, it says so for ever. *)
Theorem C70_closed_for_good : forall dflt s ns s1 tr s2 h ns' s3 o,
  vstep dflt s (Validate ns) = Some (s1, Some ClosedError) ->
  vrun dflt s1 tr = Some (s2, h) ->
  vstep dflt s2 (Validate ns') = Some (s3, o) ->
  o = Some ClosedError.
Proof.
  intros dflt s ns s1 tr s2 h ns' s3 o H1 H2 H3. apply validate_step in H1. destruct H1 as [E1 E2]. subst s1.
  apply validate_step in H3. destruct H3 as [_ E3]. subst o.
  assert (EC : vs_closed s = true).
  { injection E2 as E2. unfold validate in E2. destruct (vs_closed s); [reflexivity|]. destruct (existsb (beqb ns) (vs_valid s)); discriminate. }
  unfold validate. rewrite (closed_run dflt tr s s2 h H2 EC). reflexivity.
Qed.
Print Assumptions C70_closed_for_good.

(** When it has nothing left to do and was not closed, it answers, by the latest value of the key. *)
Theorem C70_latest : forall dflt v0 tr s h L ns,
  vrun dflt (new_validator dflt v0) tr = Some (s, h) ->
  at_rest dflt s -> ~ In CallClose tr ->
  means dflt (latest v0 tr) L ->
  exists a, vstep dflt s (Validate ns) = Some (s, Some a) /\ a <> ClosedError /\ (a = Valid <-> In ns L).
Proof.
  intros dflt v0 tr s h L ns Hr Hrest Hnc Hm. pose proof (inv_reach dflt v0 tr s h Hr) as I.
  destruct (rest_shape dflt v0 tr s I Hrest) as [HL [_ [[_ H] | [HW [HP [HC _]]]]]].
  { exfalso. apply Hnc. exact (i_called _ _ _ _ I H). }
  exists (validate s ns). cbn [vstep]. rewrite HL, HW. split; [reflexivity|].
  pose proof (i_fresh _ _ _ _ I HP) as Hf. unfold fresh in Hf. rewrite HW, (i_value _ _ _ _ I) in Hf.
  assert (EL : vs_valid s = L) by (apply Hf; inversion Hm; reflexivity).
  unfold validate. rewrite HC, EL. split; [destruct (existsb (beqb ns) L); discriminate|].
  rewrite <- in_existsb. destruct (existsb (beqb ns) L); split; congruence.
Qed.
Print Assumptions C70_latest.

(** A value that is not a list of strings changes no answer, whatever else happens before the next readable value. *)
Theorem C70_unreadable : forall dflt v0 tr s h tr2 s2 h2 ns a s3 b,
  vrun dflt (new_validator dflt v0) tr = Some (s, h) ->
  at_rest dflt s ->
  Forall (fun x => forall v, x = Write v -> v = Unreadable) tr2 ->
  vrun dflt s (Write Unreadable :: tr2) = Some (s2, h2) ->
  vstep dflt s (Validate ns) = Some (s, Some a) ->
  vstep dflt s2 (Validate ns) = Some (s3, Some b) ->
  b = a \/ (b = ClosedError /\ In CallClose (tr ++ tr2)).
Proof.
  intros dflt v0 tr s h tr2 s2 h2 ns a s3 b Hr Hrest Hw Hr2 Ha Hb. pose proof (inv_reach dflt v0 tr s h Hr) as I.
  pose proof (inv_run dflt v0 (Write Unreadable :: tr2) tr s s2 h2 I Hr2) as I2.
  cbn [vrun vstep] in Hr2.
  set (s1 := mk_vs Unreadable true (vs_worker s) (vs_closed s) (vs_done s) (vs_valid s) (vs_lock s) (vs_closers s)) in Hr2.
  destruct (vrun dflt s1 tr2) as [[s2' h2']|] eqn:Er; [|discriminate]. injection Hr2 as Hr2 _. subst s2'.
  assert (S1 : stuck dflt (vs_valid s) s1).
  { unfold stuck, s1. cbn [vs_value vs_valid vs_worker]. repeat split.
    destruct (rest_shape dflt v0 tr s I Hrest) as [_ [_ [[H _] | [H _]]]]; rewrite H; exact Logic.I. }
  destruct (stuck_run dflt (vs_valid s) tr2 s1 s2 h2' S1 Hw Er) as [_ [EV _]].
  apply validate_step in Ha. destruct Ha as [_ Ha]. injection Ha as Ha. apply validate_step in Hb. destruct Hb as [_ Hb]. injection Hb as Hb.
  subst a b. unfold validate. rewrite EV. destruct (vs_closed s) eqn:EC.
  - left. rewrite (closed_run dflt tr2 s1 s2 h2' Er ltac:(first [exact EC | reflexivity])). reflexivity.
  - destruct (vs_closed s2) eqn:EC2; [right | left; reflexivity]. split; [reflexivity|].
    assert (Hc : In CallClose (tr ++ Write Unreadable :: tr2)).
    { apply (i_called _ _ _ _ I2). destruct (i_closed _ _ _ _ I2 EC2) as [H | [_ H]]; [|exact H]. intros E. rewrite E in H. exact H. }
    apply in_app_or in Hc. apply in_or_app. destruct Hc as [Hc | [Hc | Hc]]; [left; exact Hc | discriminate | right; exact Hc].
Qed.
Print Assumptions C70_unreadable.

(** No deadlock: by itself the program takes only finitely many more steps, and when it can take none every call of
    [Close] has returned. *)
Theorem C70_close_returns : forall dflt v0 tr s h,
  vrun dflt (new_validator dflt v0) tr = Some (s, h) ->
  (exists N, forall tr2 s2 h2, Forall own_step tr2 -> vrun dflt s tr2 = Some (s2, h2) -> length tr2 <= N) /\
  (at_rest dflt s -> forall i, close_called s i -> close_returned s i).
Proof.
  intros dflt v0 tr s h Hr. pose proof (inv_reach dflt v0 tr s h Hr) as I. split.
  - exists (vmeasure s). intros tr2 s2 h2 Ho H2. pose proof (own_run dflt tr2 s s2 h2 Ho H2). lia.
  - intros Hrest i Hi. unfold close_called in Hi. apply nth_error_Some in Hi.
    destruct (nth_error (vs_closers s) i) as [c|] eqn:En; [|congruence].
    destruct (rest_shape dflt v0 tr s I Hrest) as [_ [HC _]]. unfold close_returned. rewrite (HC i c En) in En. exact En.
Qed.
Print Assumptions C70_close_returns.

(** The channel that ends the goroutine is closed at most once (closing it again would panic). *)
Theorem C70_no_double_close : forall dflt v0 tr s h,
  vrun dflt (new_validator dflt v0) tr = Some (s, h) -> vs_done s <= 1.
Proof.
  intros dflt v0 tr s h Hr. pose proof (inv_reach dflt v0 tr s h Hr) as I. rewrite (i_done _ _ _ _ I). destruct (vs_closed s); lia.
Qed.
Print Assumptions C70_no_double_close.

(** When every call of [Close] has returned, and there was one, the goroutine has ended: it takes no step any more,
    whatever is written to the key, and every answer is the error. *)
Theorem C70_stopped : forall dflt v0 tr s h tr2 s2 h2,
  vrun dflt (new_validator dflt v0) tr = Some (s, h) ->
  close_called s 0 -> (forall i, close_called s i -> close_returned s i) ->
  vrun dflt s tr2 = Some (s2, h2) ->
  Forall (fun a => match a with Receive | Timeout | Quit | Read | Process | Store => False | _ => True end) tr2 /\
  (forall ns s3 o, vstep dflt s2 (Validate ns) = Some (s3, o) -> o = Some ClosedError).
Proof.
  intros dflt v0 tr s h tr2 s2 h2 Hr H0 Hall H2. pose proof (inv_reach dflt v0 tr s h Hr) as I.
  assert (EC : vs_closed s = true).
  { pose proof (Hall 0 H0) as K. apply nth_error_In in K. exact (i_after _ _ _ _ I Returned K (or_intror eq_refl)). }
  assert (EW : vs_worker s = Gone).
  { destruct (i_closed _ _ _ _ I EC) as [K | [K _]]; [|exact K]. exfalso.
    apply In_nth_error in K. destruct K as [i K].
    assert (Hi : close_called s i) by (unfold close_called; apply nth_error_Some; congruence).
    pose proof (Hall i Hi) as Q. unfold close_returned in Q. congruence. }
  destruct (gone_run dflt tr2 s s2 h2 EW H2) as [_ [_ Hf]]. split; [exact Hf|].
  intros ns s3 o Hv. apply validate_step in Hv. destruct Hv as [_ Ho]. subst o. unfold validate.
  rewrite (closed_run dflt tr2 s s2 h2 H2 EC). reflexivity.
Qed.
Print Assumptions C70_stopped.

(** Non-vacuity: two default namespaces; the key appears, becomes unreadable, is written while being processed, and two
    calls of [Close] overlap. *)
Definition dflt_ex := [B "a"; B "b"].
Definition run_ex : list vaction :=
  [Timeout; Validate (B "a"); Write (Strings [B "c"]); Receive; Write (Strings [B "d"]); Read; Process; Store;
   Validate (B "a"); Validate (B "d"); Write Unreadable; Receive; Read; Process; Validate (B "d"); Write Absent;
   Receive; Read; Process; Store; Validate (B "b")].
Definition closing_ex : list vaction :=
  [CallClose; Write (Strings [B "z"]); Receive; CallClose; StepClose 0; StepClose 0; Read; StepClose 1; StepClose 1;
   Validate (B "a"); Process; Store; Quit; StepClose 0; Validate (B "z")].

Definition answers_of (r : option (vstate * list (vaction * option answer))) : option (list answer) :=
  option_map (fun p => flat_map (fun q => match snd q with Some a => [a] | None => [] end) (snd p)) r.

Example C70_nonvacuous :
  answers_of (vrun dflt_ex (new_validator dflt_ex Absent) run_ex) = Some [Valid; NotValid; Valid; Valid; Valid] /\
  (exists s h, vrun dflt_ex (new_validator dflt_ex Absent) run_ex = Some (s, h) /\ at_rest dflt_ex s) /\
  answers_of (vrun dflt_ex (new_validator dflt_ex Absent) (run_ex ++ closing_ex))
    = Some [Valid; NotValid; Valid; Valid; Valid; ClosedError; ClosedError] /\
  (exists s h, vrun dflt_ex (new_validator dflt_ex Absent) (run_ex ++ closing_ex) = Some (s, h) /\
               close_called s 0 /\ forall i, close_called s i -> close_returned s i).
Proof.
  split; [vm_compute; reflexivity|]. split; [|split; [vm_compute; reflexivity|]].
  - eexists; eexists. split; [vm_compute; reflexivity|].
    intros a Ha. destruct a; cbn in Ha; try contradiction; cbn; try reflexivity. destruct i; reflexivity.
  - eexists; eexists. split; [vm_compute; reflexivity|]. split; [unfold close_called; cbn; lia|].
    intros i Hi. unfold close_called in Hi. cbn in Hi. destruct i as [|[|i]]; [reflexivity | reflexivity | lia].
Qed.

(** A second call of [Close] may return while the goroutine still runs: only the first one waits for it. *)
Example C70_second_close_returns_early : exists tr s h,
  vrun dflt_ex (new_validator dflt_ex Absent) tr = Some (s, h) /\ close_returned s 1 /\
  exists s', vstep dflt_ex s Receive = Some (s', None).
Proof.
  exists [Timeout; Write (Strings [B "z"]); CallClose; CallClose; StepClose 0; StepClose 0; StepClose 1; StepClose 1].
  eexists; eexists. split; [vm_compute; reflexivity|]. split; [reflexivity|]. eexists. vm_compute. reflexivity.
Qed.

(** The static validator: a configuration is one of two words, and gives every namespace the same answer. *)
Theorem C70_static : forall s ns b,
  configured_static s ns = Some b <-> (s = B "valid" /\ b = true) \/ (s = B "invalid" /\ b = false).
Proof.
  intros s ns b. unfold configured_static, unmarshal_static_result, valid_static_results. cbn [find].
  destruct (beqb s (B "invalid")) eqn:E1.
  - apply beqb_eq in E1 as ->. cbn [option_map]. unfold static_validate. rewrite beqb_refl. cbn [negb].
    split; [intros H; injection H as <-; auto|intros [[H _]|[_ ->]]; [discriminate H|reflexivity]].
  - destruct (beqb s (B "valid")) eqn:E2.
    + apply beqb_eq in E2 as ->. cbn [option_map]. unfold static_validate.
      change (beqb (B "valid") (B "invalid")) with false. cbn [negb].
      split; [intros H; injection H as <-; auto|intros [[_ ->]|[H _]]; [reflexivity|discriminate H]].
    + cbn [option_map]. split; [discriminate|].
      intros [[-> _]|[-> _]]; [rewrite beqb_refl in E2; discriminate E2|rewrite beqb_refl in E1; discriminate E1].
Qed.
Print Assumptions C70_static.

(** A static validator that was made with any other result, or with none, accepts everything. *)
Theorem C70_static_direct : forall r ns, static_validate r ns = false <-> r = B "invalid".
Proof. intros r ns. unfold static_validate. rewrite negb_false_iff. apply beqb_eq. Qed.
Print Assumptions C70_static_direct.

Example C70_static_nonvacuous :
  configured_static (B "valid") (B "ns") = Some true /\ configured_static (B "invalid") (B "ns") = Some false /\
  configured_static (B "") (B "ns") = None.
Proof. vm_compute. repeat split; reflexivity. Qed.
