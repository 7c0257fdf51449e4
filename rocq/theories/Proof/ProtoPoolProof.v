(** Proofs for C89: iterators as holders of buffers in the system of ProtoSystemProof. *)
From Verif.Proof Require Import ProtoWireProof ProtoHeapProof ProtoSystemProof.
From Coq Require Import Ascii String NArith ZArith Bool Arith Lia Permutation List.
From Verif.Base Require Import Bytes Slice.
From Verif.Model Require Import AggType Policy Transformation Pipeline Metadata ProtoWire Messages ProtoStream ProtoPool.
From Verif.Spec Require Import ProtoStreamSpec ProtoPoolSpec.
Import ListNotations.
Local Open Scope Z_scope.

(** ** Iterators' buffers as relinquished buffers *)
Definition iter_buf (p : piter) : buffer :=
  mk_buffer (p_buf p) (match p_todo p with Some (size, _) => size | None => 0 end) (p_pool p) (i_closed (p_it p)).
Definition abs (x : world) : system :=
  mk_sys (s_heap (x_sys x)) (s_encs (x_sys x)) (map iter_buf (x_iters x) ++ s_bufs (x_sys x)) (s_held (x_sys x)).

Definition shift (n : nat) (o : op) : op :=
  match o with
  | BufTruncate j m => BufTruncate (n + j) m
  | BufClose j => BufClose (n + j)
  | o => o
  end.

Lemma set_nth_app {A} (l1 l2 : list A) j a : set_nth (l1 ++ l2) (length l1 + j) a = l1 ++ set_nth l2 j a.
Proof.
  unfold set_nth. rewrite firstn_app_2. replace (S (length l1 + j)) with (length l1 + S j)%nat by lia.
  rewrite skipn_app, skipn_all2 by lia. replace (length l1 + S j - length l1)%nat with (S j) by lia.
  cbn [app]. now rewrite <- app_assoc.
Qed.
Lemma set_nth_app1 {A} (l1 l2 : list A) k a : (k < length l1)%nat -> set_nth (l1 ++ l2) k a = set_nth l1 k a ++ l2.
Proof.
  intros L. unfold set_nth. rewrite firstn_app. replace (k - length l1)%nat with 0%nat by lia. cbn [firstn]. rewrite app_nil_r.
  rewrite skipn_app. replace (S k - length l1)%nat with 0%nat by lia. cbn [skipn]. rewrite <- app_assoc. reflexivity.
Qed.

Lemma run_abs x o c :
  run_op (abs x) (shift (length (map iter_buf (x_iters x))) o) c =
  match run_op (x_sys x) o c with Some (s, ok) => Some (abs (mk_world s (x_iters x)), ok) | None => None end.
Proof.
  unfold abs. cbn [x_sys x_iters]. set (ib := map iter_buf (x_iters x)). set (s := x_sys x).
  destruct o as [pool init max|i d|i u|i n|i|j n|j|n|k d|k]; cbn [run_op shift s_heap s_encs s_bufs s_held].
  - destruct (new_encoder pool init max c (s_heap s)). reflexivity.
  - destruct (nth_error (s_encs s) i) as [e|]; [|reflexivity]. destruct (enc_reset d c e (s_heap s)). reflexivity.
  - destruct (nth_error (s_encs s) i) as [e|]; [|reflexivity]. destruct (enc_message u c e (s_heap s)); reflexivity.
  - destruct (nth_error (s_encs s) i) as [e|]; [|reflexivity]. destruct (enc_truncate n e). reflexivity.
  - destruct (nth_error (s_encs s) i) as [e|]; [|reflexivity]. destruct (enc_relinquish e). cbn [s_heap s_encs s_bufs s_held]. now rewrite app_assoc.
  - rewrite nth_error_app2 by lia. replace (length ib + j - length ib)%nat with j by lia.
    destruct (nth_error (s_bufs s) j) as [b|]; [|reflexivity]. destruct (buf_truncate n (s_heap s) b); [|reflexivity].
    cbn [s_heap s_encs s_bufs s_held]. now rewrite set_nth_app.
  - rewrite nth_error_app2 by lia. replace (length ib + j - length ib)%nat with j by lia.
    destruct (nth_error (s_bufs s) j) as [b|]; [|reflexivity]. destruct (buf_close b (s_heap s)).
    cbn [s_heap s_encs s_bufs s_held]. now rewrite set_nth_app.
  - destruct (h_get n c (s_heap s)). reflexivity.
  - destruct (nth_error (s_held s) k); [|reflexivity]. destruct (_ <? _); reflexivity.
  - destruct (nth_error (s_held s) k); reflexivity.
Qed.

(** ** The invariant *)
(** A call of [Next] that is going on has the message in the buffer. *)
Definition todo_ok (h : heap) (p : piter) : Prop :=
  match p_todo p with
  | None => True
  | Some (size, rest) =>
      i_err (p_it p) = None /\ i_closed (p_it p) = false /\
      exists r d, read_varint (i_in (p_it p)) = inl (size, r) /\ (i_max (p_it p) <? size) = false /\ (size <? 0) = false /\
        read_full size r = inl (d, rest) /\ buf_prefix h (p_buf p) size = d
  end.
Definition xinv (x : world) : Prop := inv (abs x) /\ Forall (todo_ok (s_heap (x_sys x))) (x_iters x).

Lemma inv_sys x : inv (abs x) -> inv (x_sys x).
Proof.
  intros ((N & F) & Fe & Fb). unfold abs, held_by in *. cbn [s_heap s_encs s_bufs s_held opt_list app] in *.
  set (ib := map iter_buf (x_iters x)) in *. set (s := x_sys x) in *.
  assert (P : Permutation ((enc_addrs (s_encs s) ++ buf_addrs (ib ++ s_bufs s) ++ s_held s) ++ h_free (s_heap s))
     (buf_addrs ib ++ (enc_addrs (s_encs s) ++ buf_addrs (s_bufs s) ++ s_held s) ++ h_free (s_heap s))).
  { unfold buf_addrs. rewrite flat_map_app. rewrite <- !app_assoc. apply Permutation_app_swap_app. }
  split; [split|split].
  - cbn [opt_list app]. unfold held_by. apply (Permutation_NoDup P) in N. clear - N.
    induction (buf_addrs ib) as [|a l IH]; [exact N|]. inversion N. now apply IH.
  - cbn [opt_list app]. unfold held_by. rewrite Forall_forall in *. intros a Ha. apply F. apply (Permutation_in _ (Permutation_sym P)).
    apply in_or_app. now right.
  - exact Fe.
  - now apply Forall_app in Fb.
Qed.

(** What an iterator does not hold. *)
Lemma nth_abs x k p : nth_error (x_iters x) k = Some p -> nth_error (s_bufs (abs x)) k = Some (iter_buf p).
Proof.
  intros E. unfold abs. cbn [s_bufs]. rewrite nth_error_app1.
  - now apply map_nth_error.
  - rewrite map_length. apply nth_error_Some. congruence.
Qed.
Lemma others_sys x k p : nth_error (x_iters x) k = Some p ->
  incl (enc_addrs (s_encs (x_sys x)) ++ buf_addrs (s_bufs (x_sys x))) (buf_others (abs x) k).
Proof.
  intros E a Ha. unfold buf_others, abs. cbn [s_encs s_bufs s_held]. apply in_app_or in Ha as [Ha|Ha]; [apply in_or_app; now left|].
  apply in_or_app. right. apply in_or_app. left. apply in_or_app. right.
  assert (L : (k < length (map iter_buf (x_iters x)))%nat) by (rewrite map_length; apply nth_error_Some; congruence).
  rewrite skipn_app. replace (S k - length (map iter_buf (x_iters x)))%nat with 0%nat by lia. cbn [skipn].
  unfold buf_addrs. rewrite flat_map_app. apply in_or_app. now right.
Qed.
Lemma others_iter x k p j q : nth_error (x_iters x) k = Some p -> nth_error (x_iters x) j = Some q -> j <> k ->
  incl (opt_list (p_buf q)) (buf_others (abs x) k).
Proof.
  intros E J Ne a Ha. unfold buf_others. apply in_or_app. right. apply in_or_app. left.
  pose proof (nth_abs x j q J) as Jb. pose proof (nth_abs x k p E) as Kb. set (l := s_bufs (abs x)) in *.
  destruct (le_lt_dec k j) as [L|L].
  - apply in_or_app. right. apply (buf_addrs_in (iter_buf q)); [|exact Ha]. apply nth_error_In with (n := (j - S k)%nat).
    rewrite <- (firstn_skipn (S k) l), nth_error_app2 in Jb; [|rewrite firstn_length; lia].
    assert (Lk : (k < length l)%nat) by (apply nth_error_Some; congruence). rewrite firstn_length in Jb.
    replace (Nat.min (S k) (length l)) with (S k) in Jb by lia. exact Jb.
  - apply in_or_app. left. apply (buf_addrs_in (iter_buf q)); [|exact Ha]. apply nth_error_In with (n := j).
    rewrite <- (firstn_skipn k l), nth_error_app1 in Jb; [exact Jb|]. rewrite firstn_length.
    assert (Lk : (k < length l)%nat) by (apply nth_error_Some; congruence). lia.
Qed.

Lemma todo_same K h h' p : same_on K h h' -> incl (opt_list (p_buf p)) K -> todo_ok h p -> todo_ok h' p.
Proof.
  intros S I. unfold todo_ok. destruct (p_todo p) as [[size rest]|]; [|easy].
  intros (A & B & r & d & H1 & H2 & H3 & H4 & H5). split; [exact A|]. split; [exact B|]. exists r, d. repeat (split; [assumption|]).
  unfold buf_prefix in *. destruct (p_buf p) as [a|]; [|exact H5]. rewrite (S a); [exact H5|]. apply I. now left.
Qed.

Lemma set_nth_in {A} (l : list A) k a x : In x (set_nth l k a) -> x = a \/ exists j, j <> k /\ nth_error l j = Some x.
Proof.
  unfold set_nth. intros H. apply in_app_or in H as [H|[H|H]].
  - right. apply In_nth_error in H as (j & J). assert (L : (j < length (firstn k l))%nat) by (apply nth_error_Some; congruence).
    rewrite firstn_length in L. exists j. split; [lia|]. rewrite <- (firstn_skipn k l), nth_error_app1; [exact J|]. rewrite firstn_length. lia.
  - now left.
  - right. apply In_nth_error in H as (j & J). exists (S k + j)%nat. split; [lia|].
    assert (length (firstn (S k) l) = S k).
    { rewrite firstn_length. destruct (le_lt_dec (length l) (S k)) as [Z|Z]; [|lia]. rewrite skipn_all2 in J by exact Z. destruct j; discriminate J. }
    rewrite <- (firstn_skipn (S k) l), nth_error_app2 by lia. rewrite H. replace (S k + j - S k)%nat with j by lia. exact J.
Qed.

(** A step of one iterator. *)
Lemma iter_step x k p p' h' :
  xinv x -> nth_error (x_iters x) k = Some p ->
  wf (buf_others (abs x) k) (p_buf p') h' -> same_on (buf_others (abs x) k) (s_heap (x_sys x)) h' ->
  buf_ok h' (iter_buf p') -> todo_ok h' p' ->
  xinv (set_iter x k p' h') /\ observe (x_sys (set_iter x k p' h')) = observe (x_sys x) /\
  replaced (x_iters x) k p' (x_iters (set_iter x k p' h')).
Proof.
  intros (I & T) E W S O T'. pose proof (nth_abs x k p E) as Eb.
  assert (L : (k < length (map iter_buf (x_iters x)))%nat) by (rewrite map_length; apply nth_error_Some; congruence).
  destruct (buf_step (abs x) k (iter_buf p) (iter_buf p') h' I Eb W S O) as (I' & _ & _).
  split; [split|split].
  - unfold set_iter, abs. cbn [x_sys x_iters s_heap s_encs s_bufs s_held]. rewrite map_set_nth.
    rewrite <- set_nth_app1 by exact L. exact I'.
  - unfold set_iter. cbn [x_sys x_iters s_heap]. apply Forall_forall. intros q Q. apply set_nth_in in Q as [->|(j & Ne & J)]; [exact T'|].
    rewrite Forall_forall in T. apply (todo_same _ _ _ _ S (others_iter x k p j q E J Ne)). apply T. now apply nth_error_In in J.
  - unfold set_iter. cbn [x_sys]. pose proof (same_on_incl _ _ _ _ (others_sys x k p E) S) as Sx.
    assert (Se : same_on (enc_addrs (s_encs (x_sys x))) (s_heap (x_sys x)) h') by (eapply same_on_incl; [|exact Sx]; intros a Ha; apply in_or_app; now left).
    assert (Sb : same_on (buf_addrs (s_bufs (x_sys x))) (s_heap (x_sys x)) h') by (eapply same_on_incl; [|exact Sx]; intros a Ha; apply in_or_app; now right).
    rewrite !observe_eq. cbn [s_heap s_encs s_bufs]. now rewrite (proj1 (encs_same _ _ _ Se)), (proj1 (bufs_same _ _ _ Sb)).
  - unfold set_iter. cbn [x_iters]. now apply (set_nth_replaced _ _ _ p).
Qed.

Lemma zlen_nonneg {A} (l : list A) : 0 <= Z.of_nat (length l).
Proof. lia. Qed.

Lemma ensure_uncopied_ok keep buf pool t c h buf' h' : wf keep buf h -> ensure_uncopied buf pool t c h = (buf', h') ->
  wf keep buf' h' /\ same_on keep h h' /\ t <= buf_len h' buf' /\ 0 <= buf_len h' buf'.
Proof.
  assert (NN : forall h b, 0 <= buf_len h b) by (intros h0 [a|]; cbn [buf_len]; unfold zlen; lia).
  intros W E. unfold ensure_uncopied in E. destruct (Z.leb_spec t (buf_len h buf)) as [L|L].
  - injection E as <- <-. repeat split; try apply W; auto.
  - destruct (allocate pool (Z.max t (buf_len h buf * 2)) c h) as [a h1] eqn:Al. injection E as <- <-.
    pose proof W as W0. apply wf_keep in W. destruct (allocate_ok _ _ _ _ _ _ _ W Al) as (W1 & S1 & L1 & N1).
    split; [|split; [|split; [|apply NN]]].
    + apply wf_keep. apply wf_put. apply wf_keep in W1. apply wf_keep. eapply wf_perm; [|exact W1]. cbn [opt_list app].
      destruct buf as [b|]; cbn [opt_list app]; [apply perm_swap|apply Permutation_refl].
    + intros y Hy. rewrite put_data. apply S1. apply in_or_app. now right.
    + cbn [buf_len]. rewrite put_data. lia.
Qed.

Lemma read_full_some n d x r : read_full n d = inl (x, r) -> x = firstn (Z.to_nat n) d /\ n <= zlen d.
Proof.
  unfold read_full. destruct (Z.leb_spec n (zlen d)) as [L|L]; [|destruct d; discriminate]. intros E. injection E as <- <-. now split.
Qed.

(** The iterator of ProtoStream is what the two steps come to. *)
Lemma next_now it : i_err it = None -> i_closed it = false ->
  next it = match read_varint (i_in it) with
            | inr e => Stop (stopped it e)
            | inl (size, rest) =>
                let it := mk_iter rest (i_max it) (i_closed it) (i_pb it) (i_msg it) (i_err it) in
                if i_max it <? size then Stop (stopped it TooLarge) else decode_message size it
            end.
Proof. intros E C. unfold next. rewrite E, C. reflexivity. Qed.

Definition result_of (r : stepped) : next_result :=
  match r with
  | Returned true p _ => More (p_it p)
  | Returned false p _ => Stop (p_it p)
  | _ => Crash
  end.

Lemma start_ok x k p c : xinv x -> nth_error (x_iters x) k = Some p -> p_todo p = None ->
  match iter_start c p (s_heap (x_sys x)) with
  | Panics => next (p_it p) = Crash
  | Returned more p' h' =>
      result_of (Returned more p' h') = next (p_it p) /\
      wf (buf_others (abs x) k) (p_buf p') h' /\ same_on (buf_others (abs x) k) (s_heap (x_sys x)) h' /\
      buf_ok h' (iter_buf p') /\ todo_ok h' p'
  | GoesOn p' h' =>
      p_it p' = p_it p /\
      wf (buf_others (abs x) k) (p_buf p') h' /\ same_on (buf_others (abs x) k) (s_heap (x_sys x)) h' /\
      buf_ok h' (iter_buf p') /\ todo_ok h' p'
  end.
Proof.
  intros (I & T) E To. destruct (buf_wf (abs x) k (iter_buf p) I (nth_abs x k p E)) as (W & O).
  change (b_arr (iter_buf p)) with (p_buf p) in W. change (s_heap (abs x)) with (s_heap (x_sys x)) in W, O.
  destruct O as (O1 & O2). cbn [b_arr b_closed iter_buf] in O1, O2.
  set (h := s_heap (x_sys x)) in *. unfold iter_start. cbv zeta.
  assert (NN : forall h b, 0 <= buf_len h b) by (intros h0 [a|]; cbn [buf_len]; unfold zlen; lia).
  assert (Fin : forall it b pl, (i_closed it = true -> b = None) -> buf_ok h (iter_buf (mk_piter it b pl None))).
  { intros it b pl C. split; [|exact C]. cbn [iter_buf p_todo b_len b_arr p_buf]. split; [lia|apply NN]. }
  assert (Done : next (p_it p) = Stop (p_it p) -> result_of (Returned false p h) = next (p_it p) /\ wf (buf_others (abs x) k) (p_buf p) h /\ same_on (buf_others (abs x) k) h h /\
      buf_ok h (iter_buf p) /\ todo_ok h p).
  { intros N. split; [now rewrite N|]. split; [exact W|]. split; [apply same_on_refl|]. split.
    - split; [|exact O2]. cbn [iter_buf b_len b_arr]. rewrite To. split; [lia|apply NN].
    - unfold todo_ok. now rewrite To. }
  destruct (i_err (p_it p)) as [e|] eqn:Er; [apply Done; unfold next; rewrite Er; reflexivity|].
  destruct (i_closed (p_it p)) eqn:Cl; [apply Done; unfold next; rewrite Er, Cl; reflexivity|]. clear Done.
  pose proof (next_now (p_it p) Er Cl) as N. cbv zeta in N.
  destruct (read_varint (i_in (p_it p))) as [[size rest]|e] eqn:Rv.
  2:{ split; [now rewrite N|]. split; [exact W|]. split; [apply same_on_refl|]. split; [|exact Logic.I].
      apply Fin. cbn [stopped i_closed]. congruence. }
  cbn [i_max] in N. destruct (i_max (p_it p) <? size) eqn:Mx.
  { split; [rewrite N, Cl, Er; reflexivity|]. split; [exact W|]. split; [apply same_on_refl|]. split; [|exact Logic.I].
    apply Fin. cbn [stopped i_closed]. congruence. }
  destruct (ensure_uncopied (p_buf p) (p_pool p) size c h) as [buf h1] eqn:En.
  destruct (ensure_uncopied_ok _ _ _ _ _ _ _ _ W En) as (W1 & S1 & L1 & _).
  unfold decode_message in N. destruct (size <? 0) eqn:Neg; [exact N|].
  apply Z.ltb_ge in Neg.
  set (h2 := match buf with Some a => h_write a 0 (firstn (Z.to_nat size) rest) h1 | None => h1 end).
  assert (W2 : wf (buf_others (abs x) k) buf h2) by (unfold h2; destruct buf; [now apply wf_write|exact W1]).
  assert (S2 : same_on (buf_others (abs x) k) h h2).
  { eapply same_on_trans; [exact S1|]. unfold h2. destruct buf as [a|]; [|apply same_on_refl]. apply write_same. now apply (wf_not_kept _ _ h1). }
  assert (Fit : (length (firstn (Z.to_nat size) rest) <= Z.to_nat size)%nat) by (rewrite firstn_length; lia).
  assert (L2 : size <= buf_len h2 buf).
  { unfold h2. destruct buf as [a|]; [|exact L1]. cbn [buf_len] in *. rewrite write_at. unfold zlen in *. rewrite splice_length; [exact L1|].
    cbn [Z.to_nat Nat.add]. lia. }
  cbn [i_in] in N. destruct (read_full size rest) as [[d rest']|e] eqn:Rf.
  - split; [reflexivity|]. split; [exact W2|]. split; [exact S2|]. split.
    + split; [cbn [iter_buf b_len b_arr p_todo p_buf]; lia|]. cbn [iter_buf b_closed p_it b_arr p_buf]. congruence.
    + unfold todo_ok. cbn [p_todo p_it p_buf]. split; [exact Er|]. split; [exact Cl|]. exists rest, d.
      split; [exact Rv|]. split; [exact Mx|]. split; [apply Z.ltb_ge; exact Neg|]. split; [exact Rf|].
      destruct (read_full_some _ _ _ _ Rf) as (-> & Lr). unfold buf_prefix, h2. destruct buf as [a|].
      * rewrite write_at. cbn [Z.to_nat]. cbn [buf_len] in L1. unfold zlen in L1, Lr.
        assert (Lf : length (firstn (Z.to_nat size) rest) = Z.to_nat size) by (rewrite firstn_length; lia).
        replace (Z.to_nat size) with (0 + length (firstn (Z.to_nat size) rest))%nat at 1 by lia.
        rewrite splice_prefix; [reflexivity|]. lia.
      * cbn [buf_len] in L1. replace (Z.to_nat size) with 0%nat by lia. reflexivity.
  - split; [rewrite N, Cl, Er; reflexivity|]. split; [exact W2|]. split; [exact S2|]. split; [|exact Logic.I].
    split; [cbn [iter_buf b_len b_arr p_todo p_buf]; split; [lia|apply NN]|]. cbn [iter_buf b_closed p_it b_arr p_buf stopped i_closed]. congruence.
Qed.

Lemma finish_ok x k p : xinv x -> nth_error (x_iters x) k = Some p ->
  match iter_finish p (s_heap (x_sys x)) with
  | Panics => next (p_it p) = Crash
  | Returned more p' h' =>
      result_of (Returned more p' h') = next (p_it p) /\ h' = s_heap (x_sys x) /\
      wf (buf_others (abs x) k) (p_buf p') h' /\ buf_ok h' (iter_buf p') /\ todo_ok h' p'
  | GoesOn p' h' => p' = p /\ h' = s_heap (x_sys x)
  end.
Proof.
  intros (I & T) E. destruct (buf_wf (abs x) k (iter_buf p) I (nth_abs x k p E)) as (W & O).
  change (b_arr (iter_buf p)) with (p_buf p) in W. change (s_heap (abs x)) with (s_heap (x_sys x)) in W, O.
  set (h := s_heap (x_sys x)) in *. unfold iter_finish. rewrite Forall_forall in T. specialize (T p (nth_error_In _ _ E)). unfold todo_ok in T.
  destruct (p_todo p) as [[size rest]|] eqn:To; [|now split]. cbv zeta.
  destruct T as (Er & Cl & r & d & Rv & Mx & Neg & Rf & Bp). fold h in Bp.
  pose proof (next_now (p_it p) Er Cl) as N. rewrite Rv in N. cbv zeta in N. cbn [i_max] in N. rewrite Mx in N.
  unfold decode_message in N. rewrite Neg in N. cbn [i_in i_max i_closed i_pb i_msg i_err] in N. rewrite Rf in N.
  assert (Fin : forall it, i_closed it = false -> buf_ok h (iter_buf (mk_piter it (p_buf p) (p_pool p) None))).
  { intros it C. split; [|cbn [iter_buf b_closed p_it]; congruence]. cbn [iter_buf p_todo b_len b_arr p_buf]. split; [lia|].
    destruct (p_buf p); cbn [buf_len]; unfold zlen; lia. }
  rewrite Bp. cbn [i_pb i_msg] in *.
  destruct (unmarshal mm_fields d (reset_mm (i_pb (p_it p)))) as [pb| |] eqn:Um.
  - destruct (from_mm pb (i_msg (p_it p))) as [u|e] eqn:Fm.
    + split; [now rewrite N|]. split; [reflexivity|]. split; [exact W|]. split; [|exact Logic.I]. now apply Fin.
    + split; [rewrite N; reflexivity|]. split; [reflexivity|]. split; [exact W|]. split; [|exact Logic.I]. now apply Fin.
  - split; [rewrite N; reflexivity|]. split; [reflexivity|]. split; [exact W|]. split; [|exact Logic.I]. now apply Fin.
  - exact N.
Qed.

Lemma close_ok x k p p' h' : xinv x -> nth_error (x_iters x) k = Some p -> p_todo p = None -> iter_close p (s_heap (x_sys x)) = (p', h') ->
  p_it p' = close_iter (p_it p) /\
  wf (buf_others (abs x) k) (p_buf p') h' /\ same_on (buf_others (abs x) k) (s_heap (x_sys x)) h' /\
  buf_ok h' (iter_buf p') /\ todo_ok h' p'.
Proof.
  intros (I & T) E To C. destruct (buf_wf (abs x) k (iter_buf p) I (nth_abs x k p E)) as (W & O).
  change (b_arr (iter_buf p)) with (p_buf p) in W. change (s_heap (abs x)) with (s_heap (x_sys x)) in W, O.
  unfold iter_close in C. destruct (i_closed (p_it p)) eqn:Cl; injection C as <- <-.
  - split; [unfold close_iter; now rewrite Cl|]. split; [exact W|]. split; [apply same_on_refl|]. split; [exact O|].
    unfold todo_ok. now rewrite To.
  - cbn [p_it p_buf]. split; [reflexivity|]. split; [now apply wf_put|]. split; [intros a _; apply put_data|]. split; [|exact Logic.I].
    split; [cbn; lia|reflexivity].
Qed.

(** ** All steps *)
Lemma set_same x k p : nth_error (x_iters x) k = Some p -> set_iter x k p (s_heap (x_sys x)) = x.
Proof. intros E. unfold set_iter. rewrite (set_nth_same _ _ _ E). destruct x as [[h es bs hs] its]. reflexivity. Qed.

(** What a step means for the iterators. *)
Lemma step_ok x o c x' a : xinv x -> fine o -> step x o c = Some (x', a) ->
  xinv x' /\
  match o with
  | On o => exists ok, a = Did ok /\ effect (observe (x_sys x)) o ok (observe (x_sys x')) /\ x_iters x' = x_iters x
  | IterNew pool init d max => observe (x_sys x') = observe (x_sys x) /\ exists p, x_iters x' = x_iters x ++ [p] /\ p_it p = new_iter d max
  | IterStart k | IterFinish k | IterClose k =>
      observe (x_sys x') = observe (x_sys x) /\ (forall j, j <> k -> nth_error (x_iters x') j = nth_error (x_iters x) j) /\
      forall p, nth_error (x_iters x) k = Some p ->
        exists p', nth_error (x_iters x') k = Some p' /\ alone_calls (p_it p) (call_of k (o, c, a)) (p_it p')
  end.
Proof.
  intros X Ok St. destruct o as [o|pool init d max|k|k|k]; cbn [step] in St.
  - destruct (run_op (x_sys x) o c) as [[s ok]|] eqn:R; [|discriminate St]. injection St as <- <-. destruct X as (I & T).
    pose proof (run_abs x o c) as Ra. rewrite R in Ra.
    assert (Oks : op_ok (shift (length (map iter_buf (x_iters x))) o)) by (destruct o; exact Ok).
    destruct (run_op_ok _ _ _ _ _ I Oks Ra) as (I' & Ef).
    destruct (run_op_ok _ _ _ _ _ (inv_sys x I) Ok R) as (_ & Ef').
    split; [split; [exact I'|]|].
    + cbn [x_sys x_iters]. rewrite Forall_forall in *. intros p P. specialize (T p P). unfold todo_ok in *.
      destruct (p_todo p) as [[size rest]|] eqn:To; [|exact Logic.I].
      destruct T as (Er & Cl & r & dd & H1 & H2 & H3 & H4 & H5). split; [exact Er|]. split; [exact Cl|]. exists r, dd.
      repeat (split; [assumption|]). apply In_nth_error in P as (j & J).
      assert (Lv : leaves j (shift (length (map iter_buf (x_iters x))) o)).
      { assert (j < length (map iter_buf (x_iters x)))%nat by (rewrite map_length; apply nth_error_Some; congruence).
        destruct o; try exact Logic.I; cbn [shift leaves]; lia. }
      pose proof (nth_obs_buf (abs x) j _ (nth_abs x j p J)) as Ob.
      pose proof (effect_other_buf _ _ _ _ j _ Ef Lv Ob) as Ob'.
      rewrite (nth_obs_buf (abs (mk_world s (x_iters x))) j (iter_buf p)) in Ob' by (now apply nth_abs).
      injection Ob' as Ob'. unfold obs_buf in Ob'. cbn [b_closed iter_buf] in Ob'. rewrite Cl in Ob'. injection Ob' as Ob'.
      unfold buf_bytes in Ob'. cbn [b_arr b_len iter_buf s_heap abs x_sys] in Ob'. rewrite To in Ob'.
      unfold buf_prefix in *. destruct (p_buf p); [|exact H5]. now rewrite Ob'.
    + exists ok. repeat split. exact Ef'.
  - destruct (iter_new pool init d max c (s_heap (x_sys x))) as [p h] eqn:N. injection St as <- <-. unfold iter_new in N.
    destruct (allocate pool init c (s_heap (x_sys x))) as [a h1] eqn:Al. injection N as <- <-.
    destruct X as (I & T). pose proof I as (W & Fe & Fb).
    destruct (allocate_ok _ _ _ _ _ _ _ W Al) as (W1 & S1 & _ & _). change (s_heap (abs x)) with (s_heap (x_sys x)) in *.
    unfold held_by, abs in W1, S1. cbn [s_encs s_bufs s_held] in W1, S1.
    set (es := s_encs (x_sys x)) in *. set (bs := s_bufs (x_sys x)) in *. set (ib := map iter_buf (x_iters x)) in *. set (hs := s_held (x_sys x)) in *.
    assert (Se : same_on (enc_addrs es) (s_heap (x_sys x)) h1) by (eapply same_on_incl; [|exact S1]; intros y Hy; apply in_or_app; now left).
    assert (Sb : same_on (buf_addrs (ib ++ bs)) (s_heap (x_sys x)) h1).
    { eapply same_on_incl; [|exact S1]. intros y Hy. apply in_or_app. right. apply in_or_app. now left. }
    assert (Sb1 : same_on (buf_addrs bs) (s_heap (x_sys x)) h1).
    { eapply same_on_incl; [|exact Sb]. intros y Hy. unfold buf_addrs. rewrite flat_map_app. apply in_or_app. now right. }
    split; [split; [split; [|split]|]|split].
    + unfold held_by, abs. cbn [x_sys x_iters s_heap s_encs s_bufs s_held]. apply wf_keep in W1. eapply wf_perm; [|exact W1].
      cbn [opt_list app]. rewrite map_app. cbn [map iter_buf p_buf p_todo p_pool p_it]. fold ib. unfold buf_addrs. rewrite !flat_map_app.
      cbn [flat_map b_arr opt_list app]. rewrite <- !app_assoc. cbn [app].
      rewrite (app_assoc (enc_addrs es)). rewrite (app_assoc (enc_addrs es) (flat_map _ ib)). apply Permutation_middle.
    + exact (proj2 (encs_same _ _ _ Se) Fe).
    + unfold abs. cbn [x_sys x_iters s_heap s_encs s_bufs s_held]. rewrite map_app. fold ib.
      pose proof (proj2 (bufs_same _ _ _ Sb) Fb) as F. apply Forall_app in F as (F1 & F2). apply Forall_app. split; [|exact F2].
      apply Forall_app. split; [exact F1|]. constructor; [|constructor]. split; [|discriminate].
      cbn [iter_buf b_len b_arr p_todo p_buf buf_len]. unfold zlen. lia.
    + cbn [x_sys x_iters s_heap]. apply Forall_app. split; [|constructor; [exact Logic.I|constructor]].
      rewrite Forall_forall in *. intros q Q. apply (todo_same _ _ _ _ Sb); [|now apply T].
      apply (buf_addrs_in (iter_buf q)). apply in_or_app. left. unfold ib. now apply in_map.
    + cbn [x_sys]. rewrite !observe_eq. cbn [s_heap s_encs s_bufs]. fold es bs. now rewrite (proj1 (encs_same _ _ _ Se)), (proj1 (bufs_same _ _ _ Sb1)).
    + eexists. split; [reflexivity|reflexivity].
  - destruct (nth_error (x_iters x) k) as [p|] eqn:E.
    2:{ injection St as <- <-. split; [exact X|]. split; [reflexivity|]. split; [reflexivity|]. intros p P. congruence. }
    destruct (p_todo p) as [t|] eqn:To.
    { injection St as <- <-. split; [exact X|]. split; [reflexivity|]. split; [reflexivity|]. intros q Q.
      exists q. split; [congruence|apply alone_none]. }
    pose proof (start_ok x k p c X E To) as SO. destruct (iter_start c p (s_heap (x_sys x))) as [more p' h'|p' h'|] eqn:Is; cbn [after_step] in St; [| |discriminate St].
    + injection St as <- <-. destruct SO as (Rs & A1 & A2 & A3 & A4). destruct (iter_step x k p p' h' X E A1 A2 A3 A4) as (X' & Ob & Rp).
      split; [exact X'|]. split; [exact Ob|]. destruct Rp as (_ & Rk & Rj). split; [exact Rj|]. intros q Q. assert (q = p) as -> by congruence.
      exists p'. split; [exact Rk|]. cbn [call_of]. destruct more; rewrite Nat.eqb_refl; cbn [result_of] in Rs.
      * change (selected (union_content (i_msg (p_it p')))) with (current (p_it p')). eapply alone_true; [symmetry; exact Rs|apply alone_none].
      * eapply alone_false; [symmetry; exact Rs|apply alone_none].
    + injection St as <- <-. destruct SO as (Rs & A1 & A2 & A3 & A4). destruct (iter_step x k p p' h' X E A1 A2 A3 A4) as (X' & Ob & Rp).
      split; [exact X'|]. split; [exact Ob|]. destruct Rp as (_ & Rk & Rj). split; [exact Rj|]. intros q Q. assert (q = p) as -> by congruence.
      exists p'. split; [exact Rk|]. rewrite Rs. apply alone_none.
  - destruct (nth_error (x_iters x) k) as [p|] eqn:E.
    2:{ injection St as <- <-. split; [exact X|]. split; [reflexivity|]. split; [reflexivity|]. intros p P. congruence. }
    pose proof (finish_ok x k p X E) as FO. destruct (iter_finish p (s_heap (x_sys x))) as [more p' h'|p' h'|] eqn:Is; cbn [after_step] in St; [| |discriminate St].
    + injection St as <- <-. destruct FO as (Rs & -> & A1 & A3 & A4). destruct (iter_step x k p p' _ X E A1 (same_on_refl _ _) A3 A4) as (X' & Ob & Rp).
      split; [exact X'|]. split; [exact Ob|]. destruct Rp as (_ & Rk & Rj). split; [exact Rj|]. intros q Q. assert (q = p) as -> by congruence.
      exists p'. split; [exact Rk|]. cbn [call_of]. destruct more; rewrite Nat.eqb_refl; cbn [result_of] in Rs.
      * change (selected (union_content (i_msg (p_it p')))) with (current (p_it p')). eapply alone_true; [symmetry; exact Rs|apply alone_none].
      * eapply alone_false; [symmetry; exact Rs|apply alone_none].
    + injection St as <- <-. destruct FO as (-> & ->). rewrite (set_same x k p E). split; [exact X|]. split; [reflexivity|]. split; [reflexivity|].
      intros q Q. exists q. split; [congruence|apply alone_none].
  - destruct (nth_error (x_iters x) k) as [p|] eqn:E.
    2:{ injection St as <- <-. split; [exact X|]. split; [reflexivity|]. split; [reflexivity|]. intros p P. congruence. }
    destruct (p_todo p) as [t|] eqn:To.
    { injection St as <- <-. split; [exact X|]. split; [reflexivity|]. split; [reflexivity|]. intros q Q.
      exists q. split; [congruence|apply alone_none]. }
    destruct (iter_close p (s_heap (x_sys x))) as [p' h'] eqn:Ic. injection St as <- <-.
    destruct (close_ok x k p p' h' X E To Ic) as (Cl & A1 & A2 & A3 & A4). destruct (iter_step x k p p' h' X E A1 A2 A3 A4) as (X' & Ob & Rp).
    split; [exact X'|]. split; [exact Ob|]. destruct Rp as (_ & Rk & Rj). split; [exact Rj|]. intros q Q. assert (q = p) as -> by congruence.
    exists p'. split; [exact Rk|]. cbn [call_of]. rewrite Nat.eqb_refl. apply alone_closed. rewrite Cl. apply alone_none.
Qed.

Lemma xinv_empty : xinv empty_world.
Proof. split; [exact inv_empty|constructor]. Qed.
Lemma steps_inv x l x' : steps x l x' -> all_fine l -> xinv x -> xinv x'.
Proof.
  induction 1 as [|x o c a x1 l x2 S _ IH]; intros F I; [exact I|]. inversion F as [|y r F1 F2]; subst. apply IH; [exact F2|].
  exact (proj1 (step_ok x o c x1 a I F1 S)).
Qed.
Lemma xreachable_inv x : xreachable x -> xinv x.
Proof. intros (l & S & F). exact (steps_inv _ _ _ S F xinv_empty). Qed.

Lemma alone_app it cs it1 cs' it2 : alone_calls it cs it1 -> alone_calls it1 cs' it2 -> alone_calls it (cs ++ cs') it2.
Proof. induction 1; intros H2; cbn [app]; [exact H2|eapply alone_true|eapply alone_false|apply alone_closed]; eauto. Qed.

(** A step of somebody else. *)
Lemma step_iter x o c x' a k p : xinv x -> fine o -> step x o c = Some (x', a) -> nth_error (x_iters x) k = Some p ->
  exists p', nth_error (x_iters x') k = Some p' /\ alone_calls (p_it p) (call_of k (o, c, a)) (p_it p').
Proof.
  intros X F S E. destruct (step_ok x o c x' a X F S) as (_ & H).
  assert (Other : forall j (o' : xop), (o' = IterStart j \/ o' = IterFinish j \/ o' = IterClose j) -> k <> j -> call_of k (o', c, a) = []).
  { intros j o' [->|[->| ->]] Ne; cbn [call_of]; destruct a; try reflexivity; destruct (Nat.eqb_spec j k); congruence. }
  destruct o as [o|pool init d max|j|j|j].
  - destruct H as (ok & -> & _ & Hi). exists p. rewrite Hi. split; [exact E|apply alone_none].
  - destruct H as (_ & q & Hi & _). exists p. rewrite Hi. split; [|apply alone_none]. rewrite nth_error_app1; [exact E|]. apply nth_error_Some. congruence.
  - destruct H as (_ & Hj & Hk). destruct (Nat.eq_dec k j) as [->|Ne]; [now apply Hk|]. exists p. rewrite (Hj k Ne), (Other j); auto. split; [exact E|apply alone_none].
  - destruct H as (_ & Hj & Hk). destruct (Nat.eq_dec k j) as [->|Ne]; [now apply Hk|]. exists p. rewrite (Hj k Ne), (Other j); auto. split; [exact E|apply alone_none].
  - destruct H as (_ & Hj & Hk). destruct (Nat.eq_dec k j) as [->|Ne]; [now apply Hk|]. exists p. rewrite (Hj k Ne), (Other j); auto. split; [exact E|apply alone_none].
Qed.

Lemma steps_iter x l x' : steps x l x' -> all_fine l -> xinv x -> forall k p, nth_error (x_iters x) k = Some p ->
  exists p', nth_error (x_iters x') k = Some p' /\ alone_calls (p_it p) (calls k l) (p_it p').
Proof.
  induction 1 as [x|x o c a x1 l x2 S _ IH]; intros F I k p E; [exists p; split; [exact E|apply alone_none]|].
  inversion F as [|y r F1 F2]; subst. cbn [fst] in F1.
  destruct (step_iter x o c x1 a k p I F1 S E) as (p1 & E1 & A1).
  destruct (IH F2 (proj1 (step_ok x o c x1 a I F1 S)) k p1 E1) as (p2 & E2 & A2).
  exists p2. split; [exact E2|]. unfold calls. cbn [flat_map]. now apply (alone_app _ _ (p_it p1)).
Qed.

(** ** What is shown *)
Lemma next_stays it it' : next it = Stop it' -> forall e, i_err it' = Some e -> next it' = Stop it'.
Proof. intros _ e E. unfold next. now rewrite E. Qed.
Lemma shown_after_stop it cs it' : alone_calls it cs it' -> next it = Stop it -> shown cs = [].
Proof.
  induction 1 as [it|it it1 cs it2 N _ IH|it it1 cs it2 N _ IH|it cs it2 _ IH]; intros S.
  - reflexivity.
  - congruence.
  - rewrite S in N. injection N as <-. cbn [shown flat_map app]. apply IH, S.
  - cbn [shown flat_map app]. apply IH. unfold close_iter, next. destruct (i_closed it) eqn:C.
    + unfold next in S. rewrite C in *. destruct (i_err it); exact S.
    + reflexivity.
Qed.
Lemma close_stops it : next (close_iter it) = Stop (close_iter it).
Proof. unfold close_iter, next. destruct (i_closed it) eqn:C; [rewrite C; now destruct (i_err it)|reflexivity]. Qed.

Lemma shown_ok it ms e : decoded it ms e -> forall cs it', alone_calls it cs it' ->
  (exists n, shown cs = firstn n (map Some ms)) /\
  (~ In Closed cs -> In NextFalse cs -> shown cs = map Some ms /\ i_err it' = Some e).
Proof.
  induction 1 as [it it1 e N Er|it it1 m ms e N C D IH]; intros cs it' A.
  - assert (Sh : shown cs = []).
    { inversion A as [|? ? ? ? N'|? ? cs' ? N' A'|? cs' ? A']; subst; [reflexivity|congruence| |].
      - rewrite N in N'. injection N' as <-. cbn [shown flat_map app]. apply (shown_after_stop _ _ _ A'). now apply (next_stays it it1 N e).
      - cbn [shown flat_map app]. apply (shown_after_stop _ _ _ A'). apply close_stops. }
    split; [exists 0%nat; now rewrite Sh|]. intros NC NF. split; [exact Sh|].
    inversion A as [|? ? ? ? N'|? ? cs' ? N' A'|? cs' ? A']; subst; [destruct NF|congruence| |].
    + rewrite N in N'. injection N' as <-. assert (NC' : ~ In Closed cs') by (intros Z; apply NC; now right). clear - A' Er NC'.
      assert (S : next it1 = Stop it1) by (unfold next; now rewrite Er).
      induction A' as [it|it it1' cs it2 N _ IH|it it1' cs it2 N _ IH|it cs it2 _ IH].
      * exact Er.
      * congruence.
      * rewrite S in N. injection N as <-. apply IH; [exact Er| |exact S]. intros Z. apply NC'. now right.
      * exfalso. apply NC'. now left.
    + exfalso. apply NC. now left.
  - inversion A as [|? ? cs' ? N' A'|? ? cs' ? N' A'|? cs' ? A']; subst.
    + split; [now exists 0%nat|]. intros _ [].
    + rewrite N in N'. injection N' as <-. destruct (IH cs' it' A') as ((n & Hn) & H2). rewrite C. split.
      * exists (S n). cbn [shown flat_map app map firstn]. f_equal. exact Hn.
      * intros NC NF. destruct H2 as (H2 & H3); [intros Z; apply NC; now right|destruct NF as [Z|Z]; [discriminate Z|exact Z]|].
        split; [|exact H3]. cbn [shown flat_map app map]. f_equal. exact H2.
    + congruence.
    + split.
      * exists 0%nat. cbn [shown flat_map app firstn]. apply (shown_after_stop _ _ _ A'). apply close_stops.
      * intros NC. exfalso. apply NC. now left.
Qed.

(** ** Panics *)
Lemma step_panics x o c : xinv x -> step x o c = None ->
  (exists k p, (o = IterStart k \/ o = IterFinish k) /\ nth_error (x_iters x) k = Some p /\ next (p_it p) = Crash) \/
  (exists j n, o = On (BufTruncate j n) /\ forall y, nth_error (v_bufs (observe (x_sys x))) j = Some (Some y) -> ~ 0 <= n <= zlen y).
Proof.
  intros X St. destruct o as [o|pool init d max|k|k|k]; cbn [step] in St.
  - destruct (run_op (x_sys x) o c) as [[s ok]|] eqn:R; [discriminate St|]. right.
    destruct (run_op_panic _ _ _ (inv_sys x (proj1 X)) R) as (j & n & -> & H). exists j, n. now split.
  - destruct (iter_new pool init d max c (s_heap (x_sys x))). discriminate St.
  - destruct (nth_error (x_iters x) k) as [p|] eqn:E; [|discriminate St]. destruct (p_todo p) eqn:To; [discriminate St|].
    pose proof (start_ok x k p c X E To) as SO. destruct (iter_start c p (s_heap (x_sys x))); cbn [after_step] in St; try discriminate St.
    left. exists k, p. auto.
  - destruct (nth_error (x_iters x) k) as [p|] eqn:E; [|discriminate St].
    pose proof (finish_ok x k p X E) as FO. destruct (iter_finish p (s_heap (x_sys x))); cbn [after_step] in St; try discriminate St.
    left. exists k, p. auto.
  - destruct (nth_error (x_iters x) k) as [p|] eqn:E; [|discriminate St]. destruct (p_todo p); [discriminate St|].
    destruct (iter_close p (s_heap (x_sys x))). discriminate St.
Qed.
