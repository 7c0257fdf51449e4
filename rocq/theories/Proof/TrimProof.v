(** Cutting white space off both ends of a string. *)
From Coq Require Import Ascii String Arith NArith ZArith Bool Lia Wf_nat List.
From Verif.Base Require Import Bytes BytesFacts.
From Verif.Spec Require Import TextSpec FilterSpec.
Import ListNotations.

Lemma has_prefix_split s w : has_prefix s w = true <-> exists r, s = w ++ r.
Proof.
  revert s; induction w as [|a w IH]; intros s; cbn [has_prefix].
  - split; [intros _; now exists s|reflexivity].
  - destruct s as [|b s]; [split; [discriminate|intros (r & E); discriminate]|].
    rewrite andb_true_iff, IH, Ascii.eqb_eq. split.
    + intros [-> (r & ->)]. now exists r.
    + intros (r & E). injection E as -> ->. eauto.
Qed.

Section Trim.
  Context (ws : list bytes).
  Hypothesis no_empty : forall w, In w ws -> w <> [].
  Hypothesis prefix_free : forall w w' x y, In w ws -> In w' ws -> w ++ x = w' ++ y -> w = w'.

  Lemma cut_some s r : cut_one ws s = Some r -> exists w, In w ws /\ s = w ++ r.
  Proof.
    clear. induction ws as [|w l IH]; cbn [cut_one]; [discriminate|].
    destruct (has_prefix s w) eqn:E.
    - intros [= <-]. apply has_prefix_split in E as (r & ->). exists w. split; [now left|].
      rewrite skipn_app, skipn_all, Nat.sub_diag. reflexivity.
    - intros H. destruct (IH H) as (w' & ? & ?). exists w'. split; [now right|auto].
  Qed.

  Lemma cut_none s : cut_one ws s = None -> forall w r, In w ws -> s <> w ++ r.
  Proof.
    clear. induction ws as [|w l IH]; cbn [cut_one]; [intros _ w r []|].
    destruct (has_prefix s w) eqn:E; [discriminate|].
    intros H w' r [<-|Hin]; [|now apply IH]. intros ->.
    assert (has_prefix (w ++ r) w = true) by (apply has_prefix_split; eauto). congruence.
  Qed.

  Lemma cut_app w s : In w ws -> cut_one ws (w ++ s) = Some s.
  Proof.
    intros Hin. destruct (cut_one ws (w ++ s)) as [r|] eqn:E.
    - apply cut_some in E as (w' & Hin' & E). rewrite (prefix_free w w' s r Hin Hin' E) in E.
      apply app_inv_head in E. now subst.
    - exfalso. now apply (cut_none _ E w s Hin).
  Qed.

  Lemma cut_shorter s r : cut_one ws s = Some r -> length r < length s.
  Proof.
    intros H. apply cut_some in H as (w & Hin & ->). apply no_empty in Hin. rewrite app_length.
    destruct w; [congruence|cbn [length]; lia].
  Qed.

  Lemma trim_fuel f : forall s, length s <= f -> trim_start ws f s = trim_start ws (length s) s.
  Proof.
    induction f as [f IH] using (well_founded_induction lt_wf). intros s L.
    destruct f as [|f]; [destruct s; [reflexivity|cbn [length] in L; lia]|].
    destruct (length s) as [|n] eqn:Ls.
    - destruct s; [|discriminate]. cbn [trim_start]. destruct (cut_one ws []) as [r|] eqn:E; [|reflexivity].
      apply cut_shorter in E. cbn [length] in E. lia.
    - cbn [trim_start]. destruct (cut_one ws s) as [r|] eqn:E; [|reflexivity].
      apply cut_shorter in E. rewrite (IH f) by lia. destruct (Nat.eq_dec n f) as [->|]; [symmetry; apply IH; lia|].
      symmetry. apply IH; lia.
  Qed.

  Definition T (s : bytes) : bytes := trim_start ws (length s) s.

  Lemma T_app w s : In w ws -> T (w ++ s) = T s.
  Proof.
    intros H. unfold T. pose proof (cut_app w s H) as E. pose proof (cut_shorter _ _ E) as L.
    destruct (length (w ++ s)) as [|n]; [lia|]. cbn [trim_start]. rewrite E. apply trim_fuel. lia.
  Qed.

  Lemma T_concat l s : Forall (fun w => In w ws) l -> T (concat l ++ s) = T s.
  Proof. induction 1 as [|w l Hw _ IH]; [reflexivity|]. cbn [concat]. now rewrite <- app_assoc, T_app. Qed.

  Lemma T_none s : (forall w r, In w ws -> s <> w ++ r) -> T s = s.
  Proof.
    intros H. unfold T. destruct (length s); [reflexivity|]. cbn [trim_start].
    destruct (cut_one ws s) as [r|] eqn:E; [|reflexivity]. apply cut_some in E as (w & Hw & ->).
    exfalso. now apply (H w r Hw).
  Qed.

  Lemma T_spec s : exists l, Forall (fun w => In w ws) l /\ s = concat l ++ T s /\ forall w r, In w ws -> T s <> w ++ r.
  Proof.
    remember (length s) as n eqn:L. revert s L.
    induction n as [n IH] using (well_founded_induction lt_wf). intros s ->.
    destruct (cut_one ws s) as [r|] eqn:E.
    - pose proof (cut_shorter _ _ E) as Lr. apply cut_some in E as (w & Hw & ->).
      destruct (IH _ Lr r eq_refl) as (l & Hl & Er & Hr). exists (w :: l).
      split; [now constructor|]. rewrite T_app by exact Hw. split; [|exact Hr].
      cbn [concat]. rewrite <- app_assoc. now rewrite <- Er.
    - pose proof (cut_none _ E) as Hn. exists []. rewrite T_none by exact Hn. split; [constructor|]. now split.
  Qed.

  (** A byte that continues an element never starts one. *)
  Context (starts : ascii -> Prop).
  Hypothesis in_step : forall w, In w ws -> exists a t, w = a :: t /\ starts a /\ forall c, In c t -> ~ starts c.

  Lemma T_snoc s w : In w ws -> T (s ++ w) = match T s with [] => [] | t => t ++ w end.
  Proof.
    intros Hw. remember (length s) as n eqn:L. revert s L.
    induction n as [n IH] using (well_founded_induction lt_wf). intros s ->.
    destruct (cut_one ws s) as [r|] eqn:E.
    - pose proof (cut_shorter _ _ E) as Lr. apply cut_some in E as (w' & Hw' & ->).
      rewrite <- app_assoc, (T_app w' (r ++ w) Hw'), (T_app w' r Hw'). exact (IH _ Lr r eq_refl).
    - pose proof (cut_none _ E) as Hn. rewrite (T_none s) by exact Hn. destruct s as [|a s].
      + cbn [app]. rewrite <- (app_nil_r w) at 1. rewrite T_app by exact Hw. reflexivity.
      + apply T_none. intros w' r Hw' Eq.
        destruct (app_eq_app _ _ _ _ Eq) as (l & [[E1 E2]|[E1 E2]]).
        * now apply (Hn w' l Hw').
        * destruct l as [|c l].
          -- rewrite app_nil_r in E1. apply (Hn w' [] Hw'). now rewrite app_nil_r.
          -- destruct (in_step w Hw) as (a1 & t1 & -> & S1 & _). injection E2 as -> _.
             destruct (in_step w' Hw') as (a2 & t2 & -> & _ & S2). injection E1 as _ ->.
             apply (S2 c); [|exact S1]. apply in_or_app; right; now left.
  Qed.
End Trim.

(** ** White space *)

Lemma spaces_no_empty w : In w white_space -> w <> [].
Proof.
  assert (H : forallb (fun w => match w with [] => false | _ => true end) white_space = true) by (vm_compute; reflexivity).
  rewrite forallb_forall in H. intros Hin. specialize (H w Hin). now destruct w.
Qed.

Lemma overlap (w w' x y : bytes) : w ++ x = w' ++ y -> has_prefix w w' = true \/ has_prefix w' w = true.
Proof.
  intros E. destruct (app_eq_app _ _ _ _ E) as (l & [[-> _]|[-> _]]); [left|right]; apply has_prefix_split; eauto.
Qed.

Lemma prefix_free_of l :
  forallb (fun w => forallb (fun w' => implb (has_prefix w w' || has_prefix w' w) (beqb w w')) l) l = true ->
  forall w w' x y, In w l -> In w' l -> w ++ x = w' ++ y -> w = w'.
Proof.
  intros H w w' x y Hw Hw' E. rewrite forallb_forall in H. specialize (H w Hw). rewrite forallb_forall in H.
  specialize (H w' Hw'). apply beqb_eq. apply overlap in E. rewrite <- orb_true_iff in E. now rewrite E in H.
Qed.

Lemma spaces_prefix_free w w' x y : In w white_space -> In w' white_space -> w ++ x = w' ++ y -> w = w'.
Proof. apply prefix_free_of. vm_compute. reflexivity. Qed.

Notation spaces_rev := (map (@rev ascii) white_space).
Lemma rev_no_empty w : In w spaces_rev -> w <> [].
Proof.
  intros H. apply in_map_iff in H as (u & <- & Hu). apply spaces_no_empty in Hu. intros E. apply Hu.
  apply (f_equal (@rev ascii)) in E. now rewrite rev_involutive in E.
Qed.
Lemma rev_prefix_free w w' x y : In w spaces_rev -> In w' spaces_rev -> w ++ x = w' ++ y -> w = w'.
Proof. apply prefix_free_of. vm_compute. reflexivity. Qed.

Definition lead (a : ascii) : Prop := (N_of_ascii a < 128 \/ 192 <= N_of_ascii a)%N.
Lemma spaces_step w : In w white_space -> exists a t, w = a :: t /\ lead a /\ forall c, In c t -> ~ lead c.
Proof.
  assert (H : forallb (fun w => match w with
                                | [] => false
                                | a :: t => ((N_of_ascii a <? 128) || (192 <=? N_of_ascii a))%N &&
                                    forallb (fun c => ((128 <=? N_of_ascii c) && (N_of_ascii c <? 192))%N) t
                                end) white_space = true) by (vm_compute; reflexivity).
  rewrite forallb_forall in H. intros Hin. specialize (H w Hin). destruct w as [|a t]; [discriminate|].
  apply andb_true_iff in H as [Ha Ht]. exists a, t. split; [reflexivity|]. unfold lead. split.
  - apply orb_true_iff in Ha as [Ha|Ha]; [left; now apply N.ltb_lt|right; now apply N.leb_le].
  - intros c Hc. rewrite forallb_forall in Ht. specialize (Ht c Hc). apply andb_true_iff in Ht as [H1 H2].
    apply N.leb_le in H1. apply N.ltb_lt in H2. lia.
Qed.

(** The encodings of the model are those of the code points. *)
Lemma white_iff w : white w <-> In w white_space.
Proof.
  split.
  - intros (c & Hc & ->). unfold white_point in Hc.
    assert (E : In c [9;10;11;12;13;0x20;0x85;0xA0;0x1680;0x2000;0x2001;0x2002;0x2003;0x2004;0x2005;0x2006;0x2007;0x2008;
                      0x2009;0x200A;0x2028;0x2029;0x202F;0x205F;0x3000]%N) by (cbn [In]; lia).
    assert (H : forallb (fun c => existsb (beqb (utf8_encode c)) white_space)
      [9;10;11;12;13;0x20;0x85;0xA0;0x1680;0x2000;0x2001;0x2002;0x2003;0x2004;0x2005;0x2006;0x2007;0x2008;
                      0x2009;0x200A;0x2028;0x2029;0x202F;0x205F;0x3000]%N = true) by (vm_compute; reflexivity).
    rewrite forallb_forall in H. specialize (H c E). apply existsb_exists in H as (w & Hw & B). apply beqb_eq in B. now rewrite B.
  - assert (H : forallb (fun w => existsb (fun c => beqb w (utf8_encode c))
      [9;10;11;12;13;0x20;0x85;0xA0;0x1680;0x2000;0x2001;0x2002;0x2003;0x2004;0x2005;0x2006;0x2007;0x2008;
                      0x2009;0x200A;0x2028;0x2029;0x202F;0x205F;0x3000]%N) white_space = true) by (vm_compute; reflexivity).
    rewrite forallb_forall in H. intros Hw. specialize (H w Hw). apply existsb_exists in H as (c & Hc & B). apply beqb_eq in B.
    exists c. split; [|exact B]. unfold white_point. cbn [In] in Hc. lia.
Qed.

Lemma white_rev w : white w -> In (rev w) spaces_rev.
Proof. intros H. apply in_map. now apply white_iff. Qed.
Lemma rev_white w : In w spaces_rev -> white (rev w).
Proof. intros H. apply in_map_iff in H as (u & <- & Hu). rewrite rev_involutive. now apply white_iff. Qed.

Lemma white_space_char : white [" "%char].
Proof. exists 32%N. split; [right; now left|reflexivity]. Qed.
Lemma white_no_space w : white w -> w = [" "%char] \/ ~ In " "%char w.
Proof.
  intros H. apply white_iff in H.
  assert (E : forallb (fun w => beqb w [" "%char] || negb (existsb (Ascii.eqb " "%char) w)) white_space = true) by (vm_compute; reflexivity).
  rewrite forallb_forall in E. specialize (E w H). apply orb_true_iff in E as [E|E]; [left; now apply beqb_eq|right].
  intros Hin. apply negb_true_iff in E. assert (existsb (Ascii.eqb " "%char) w = true) by
    (apply existsb_exists; exists " "%char; split; [exact Hin|apply Ascii.eqb_refl]). congruence.
Qed.

(** ** [blanks] *)

Lemma blanks_nil : blanks [].
Proof. exists []. split; [constructor|reflexivity]. Qed.
Lemma blanks_cons w s : white w -> blanks s -> blanks (w ++ s).
Proof. intros H (l & Hl & ->). exists (w :: l). split; [now constructor|reflexivity]. Qed.
Lemma blanks_app a b : blanks a -> blanks b -> blanks (a ++ b).
Proof.
  intros (l & Hl & ->) (m & Hm & ->). exists (l ++ m). split; [now apply Forall_app|]. symmetry. apply concat_app.
Qed.
Lemma blanks_one w : white w -> blanks w.
Proof. intros H. rewrite <- (app_nil_r w). apply blanks_cons; [exact H|apply blanks_nil]. Qed.
Lemma blanks_ind (P : bytes -> Prop) : P [] -> (forall w s, white w -> P s -> P (w ++ s)) -> forall s, blanks s -> P s.
Proof.
  intros H0 H1 s (l & Hl & ->). induction Hl as [|w l Hw _ IH]; [exact H0|]. cbn [concat]. now apply H1.
Qed.
Lemma blanks_rind (P : bytes -> Prop) : P [] -> (forall w s, white w -> P s -> P (s ++ w)) -> forall s, blanks s -> P s.
Proof.
  intros H0 H1 s (l & Hl & ->). induction l as [|w l IH] using rev_ind; [exact H0|].
  apply Forall_app in Hl as [Hl Hw]. rewrite concat_app. cbn [concat]. rewrite app_nil_r. apply H1; [now inversion Hw|now apply IH].
Qed.

(** ** Trimming *)

Lemma concat_rev (l : list bytes) : rev (concat l) = concat (rev (map (@rev ascii) l)).
Proof.
  induction l as [|w l IH]; [reflexivity|]. cbn [concat map rev]. rewrite rev_app_distr, concat_app, IH. cbn [concat].
  now rewrite app_nil_r.
Qed.

Lemma trim_left_spec s : exists l, s = l ++ trim_left s /\ blanks l /\ forall w r, trim_left s = w ++ r -> ~ white w.
Proof.
  destruct (T_spec white_space spaces_no_empty spaces_prefix_free s) as (l & Hl & E & Hn).
  exists (concat l). split; [exact E|]. split.
  - exists l. split; [|reflexivity]. revert Hl. apply Forall_impl. intros w. apply white_iff.
  - intros w r Er Hw. apply white_iff in Hw. now apply (Hn w r Hw).
Qed.

Lemma trim_right_spec s : exists l, s = trim_right s ++ l /\ blanks l /\ forall w r, trim_right s = r ++ w -> ~ white w.
Proof.
  destruct (T_spec spaces_rev rev_no_empty rev_prefix_free (rev s)) as (l & Hl & E & Hn).
  unfold T in *. rewrite rev_length in *. exists (rev (concat l)).
  split; [|split].
  - unfold trim_right. rewrite <- rev_app_distr, <- E. now rewrite rev_involutive.
  - exists (rev (map (@rev ascii) l)). split; [|apply concat_rev].
    apply Forall_rev. apply Forall_map. revert Hl. apply Forall_impl. intros w. apply rev_white.
  - intros w r Er Hw. unfold trim_right in Er. apply (f_equal (@rev ascii)) in Er. rewrite rev_involutive, rev_app_distr in Er.
    apply (Hn (rev w) (rev r)); [now apply white_rev|exact Er].
Qed.

Lemma trim_space_spec s :
  exists l r, s = l ++ trim_space s ++ r /\ blanks l /\ blanks r /\
    (forall w x, trim_space s = w ++ x -> ~ white w) /\
    (forall w x, trim_space s = x ++ w -> ~ white w).
Proof.
  unfold trim_space. destruct (trim_left_spec s) as (l & Hl & Bl & Hh).
  destruct (trim_right_spec (trim_left s)) as (r & Hr & Br & Hh').
  exists l, r. split; [now rewrite <- Hr|]. split; [exact Bl|]. split; [exact Br|]. split; [|exact Hh'].
  intros w x E. apply (Hh w (x ++ r)). rewrite app_assoc, <- E. exact Hr.
Qed.

Lemma trim_right_app s w : white w -> trim_right (s ++ w) = trim_right s.
Proof.
  intros H. unfold trim_right. f_equal. rewrite rev_app_distr, <- (rev_length (s ++ w)), rev_app_distr.
  change (T spaces_rev (rev w ++ rev s) = trim_start spaces_rev (length s) (rev s)).
  rewrite (T_app _ rev_no_empty rev_prefix_free) by now apply white_rev. unfold T. now rewrite rev_length.
Qed.

Lemma trim_space_blank_l w s : white w -> trim_space (w ++ s) = trim_space s.
Proof.
  intros H. unfold trim_space. f_equal. apply (T_app white_space spaces_no_empty spaces_prefix_free). now apply white_iff.
Qed.

Lemma trim_space_blank_r w s : white w -> trim_space (s ++ w) = trim_space s.
Proof.
  intros H. unfold trim_space.
  change (trim_left (s ++ w)) with (T white_space (s ++ w)).
  rewrite (T_snoc white_space spaces_no_empty spaces_prefix_free lead spaces_step) by now apply white_iff.
  change (T white_space s) with (trim_left s). destruct (trim_left s) as [|a t]; [reflexivity|]. now apply trim_right_app.
Qed.

Lemma trim_space_id s :
  (forall w r, s = w ++ r -> ~ white w) -> (forall w r, s = r ++ w -> ~ white w) -> trim_space s = s.
Proof.
  intros H1 H2. unfold trim_space. replace (trim_left s) with s.
  - unfold trim_right. rewrite <- rev_length at 1. change (rev (T spaces_rev (rev s)) = s).
    rewrite T_none; [apply rev_involutive|]. intros w r Hw E. apply rev_white in Hw.
    apply (H2 (rev w) (rev r)); [|exact Hw]. rewrite <- rev_app_distr, <- E. now rewrite rev_involutive.
  - symmetry. apply T_none. intros w r Hw E. apply (H1 w r E). now apply white_iff.
Qed.
