(** Parts of memory that a match writes to, parts that it does not write to any more, and slices that are
    built in memory that nobody else has. *)
From Coq Require Import Ascii String Arith NArith ZArith Bool Lia Permutation List.
From Verif.Proof Require Import MemProof MemSep RuleMemCopy RuleMemRules.
From Verif.Base Require Import Bytes Mem.
From Verif.Model Require Import AggType Policy Transformation Pipeline Metadata Filter MetricID Rules RuleSet
  RuleMem MatchMem.
From Verif.Spec Require Import RuleMemSpec MatchMemSpec.
Import ListNotations.
Open Scope nat_scope.

Ltac perm := apply (Permutation_count_occ Nat.eq_dec); intro; rewrite ?count_occ_app; cbn [count_occ]; lia.

Definition same (m m' : memory) (W : list nat) (F : list look) : Prop :=
  forall p, In p W \/ In p (map addr F) -> m_at m' p = m_at m p.

Lemma same_shows m m' W F v t : same m m' W F -> shows m v t F -> shows m' v t F.
Proof. intros H Hs. apply (shows_frame m m' v t F Hs). apply agree_all_same. intros p Hp. apply H. right. exact Hp. Qed.
Lemma same_incl m m' W F W' F' : same m m' W F -> incl W' W -> incl F' F -> same m m' W' F'.
Proof.
  intros H HW HF p [Hp|Hp]; apply H; [left; auto|right]. apply in_map_iff in Hp. destruct Hp as (l & <- & Hl).
  apply in_map. auto.
Qed.

Lemma skipn_twice {A} off len (l : list A) : skipn len (skipn off l) = skipn (off + len) l.
Proof.
  revert l. induction off as [|off IH]; intros l; [reflexivity|].
  destruct l; [destruct len; reflexivity|]. cbn [skipn plus]. apply IH.
Qed.

Section Sep.
  (** the memory before the match, and what it may refer to of it *)
  Context (m0 : memory) (G : list look) (HG : Forall (fun l => addr l < m_next m0) G).

  (** [W] may be written to, what [F] looks at may not *)
  Definition ok (m : memory) (W : list nat) (F : list look) : Prop :=
    old m0 m /\ NoDup W /\ (forall p, In p W -> m_next m0 <= p < m_next m) /\
    (forall l, In l F -> addr l < m_next m /\ (m_next m0 <= addr l \/ In l G) /\ ~ In (addr l) W).

  Definition kept (W : list nat) (m m' : memory) : Prop :=
    m_next m <= m_next m' /\ forall p, p < m_next m -> ~ In p W -> m_at m' p = m_at m p.

  Definition run {X} (W : list nat) (F : list look) (e : prog X) (m : memory)
      (Q : X -> memory -> list nat -> list look -> Prop) : Prop :=
    exists x m' W' F', e m = Some (x, m') /\ kept W m m' /\ ok m' W' F' /\
      (forall p, In p W' -> In p W \/ m_next m <= p) /\
      (forall l, In l F' -> In l F \/ In (addr l) W \/ m_next m <= addr l \/ In l G) /\ Q x m' W' F'.

  Lemma HG' l : In l G -> addr l < m_next m0.
  Proof. intro H. exact (proj1 (Forall_forall _ _) HG l H). Qed.

  Lemma ok_shrink m W F W' F' :
    ok m W F -> NoDup W' -> incl W' W ->
    (forall l, In l F' -> ~ In (addr l) W' /\ (In l F \/ In (addr l) W)) -> ok m W' F'.
  Proof.
    intros (H0 & H1 & H2 & H3) Hn Hi HF. split; [exact H0|]. split; [exact Hn|]. split; [auto|].
    intros l Hl. destruct (HF l Hl) as [K [J|J]].
    - destruct (H3 l J) as (A & B & _). auto.
    - destruct (H2 _ J). split; [lia|]. split; [left; lia|exact K].
  Qed.
  Lemma ok_incl m W F F' : ok m W F -> incl F' F -> ok m W F'.
  Proof.
    intros H Hi. apply (ok_shrink m W F W F' H); [exact (proj1 (proj2 H))|apply incl_refl|]. intros l Hl.
    split; [exact (proj2 (proj2 (proj2 (proj2 (proj2 H)) l (Hi l Hl))))|left; auto].
  Qed.
  Lemma ok_perm m W F W' F' : ok m W F -> Permutation W W' -> incl F' F -> ok m W' F'.
  Proof.
    intros H HP Hi. apply (ok_shrink m W F W' F' H).
    - exact (Permutation_NoDup HP (proj1 (proj2 H))).
    - intros p Hp. exact (Permutation_in _ (Permutation_sym HP) Hp).
    - intros l Hl. split; [|left; auto]. intro K. apply (proj2 (proj2 (proj2 (proj2 (proj2 H)) l (Hi l Hl)))).
      exact (Permutation_in _ (Permutation_sym HP) K).
  Qed.
  Lemma ok_right m W F W2 F2 : ok m (W ++ W2) (F ++ F2) -> ok m W F.
  Proof.
    intro H. apply (ok_shrink _ _ _ _ _ H).
    - pose proof (proj1 (proj2 H)) as Hn. clear - Hn. induction W as [|p W IH]; [constructor|].
      cbn [app] in Hn. inversion Hn; subst. constructor; [|auto]. intro K. apply H1. apply in_or_app. auto.
    - apply incl_appl, incl_refl.
    - intros l Hl. assert (In l (F ++ F2)) as K by (apply in_or_app; auto).
      split; [|auto]. intro J. apply (proj2 (proj2 (proj2 (proj2 (proj2 H)) l K))). apply in_or_app. auto.
  Qed.
  Lemma ok_left m W F W2 F2 : ok m (W ++ W2) (F ++ F2) -> ok m W2 F2.
  Proof.
    intro H. apply (ok_right m W2 F2 W F). apply (ok_perm _ _ _ _ _ H); [perm|].
    intros l. rewrite !in_app_iff. tauto.
  Qed.

  Lemma kept_trans W W1 m m1 m2 :
    kept W m m1 -> kept W1 m1 m2 -> (forall p, In p W1 -> In p W \/ m_next m <= p) -> kept W m m2.
  Proof.
    intros [A B] [C D] H. split; [lia|]. intros p Hp Hn. rewrite D; [apply B; assumption|lia|].
    intro K. destruct (H p K); [contradiction|lia].
  Qed.
  Lemma ok_kept m W F m' : ok m W F -> kept W m m' -> ok m' W F.
  Proof.
    intros (H0 & H1 & H2 & H3) [A B]. split; [|split; [exact H1|split]].
    - destruct H0 as [N E]. split; [lia|]. intros p Hp. rewrite B; [apply E; exact Hp|lia|].
      intro K. specialize (H2 p K). lia.
    - intros p Hp. specialize (H2 p Hp). lia.
    - intros l Hl. destruct (H3 l Hl) as (K1 & K2 & K3). split; [lia|auto].
  Qed.
  Lemma kept_same m W F W2 F2 m' : ok m (W ++ W2) (F ++ F2) -> kept W m m' -> same m m' W2 F2.
  Proof.
    intros (_ & H1 & H2 & H3) [_ B] p [Hp|Hp].
    - apply B; [apply H2; apply in_or_app; auto|]. intro K. clear - H1 Hp K. induction W as [|q W IH]; [contradiction|].
      cbn [app] in H1. inversion H1; subst. destruct K as [->|K]; [|auto]. apply H2. apply in_or_app. auto.
    - apply in_map_iff in Hp. destruct Hp as (l & <- & Hl).
      destruct (H3 l (in_or_app _ _ _ (or_intror Hl))) as (K1 & _ & K3). apply B; [exact K1|].
      intro K. apply K3. apply in_or_app. auto.
  Qed.

  Lemma run_ret {X} W F (x : X) m (Q : X -> memory -> list nat -> list look -> Prop) :
    ok m W F -> Q x m W F -> run W F (ret x) m Q.
  Proof. intros H K. exists x, m, W, F. split; [reflexivity|]. split; [split; auto|]. auto. Qed.

  Lemma run_bind {X Y} W F (e : prog X) (k : X -> prog Y) m Q1 Q :
    run W F e m Q1 ->
    (forall x m1 W1 F1, kept W m m1 -> ok m1 W1 F1 -> Q1 x m1 W1 F1 -> run W1 F1 (k x) m1 Q) ->
    run W F (bind e k) m Q.
  Proof.
    intros (x & m1 & W1 & F1 & E & Hk & Ho & HW & HF & HQ) K.
    destruct (K x m1 W1 F1 Hk Ho HQ) as (y & m2 & W2 & F2 & E2 & Hk2 & Ho2 & HW2 & HF2 & HQ2).
    exists y, m2, W2, F2. unfold bind. rewrite E. split; [exact E2|].
    split; [exact (kept_trans _ _ _ _ _ Hk Hk2 HW)|]. split; [exact Ho2|]. pose proof (proj1 Hk) as Hn. split; [|split; [|exact HQ2]].
    - intros p Hp. destruct (HW2 p Hp) as [J|J]; [exact (HW p J)|right; lia].
    - intros l Hl. destruct (HF2 l Hl) as [J|[J|[J|J]]]; [exact (HF l J)| | |auto].
      + destruct (HW _ J); auto.
      + right. right. left. lia.
  Qed.

  Lemma run_read {X Y} W F (e : prog X) (k : X -> prog Y) m x Q :
    e m = Some (x, m) -> run W F (k x) m Q -> run W F (bind e k) m Q.
  Proof. intros E (y & m' & W' & F' & E' & H). exists y, m', W', F'. unfold bind. rewrite E. auto. Qed.

  Lemma run_impl {X} W F (e : prog X) m (Q Q' : X -> memory -> list nat -> list look -> Prop) :
    run W F e m Q -> (forall x m' W' F', kept W m m' -> ok m' W' F' -> Q x m' W' F' -> Q' x m' W' F') -> run W F e m Q'.
  Proof. intros (x & m' & W' & F' & A & B & C & D & E & H) K. exists x, m', W', F'. auto 10. Qed.

  (** give up some of what is owned *)
  Lemma run_shrink {X} W F (e : prog X) m (Q Q' : X -> memory -> list nat -> list look -> Prop) :
    run W F e m Q ->
    (forall x m' W' F', kept W m m' -> ok m' W' F' -> Q x m' W' F' ->
       exists W2 F2, NoDup W2 /\ incl W2 W' /\
         (forall l, In l F2 -> ~ In (addr l) W2 /\ (In l F' \/ In (addr l) W')) /\ Q' x m' W2 F2) ->
    run W F e m Q'.
  Proof.
    intros (x & m' & W' & F' & A & B & C & D & E & H) K. destruct (K x m' W' F' B C H) as (W2 & F2 & K1 & K2 & K3 & K4).
    exists x, m', W2, F2. split; [exact A|]. split; [exact B|]. split; [exact (ok_shrink _ _ _ _ _ C K1 K2 K3)|].
    split; [auto|]. split; [|exact K4]. intros l Hl. destruct (K3 l Hl) as [_ [J|J]]; [auto|].
    destruct (D _ J); auto.
  Qed.

  Lemma run_frame {X} W F W2 F2 WW FF (e : prog X) m Q :
    run W F e m Q -> ok m WW FF -> Permutation WW (W ++ W2) -> incl (F ++ F2) FF ->
    run WW FF e m (fun x m' W' F' => exists W1 F1, W' = W1 ++ W2 /\ F' = F1 ++ F2 /\ ok m' W1 F1 /\
      Q x m' W1 F1 /\ same m m' W2 F2).
  Proof.
    intros (x & m' & W1 & F1 & E & Hk & Ho & HW & HF & HQ) Hok HP Hi.
    pose proof (ok_perm _ _ _ _ _ Hok HP Hi) as Hok2.
    pose proof (kept_same _ _ _ _ _ _ Hok2 Hk) as Hs.
    exists x, m', (W1 ++ W2), (F1 ++ F2). split; [exact E|].
    destruct Hok2 as (H0 & H1 & H2 & H3). destruct Ho as (J0 & J1 & J2 & J3). pose proof (proj1 Hk) as Hn. pose proof (proj1 H0) as Hn0.
    split; [|split; [|split; [|split]]].
    - split; [exact Hn|]. intros p Hp K. apply Hk; [exact Hp|]. intro Hin. apply K.
      apply (Permutation_in _ (Permutation_sym HP)). apply in_or_app. auto.
    - split; [exact J0|].
      assert (forall p, In p W2 -> m_next m0 <= p < m_next m /\ ~ In p W) as HW2.
      { intros p Hp. split; [apply H2; apply in_or_app; auto|]. clear - H1 Hp. induction W as [|q W IH]; [intros []|].
        cbn [app] in H1. inversion H1; subst. intros [->|K]; [|exact (IH H3 K)]. apply H2. apply in_or_app. auto. }
      assert (NoDup W2) as HnW2.
      { clear - H1. induction W as [|q W IH]; [exact H1|]. cbn [app] in H1. inversion H1; auto. }
      split; [|split].
      + clear - J1 HW HW2 HnW2 Hn. induction W1 as [|p W1 IH]; [exact HnW2|]. cbn [app]. inversion J1; subst. constructor.
        * rewrite in_app_iff. intros [K|K]; [contradiction|]. destruct (HW2 p K) as [A B].
          destruct (HW p (or_introl eq_refl)); [contradiction|lia].
        * apply IH; [assumption|]. intros q Hq. apply HW. right. exact Hq.
      + intros p Hp. apply in_app_or in Hp. destruct Hp as [Hp|Hp]; [exact (J2 p Hp)|]. destruct (HW2 p Hp). lia.
      + intros l Hl. apply in_app_or in Hl. destruct Hl as [Hl|Hl].
        * destruct (J3 l Hl) as (A & B & C). split; [exact A|]. split; [exact B|]. rewrite in_app_iff. intros [K|K]; [contradiction|].
          destruct (HW2 _ K) as [K1 K2]. destruct (HF l Hl) as [L|[L|[L|L]]].
          -- apply (proj2 (proj2 (H3 l (in_or_app _ _ _ (or_introl L))))). apply in_or_app. auto.
          -- contradiction.
          -- lia.
          -- pose proof (HG' l L). lia.
        * destruct (H3 l (in_or_app _ _ _ (or_intror Hl))) as (A & B & C). split; [lia|]. split; [exact B|].
          rewrite in_app_iff in *. intros [K|K]; [|tauto]. destruct (HW _ K); [tauto|lia].
    - intros p Hp. apply in_app_or in Hp. destruct Hp as [Hp|Hp].
      + destruct (HW p Hp) as [K|K]; [left|right; exact K]. apply (Permutation_in _ (Permutation_sym HP)). apply in_or_app. auto.
      + left. apply (Permutation_in _ (Permutation_sym HP)). apply in_or_app. auto.
    - intros l Hl. apply in_app_or in Hl. destruct Hl as [Hl|Hl].
      + destruct (HF l Hl) as [K|[K|[K|K]]]; auto.
        * left. apply Hi. apply in_or_app. auto.
        * right. left. apply (Permutation_in _ (Permutation_sym HP)). apply in_or_app. auto.
      + left. apply Hi. apply in_or_app. auto.
    - exists W1, F1. split; [reflexivity|]. split; [reflexivity|]. split; [|auto]. split; [exact J0|auto].
  Qed.

  (** programs that only allocate *)
  Lemma old_kept m m' W : old m m' -> kept W m m'.
  Proof. intros [A B]. split; auto. Qed.
  Lemma old_same m m' W F : ok m W F -> old m m' -> same m m' W F.
  Proof.
    intros (_ & _ & H2 & H3) [_ B] p [Hp|Hp]; apply B.
    - apply H2. exact Hp.
    - apply in_map_iff in Hp. destruct Hp as (l & <- & Hl). apply H3. exact Hl.
  Qed.
  Lemma run_makes {X} W F (e : prog X) m Q :
    ok m W F -> makes e m Q -> run W F e m (fun x m' W' F' => W' = W /\ F' = F /\ old m m' /\ Q x m').
  Proof.
    intros H (x & m' & E & Ho & HQ). exists x, m', W, F. split; [exact E|]. split; [exact (old_kept _ _ _ Ho)|].
    split; [exact (ok_kept _ _ _ _ H (old_kept _ _ _ Ho))|]. auto 10.
  Qed.
  Lemma ok_fresh m m' W F f : ok m W F -> old m m' -> within (m_next m) (m_next m') f -> ok m' W (F ++ f).
  Proof.
    intros H Ho Hw. destruct (ok_kept _ _ _ _ H (old_kept m m' W Ho)) as (A & B & C & D).
    split; [exact A|]. split; [exact B|]. split; [exact C|]. intros l Hl. apply in_app_or in Hl.
    destruct Hl as [Hl|Hl]; [exact (D l Hl)|].
    pose proof (proj1 (Forall_forall _ _) Hw l Hl) as K. cbn beta in K. pose proof (proj1 (proj1 H)) as N.
    split; [lia|]. split; [left; lia|]. intro J. pose proof (proj1 (proj2 (proj2 H)) _ J). lia.
  Qed.
  Lemma run_shown W F (e : prog val) m t :
    ok m W F -> makes e m (shown m t) ->
    run W F e m (fun v m' W' F' => exists f, W' = W /\ F' = F ++ f /\ old m m' /\ shows m' v t f).
  Proof.
    intros H (v & m' & E & Ho & f & Hs & Hw). exists v, m', W, (F ++ f). split; [exact E|].
    split; [exact (old_kept _ _ _ Ho)|]. split; [exact (ok_fresh _ _ _ _ _ H Ho Hw)|].
    split; [auto|]. split; [|exists f; auto]. intros l Hl. apply in_app_or in Hl. destruct Hl as [Hl|Hl]; [auto|].
    pose proof (proj1 (Forall_forall _ _) Hw l Hl) as K. cbn beta in K. right. right. left. lia.
  Qed.

  (** * Slices under construction *)

  Record item (X : Type) := mk_it { it_v : val; it_x : X; it_w : list nat; it_f : list look }.
  Arguments mk_it {X}. Arguments it_v {X}. Arguments it_x {X}. Arguments it_w {X}. Arguments it_f {X}.
  Notation vals L := (map it_v L).
  Notation xs L := (map it_x L).
  Notation own L := (flat_map it_w L).
  Notation looks L := (flat_map it_f L).

  Definition arr (s : val) : list nat := match s with VSlice a _ _ _ => [a] | _ => [] end.
  Definition layout (m : memory) (s : val) (vs : list val) : Prop :=
    match s with
    | VNil => vs = []
    | VSlice a off len cap =>
        len <= cap /\ off + cap <= length (m_at m a) /\ firstn len (skipn off (m_at m a)) = vs
    | _ => False
    end.

  Lemma layout_len m s vs : layout m s vs -> slice_len s m = Some (length vs, m).
  Proof.
    destruct s as [| | |a off len cap|]; cbn [layout slice_len]; try contradiction.
    - intros ->. reflexivity.
    - intros (H1 & H2 & <-). unfold ret. rewrite firstn_length, skipn_length. do 2 f_equal. lia.
  Qed.
  Lemma layout_elems m s vs : layout m s vs -> elems s m = Some (vs, m).
  Proof.
    destruct s as [| | |a off len cap|]; cbn [layout elems]; try contradiction.
    - intros ->. reflexivity.
    - intros (H1 & H2 & <-). rewrite (proj2 (Nat.leb_le _ _)) by lia. reflexivity.
  Qed.
  Lemma nth_firstn_skipn {A} off len i (l : list A) : i < len -> nth_error (firstn len (skipn off l)) i = nth_error l (off + i).
  Proof.
    intro H. rewrite <- (firstn_skipn len (skipn off l)) at 1.
    revert off i l H. induction len as [|len IH]; intros off i l H; [lia|].
    assert (nth_error (skipn off l) i = nth_error l (off + i)) as E.
    { clear. revert l. induction off as [|off IH]; intros l; [reflexivity|]. destruct l; [destruct i; reflexivity|]. cbn [skipn plus nth_error]. apply IH. }
    rewrite <- E. rewrite firstn_skipn. destruct (Nat.lt_ge_cases i (length (skipn off l))) as [Hl|Hl].
    - rewrite <- (firstn_skipn (S len) (skipn off l)) at 2. rewrite nth_error_app1; [reflexivity|]. rewrite firstn_length. lia.
    - rewrite (proj2 (nth_error_None _ _)), (proj2 (nth_error_None _ _)); [reflexivity|exact Hl|]. rewrite firstn_length. lia.
  Qed.
  Lemma layout_index m s vs i v : layout m s vs -> nth_error vs i = Some v -> index s i m = Some (v, m).
  Proof.
    destruct s as [| | |a off len cap|]; cbn [layout index]; try contradiction.
    - intros -> H. destruct i; discriminate.
    - intros (H1 & H2 & <-) H. assert (i < len) as Hi.
      { assert (i < length (firstn len (skipn off (m_at m a)))) as K by (apply nth_error_Some; congruence).
        rewrite firstn_length in K. lia. }
      rewrite (proj2 (Nat.ltb_lt _ _) Hi). rewrite nth_firstn_skipn in H by exact Hi. rewrite H. reflexivity.
  Qed.
  Lemma layout_upto m s vs n : layout m s vs -> n <= length vs ->
    exists s', upto s n m = Some (s', m) /\ layout m s' (firstn n vs) /\ arr s' = arr s.
  Proof.
    destruct s as [| | |a off len cap|]; cbn [layout upto]; try contradiction.
    - intros -> H. cbn [length] in H. assert (n = 0) as -> by lia. exists VNil. repeat split.
    - intros (H1 & H2 & <-) H. rewrite firstn_length, skipn_length in H. rewrite (proj2 (Nat.leb_le _ _)) by lia.
      eexists. split; [reflexivity|]. split; [|reflexivity]. cbn [layout]. rewrite firstn_firstn.
      rewrite Nat.min_l by lia. repeat split; auto; lia.
  Qed.
  Lemma layout_same m m' s vs : layout m s vs -> (forall p, In p (arr s) -> m_at m' p = m_at m p) -> layout m' s vs.
  Proof.
    destruct s as [| | |a off len cap|]; cbn [layout arr]; try contradiction; [auto|].
    intros H E. rewrite (E a (or_introl eq_refl)). exact H.
  Qed.

  (** programs that write to one array only *)
  Definition edits {X} (A : list nat) (e : prog X) (m : memory) (Q : X -> memory -> Prop) : Prop :=
    exists x m', e m = Some (x, m') /\ m_next m' = m_next m /\ (forall p, ~ In p A -> m_at m' p = m_at m p) /\ Q x m'.
  Lemma edits_ret {X} A (x : X) m (Q : X -> memory -> Prop) : Q x m -> edits A (ret x) m Q.
  Proof. intro H. exists x, m. auto. Qed.
  Lemma edits_bind {X Y} A (e : prog X) (k : X -> prog Y) m Q1 Q :
    edits A e m Q1 ->
    (forall x m1, m_next m1 = m_next m -> (forall p, ~ In p A -> m_at m1 p = m_at m p) -> Q1 x m1 -> edits A (k x) m1 Q) ->
    edits A (bind e k) m Q.
  Proof.
    intros (x & m1 & E & N & S & H) K. destruct (K x m1 N S H) as (y & m2 & E2 & N2 & S2 & H2).
    exists y, m2. unfold bind. rewrite E. split; [exact E2|]. split; [congruence|]. split; [|exact H2].
    intros p Hp. rewrite S2 by exact Hp. auto.
  Qed.
  Lemma edits_read {X Y} A (e : prog X) (k : X -> prog Y) m x Q :
    e m = Some (x, m) -> edits A (k x) m Q -> edits A (bind e k) m Q.
  Proof. intros E (y & m' & E' & H). exists y, m'. unfold bind. rewrite E. auto. Qed.

  Lemma layout_set m s vs ws v u : layout m s (vs ++ v :: ws) ->
    edits (arr s) (set_elem s (length vs) u) m (fun _ m' => layout m' s (vs ++ u :: ws)).
  Proof.
    destruct s as [| | |a off len cap|]; cbn [layout]; try contradiction.
    - intro H. destruct vs; discriminate.
    - intros (H1 & H2 & E). set (cells := m_at m a) in *.
      assert (length vs < len /\ off + len <= length cells) as [Hi Hl].
      { apply (f_equal (@length _)) in E. rewrite app_length, firstn_length, skipn_length in E. cbn [length] in E. lia. }
      exists tt, (put a (set_cell (off + length vs) u cells) m). cbn [set_elem].
      rewrite (proj2 (Nat.ltb_lt _ _) Hi). split; [reflexivity|]. split; [reflexivity|]. split.
      { intros p Hp. apply at_put_other. intros ->. apply Hp. left. reflexivity. }
      rewrite at_put_same, set_cell_length. repeat split; auto.
      assert (cells = firstn off cells ++ (vs ++ v :: ws) ++ skipn (off + len) cells) as Ec.
      { rewrite <- E. rewrite <- (firstn_skipn off cells) at 1. f_equal.
        rewrite <- (firstn_skipn len (skipn off cells)) at 1. f_equal.
        apply skipn_twice. }
      assert (length (firstn off cells) = off) as Lo by (rewrite firstn_length; lia).
      assert (forall (p : list val) q r, set_cell (length p + q) u (p ++ r) = p ++ set_cell q u r) as Hsc.
      { clear. induction p as [|x p IH]; intros q r; [reflexivity|]. cbn [length plus app set_cell]. rewrite IH. reflexivity. }
      rewrite Ec. rewrite <- Lo at 2. rewrite Hsc. rewrite <- app_assoc. rewrite <- (Nat.add_0_r (length vs)), Hsc.
      cbn [app set_cell]. rewrite skipn_app, Lo, Nat.sub_diag, skipn_all2 by lia. cbn [app skipn].
      assert (length (vs ++ u :: ws) = len) as Ll.
      { apply (f_equal (@length _)) in E. rewrite app_length, firstn_length, skipn_length in E. rewrite app_length. cbn [length] in *. lia. }
      rewrite app_comm_cons, app_assoc, firstn_app, Ll, Nat.sub_diag. cbn [firstn]. rewrite app_nil_r, firstn_all2 by lia. reflexivity.
  Qed.
End Sep.
