(** Facts about what memory shows, and about programs that only allocate. *)
From Coq Require Import Ascii String Arith NArith ZArith Bool Lia List.
From Verif.Base Require Import Bytes Mem.
From Verif.Model Require Import AggType Policy Transformation Pipeline Metadata Filter MetricID Rules RuleSet
  RuleMem.
From Verif.Spec Require Import RuleMemSpec.
Import ListNotations.
Open Scope nat_scope.

Scheme shows_mut := Induction for shows Sort Prop
  with shows_all_mut := Induction for shows_all Sort Prop.
Combined Scheme shows_both from shows_mut, shows_all_mut.

(** * Frames *)

Definition agree (m m' : memory) (l : look) : Prop :=
  match l with
  | Whole p => m_at m' p = m_at m p
  | Upto p n => firstn n (m_at m' p) = firstn n (m_at m p)
  end.

Lemma firstn_skipn_upto {A} (off len : nat) (l : list A) :
  firstn len (skipn off l) = skipn off (firstn (off + len) l).
Proof. rewrite firstn_skipn_comm. reflexivity. Qed.

Lemma firstn_length_le' {A} (n : nat) (l l' : list A) :
  firstn n l' = firstn n l -> n <= length l -> n <= length l'.
Proof.
  intros H Hn. assert (length (firstn n l') = n) as E by (rewrite H; apply firstn_length_le; exact Hn).
  rewrite firstn_length in E. lia.
Qed.

Lemma shows_frame_both m m' :
  (forall v t f, shows m v t f -> Forall (agree m m') f -> shows m' v t f) /\
  (forall vs ts f, shows_all m vs ts f -> Forall (agree m m') f -> shows_all m' vs ts f).
Proof.
  apply (shows_both m
    (fun v t f _ => Forall (agree m m') f -> shows m' v t f)
    (fun vs ts f _ => Forall (agree m m') f -> shows_all m' vs ts f)).
  - intros a _. constructor.
  - intros _. constructor.
  - intros l ts f _ IH H. constructor. exact (IH H).
  - intros p ts f _ IH H. apply Forall_cons_iff in H. destruct H as [E H].
    cbn [agree] in E. constructor. rewrite E. exact (IH H).
  - intros a off len cap ts f Hl _ IH H. apply Forall_cons_iff in H. destruct H as [E H].
    cbn [agree] in E. constructor.
    + exact (firstn_length_le' _ _ _ E Hl).
    + rewrite firstn_skipn_upto, E, <- firstn_skipn_upto. exact (IH H).
  - intros _. constructor.
  - intros v t f vs ts fs _ IH1 _ IH2 H. apply Forall_app in H. destruct H as [H1 H2].
    constructor; [exact (IH1 H1)|exact (IH2 H2)].
Qed.

Lemma shows_frame m m' v t f : shows m v t f -> Forall (agree m m') f -> shows m' v t f.
Proof. apply (proj1 (shows_frame_both m m')). Qed.
Lemma shows_all_frame m m' vs ts f : shows_all m vs ts f -> Forall (agree m m') f -> shows_all m' vs ts f.
Proof. apply (proj2 (shows_frame_both m m')). Qed.

Lemma agree_all_same m m' f :
  (forall p, In p (map addr f) -> m_at m' p = m_at m p) -> Forall (agree m m') f.
Proof.
  intro H. apply Forall_forall. intros l Hl.
  assert (m_at m' (addr l) = m_at m (addr l)) as E by (apply H; apply in_map; exact Hl).
  destruct l as [p|p n]; cbn [agree addr] in *; congruence.
Qed.

Lemma shows_det_both m :
  (forall v t f, shows m v t f -> forall t' f', shows m v t' f' -> t = t' /\ f = f') /\
  (forall vs ts f, shows_all m vs ts f -> forall ts' f', shows_all m vs ts' f' -> ts = ts' /\ f = f').
Proof.
  apply (shows_both m
    (fun v t f _ => forall t' f', shows m v t' f' -> t = t' /\ f = f')
    (fun vs ts f _ => forall ts' f', shows_all m vs ts' f' -> ts = ts' /\ f = f')).
  - intros a t' f' H. inversion H. auto.
  - intros t' f' H. inversion H. auto.
  - intros l ts f _ IH t' f' H. inversion H; subst. destruct (IH _ _ H1). subst. auto.
  - intros p ts f _ IH t' f' H. inversion H; subst. destruct (IH _ _ H1). subst. auto.
  - intros a off len cap ts f Hl _ IH t' f' H. inversion H; subst. destruct (IH _ _ H7). subst. auto.
  - intros ts' f' H. inversion H. auto.
  - intros v t f vs ts fs _ IH1 _ IH2 ts' f' H.
    inversion H as [|v1 t1 g1 vs1 ts1 gs1 A1 A2]; subst.
    destruct (IH1 _ _ A1), (IH2 _ _ A2). subst. auto.
Qed.
Lemma shows_det m v t f t' f' : shows m v t f -> shows m v t' f' -> t = t' /\ f = f'.
Proof. intros H. apply (proj1 (shows_det_both m) v t f H). Qed.

(** * Lists *)

Lemma shows_all_app m vs ws ts us f g :
  shows_all m vs ts f -> shows_all m ws us g -> shows_all m (vs ++ ws) (ts ++ us) (f ++ g).
Proof.
  intros H K. induction H as [|v t f vs ts fs H1 H2 IH].
  - exact K.
  - cbn [app]. rewrite <- app_assoc. constructor; assumption.
Qed.

Lemma shows_all_split m vs ts us f :
  shows_all m vs (ts ++ us) f ->
  exists vs1 vs2 f1 f2, vs = vs1 ++ vs2 /\ f = f1 ++ f2 /\ shows_all m vs1 ts f1 /\ shows_all m vs2 us f2.
Proof.
  revert vs f. induction ts as [|t ts IH]; intros vs f H.
  - exists [], vs, [], f. repeat split; auto. constructor.
  - cbn [app] in H. inversion H as [|v t' f1 vs' ts' fs H1 H2]; subst.
    destruct (IH _ _ H2) as (v1 & v2 & g1 & g2 & -> & -> & K1 & K2).
    exists (v :: v1), v2, (f1 ++ g1), g2. repeat split.
    + rewrite <- app_assoc. reflexivity.
    + constructor; assumption.
    + exact K2.
Qed.

Lemma shows_all_rev m vs ts f :
  shows_all m vs ts f ->
  exists f', shows_all m (rev vs) (rev ts) f' /\ (forall l, In l f' <-> In l f).
Proof.
  induction 1 as [|v t f vs ts fs H1 H2 (f' & IH & Hf)].
  - exists []. split; [constructor|tauto].
  - exists (f' ++ f ++ []). split.
    + cbn [rev]. apply shows_all_app; [exact IH|]. constructor; [exact H1|constructor].
    + intro l. rewrite app_nil_r, !in_app_iff, Hf. tauto.
Qed.

Lemma shows_all_length m vs ts f : shows_all m vs ts f -> length vs = length ts.
Proof. induction 1; cbn [length]; congruence. Qed.

Lemma shows_all_skipn m n : forall vs ts f,
  shows_all m vs ts f -> exists f', shows_all m (skipn n vs) (skipn n ts) f' /\ incl f' f.
Proof.
  induction n as [|n IH]; intros vs ts f H.
  - exists f. split; [exact H|apply incl_refl].
  - destruct H as [|v t f vs ts fs H1 H2].
    + exists []. split; [constructor|apply incl_refl].
    + cbn [skipn]. destruct (IH _ _ _ H2) as (f' & K & Hi). exists f'. split; [exact K|].
      intros l Hl. apply in_or_app. right. exact (Hi l Hl).
Qed.

(** * Programs that only allocate *)

Definition below (n : nat) (f : list look) : Prop := Forall (fun l => addr l < n) f.
Definition within (n n' : nat) (f : list look) : Prop := Forall (fun l => n <= addr l < n') f.

Definition old (m m' : memory) : Prop :=
  m_next m <= m_next m' /\ forall p, p < m_next m -> m_at m' p = m_at m p.

Lemma old_refl m : old m m.
Proof. split; auto. Qed.
Lemma old_trans m1 m2 m3 : old m1 m2 -> old m2 m3 -> old m1 m3.
Proof. intros [H1 K1] [H2 K2]. split; [lia|]. intros p Hp. rewrite K2 by lia. apply K1. exact Hp. Qed.

Lemma below_old n n' f : below n f -> n <= n' -> below n' f.
Proof. intros H Hn. unfold below in *. revert H. apply Forall_impl. intros l; lia. Qed.
Lemma within_below n n' f : within n n' f -> below n' f.
Proof. unfold within, below. apply Forall_impl. intros l; lia. Qed.
Lemma within_wider n n' k k' f : within n n' f -> k <= n -> n' <= k' -> within k k' f.
Proof. intros H H1 H2. unfold within in *. revert H. apply Forall_impl. intros l; lia. Qed.
Lemma below_app n f g : below n (f ++ g) <-> below n f /\ below n g.
Proof. apply Forall_app. Qed.
Lemma within_app n n' f g : within n n' (f ++ g) <-> within n n' f /\ within n n' g.
Proof. apply Forall_app. Qed.
Lemma below_incl n f g : below n f -> incl g f -> below n g.
Proof. intros H Hi. apply Forall_forall. intros l Hl. exact (proj1 (Forall_forall _ _) H l (Hi l Hl)). Qed.

Lemma agree_old m m' f : old m m' -> below (m_next m) f -> Forall (agree m m') f.
Proof.
  intros [_ H] Hb. apply agree_all_same. intros p Hp. apply in_map_iff in Hp. destruct Hp as (l & <- & Hl).
  apply H. exact (proj1 (Forall_forall _ _) Hb l Hl).
Qed.
Lemma shows_old m m' v t f : old m m' -> below (m_next m) f -> shows m v t f -> shows m' v t f.
Proof. intros H Hb Hs. exact (shows_frame m m' v t f Hs (agree_old m m' f H Hb)). Qed.
Lemma shows_all_old m m' vs ts f : old m m' -> below (m_next m) f -> shows_all m vs ts f -> shows_all m' vs ts f.
Proof. intros H Hb Hs. exact (shows_all_frame m m' vs ts f Hs (agree_old m m' f H Hb)). Qed.

Definition makes {X} (e : prog X) (m : memory) (Q : X -> memory -> Prop) : Prop :=
  exists x m', e m = Some (x, m') /\ old m m' /\ Q x m'.

Lemma makes_ret {X} (x : X) m (Q : X -> memory -> Prop) : Q x m -> makes (ret x) m Q.
Proof. intro H. exists x, m. repeat split; auto. Qed.

Lemma makes_bind {X Y} (e : prog X) (k : X -> prog Y) m (Q1 : X -> memory -> Prop) Q :
  makes e m Q1 ->
  (forall x m1, old m m1 -> Q1 x m1 -> makes (k x) m1 Q) ->
  makes (bind e k) m Q.
Proof.
  intros (x & m1 & E & Ho & H1) K. destruct (K x m1 Ho H1) as (y & m2 & E2 & Ho2 & H2).
  exists y, m2. unfold bind. rewrite E. repeat split; auto; exact (proj1 (old_trans _ _ _ Ho Ho2)) ||
    exact (proj2 (old_trans _ _ _ Ho Ho2)).
Qed.

Lemma makes_read {X Y} (e : prog X) (k : X -> prog Y) m x Q :
  e m = Some (x, m) -> makes (k x) m Q -> makes (bind e k) m Q.
Proof. intros E (y & m' & E' & H). exists y, m'. unfold bind. rewrite E. auto. Qed.

Lemma makes_impl {X} (e : prog X) m (Q Q' : X -> memory -> Prop) :
  makes e m Q -> (forall x m', old m m' -> Q x m' -> Q' x m') -> makes e m Q'.
Proof. intros (x & m' & E & Ho & H) K. exists x, m'. auto. Qed.

Lemma old_alloc (m : memory) cells : old m (mk_mem (m_at (put (m_next m) cells m)) (S (m_next m))).
Proof.
  split; cbn [m_next m_at put]; [lia|]. intros p Hp.
  destruct (Nat.eqb p (m_next m)) eqn:E; [apply Nat.eqb_eq in E; lia|reflexivity].
Qed.
Lemma at_alloc (m : memory) cells : m_at (mk_mem (m_at (put (m_next m) cells m)) (S (m_next m))) (m_next m) = cells.
Proof. cbn [m_at put]. rewrite Nat.eqb_refl. reflexivity. Qed.

(** the value made shows [t], all of it in new memory *)
Definition shown (m : memory) (t : tree) : val -> memory -> Prop :=
  fun v m' => exists f, shows m' v t f /\ within (m_next m) (m_next m') f.
Definition all_shown (m : memory) (ts : list tree) : list val -> memory -> Prop :=
  fun vs m' => exists f, shows_all m' vs ts f /\ within (m_next m) (m_next m') f.

Lemma shown_later m0 m m' t v : old m0 m -> old m m' -> shown m0 t v m -> shown m0 t v m'.
Proof.
  intros Ho0 Ho (f & Hs & Hw). exists f. split.
  - exact (shows_old m m' v t f Ho (within_below _ _ _ Hw) Hs).
  - exact (within_wider _ _ _ _ _ Hw (le_n _) (proj1 Ho)).
Qed.
Lemma shown_earlier m0 m m' t v : old m0 m -> shown m t v m' -> shown m0 t v m'.
Proof. intros Ho (f & Hs & Hw). exists f. split; [exact Hs|]. exact (within_wider _ _ _ _ _ Hw (proj1 Ho) (le_n _)). Qed.
Lemma all_shown_earlier m0 m m' ts vs : old m0 m -> all_shown m ts vs m' -> all_shown m0 ts vs m'.
Proof. intros Ho (f & Hs & Hw). exists f. split; [exact Hs|]. exact (within_wider _ _ _ _ _ Hw (proj1 Ho) (le_n _)). Qed.

Lemma make_slice_shown m0 m ts vs :
  old m0 m -> all_shown m0 ts vs m -> makes (make_slice vs) m (shown m0 (TList ts)).
Proof.
  intros Ho (f & Hs & Hw). pose proof (old_alloc m vs) as Ha.
  eexists _, _. split; [reflexivity|]. split; [exact Ha|].
  exists (Upto (m_next m) (0 + length vs) :: f). split.
  - constructor; rewrite at_alloc.
    + cbn [plus]. lia.
    + cbn [skipn]. rewrite firstn_all.
      exact (shows_all_old m _ vs ts f Ha (within_below _ _ _ Hw) Hs).
  - constructor; [cbn [addr m_next]; destruct Ho; lia|].
    exact (within_wider _ _ _ _ _ Hw (le_n _) (proj1 Ha)).
Qed.

Lemma new_obj_shown m0 m ts vs :
  old m0 m -> all_shown m0 ts vs m -> makes (new_obj vs) m (shown m0 (TRef ts)).
Proof.
  intros Ho (f & Hs & Hw). pose proof (old_alloc m vs) as Ha.
  eexists _, _. split; [reflexivity|]. split; [exact Ha|].
  exists (Whole (m_next m) :: f). split.
  - constructor; rewrite at_alloc. exact (shows_all_old m _ vs ts f Ha (within_below _ _ _ Hw) Hs).
  - constructor; [cbn [addr m_next]; destruct Ho; lia|].
    exact (within_wider _ _ _ _ _ Hw (le_n _) (proj1 Ha)).
Qed.

Lemma each_new {A} (f : A -> prog val) (t : A -> tree) (l : list A) :
  (forall x m, makes (f x) m (shown m (t x))) ->
  forall m, makes (each f l) m (all_shown m (map t l)).
Proof.
  intro Hf. induction l as [|x l IH]; intro m; cbn [each map].
  - apply makes_ret. exists []. split; constructor.
  - eapply makes_bind; [exact (Hf x m)|]. intros v m1 Ho1 Hv.
    eapply makes_bind; [exact (IH m1)|]. intros vs m2 Ho2 (g & Hg & Hwg).
    apply makes_ret. destruct (shown_later m m1 m2 _ _ Ho1 Ho2 Hv) as (h & Hh & Hwh).
    exists (h ++ g). split; [constructor; assumption|]. apply within_app. split; [exact Hwh|].
    exact (within_wider _ _ _ _ _ Hwg (proj1 Ho1) (le_n _)).
Qed.

(** copying the elements of a list of values that show [map t l] *)
Lemma each_copy {A} (f : val -> prog val) (t t' : A -> tree) (l : list A) :
  (forall x v g m, In x l -> shows m v (t x) g -> below (m_next m) g -> makes (f v) m (shown m (t' x))) ->
  forall vs g m, shows_all m vs (map t l) g -> below (m_next m) g ->
    makes (each f vs) m (all_shown m (map t' l)).
Proof.
  induction l as [|x l IH]; intros Hf vs g m Hs Hb; cbn [map] in *.
  - inversion Hs; subst. cbn [each]. apply makes_ret. exists []. split; constructor.
  - inversion Hs as [|v t1 g1 vs' ts g2 H1 H2]; subst. cbn [each].
    apply below_app in Hb. destruct Hb as [Hb1 Hb2].
    eapply makes_bind; [exact (Hf x v g1 m (or_introl eq_refl) H1 Hb1)|]. intros w m1 Ho1 Hw.
    eapply makes_bind.
    { eapply (IH (fun y v g m Hy => Hf y v g m (or_intror Hy)) vs' g2 m1).
      - exact (shows_all_old m m1 _ _ _ Ho1 Hb2 H2).
      - exact (below_old _ _ _ Hb2 (proj1 Ho1)). }
    intros ws m2 Ho2 (g3 & Hg & Hwg). apply makes_ret.
    destruct (shown_later m m1 m2 _ _ Ho1 Ho2 Hw) as (h & Hh & Hwh).
    exists (h ++ g3). split; [constructor; assumption|]. apply within_app. split; [exact Hwh|].
    exact (within_wider _ _ _ _ _ Hwg (proj1 Ho1) (le_n _)).
Qed.

(** what the elements of a slice are *)
Lemma elems_shows m v ts f :
  shows m v (TList ts) f ->
  exists vs g, elems v m = Some (vs, m) /\ shows_all m vs ts g /\ incl g f.
Proof.
  intro H. inversion H as [|a|l ts' g|p ts' g|a off len cap ts' g Hl Hs]; subst.
  - exists [], []. repeat split; [constructor|apply incl_refl].
  - exists (firstn len (skipn off (m_at m a))), g. cbn [elems].
    rewrite (proj2 (Nat.leb_le _ _) Hl). repeat split; [exact Hs|]. intros l Hin. right. exact Hin.
Qed.

Lemma copy_slice_shown {A} (f : val -> prog val) (t t' : A -> tree) (l : list A) :
  (forall x v g m, In x l -> shows m v (t x) g -> below (m_next m) g -> makes (f v) m (shown m (t' x))) ->
  forall v g m, shows m v (TList (map t l)) g -> below (m_next m) g ->
    makes (copy_slice f v) m (shown m (TList (map t' l))).
Proof.
  intros Hf v g m Hs Hb. destruct (elems_shows _ _ _ _ Hs) as (vs & g' & E & Hvs & Hi).
  unfold copy_slice. apply (makes_read _ _ _ vs _ E).
  eapply makes_bind; [exact (each_copy f t t' l Hf vs g' m Hvs (below_incl _ _ _ Hb Hi))|].
  intros ws m2 Ho2 Hws. apply make_slice_shown; assumption.
Qed.

Lemma ret_atom_shown a v g m : shows m v (TAtom a) g -> makes (ret v) m (shown m (TAtom a)).
Proof. intro H. inversion H; subst. apply makes_ret. exists []. split; constructor. Qed.
