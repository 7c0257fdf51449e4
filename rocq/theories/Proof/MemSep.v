(** Parts of memory that a program may write to, and what it leaves alone. *)
From Coq Require Import Ascii String Arith NArith ZArith Bool Lia List.
From Verif.Proof Require Import MemProof.
From Verif.Base Require Import Bytes Mem.
From Verif.Model Require Import RuleMem.
From Verif.Spec Require Import RuleMemSpec.
Import ListNotations.
Open Scope nat_scope.

(** What is written to: whole objects, and arrays beyond the cells in use. *)
Inductive item := Obj (p : nat) | Arr (a n : nat).
Definition iaddr (i : item) : nat := match i with Obj p => p | Arr a _ => a end.
Notation addrs S := (map iaddr S).

Definition keeps (S : list item) (n0 : nat) (m m' : memory) : Prop :=
  m_next m <= m_next m' /\
  forall p, p < n0 ->
    (~ In p (addrs S) -> m_at m' p = m_at m p) /\
    (forall n, In (Arr p n) S -> firstn n (m_at m' p) = firstn n (m_at m p)).

Definition comes_from (n0 : nat) (S : list item) (i : item) : Prop :=
  n0 <= iaddr i \/ match i with Obj p => In (Obj p) S | Arr a n' => exists n, n <= n' /\ In (Arr a n) S end.
Definition evolves (n0 : nat) (S S' : list item) : Prop := forall i, In i S' -> comes_from n0 S i.

Definition wf (m : memory) (S : list item) (F : list look) : Prop :=
  NoDup (addrs S) /\ Forall (fun i => iaddr i < m_next m) S /\ below (m_next m) F /\
  (forall l, In l F -> ~ In (addr l) (addrs S)).

Definition evo (G : list look) (m : memory) (S : list item) (F : list look) (m' : memory) (S' : list item)
    (F' : list look) : Prop :=
  keeps S (m_next m) m m' /\ evolves (m_next m) S S' /\
  (forall l, In l F' -> In l F \/ In l G \/ m_next m <= addr l).

Lemma comes_from_addr n0 S i : comes_from n0 S i -> n0 <= iaddr i \/ In (iaddr i) (addrs S).
Proof.
  intros [H|H]; [left; exact H|right]. destruct i as [p|a n']; cbn [iaddr].
  - exact (in_map iaddr S (Obj p) H).
  - destruct H as (n & _ & H). exact (in_map iaddr S (Arr a n) H).
Qed.

Lemma nodup_same S i j : NoDup (addrs S) -> In i S -> In j S -> iaddr i = iaddr j -> i = j.
Proof.
  induction S as [|x S IH]; intros Hn Hi Hj E; [contradiction|].
  cbn [map] in Hn. inversion Hn as [|y l Hx Hl]; subst. destruct Hi as [->|Hi], Hj as [->|Hj]; auto.
  - exfalso. apply Hx. rewrite E. apply in_map. exact Hj.
  - exfalso. apply Hx. rewrite <- E. apply in_map. exact Hi.
Qed.

Lemma keeps_trans S S1 n m m1 m2 :
  NoDup (addrs S) -> keeps S n m m1 -> evolves n S S1 -> keeps S1 (m_next m1) m1 m2 -> n <= m_next m1 ->
  keeps S n m m2.
Proof.
  intros Hnd [Hn K1] He [Hn1 K2] Hle. split; [lia|]. intros p Hp.
  destruct (K1 p Hp) as [A1 B1]. destruct (K2 p ltac:(lia)) as [A2 B2]. split.
  - intro Hnot. rewrite A2; [exact (A1 Hnot)|]. intro Hin. apply in_map_iff in Hin.
    destruct Hin as (i & E & Hi). destruct (comes_from_addr _ _ _ (He i Hi)); [lia|].
    apply Hnot. rewrite <- E. assumption.
  - intros k Hk. destruct (in_dec Nat.eq_dec p (addrs S1)) as [Hin|Hnot].
    + apply in_map_iff in Hin. destruct Hin as (i & E & Hi). destruct (He i Hi) as [H|H]; [lia|].
      destruct i as [q|a n']; cbn [iaddr] in E; subst.
      * assert (Arr p k = Obj p) as X by (apply (nodup_same S); auto). discriminate X.
      * destruct H as (k0 & Hk0 & H).
        assert (Arr p k = Arr p k0) as X by (apply (nodup_same S); auto).
        injection X as ->. rewrite <- (B1 _ Hk). specialize (B2 _ Hi).
        assert (k0 = Nat.min k0 n') as Em by lia. rewrite Em, <- !firstn_firstn, B2. reflexivity.
    + rewrite (A2 Hnot). exact (B1 _ Hk).
Qed.

Lemma comes_from_trans n n1 S S1 i : n <= n1 -> evolves n S S1 -> comes_from n1 S1 i -> comes_from n S i.
Proof.
  intros Hn He [H|H]; [left; lia|]. destruct i as [p|a k].
  - exact (He (Obj p) H).
  - destruct H as (k1 & Hk & H). destruct (He _ H) as [K|(k0 & Hk0 & K)]; [left; exact K|].
    right. exists k0. split; [lia|exact K].
Qed.

Lemma evo_trans G m S F m1 S1 F1 m2 S2 F2 :
  NoDup (addrs S) -> evo G m S F m1 S1 F1 -> evo G m1 S1 F1 m2 S2 F2 -> evo G m S F m2 S2 F2.
Proof.
  intros Hnd (K1 & E1 & X1) (K2 & E2 & X2). pose proof (proj1 K1) as Hn. split; [|split].
  - exact (keeps_trans _ _ _ _ _ _ Hnd K1 E1 K2 Hn).
  - intros i Hi. exact (comes_from_trans _ _ _ _ _ Hn E1 (E2 i Hi)).
  - intros l Hl. destruct (X2 l Hl) as [H|[H|H]]; [exact (X1 l H)|right; left; exact H|right; right; lia].
Qed.

Lemma evo_refl G m S F : evo G m S F m S F.
Proof.
  split; [|split].
  - split; [lia|]. intros p _. split; auto.
  - intros i Hi. right. destruct i as [p|a n]; [exact Hi|]. exists n. auto.
  - auto.
Qed.

Lemma evo_old G m S F m' : old m m' -> evo G m S F m' S F.
Proof.
  intros [Hn H]. split; [|split].
  - split; [exact Hn|]. intros p Hp. rewrite (H p Hp). split; auto.
  - intros i Hi. right. destruct i as [p|a n]; [exact Hi|]. exists n. auto.
  - auto.
Qed.

Lemma evo_wider G G' m S F m' S' F' : incl G G' -> evo G m S F m' S' F' -> evo G' m S F m' S' F'.
Proof.
  intros Hi (K & E & X). split; [exact K|]. split; [exact E|]. intros l Hl.
  destruct (X l Hl) as [H|[H|H]]; auto.
Qed.

Lemma wf_old m m' S F : old m m' -> wf m S F -> wf m' S F.
Proof.
  intros [Hn _] (A & Bd & C & D). split; [exact A|]. split; [|split].
  - revert Bd. apply Forall_impl. intros i Hi. lia.
  - exact (below_old _ _ _ C Hn).
  - exact D.
Qed.

(** Changing one part of what is owned: the rest stays as it is. *)
Lemma nodup_middle (a b c : list nat) (b' : list nat) (n : nat) :
  NoDup (a ++ b ++ c) -> Forall (fun x => x < n) (a ++ b ++ c) -> NoDup b' ->
  (forall x, In x b' -> n <= x \/ In x b) -> NoDup (a ++ b' ++ c).
Proof.
  intros Hn Hlt Hb Hfrom.
  assert (forall x, In x a -> x < n /\ ~ In x b /\ ~ In x c) as Ha.
  { intros x Hx. split.
    - apply (proj1 (Forall_forall _ _) Hlt). apply in_or_app. left. exact Hx.
    - clear - Hn Hx. induction a as [|y a IH]; [contradiction|]. cbn [app] in Hn.
      inversion Hn as [|z l H1 H2]; subst. destruct Hx as [->|Hx]; [|exact (IH H2 Hx)].
      split; intro H; apply H1; rewrite !in_app_iff; auto. }
  assert (NoDup a /\ NoDup (b ++ c)) as [Hna Hnbc].
  { clear - Hn. induction a as [|y a IH]; [split; [constructor|exact Hn]|].
    cbn [app] in Hn. inversion Hn as [|z l H1 H2]; subst. destruct (IH H2) as [H3 H4].
    split; [|exact H4]. constructor; [|exact H3]. intro H. apply H1. rewrite in_app_iff. auto. }
  assert (forall x, In x c -> x < n /\ ~ In x b) as Hc.
  { intros x Hx. split.
    - apply (proj1 (Forall_forall _ _) Hlt). rewrite !in_app_iff. auto.
    - clear - Hnbc Hx. induction b as [|y b IH]; [intros []|]. cbn [app] in Hnbc.
      inversion Hnbc as [|z l H1 H2]; subst. intros [->|H]; [|exact (IH H2 H)].
      apply H1. rewrite in_app_iff. auto. }
  assert (NoDup c) as Hnc.
  { clear - Hnbc. induction b as [|y b IH]; [exact Hnbc|]. apply IH. cbn [app] in Hnbc. inversion Hnbc. assumption. }
  assert (NoDup (b' ++ c)) as Hbc.
  { clear Ha Hna Hn Hlt Hnbc. induction b' as [|y b' IH]; [exact Hnc|]. cbn [app].
    inversion Hb as [|z l H1 H2]; subst. constructor.
    - rewrite in_app_iff. intros [H|H]; [exact (H1 H)|]. destruct (Hc y H) as [H3 H4].
      destruct (Hfrom y (or_introl eq_refl)); [lia|contradiction].
    - apply IH; [exact H2|]. intros x Hx. apply Hfrom. right. exact Hx. }
  clear Hn Hlt. induction a as [|y a IH]; [exact Hbc|]. cbn [app].
  inversion Hna as [|z l H1 H2]; subst. constructor.
  - rewrite !in_app_iff. intros [H|[H|H]].
    + exact (H1 H).
    + destruct (Ha y (or_introl eq_refl)) as (H3 & H4 & H5). destruct (Hfrom y H); [lia|contradiction].
    + destruct (Ha y (or_introl eq_refl)) as (H3 & H4 & H5). contradiction.
  - apply IH; [|exact H2]. intros x Hx. apply Ha. right. exact Hx.
Qed.

Lemma wf_replace G m SA SC S S' FA FC F F' m' :
  wf m (SA ++ S ++ SC) (FA ++ F ++ FC) -> evo G m S F m' S' F' -> wf m' S' F' ->
  (forall l, In l G -> ~ In (addr l) (addrs (SA ++ S ++ SC))) ->
  wf m' (SA ++ S' ++ SC) (FA ++ F' ++ FC) /\
  evo G m (SA ++ S ++ SC) (FA ++ F ++ FC) m' (SA ++ S' ++ SC) (FA ++ F' ++ FC) /\
  (forall p, In p (addrs (SA ++ SC)) -> m_at m' p = m_at m p) /\
  Forall (agree m m') (FA ++ FC).
Proof.
  intros (Hnd & Hlt & Hb & Hsep) (Hk & He & Hx) (Hnd' & Hlt' & Hb' & Hsep') HG.
  pose proof (proj1 Hk) as Hn.
  assert (forall x, In x (addrs S') -> m_next m <= x \/ In x (addrs S)) as Hfrom.
  { intros x Hin. apply in_map_iff in Hin. destruct Hin as (i & <- & Hi). exact (comes_from_addr _ _ _ (He i Hi)). }
  assert (Forall (fun x => x < m_next m) (addrs SA ++ addrs S ++ addrs SC)) as Hlt2.
  { rewrite <- !map_app. apply Forall_forall. intros x Hin. apply in_map_iff in Hin.
    destruct Hin as (i & <- & Hi). exact (proj1 (Forall_forall _ _) Hlt i Hi). }
  rewrite !map_app in Hnd.
  assert (forall p, In p (addrs (SA ++ SC)) -> p < m_next m /\ ~ In p (addrs S)) as Hrest.
  { intros p Hp. split.
    - apply (proj1 (Forall_forall _ _) Hlt2). rewrite map_app in Hp. rewrite !in_app_iff in *. tauto.
    - intro Hin. rewrite map_app in Hp. clear - Hnd Hp Hin.
      apply in_app_iff in Hp. destruct Hp as [Hp|Hp].
      + induction (addrs SA) as [|y a IH]; [contradiction|]. cbn [app] in Hnd.
        inversion Hnd as [|z l H1 H2]; subst. destruct Hp as [->|Hp]; [|exact (IH H2 Hp)].
        apply H1. rewrite !in_app_iff. auto.
      + assert (NoDup (addrs S ++ addrs SC)) as H.
        { clear Hp Hin. induction (addrs SA) as [|y a IH]; [exact Hnd|]. apply IH. inversion Hnd. assumption. }
        clear Hnd. induction (addrs S) as [|y b IH]; [contradiction|]. cbn [app] in H.
        inversion H as [|z l H1 H2]; subst. destruct Hin as [->|Hin]; [|exact (IH Hin H2)].
        apply H1. rewrite in_app_iff. auto. }
  assert (forall p, In p (addrs (SA ++ SC)) -> m_at m' p = m_at m p) as Hsame.
  { intros p Hp. destruct (Hrest p Hp) as [H1 H2]. exact (proj1 (proj2 Hk p H1) H2). }
  assert (forall l, In l (FA ++ FC) -> addr l < m_next m /\ ~ In (addr l) (addrs (SA ++ S ++ SC))) as Hf.
  { intros l Hl. assert (In l (FA ++ F ++ FC)) as Hl' by (rewrite !in_app_iff in *; tauto).
    split; [exact (proj1 (Forall_forall _ _) Hb l Hl')|exact (Hsep l Hl')]. }
  split; [|split; [|split]].
  - split; [|split; [|split]].
    + rewrite !map_app. exact (nodup_middle _ _ _ _ _ Hnd Hlt2 Hnd' Hfrom).
    + rewrite !Forall_app in *. destruct Hlt as (L1 & L2 & L3). repeat split.
      * revert L1. apply Forall_impl. intros i Hi. lia.
      * exact Hlt'.
      * revert L3. apply Forall_impl. intros i Hi. lia.
    + apply Forall_forall. intros l Hl. rewrite !in_app_iff in Hl.
      assert (In l (FA ++ FC) \/ In l F') as [H|H] by (rewrite in_app_iff; tauto).
      * destruct (Hf l H). lia.
      * exact (proj1 (Forall_forall _ _) Hb' l H).
    + intros l Hl. assert (In l (FA ++ FC) \/ In l F') as [H|H] by (rewrite !in_app_iff in *; tauto).
      * destruct (Hf l H) as [H1 H2]. rewrite !map_app, !in_app_iff in *. intros [K|[K|K]].
        -- tauto.
        -- destruct (Hfrom _ K); [lia|]. tauto.
        -- tauto.
      * rewrite !map_app, !in_app_iff. intro K.
        assert (In (addr l) (addrs (SA ++ SC)) \/ In (addr l) (addrs S')) as [K'|K']
          by (rewrite map_app, in_app_iff; tauto); [|exact (Hsep' l H K')].
        assert (In (addr l) (addrs (SA ++ S ++ SC))) as K2 by (rewrite !map_app, !in_app_iff in *; tauto).
        destruct (Hx l H) as [X|[X|X]].
        -- apply (Hsep l); [rewrite !in_app_iff; auto|exact K2].
        -- exact (HG l X K2).
        -- destruct (Hrest _ K'). lia.
  - split; [|split].
    + split; [exact Hn|]. intros p Hp. destruct (proj2 Hk p Hp) as [A1 B1]. split.
      * intro Hnot. apply A1. intro H. apply Hnot. rewrite !map_app, !in_app_iff. auto.
      * intros n Hin. rewrite !in_app_iff in Hin. destruct Hin as [H|[H|H]].
        -- rewrite (Hsame p); [reflexivity|]. rewrite map_app, in_app_iff. left.
           exact (in_map iaddr SA (Arr p n) H).
        -- exact (B1 n H).
        -- rewrite (Hsame p); [reflexivity|]. rewrite map_app, in_app_iff. right.
           exact (in_map iaddr SC (Arr p n) H).
    + intros i Hi. rewrite !in_app_iff in Hi.
      assert (comes_from (m_next m) S i \/ In i SA \/ In i SC) as [H|H].
      { destruct Hi as [H|[H|H]]; auto. }
      * destruct H as [H|H]; [left; exact H|right]. destruct i as [p|a n'].
        -- rewrite !in_app_iff. auto.
        -- destruct H as (n & Hle & H). exists n. split; [exact Hle|]. rewrite !in_app_iff. auto.
      * right. destruct i as [p|a n']; [rewrite !in_app_iff; tauto|].
        exists n'. split; [lia|]. rewrite !in_app_iff. tauto.
    + intros l Hl. rewrite !in_app_iff in *. destruct Hl as [H|[H|H]]; auto.
      destruct (Hx l H) as [X|[X|X]]; auto.
  - exact Hsame.
  - apply agree_all_same. intros p Hp. apply in_map_iff in Hp. destruct Hp as (l & <- & Hl).
    destruct (Hf l Hl) as [H1 H2]. apply (proj1 (proj2 Hk _ H1)). intro H. apply H2.
    rewrite !map_app, !in_app_iff. auto.
Qed.

Lemma wf_middle m SA S SC FA F FC : wf m (SA ++ S ++ SC) (FA ++ F ++ FC) -> wf m S F.
Proof.
  intros (W1 & W2 & W3 & W4). split; [|split; [|split]].
  - rewrite !map_app in W1. clear - W1. induction (addrs SA) as [|y a IH].
    + cbn [app] in W1. revert W1. generalize (addrs SC) as c. induction (addrs S) as [|y b IHb]; intros c H; [constructor|].
      cbn [app] in H. inversion H as [|z l K1 K2]; subst. constructor; [|exact (IHb _ K2)].
      intro K. apply K1. apply in_or_app. left. exact K.
    + cbn [app] in W1. inversion W1; subst. auto.
  - rewrite !Forall_app in W2. tauto.
  - rewrite !below_app in W3. tauto.
  - intros l Hl K. apply (W4 l); [rewrite !in_app_iff; auto|]. rewrite !map_app, !in_app_iff. auto.
Qed.

Lemma wf_replace_left G m SC S S' FC F F' m' :
  wf m (S ++ SC) (F ++ FC) -> evo G m S F m' S' F' -> wf m' S' F' ->
  (forall l, In l G -> ~ In (addr l) (addrs (S ++ SC))) ->
  wf m' (S' ++ SC) (F' ++ FC) /\ evo G m (S ++ SC) (F ++ FC) m' (S' ++ SC) (F' ++ FC) /\
  (forall p, In p (addrs SC) -> m_at m' p = m_at m p) /\ Forall (agree m m') FC.
Proof. exact (wf_replace G m [] SC S S' [] FC F F' m'). Qed.

Lemma wf_replace_right G m SA S S' FA F F' m' :
  wf m (SA ++ S) (FA ++ F) -> evo G m S F m' S' F' -> wf m' S' F' ->
  (forall l, In l G -> ~ In (addr l) (addrs (SA ++ S))) ->
  wf m' (SA ++ S') (FA ++ F') /\ evo G m (SA ++ S) (FA ++ F) m' (SA ++ S') (FA ++ F') /\
  (forall p, In p (addrs SA) -> m_at m' p = m_at m p) /\ Forall (agree m m') FA.
Proof.
  pose proof (wf_replace G m SA [] S S' FA [] F F' m') as H. rewrite !app_nil_r in H. exact H.
Qed.

Lemma wf_left m S SC F FC : wf m (S ++ SC) (F ++ FC) -> wf m S F.
Proof. exact (wf_middle m [] S SC [] F FC). Qed.
Lemma wf_right m SA S FA F : wf m (SA ++ S) (FA ++ F) -> wf m S F.
Proof. intro H. apply (wf_middle m SA S [] FA F []). rewrite !app_nil_r. exact H. Qed.
