(** Programs that hold rule sets, views and active sets: what memory shows is what plain values would be. *)
From Coq Require Import Ascii String Arith NArith ZArith Bool Lia Permutation List.
From Verif.Proof Require Import MemProof MemSep RuleMemCopy RuleMemRules RuleMemKinds RuleMemSets RuleMemFresh
  RuleMemViews.
From Verif.Base Require Import Bytes Mem.
From Verif.Model Require Import AggType Policy Transformation Pipeline Metadata Filter MetricID Rules RuleSet
  RuleMem.
From Verif.Spec Require Import RuleMemSpec.
Import ListNotations.
Open Scope nat_scope.

(** * Parallel lists *)

Definition at2 {A C} (la : list A) (lc : list C) (i : nat) (a : A) (c : C) : Prop :=
  nth_error la i = Some a /\ nth_error lc i = Some c.

Lemma at2_lt {A C} (la : list A) (lc : list C) i a c : at2 la lc i a c -> i < length la.
Proof. intros [H _]. apply nth_error_Some. congruence. Qed.

Lemma at2_snoc {A C} (la : list A) (lc : list C) a0 c0 i a c :
  length la = length lc -> at2 (la ++ [a0]) (lc ++ [c0]) i a c ->
  at2 la lc i a c \/ (i = length la /\ a = a0 /\ c = c0).
Proof.
  intros Hl [Ha Hc]. destruct (Nat.lt_ge_cases i (length la)) as [H|H].
  - left. rewrite nth_error_app1 in Ha by exact H. rewrite nth_error_app1 in Hc by (rewrite <- Hl; exact H). split; assumption.
  - right. pose proof (proj1 (nth_error_Some (la ++ [a0]) i) ltac:(congruence)) as Hlt.
    rewrite app_length in Hlt. cbn [length] in Hlt. assert (i = length la) as -> by lia.
    rewrite nth_error_app2 in Ha by lia. rewrite Nat.sub_diag in Ha. injection Ha as <-.
    rewrite Hl in Hc. rewrite nth_error_app2 in Hc by lia. rewrite Nat.sub_diag in Hc. injection Hc as <-. auto.
Qed.

Lemma nth_set_nth {A} i x : forall (l : list A) j,
  nth_error (set_nth i x l) j = if Nat.eqb i j then option_map (fun _ => x) (nth_error l j) else nth_error l j.
Proof.
  induction i as [|i IH]; intros [|y l] [|j]; cbn [set_nth nth_error Nat.eqb]; try reflexivity.
  - destruct (Nat.eqb i j); reflexivity.
  - apply IH.
Qed.
Lemma length_set_nth {A} i (x : A) l : length (set_nth i x l) = length l.
Proof. revert l. induction i as [|i IH]; intros [|y l]; cbn [set_nth length]; auto. Qed.

Definition upd {A} (f : nat -> A) (i : nat) (x : A) : nat -> A := fun j => if Nat.eqb j i then x else f j.
Lemma upd_same {A} (f : nat -> A) i x : upd f i x i = x.
Proof. unfold upd. rewrite Nat.eqb_refl. reflexivity. Qed.
Lemma upd_other {A} (f : nat -> A) i x j : j <> i -> upd f i x j = f j.
Proof. intro H. unfold upd. rewrite (proj2 (Nat.eqb_neq j i) H). reflexivity. Qed.

(** * The invariant *)

Definition disj (F G : list look) : Prop := forall l l', In l F -> In l' G -> addr l <> addr l'.
Definition off (G : list look) (S : list item) : Prop := forall l, In l G -> ~ In (addr l) (addrs S).
Definition apart (S S' : list item) : Prop := forall p, In p (addrs S) -> ~ In p (addrs S').
(** arrays that the rule set goes on using are looked at no further than they were in use *)
Definition compat (S : list item) (l : look) : Prop :=
  In (addr l) (addrs S) -> exists k n, l = Upto (addr l) k /\ In (Arr (addr l) n) S /\ k <= n.
Definition shown_active (m : memory) (a : val * val) (mr : list mapping_rule) (rl : list rollup_rule) (h : list look) :=
  exists f g, h = f ++ g /\ shows m (fst a) (t_rules t_mbody mr) f /\ shows m (snd a) (t_rules t_rbody rl) g.

Record inv (n : nat) (m : memory) (sets : list val) (Rs : list rule_set) (views : list val) (vss : list view_state)
    (actv : list (val * val)) (acs : list active_state)
    (SS : nat -> list item) (FF GG HH : nat -> list look) : Prop := mk_inv {
  i_bound : n <= m_next m;
  i_len : length sets = length Rs /\ length views = length vss /\ length actv = length acs;
  i_set : forall i v R, at2 sets Rs i v R -> set_at m v R (SS i) (FF i) /\ wf m (SS i) (FF i);
  i_low : forall i, i < length sets -> Forall (fun x => iaddr x < n) (SS i) /\ below n (FF i);
  i_sep : forall i j, i < length sets -> j < length sets -> i <> j -> apart (SS i) (SS j) /\ off (FF j) (SS i);
  i_view : forall j v b, at2 views vss j v b ->
    shows m v (t_body (vs_body b)) (GG j) /\ below n (GG j) /\ forall i, i < length sets -> off (GG j) (SS i);
  i_own : forall j v b, at2 views vss j v b -> vs_given b = false ->
    (forall i, i < length sets -> disj (GG j) (FF i)) /\
    (forall k, k < length views -> k <> j -> disj (GG j) (GG k)) /\
    (forall k, k < length actv -> disj (GG j) (HH k));
  i_act : forall k a c, at2 actv acs k a c ->
    below n (HH k) /\
    forall mr rl, ac_rules c = Some (mr, rl) ->
      shown_active m a mr rl (HH k) /\
      forall i, i < length sets -> (ac_waiting c = true /\ ac_set c = i) \/ Forall (compat (SS i)) (HH k) }.

Definition ok (w : world) (s : state) : Prop :=
  exists n SS FF GG HH,
    inv n (w_mem w) (w_sets w) (s_sets s) (w_views w) (s_views s) (w_active w) (s_active s) SS FF GG HH.

Lemma shown_active_frame m m' a mr rl h :
  shown_active m a mr rl h -> Forall (agree m m') h -> shown_active m' a mr rl h.
Proof.
  intros (f & g & -> & Hf & Hg) H. apply Forall_app in H. destruct H as [H1 H2]. exists f, g.
  split; [reflexivity|]. split; [exact (shows_frame _ _ _ _ _ Hf H1)|exact (shows_frame _ _ _ _ _ Hg H2)].
Qed.

Lemma inv_old n m m' sets Rs views vss actv acs SS FF GG HH :
  inv n m sets Rs views vss actv acs SS FF GG HH -> old m m' ->
  inv n m' sets Rs views vss actv acs SS FF GG HH.
Proof.
  intros I Ho. destruct I as [I1 I2 I3 I4 I5 I6 I7 I8]. constructor; auto.
  - pose proof (proj1 Ho). lia.
  - intros i v R H. destruct (I3 i v R H) as [A W]. split; [exact (set_at_old _ _ _ _ _ _ Ho W A)|exact (wf_old _ _ _ _ Ho W)].
  - intros j v b H. destruct (I6 j v b H) as (A & Bd & C). split; [|auto].
    exact (shows_old _ _ _ _ _ Ho (below_old _ _ _ Bd I1) A).
  - intros k a c H. destruct (I8 k a c H) as (Bd & K). split; [exact Bd|]. intros mr rl E. destruct (K mr rl E) as [A C].
    split; [|exact C]. exact (shown_active_frame _ _ _ _ _ _ A (agree_old _ _ _ Ho (below_old _ _ _ Bd I1))).
Qed.

Lemma low_items n S p : Forall (fun x => iaddr x < n) S -> In p (addrs S) -> p < n.
Proof. intros H Hp. apply in_map_iff in Hp. destruct Hp as (i & <- & Hi). exact (proj1 (Forall_forall _ _) H i Hi). Qed.
Lemma high_items n S p : Forall (fun x => n <= iaddr x) S -> In p (addrs S) -> n <= p.
Proof. intros H Hp. apply in_map_iff in Hp. destruct Hp as (i & <- & Hi). exact (proj1 (Forall_forall _ _) H i Hi). Qed.
Lemma below_in n F l : below n F -> In l F -> addr l < n.
Proof. intros H. exact (proj1 (Forall_forall _ _) H l). Qed.
Lemma within_in n n' F l : within n n' F -> In l F -> n <= addr l < n'.
Proof. intros H. exact (proj1 (Forall_forall _ _) H l). Qed.
Lemma low_disj n n' F G : below n F -> within n n' G -> disj F G.
Proof. intros H K l l' Hl Hl'. pose proof (below_in _ _ _ H Hl). pose proof (within_in _ _ _ _ K Hl'). lia. Qed.
Lemma disj_sym F G : disj F G -> disj G F.
Proof. intros H l l' Hl Hl' E. exact (H l' l Hl' Hl (eq_sym E)). Qed.
Lemma disj_nil F : disj F [].
Proof. intros l l' _ []. Qed.

(** a new rule set *)
Lemma inv_set n m sets Rs views vss actv acs SS FF GG HH v R S F :
  inv n m sets Rs views vss actv acs SS FF GG HH -> set_at m v R S F -> new_since n m S F ->
  inv (m_next m) m (sets ++ [v]) (Rs ++ [R]) views vss actv acs (upd SS (length sets) S) (upd FF (length sets) F) GG HH.
Proof.
  intros I Ha (Hw & HS & HF). destruct I as [I1 (I2 & I2' & I2'') I3 I4 I5 I6 I7 I8].
  assert (forall i, i < length (sets ++ [v]) -> i < length sets \/ i = length sets) as Hi.
  { intros i H. rewrite app_length in H. cbn [length] in H. lia. }
  assert (forall i, i < length sets -> upd SS (length sets) S i = SS i /\ upd FF (length sets) F i = FF i) as Hu.
  { intros i H. rewrite !upd_other by lia. auto. }
  constructor.
  - lia.
  - rewrite !app_length, I2. auto.
  - intros i v' R' H. destruct (at2_snoc _ _ _ _ _ _ _ I2 H) as [K|(-> & -> & ->)].
    + destruct (Hu i (at2_lt _ _ _ _ _ K)) as [-> ->]. exact (I3 i v' R' K).
    + rewrite !upd_same. auto.
  - intros i H. destruct (Hi i H) as [K| ->].
    + destruct (Hu i K) as [-> ->]. destruct (I4 i K) as [A Bd]. split; [|exact (below_old _ _ _ Bd I1)].
      revert A. apply Forall_impl. intros x. lia.
    + rewrite !upd_same. exact (conj (proj1 (proj2 Hw)) (proj1 (proj2 (proj2 Hw)))).
  - intros i j H1 H2 Hne. destruct (Hi i H1) as [K1| ->], (Hi j H2) as [K2| ->].
    + destruct (Hu i K1) as [-> _]. destruct (Hu j K2) as [-> ->]. exact (I5 i j K1 K2 Hne).
    + destruct (Hu i K1) as [-> _]. rewrite !upd_same. destruct (I4 i K1) as [A _]. split.
      * intros p Hp Hp'. pose proof (low_items _ _ _ A Hp). pose proof (high_items _ _ _ HS Hp'). lia.
      * intros l Hl Hp. pose proof (low_items _ _ _ A Hp). pose proof (within_in _ _ _ _ HF Hl). lia.
    + destruct (Hu j K2) as [-> ->]. rewrite !upd_same. destruct (I4 j K2) as [A Bd]. split.
      * intros p Hp Hp'. pose proof (low_items _ _ _ A Hp'). pose proof (high_items _ _ _ HS Hp). lia.
      * intros l Hl Hp. pose proof (high_items _ _ _ HS Hp). pose proof (below_in _ _ _ Bd Hl). lia.
    + contradiction.
  - intros j v' b H. destruct (I6 j v' b H) as (A & Bd & C). split; [exact A|]. split; [exact (below_old _ _ _ Bd I1)|].
    intros i Hlt. destruct (Hi i Hlt) as [K| ->].
    + destruct (Hu i K) as [-> _]. exact (C i K).
    + rewrite upd_same. intros l Hl Hp. pose proof (high_items _ _ _ HS Hp). pose proof (below_in _ _ _ Bd Hl). lia.
  - intros j v' b H Hg. destruct (I7 j v' b H Hg) as (A & Bd & C). split; [|auto].
    intros i Hlt. destruct (Hi i Hlt) as [K| ->].
    + destruct (Hu i K) as [_ ->]. exact (A i K).
    + rewrite upd_same. destruct (I6 j v' b H) as (_ & Bj & _). exact (low_disj _ _ _ _ Bj HF).
  - intros k a c H. destruct (I8 k a c H) as (Bd & K). split; [exact (below_old _ _ _ Bd I1)|]. intros mr rl E.
    destruct (K mr rl E) as [A C]. split; [exact A|]. intros i Hlt. destruct (Hi i Hlt) as [Ki| ->].
    + destruct (Hu i Ki) as [-> _]. exact (C i Ki).
    + right. rewrite upd_same. apply Forall_forall. intros l Hl Hp.
      pose proof (high_items _ _ _ HS Hp). pose proof (below_in _ _ _ Bd Hl). lia.
Qed.

(** a new view *)
Lemma inv_view n n' m sets Rs views vss actv acs SS FF GG HH v b g :
  inv n m sets Rs views vss actv acs SS FF GG HH -> shows m v (t_body b) g -> within n n' g -> n <= n' ->
  n' <= m_next m ->
  inv n' m sets Rs (views ++ [v]) (vss ++ [mk_vs b false]) actv acs SS FF (upd GG (length views) g) HH.
Proof.
  intros I Hs Hg Hn Hn'. destruct I as [I1 (I2 & I2' & I2'') I3 I4 I5 I6 I7 I8].
  assert (forall i, i < length (views ++ [v]) -> i < length views \/ i = length views) as Hi.
  { intros i H. rewrite app_length in H. cbn [length] in H. lia. }
  assert (forall i, i < length views -> upd GG (length views) g i = GG i) as Hu.
  { intros i H. rewrite upd_other by lia. auto. }
  assert (forall j, j < length views -> below n (GG j)) as HG.
  { intros j Hj. destruct (nth_error views j) as [v'|] eqn:E1; [|apply nth_error_None in E1; lia].
    destruct (nth_error vss j) as [b'|] eqn:E2; [|apply nth_error_None in E2; lia].
    exact (proj1 (proj2 (I6 j v' b' (conj E1 E2)))). }
  constructor; auto.
  - rewrite !app_length, I2'. auto.
  - intros i H. destruct (I4 i H) as [A Bd]. split; [|exact (below_old _ _ _ Bd Hn)].
    revert A. apply Forall_impl. intros x. lia.
  - intros j v' b' H. destruct (at2_snoc _ _ _ _ _ _ _ I2' H) as [K|(-> & -> & ->)].
    + rewrite (Hu j (at2_lt _ _ _ _ _ K)). destruct (I6 j v' b' K) as (A & Bd & C). split; [exact A|].
      split; [exact (below_old _ _ _ Bd Hn)|exact C].
    + rewrite upd_same. cbn [vs_body]. split; [exact Hs|]. split; [exact (within_below _ _ _ Hg)|].
      intros i Hlt l Hl Hp. pose proof (low_items _ _ _ (proj1 (I4 i Hlt)) Hp). pose proof (within_in _ _ _ _ Hg Hl). lia.
  - intros j v' b' H Hgv. destruct (at2_snoc _ _ _ _ _ _ _ I2' H) as [K|(-> & -> & ->)].
    + pose proof (at2_lt _ _ _ _ _ K) as Hj. rewrite (Hu j Hj). destruct (I7 j v' b' K Hgv) as (A & Bd & C).
      split; [exact A|]. split; [|exact C]. intros k Hk Hne. destruct (Hi k Hk) as [K'| ->].
      * rewrite (Hu k K'). exact (Bd k K' Hne).
      * rewrite upd_same. exact (low_disj _ _ _ _ (HG j Hj) Hg).
    + rewrite upd_same. split; [|split].
      * intros i Hlt. apply disj_sym. exact (low_disj _ _ _ _ (proj2 (I4 i Hlt)) Hg).
      * intros k Hk Hne. destruct (Hi k Hk) as [K'|K']; [|contradiction]. rewrite (Hu k K').
        apply disj_sym. exact (low_disj _ _ _ _ (HG k K') Hg).
      * intros k Hk. apply disj_sym. destruct (nth_error actv k) as [a|] eqn:E1; [|apply nth_error_None in E1; lia].
        destruct (nth_error acs k) as [c|] eqn:E2; [|apply nth_error_None in E2; lia].
        exact (low_disj _ _ _ _ (proj1 (I8 k a c (conj E1 E2))) Hg).
  - intros k a c H. destruct (I8 k a c H) as (Bd & K). split; [exact (below_old _ _ _ Bd Hn)|exact K].
Qed.

Lemma inv_views m vs bs : forall n n' sets Rs views vss actv acs SS FF GG HH,
  inv n m sets Rs views vss actv acs SS FF GG HH -> chain m n vs (map t_body bs) n' -> n' <= m_next m ->
  exists GG', inv n' m sets Rs (views ++ vs) (vss ++ map (fun b => mk_vs b false) bs) actv acs SS FF GG' HH.
Proof.
  revert bs. induction vs as [|v vs IH]; intros bs n n' sets Rs views vss actv acs SS FF GG HH I H Hn'.
  - inversion H as [k E1 E2 E3|]; subst. destruct bs; [|discriminate]. cbn [map]. rewrite !app_nil_r. exists GG. exact I.
  - destruct bs as [|b bs]; [inversion H|]. cbn [map] in H. inversion H as [|k v' t g n1 vs' ts n2 H1 H2 Hk H3]; subst.
    pose proof (chain_le _ _ _ _ _ H3).
    destruct (IH bs n1 n' sets Rs (views ++ [v]) (vss ++ [mk_vs b false]) actv acs SS FF (upd GG (length views) g) HH
                (inv_view n n1 m sets Rs views vss actv acs SS FF GG HH v b g I H1 H2 Hk ltac:(lia)) H3 Hn') as (GG' & I').
    exists GG'. rewrite <- !app_assoc in I'. exact I'.
Qed.

(** a new active set *)
Lemma inv_active n m sets Rs views vss actv acs SS FF GG HH i v R a w mr rl h :
  inv n m sets Rs views vss actv acs SS FF GG HH -> at2 sets Rs i v R ->
  shown_active m a mr rl h -> below (m_next m) h -> (forall l, In l h -> seen n (SS i) (FF i) w l) ->
  inv (m_next m) m sets Rs views vss (actv ++ [a]) (acs ++ [mk_ac i w (Some (mr, rl))]) SS FF GG (upd HH (length actv) h).
Proof.
  intros I Hi Hs Hb Hl. destruct I as [I1 (I2 & I2' & I2'') I3 I4 I5 I6 I7 I8].
  pose proof (at2_lt _ _ _ _ _ Hi) as Hlt. destruct (I3 i v R Hi) as [_ (W1 & W2 & W3 & W4)].
  constructor; auto.
  - rewrite !app_length, I2''. auto.
  - intros j H. destruct (I4 j H) as [A Bd]. split; [|exact (below_old _ _ _ Bd I1)].
    revert A. apply Forall_impl. intros x. lia.
  - intros j v' b H. destruct (I6 j v' b H) as (A & Bd & C). split; [exact A|]. split; [exact (below_old _ _ _ Bd I1)|exact C].
  - intros j v' b H Hg. destruct (I7 j v' b H Hg) as (A & Bd & C). split; [exact A|]. split; [exact Bd|].
    intros k Hk. rewrite app_length in Hk. cbn [length] in Hk.
    destruct (Nat.eq_dec k (length actv)) as [->|Hne]; [|rewrite upd_other by exact Hne; apply C; lia].
    rewrite upd_same. destruct (I6 j v' b H) as (_ & Bj & Oj). intros l l' Hin Hin' E.
    destruct (Hl l' Hin') as [K|[K|[(x & y & -> & K)|[_ K]]]].
    + pose proof (below_in _ _ _ Bj Hin). lia.
    + exact (A i Hlt l l' Hin K E).
    + apply (Oj i Hlt l Hin). rewrite E. exact (in_map iaddr _ _ K).
    + apply (Oj i Hlt l Hin). rewrite E. exact K.
  - intros k a' c H. destruct (at2_snoc _ _ _ _ _ _ _ I2'' H) as [K|(-> & -> & ->)].
    + rewrite upd_other by (pose proof (at2_lt _ _ _ _ _ K); lia). destruct (I8 k a' c K) as (Bd & C).
      split; [exact (below_old _ _ _ Bd I1)|exact C].
    + rewrite upd_same. split; [exact Hb|]. cbn [ac_rules ac_waiting ac_set]. intros mr' rl' E. injection E as <- <-.
      split; [exact Hs|]. intros j Hj. destruct (Nat.eq_dec j i) as [->|Hne].
      * destruct w; [left; auto|right]. apply Forall_forall. intros l Hin Hp.
        destruct (Hl l Hin) as [K|[K|[(x & y & -> & K)|[K _]]]]; [| | |discriminate].
        -- pose proof (low_items _ _ _ (proj1 (I4 i Hlt)) Hp). lia.
        -- exfalso. exact (W4 l K Hp).
        -- exists y, y. cbn [addr]. auto.
      * right. apply Forall_forall. intros l Hin Hp. exfalso. destruct (I5 j i Hj Hlt Hne) as [Ap Of].
        destruct (Hl l Hin) as [K|[K|[(x & y & -> & K)|[_ K]]]].
        -- pose proof (low_items _ _ _ (proj1 (I4 j Hj)) Hp). lia.
        -- exact (Of l K Hp).
        -- exact (Ap _ Hp (in_map iaddr _ _ K)).
        -- exact (Ap _ Hp K).
Qed.

(** an edit of a rule set *)
Lemma evolves_addr n S S' p : evolves n S S' -> In p (addrs S') -> n <= p \/ In p (addrs S).
Proof.
  intros H Hp. apply in_map_iff in Hp. destruct Hp as (i & <- & Hi). exact (comes_from_addr _ _ _ (H i Hi)).
Qed.

Lemma compat_evolves n S S' l :
  NoDup (addrs S) -> evolves n S S' -> addr l < n -> compat S l -> compat S' l.
Proof.
  intros Hnd He Hlt Hc Hp. destruct (evolves_addr _ _ _ _ He Hp) as [K|K]; [lia|].
  destruct (Hc K) as (k & n0 & El & Hin & Hle). apply in_map_iff in Hp. destruct Hp as (i & E & Hi).
  destruct (He i Hi) as [K'|K']; [lia|]. destruct i as [p|a n']; cbn [iaddr] in E.
  - exfalso. rewrite <- E in Hin. pose proof (nodup_same _ _ _ Hnd Hin K' eq_refl). discriminate.
  - destruct K' as (n1 & Hn1 & K'). rewrite <- E in Hin. pose proof (nodup_same _ _ _ Hnd Hin K' eq_refl) as En.
    injection En as <-. exists k, n'. rewrite <- E. split; [rewrite E; exact El|]. split; [exact Hi|lia].
Qed.

Lemma firstn_shorter {A} k n (a b : list A) : k <= n -> firstn n a = firstn n b -> firstn k a = firstn k b.
Proof.
  intros Hk E. rewrite <- (Nat.min_l k n Hk), <- !firstn_firstn, E. reflexivity.
Qed.

Lemma compat_agree n S m m' h :
  keeps S n m m' -> below n h -> Forall (compat S) h -> Forall (agree m m') h.
Proof.
  intros [_ K] Hb Hc. apply Forall_forall. intros l Hl. pose proof (below_in _ _ _ Hb Hl) as Hlt.
  destruct (K (addr l) Hlt) as [K1 K2]. destruct (in_dec Nat.eq_dec (addr l) (addrs S)) as [Hin|Hout].
  - destruct (proj1 (Forall_forall _ _) Hc l Hl Hin) as (k & n0 & El & Ha & Hle). rewrite El. cbn [agree].
    exact (firstn_shorter _ _ _ _ Hle (K2 n0 Ha)).
  - destruct l as [p|p k]; cbn [agree addr] in *; rewrite (K1 Hout); reflexivity.
Qed.

Lemma off_agree n S m m' h : keeps S n m m' -> below n h -> off h S -> Forall (agree m m') h.
Proof.
  intros K Hb Ho. apply (compat_agree n S); [exact K|exact Hb|]. apply Forall_forall. intros l Hl Hp.
  exfalso. exact (Ho l Hl Hp).
Qed.

Lemma nth_give gi vss j b :
  nth_error (give gi vss) j = Some b ->
  exists b0, nth_error vss j = Some b0 /\ vs_body b = vs_body b0 /\
    (vs_given b = false -> vs_given b0 = false /\ gi <> Some j).
Proof.
  destruct gi as [i|]; cbn [give].
  - destruct (nth_error vss i) as [v|] eqn:E.
    + rewrite nth_set_nth. destruct (Nat.eqb i j) eqn:Ej.
      * apply Nat.eqb_eq in Ej. subst j. rewrite E. cbn [option_map]. intro H. injection H as <-.
        exists v. cbn [vs_body vs_given]. split; [reflexivity|]. split; [reflexivity|discriminate].
      * intro H. exists b. split; [exact H|]. split; [reflexivity|]. intro Hg. split; [exact Hg|].
        apply Nat.eqb_neq in Ej. congruence.
    + intro H. exists b. split; [exact H|]. split; [reflexivity|]. intro Hg. split; [exact Hg|].
      intro K. injection K as ->. congruence.
  - intro H. exists b. split; [exact H|]. split; [reflexivity|]. intro Hg. split; [exact Hg|discriminate].
Qed.
Lemma length_give gi vss : length (give gi vss) = length vss.
Proof.
  destruct gi as [i|]; cbn [give]; [|reflexivity]. destruct (nth_error vss i); [apply length_set_nth|reflexivity].
Qed.

Lemma inv_edit n m m' sets Rs views vss actv acs SS FF GG HH i v R R' S' F' G gi :
  inv n m sets Rs views vss actv acs SS FF GG HH -> at2 sets Rs i v R ->
  set_at m' v R' S' F' -> wf m' S' F' -> evo G m (SS i) (FF i) m' S' F' ->
  (forall l, In l G -> exists j, gi = Some j /\ j < length views /\ In l (GG j)) ->
  inv (m_next m') m' sets (set_nth i R' Rs) views (give gi vss) actv (map (disturb i) acs)
    (upd SS i S') (upd FF i F') GG HH.
Proof.
  intros I Hi Ha' Hw' (K & E & X) HG. destruct I as [I1 (I2 & I2' & I2'') I3 I4 I5 I6 I7 I8].
  pose proof (at2_lt _ _ _ _ _ Hi) as Hlt. destruct (I3 i v R Hi) as [Ha Hw]. pose proof (proj1 K) as Hnext.
  assert (n <= m_next m') as Hn' by lia.
  assert (forall f, below n f -> below (m_next m) f) as Hup by (intros f Hf; exact (below_old _ _ _ Hf I1)).
  (* views are off every spine *)
  assert (forall j, j < length views -> below n (GG j) /\ forall k, k < length sets -> off (GG j) (SS k)) as Hview.
  { intros j Hj. destruct (nth_error views j) as [v'|] eqn:E1; [|apply nth_error_None in E1; lia].
    destruct (nth_error vss j) as [b'|] eqn:E2; [|apply nth_error_None in E2; lia].
    exact (proj2 (I6 j v' b' (conj E1 E2))). }
  (* what the edited rule set looks at *)
  assert (forall l, In l F' -> In l (FF i) \/ (exists j, gi = Some j /\ j < length views /\ In l (GG j)) \/ m_next m <= addr l) as HF'.
  { intros l Hl. destruct (X l Hl) as [H|[H|H]]; auto. }
  constructor.
  - lia.
  - rewrite length_set_nth, length_give, map_length. auto.
  - intros j v' Rj [H1 H2]. rewrite nth_set_nth in H2. destruct (Nat.eq_dec j i) as [->|Hne].
    + rewrite Nat.eqb_refl in H2. destruct Hi as [Hi1 Hi2]. rewrite Hi2 in H2. injection H2 as <-.
      rewrite Hi1 in H1. injection H1 as <-. rewrite !upd_same. auto.
    + rewrite (proj2 (Nat.eqb_neq i j)) in H2 by congruence. rewrite !upd_other by exact Hne.
      destruct (I3 j v' Rj (conj H1 H2)) as [Aj Wj]. pose proof (at2_lt _ _ _ _ _ (conj H1 H2)) as Hj.
      destruct (I5 j i Hj Hlt Hne) as [Ap _]. destruct (I5 i j Hlt Hj) as [_ Of]; [congruence|].
      destruct (I4 j Hj) as [Lj Bj]. split.
      * apply (set_at_frame m); [exact Aj| |exact (off_agree _ _ _ _ _ K (Hup _ Bj) Of)].
        intros p Hp. apply (proj2 K p); [|exact (Ap p Hp)]. pose proof (low_items _ _ _ Lj Hp). lia.
      * destruct Wj as (W1 & W2 & W3 & W4). split; [exact W1|]. split; [|split; [|exact W4]].
        -- revert W2. apply Forall_impl. intros x. lia.
        -- exact (below_old _ _ _ W3 Hnext).
  - intros j Hj. destruct (Nat.eq_dec j i) as [->|Hne].
    + rewrite !upd_same. exact (conj (proj1 (proj2 Hw')) (proj1 (proj2 (proj2 Hw')))).
    + rewrite !upd_other by exact Hne. destruct (I4 j Hj) as [Lj Bj]. split; [|exact (below_old _ _ _ Bj Hn')].
      revert Lj. apply Forall_impl. intros x. lia.
  - intros j k Hj Hk Hne. destruct (Nat.eq_dec j i) as [->|Hji]; [|destruct (Nat.eq_dec k i) as [->|Hki]].
    + rewrite upd_same, !upd_other by congruence. destruct (I5 i k Hlt Hk Hne) as [Ap Of]. destruct (I4 k Hk) as [Lk Bk]. split.
      * intros p Hp Hp'. destruct (evolves_addr _ _ _ _ E Hp) as [H|H]; [|exact (Ap p H Hp')].
        pose proof (low_items _ _ _ Lk Hp'). lia.
      * intros l Hl Hp. destruct (evolves_addr _ _ _ _ E Hp) as [H|H]; [|exact (Of l Hl H)].
        pose proof (below_in _ _ _ Bk Hl). lia.
    + rewrite !upd_same, upd_other by congruence. destruct (I5 j i Hj Hlt Hne) as [Ap Of]. destruct (I4 j Hj) as [Lj Bj]. split.
      * intros p Hp Hp'. destruct (evolves_addr _ _ _ _ E Hp') as [H|H]; [|exact (Ap p Hp H)].
        pose proof (low_items _ _ _ Lj Hp). lia.
      * intros l Hl Hp. destruct (HF' l Hl) as [H|[(q & _ & Hq & H)|H]].
        -- exact (Of l H Hp).
        -- exact (proj2 (Hview q Hq) j Hj l H Hp).
        -- pose proof (low_items _ _ _ Lj Hp). lia.
    + rewrite !upd_other by assumption. exact (I5 j k Hj Hk Hne).
  - intros j v' b [H1 H2]. destruct (nth_give _ _ _ _ H2) as (b0 & H2' & -> & _).
    destruct (I6 j v' b0 (conj H1 H2')) as (A & Bd & C). split; [|split].
    + exact (shows_frame _ _ _ _ _ A (off_agree _ _ _ _ _ K (Hup _ Bd) (C i Hlt))).
    + exact (below_old _ _ _ Bd Hn').
    + intros k Hk. destruct (Nat.eq_dec k i) as [->|Hne]; [|rewrite upd_other by exact Hne; exact (C k Hk)].
      rewrite upd_same. intros l Hl Hp. destruct (evolves_addr _ _ _ _ E Hp) as [H|H]; [|exact (C i Hlt l Hl H)].
      pose proof (below_in _ _ _ Bd Hl). lia.
  - intros j v' b [H1 H2] Hg. destruct (nth_give _ _ _ _ H2) as (b0 & H2' & _ & Hg'). destruct (Hg' Hg) as [Hg0 Hgi].
    destruct (I7 j v' b0 (conj H1 H2') Hg0) as (A & Bd & C). split; [|auto].
    intros k Hk. destruct (Nat.eq_dec k i) as [->|Hne]; [|rewrite upd_other by exact Hne; exact (A k Hk)].
    rewrite upd_same. intros l l' Hl Hl' El. destruct (HF' l' Hl') as [H|[(q & Hq1 & Hq & H)|H]].
    + exact (A i Hlt l l' Hl H El).
    + apply (Bd q Hq) with (l := l) (l' := l'); auto. congruence.
    + pose proof (below_in _ _ _ (proj1 (proj2 (I6 j v' b0 (conj H1 H2')))) Hl). lia.
  - intros k a c [H1 H2]. rewrite nth_error_map in H2. destruct (nth_error acs k) as [c0|] eqn:Ec; [|discriminate].
    cbn [option_map] in H2. injection H2 as <-. destruct (I8 k a c0 (conj H1 Ec)) as (Bd & C).
    split; [exact (below_old _ _ _ Bd Hn')|]. intros mr rl Er. unfold disturb in Er |- *.
    destruct (Nat.eqb (ac_set c0) i && ac_waiting c0) eqn:Ed; [discriminate|].
    destruct (C mr rl Er) as [A D].
    assert (Forall (compat (SS i)) (HH k)) as Hc.
    { destruct (D i Hlt) as [[D1 D2]|D1]; [|exact D1]. rewrite D1, D2, Nat.eqb_refl in Ed. discriminate. }
    split; [exact (shown_active_frame _ _ _ _ _ _ A (compat_agree _ _ _ _ _ K (Hup _ Bd) Hc))|].
    intros j Hj. destruct (Nat.eq_dec j i) as [->|Hne]; [|rewrite upd_other by exact Hne; exact (D j Hj)].
    right. rewrite upd_same. apply Forall_forall. intros l Hl.
    apply (compat_evolves (m_next m) (SS i)); [exact (proj1 Hw)|exact E| |exact (proj1 (Forall_forall _ _) Hc l Hl)].
    pose proof (below_in _ _ _ Bd Hl). lia.
Qed.

(** a write into a view that is the caller's own *)
Lemma disj_agree (m m' : memory) G F :
  (forall p, ~ In p (map addr G) -> m_at m' p = m_at m p) -> disj G F -> Forall (agree m m') F.
Proof.
  intros H Hd. apply agree_all_same. intros p Hp. apply H. intro Hq. apply in_map_iff in Hp. destruct Hp as (l & El & Hl).
  apply in_map_iff in Hq. destruct Hq as (l' & El' & Hl'). apply (Hd l' l Hl' Hl). congruence.
Qed.

Lemma disj_incl G G' F : incl (map addr G') (map addr G) -> disj G F -> disj G' F.
Proof.
  intros Hi Hd l l' Hl Hl' E. pose proof (Hi _ (in_map addr _ _ Hl)) as H. apply in_map_iff in H.
  destruct H as (l0 & E0 & H0). apply (Hd l0 l' H0 Hl'). congruence.
Qed.

Lemma inv_write n m m' sets Rs views vss actv acs SS FF GG HH j v b b' g' :
  inv n m sets Rs views vss actv acs SS FF GG HH -> at2 views vss j v (mk_vs b false) ->
  m_next m' = m_next m -> (forall p, ~ In p (map addr (GG j)) -> m_at m' p = m_at m p) ->
  shows m' v (t_body b') g' -> incl (map addr g') (map addr (GG j)) ->
  inv n m' sets Rs views (set_nth j (mk_vs b' false) vss) actv acs SS FF (upd GG j g') HH.
Proof.
  intros I Hj Hnext Hm' Hs' Hinc. destruct I as [I1 (I2 & I2' & I2'') I3 I4 I5 I6 I7 I8].
  pose proof (at2_lt _ _ _ _ _ Hj) as Hlt. destruct (I6 j v _ Hj) as (_ & Bj & Oj).
  destruct (I7 j v _ Hj eq_refl) as (P1 & P2 & P3).
  assert (below n g' /\ forall i, i < length sets -> off g' (SS i)) as [Bg Og].
  { split.
    - apply Forall_forall. intros l Hl. pose proof (Hinc _ (in_map addr _ _ Hl)) as H. apply in_map_iff in H.
      destruct H as (l0 & <- & H0). exact (below_in _ _ _ Bj H0).
    - intros i Hi l Hl Hp. pose proof (Hinc _ (in_map addr _ _ Hl)) as H. apply in_map_iff in H.
      destruct H as (l0 & E0 & H0). apply (Oj i Hi l0 H0). rewrite E0. exact Hp. }
  constructor; auto.
  - lia.
  - rewrite length_set_nth. auto.
  - intros i v' R H. destruct (I3 i v' R H) as [A W]. pose proof (at2_lt _ _ _ _ _ H) as Hi. split.
    + apply (set_at_frame m); [exact A| |exact (disj_agree _ _ _ _ Hm' (P1 i Hi))].
      intros p Hp. apply Hm'. intro Hq. apply in_map_iff in Hq. destruct Hq as (l & <- & Hl). exact (Oj i Hi l Hl Hp).
    + destruct W as (W1 & W2 & W3 & W4). unfold wf. rewrite Hnext. auto.
  - intros k v' c [H1 H2]. rewrite nth_set_nth in H2. destruct (Nat.eq_dec k j) as [->|Hne].
    + rewrite Nat.eqb_refl in H2. destruct Hj as [Hj1 Hj2]. rewrite Hj2 in H2. injection H2 as <-. cbn [vs_body].
      rewrite Hj1 in H1. injection H1 as <-. rewrite upd_same. auto.
    + rewrite (proj2 (Nat.eqb_neq j k)) in H2 by congruence. rewrite upd_other by exact Hne.
      destruct (I6 k v' c (conj H1 H2)) as (A & Bd & C). split; [|auto].
      exact (shows_frame _ _ _ _ _ A (disj_agree _ _ _ _ Hm' (P2 k (at2_lt _ _ _ _ _ (conj H1 H2)) Hne))).
  - intros k v' c [H1 H2] Hg. rewrite nth_set_nth in H2. destruct (Nat.eq_dec k j) as [->|Hne].
    + rewrite upd_same. split; [|split].
      * intros i Hi. exact (disj_incl _ _ _ Hinc (P1 i Hi)).
      * intros q Hq Hne. rewrite upd_other by exact Hne. exact (disj_incl _ _ _ Hinc (P2 q Hq Hne)).
      * intros q Hq. exact (disj_incl _ _ _ Hinc (P3 q Hq)).
    + rewrite (proj2 (Nat.eqb_neq j k)) in H2 by congruence. rewrite upd_other by exact Hne.
      destruct (I7 k v' c (conj H1 H2) Hg) as (A & Bd & C). split; [exact A|]. split; [|exact C].
      intros q Hq Hqk. destruct (Nat.eq_dec q j) as [->|Hqj]; [|rewrite upd_other by exact Hqj; exact (Bd q Hq Hqk)].
      rewrite upd_same. apply disj_sym. apply (disj_incl _ _ _ Hinc). apply disj_sym. exact (Bd j Hq Hqk).
  - intros k a c H. destruct (I8 k a c H) as (Bd & C). split; [exact Bd|]. intros mr rl E. destruct (C mr rl E) as [A D].
    split; [|exact D].
    exact (shown_active_frame _ _ _ _ _ _ A (disj_agree _ _ _ _ Hm' (P3 k (at2_lt _ _ _ _ _ H)))).
Qed.

(** * The actions *)

Lemma call_shows m sets Rs views vss actv acs n SS FF GG HH c ce e :
  inv n m sets Rs views vss actv acs SS FF GG HH ->
  call_in_memory views c = Some ce -> call_on_values (map vs_body vss) c = Some e ->
  exists G, edit_shows m ce e G /\ below n G /\
    (forall l, In l G -> exists j, call_view c = Some j /\ j < length views /\ In l (GG j)).
Proof.
  intros I Hc He.
  assert (forall j v b, nth_error views j = Some v -> nth_error (map vs_body vss) j = Some b ->
    shows m v (t_body b) (GG j) /\ below n (GG j) /\ j < length views) as Hv.
  { intros j v b H1 H2. rewrite nth_error_map in H2. destruct (nth_error vss j) as [s|] eqn:E; [|discriminate].
    injection H2 as <-. destruct (i_view _ _ _ _ _ _ _ _ _ _ _ _ I j v s (conj H1 E)) as (A & Bd & _).
    split; [exact A|]. split; [exact Bd|]. exact (at2_lt _ _ _ _ _ (conj H1 E)). }
  destruct c as [fresh r|r|id|fresh r|r|id| |]; cbn [call_in_memory call_on_values call_view] in *.
  1,2,4,5: destruct (nth_error views (re_body r)) as [v|] eqn:E1; [|discriminate]; injection Hc as <-;
    destruct (nth_error (map vs_body vss) (re_body r)) as [[b|b]|] eqn:E2; try discriminate; injection He as <-;
    destruct (Hv _ _ _ E1 E2) as (A & Bd & Hlt); exists (GG (re_body r)); (split; [|split; [exact Bd|eauto]]);
    destruct r as [ri rn rf rb]; unfold with_body; cbn [re_id re_name re_filter re_body] in *.
  - apply (es_add_mapping m fresh (mk_re ri rn rf v) b). exact A.
  - apply (es_update_mapping m (mk_re ri rn rf v) b). exact A.
  - apply (es_add_rollup m fresh (mk_re ri rn rf v) b). exact A.
  - apply (es_update_rollup m (mk_re ri rn rf v) b). exact A.
  - exists []. injection Hc as <-. injection He as <-. split; [constructor|]. split; [constructor|]. intros l [].
  - exists []. injection Hc as <-. injection He as <-. split; [constructor|]. split; [constructor|]. intros l [].
  - exists []. injection Hc as <-. injection He as <-. split; [constructor|]. split; [constructor|]. intros l [].
  - exists []. injection Hc as <-. injection He as <-. split; [constructor|]. split; [constructor|]. intros l [].
Qed.

(** the edit goes through and returns what the edit of the plain value returns *)
Lemma edit_goes n m sets Rs views vss actv acs SS FF GG HH i v R c ce e um grow :
  inv n m sets Rs views vss actv acs SS FF GG HH -> at2 sets Rs i v R ->
  call_in_memory views c = Some ce -> call_on_values (map vs_body vss) c = Some e ->
  exists m' G S' F', edit_set grow v ce um m = Some (snd (run_edit R e um), m') /\
    set_at m' v (fst (run_edit R e um)) S' F' /\ wf m' S' F' /\ evo G m (SS i) (FF i) m' S' F' /\
    (forall l, In l G -> exists j, call_view c = Some j /\ j < length views /\ In l (GG j)).
Proof.
  intros I Hi Hc He. destruct (call_shows _ _ _ _ _ _ _ _ _ _ _ _ _ _ _ I Hc He) as (G & Hes & Bd & HG).
  destruct (i_set _ _ _ _ _ _ _ _ _ _ _ _ I i v R Hi) as [A W].
  destruct (edit_set_ok grow m v R (SS i) (FF i) ce e G um A W Hes) as (m' & S' & F' & E & A' & W' & Ev).
  - exact (below_old _ _ _ Bd (i_bound _ _ _ _ _ _ _ _ _ _ _ _ I)).
  - intros l Hl. destruct (HG l Hl) as (j & _ & Hj & Hin). 
    destruct (i_len _ _ _ _ _ _ _ _ _ _ _ _ I) as (_ & L & _).
    destruct (nth_error views j) as [v'|] eqn:E1; [|apply nth_error_None in E1; lia].
    destruct (nth_error vss j) as [b'|] eqn:E2; [|apply nth_error_None in E2; lia].
    destruct (i_view _ _ _ _ _ _ _ _ _ _ _ _ I j v' b' (conj E1 E2)) as (_ & _ & C).
    exact (C i (at2_lt _ _ _ _ _ Hi) l Hin).
  - exists m', G, S', F'. auto.
Qed.

Lemma ok_start : ok empty_world empty_state.
Proof.
  exists 0, (fun _ => []), (fun _ => []), (fun _ => []), (fun _ => []).
  constructor; cbn [empty_world empty_state w_mem w_sets w_views w_active s_sets s_views s_active m_next length]; auto.
  - intros i v R [H _]. destruct i; discriminate.
  - intros i H. lia.
  - intros i j H. lia.
  - intros i v b [H _]. destruct i; discriminate.
  - intros i v b [H _]. destruct i; discriminate.
  - intros i v b [H _]. destruct i; discriminate.
Qed.

Lemma new_view_body_shown b m : makes (new_view_body b) m (shown m (t_body b)).
Proof. destruct b as [b|ts]; cbn [new_view_body t_body]; [apply new_mbody_shown|apply new_rbody_shown]. Qed.

Lemma ok_acts w s w' s' : ok w s -> acts w s w' s' -> ok w' s'.
Proof.
  intros (n & SS & FF & GG & HH & I) H.
  destruct H as [w s rs v m' E|w s i v rs v' m' H1 H2 E|w s i v rs c ce e um grow b m' H1 H2 Hc He E
    |w s i v rs mv rv m' H1 H2 E|w s b v m' E|w s j v b f m' b' f' H1 H2 Hs Hn Hm Hs' Hinc|w s i v rs t ms rr m' H1 H2 E];
    unfold ok; cbn [w_mem w_sets w_views w_active s_sets s_views s_active].
  - destruct (new_set_made rs (w_mem w)) as (v' & m'' & E' & Ho & (S & F & A & N)). rewrite E in E'. injection E' as <- <-.
    exists (m_next m'), (upd SS (length (w_sets w)) S), (upd FF (length (w_sets w)) F), GG, HH.
    apply (inv_set n); [exact (inv_old _ _ _ _ _ _ _ _ _ _ _ _ _ I Ho)|exact A|].
    exact (new_since_earlier _ _ _ _ _ N (i_bound _ _ _ _ _ _ _ _ _ _ _ _ I)).
  - destruct (i_set _ _ _ _ _ _ _ _ _ _ _ _ I i v rs (conj H1 H2)) as [A W].
    destruct (set_copy_made _ _ _ _ _ A W) as (v'' & m'' & E' & Ho & (S & F & A' & N)). rewrite E in E'. injection E' as <- <-.
    exists (m_next m'), (upd SS (length (w_sets w)) S), (upd FF (length (w_sets w)) F), GG, HH.
    apply (inv_set n); [exact (inv_old _ _ _ _ _ _ _ _ _ _ _ _ _ I Ho)|exact A'|].
    exact (new_since_earlier _ _ _ _ _ N (i_bound _ _ _ _ _ _ _ _ _ _ _ _ I)).
  - destruct (edit_goes _ _ _ _ _ _ _ _ _ _ _ _ i v rs c ce e um grow I (conj H1 H2) Hc He)
      as (m'' & G & S' & F' & E' & A' & W' & Ev & HG). rewrite E in E'. injection E' as _ <-.
    exists (m_next m'), (upd SS i S'), (upd FF i F'), GG, HH.
    exact (inv_edit n _ m' _ _ _ _ _ _ SS FF GG HH i v rs _ S' F' G _ I (conj H1 H2) A' W' Ev HG).
  - destruct (i_set _ _ _ _ _ _ _ _ _ _ _ _ I i v rs (conj H1 H2)) as [A W].
    destruct (set_views_chained _ _ _ _ _ A W) as (vs & m'' & E' & Ho & (n' & Hch & Hle)). rewrite E in E'. injection E' as <- <-.
    destruct (chain_skip _ n _ _ _ _ (i_bound _ _ _ _ _ _ _ _ _ _ _ _ I) Hch) as (n2 & Hch' & Hle').
    destruct (inv_views m' _ _ n n2 _ _ _ _ _ _ _ _ _ _ (inv_old _ _ _ _ _ _ _ _ _ _ _ _ _ I Ho) Hch' ltac:(lia)) as (GG' & I').
    exists n2, SS, FF, GG', HH. exact I'.
  - destruct (new_view_body_shown b (w_mem w)) as (v' & m'' & E' & Ho & (g & Hs & Wg)). rewrite E in E'. injection E' as <- <-.
    exists (m_next m'), SS, FF, (upd GG (length (w_views w)) g), HH.
    pose proof (i_bound _ _ _ _ _ _ _ _ _ _ _ _ I) as Hb. pose proof (proj1 Ho) as Hb'.
    apply (inv_view n); [exact (inv_old _ _ _ _ _ _ _ _ _ _ _ _ _ I Ho)|exact Hs| |lia|lia].
    exact (within_wider _ _ _ _ _ Wg Hb (le_n _)).
  - destruct (i_view _ _ _ _ _ _ _ _ _ _ _ _ I j v _ (conj H1 H2)) as (A & _ & _). cbn [vs_body] in A.
    destruct (shows_det _ _ _ _ _ _ A Hs) as [_ Ef]. subst f.
    exists n, SS, FF, (upd GG j f'), HH.
    exact (inv_write n _ m' _ _ _ _ _ _ SS FF GG HH j v b b' f' I (conj H1 H2) Hn Hm Hs' Hinc).
  - destruct (i_set _ _ _ _ _ _ _ _ _ _ _ _ I i v rs (conj H1 H2)) as [A W].
    destruct (set_active_seen _ _ _ _ _ t A W) as (x & m'' & E' & Ho & (f & g & Hf & Hg & Hb & Hl)).
    rewrite E in E'. injection E' as <- <-.
    exists (m_next m'), SS, FF, GG, (upd HH (length (w_active w)) (f ++ g)).
    apply (inv_active n) with (v := v) (R := rs).
    + exact (inv_old _ _ _ _ _ _ _ _ _ _ _ _ _ I Ho).
    + exact (conj H1 H2).
    + exists f, g. auto.
    + exact Hb.
    + intros l Hin. apply (seen_wider (m_next (w_mem w)) n (SS i) (SS i) (FF i) (FF i) _ _ l (Hl l Hin)); auto using incl_refl.
      exact (i_bound _ _ _ _ _ _ _ _ _ _ _ _ I).
Qed.

Theorem reached_ok w s : reached w s -> ok w s.
Proof. induction 1 as [|w s w' s' H IH Ha]; [exact ok_start|exact (ok_acts _ _ _ _ IH Ha)]. Qed.
