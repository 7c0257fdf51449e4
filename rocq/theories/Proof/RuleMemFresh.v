(** Rule sets built in new memory: decoding and cloning. *)
From Coq Require Import Ascii String Arith NArith ZArith Bool Lia Permutation List.
From Verif.Proof Require Import MemProof MemSep RuleMemCopy RuleMemRules RuleMemKinds RuleMemSets.
From Verif.Base Require Import Bytes Mem.
From Verif.Model Require Import AggType Policy Transformation Pipeline Metadata Filter MetricID Rules RuleSet
  RuleMem.
From Verif.Spec Require Import RuleMemSpec.
Import ListNotations.
Open Scope nat_scope.

Lemma makes_assoc {X Y Z} (e : prog X) (k : X -> prog Y) (k' : Y -> prog Z) m Q :
  makes (bind e (fun x => bind (k x) k')) m Q -> makes (bind (bind e k) k') m Q.
Proof.
  intros (x & m' & E & H). exists x, m'. split; [|exact H]. unfold bind in *.
  destruct (e m) as [[y m1]|]; [|discriminate E]. exact E.
Qed.

(** owned memory that is new since [n] *)
Definition new_since (n : nat) (m : memory) (S : list item) (F : list look) : Prop :=
  wf m S F /\ Forall (fun i => n <= iaddr i) S /\ within n (m_next m) F.

Lemma new_since_later n m m' S F : new_since n m S F -> old m m' -> new_since n m' S F.
Proof.
  intros (Hw & HS & HF) Ho. split; [exact (wf_old _ _ _ _ Ho Hw)|]. split; [exact HS|].
  exact (within_wider _ _ _ _ _ HF (le_n _) (proj1 Ho)).
Qed.
Lemma new_since_earlier n n' m S F : new_since n m S F -> n' <= n -> new_since n' m S F.
Proof.
  intros (Hw & HS & HF) Hn. split; [exact Hw|]. split.
  - revert HS. apply Forall_impl. intros i Hi. lia.
  - exact (within_wider _ _ _ _ _ HF Hn (le_n _)).
Qed.

Lemma nodup_apart (a b : list nat) :
  NoDup a -> NoDup b -> (forall x, In x a -> ~ In x b) -> NoDup (a ++ b).
Proof.
  induction a as [|x a IH]; intros Ha Hb Hd; [exact Hb|]. cbn [app]. inversion Ha as [|y l H1 H2]; subst.
  constructor.
  - rewrite in_app_iff. intros [K|K]; [exact (H1 K)|]. exact (Hd x (or_introl eq_refl) K).
  - apply IH; [exact H2|exact Hb|]. intros z Hz. apply Hd. right. exact Hz.
Qed.

Lemma new_since_join n m S1 F1 m' S2 F2 :
  new_since n m S1 F1 -> old m m' -> n <= m_next m -> new_since (m_next m) m' S2 F2 ->
  new_since n m' (S1 ++ S2) (F1 ++ F2).
Proof.
  intros H1 Ho Hn H2. pose proof (new_since_later _ _ _ _ _ H1 Ho) as H1'.
  destruct H1 as ((W1 & W2 & W3 & W4) & HS1 & HF1). destruct H1' as ((W1' & W2' & W3' & W4') & _ & HF1').
  pose proof (new_since_earlier _ n _ _ _ H2 Hn) as H2'.
  destruct H2 as ((V1 & V2 & V3 & V4) & HS2 & HF2). destruct H2' as (_ & HS2' & HF2').
  assert (forall x, In x (addrs S1) -> x < m_next m) as L1.
  { intros x Hx. apply in_map_iff in Hx. destruct Hx as (i & <- & Hi). exact (proj1 (Forall_forall _ _) W2 i Hi). }
  assert (forall x, In x (addrs S2) -> m_next m <= x) as L2.
  { intros x Hx. apply in_map_iff in Hx. destruct Hx as (i & <- & Hi). exact (proj1 (Forall_forall _ _) HS2 i Hi). }
  assert (forall l, In l F1 -> addr l < m_next m) as L3 by (intros l Hl; exact (proj1 (Forall_forall _ _) W3 l Hl)).
  assert (forall l, In l F2 -> m_next m <= addr l) as L4
    by (intros l Hl; exact (proj1 (proj1 (Forall_forall _ _) HF2 l Hl))).
  split; [split; [|split; [|split]]|split].
  - rewrite map_app. apply nodup_apart; [exact W1|exact V1|]. intros x Hx Hx2. specialize (L1 x Hx). specialize (L2 x Hx2). lia.
  - apply Forall_app. auto.
  - apply below_app. auto.
  - intros l Hl. rewrite map_app, in_app_iff. apply in_app_iff in Hl. intros [K|K]; destruct Hl as [Hl|Hl].
    + exact (W4 l Hl K).
    + specialize (L1 _ K). specialize (L4 l Hl). lia.
    + specialize (L2 _ K). specialize (L3 l Hl). lia.
    + exact (V4 l Hl K).
  - apply Forall_app. auto.
  - apply within_app. auto.
Qed.

Lemma new_since_item n (m : memory) i (m' : memory) :
  n <= m_next m -> m_next m <= iaddr i < m_next m' -> new_since (m_next m) m' [i] [].
Proof.
  intros Hn Hi. split; [split; [|split; [|split]]|split].
  - constructor; [intros []|constructor].
  - constructor; [lia|constructor].
  - constructor.
  - intros l [].
  - constructor; [lia|constructor].
  - constructor.
Qed.

Lemma new_since_looks n m F : within n (m_next m) F -> new_since n m [] F.
Proof.
  intro H. split; [split; [|split; [|split]]|split]; try constructor; try exact H.
  - exact (within_below _ _ _ H).
  - intros l _ [].
Qed.

Lemma owned_old (ma mb : memory) x vs A S F : old ma mb -> wf ma (A ++ S) F -> owned ma x vs A -> owned mb x vs A.
Proof.
  intros Ho Hw H. apply (owned_frame ma); [exact H|]. intros p Hp. apply (proj2 Ho).
  apply in_map_iff in Hp. destruct Hp as (i & <- & Hi).
  apply (proj1 (Forall_forall _ _) (proj1 (proj2 Hw))). apply in_or_app. left. exact Hi.
Qed.

Lemma make_slice_owned m vs :
  exists m', make_slice vs m = Some (VSlice (m_next m) 0 (length vs) (length vs), m') /\ old m m' /\
    m_next m' = Datatypes.S (m_next m) /\
    owned m' (VSlice (m_next m) 0 (length vs) (length vs)) vs [Arr (m_next m) (length vs)].
Proof.
  eexists. split; [reflexivity|]. split; [apply old_alloc|]. split; [reflexivity|].
  right. exists (m_next m), (length vs). rewrite at_alloc. rewrite firstn_all. auto.
Qed.

Section Rule.
  Context {P : Type} (tb : P -> tree).

  Definition rule_made (n : nat) (r : rule P) : val -> memory -> Prop :=
    fun v m' => exists S F, rule_at tb m' v r S F /\ new_since n m' S F.
  Definition rules_made (n : nat) (rs : list (rule P)) : list val -> memory -> Prop :=
    fun vs m' => exists S F, rules_at tb m' vs rs S F /\ new_since n m' S F.

  Lemma finish_rule m m1 u ps (l : list (snapshot P)) :
    old m m1 -> all_shown m (map (t_snapshot tb) l) ps m1 ->
    makes (bind (make_slice ps) (fun ss => new_obj [VStr u; ss])) m1 (rule_made (m_next m) (mk_rule u l)).
  Proof.
    intros Ho (F & Hs & HF). destruct (make_slice_owned m1 ps) as (m2 & E2 & Ho2 & Hn2 & Hown).
    set (ss := VSlice (m_next m1) 0 (length ps) (length ps)) in *.
    set (q := m_next m2). set (m3 := mk_mem (m_at (put q [VStr u; ss] m2)) (Datatypes.S q)).
    assert (old m2 m3) as Ho3 by apply old_alloc.
    exists (VPtr q), m3. unfold bind. rewrite E2. split; [reflexivity|]. split; [exact (old_trans _ _ _ Ho2 Ho3)|].
    exists ([Arr (m_next m1) (length ps)] ++ [Obj q]), F. split.
    - exists q, ss, ps, [Arr (m_next m1) (length ps)]. cbn [ru_uuid ru_snapshots].
      split; [reflexivity|]. split; [apply at_alloc|]. split; [|split; [reflexivity|]].
      + apply (owned_frame m2); [exact Hown|]. intros x [<-|[]]. apply (proj2 Ho3). cbn [iaddr]. lia.
      + exact (shows_all_old m1 m3 _ _ _ (old_trans _ _ _ Ho2 Ho3) (within_below _ _ _ HF) Hs).
    - pose proof (new_since_looks (m_next m) m1 F HF) as H1.
      pose proof (new_since_item (m_next m1) m1 (Arr (m_next m1) (length ps)) m2 (le_n _) ltac:(cbn [iaddr]; lia)) as H2.
      pose proof (new_since_item (m_next m2) m2 (Obj q) m3 (le_n _) ltac:(cbn [iaddr m3 m_next]; unfold q; lia)) as H3.
      pose proof (new_since_join _ _ _ _ _ _ _ H2 Ho3 (proj1 Ho2) H3) as H23.
      pose proof (new_since_join _ _ _ _ _ _ _ H1 (old_trans _ _ _ Ho2 Ho3) (proj1 Ho) H23) as H123.
      cbn [app] in H123. rewrite app_nil_r in H123. exact H123.
  Qed.

  Lemma new_rule_made (nb : P -> prog val) r m :
    (forall b m, makes (nb b) m (shown m (tb b))) -> makes (new_rule nb r) m (rule_made (m_next m) r).
  Proof.
    intro Hnb. unfold new_rule.
    eapply makes_bind; [apply (each_new (new_snapshot nb) (t_snapshot tb) _ (new_snapshot_shown nb tb Hnb))|].
    intros ps m1 Ho Hps. destruct r as [u l]. exact (finish_rule m m1 u ps l Ho Hps).
  Qed.

  Lemma rule_copy_made (bc : val -> prog val) (cl : P -> P) r v S F m :
    (forall b v g m, shows m v (tb b) g -> below (m_next m) g -> makes (bc v) m (shown m (tb (cl b)))) ->
    rule_at tb m v r S F -> below (m_next m) F ->
    makes (rule_copy bc v) m (rule_made (m_next m) (rule_clone cl r)).
  Proof.
    intros Hbc (p & ss & ps & A & -> & E & Ho & -> & Hs) Hb. unfold rule_copy.
    eapply makes_read; [reflexivity|]. rewrite E. unfold copy_slice. apply makes_assoc.
    eapply makes_read; [exact (owned_elems _ _ _ _ Ho)|]. apply makes_assoc.
    eapply makes_bind.
    - exact (each_copy _ (t_snapshot tb) (fun s => t_snapshot tb (snapshot_clone cl s)) (ru_snapshots r)
        (fun s w g m0 _ H K => snapshot_clone_shown bc cl tb Hbc s w g m0 H K) ps F m Hs Hb).
    - intros l m1 Ho1 Hl. unfold rule_clone. apply (finish_rule m m1); [exact Ho1|].
      rewrite map_map. exact Hl.
  Qed.

  Lemma each_rules_made (nb : P -> prog val) :
    (forall b m, makes (nb b) m (shown m (tb b))) ->
    forall l m, makes (each (new_rule nb) l) m (rules_made (m_next m) l).
  Proof.
    intro Hnb. induction l as [|x l IH]; intro m; cbn [each].
    - apply makes_ret. exists [], []. split; [constructor|]. apply new_since_looks. constructor.
    - eapply makes_bind; [exact (new_rule_made nb x m Hnb)|]. intros v m1 Ho1 (S1 & F1 & H1 & N1).
      eapply makes_bind; [apply IH|]. intros vs m2 Ho2 (S2 & F2 & H2 & N2). apply makes_ret.
      exists (S1 ++ S2), (F1 ++ F2). split.
      + constructor; [exact (rule_at_old tb _ _ _ _ _ _ Ho2 (proj1 N1) H1)|exact H2].
      + exact (new_since_join _ _ _ _ _ _ _ N1 Ho2 (proj1 Ho1) N2).
  Qed.

  Lemma each_copy_made (bc : val -> prog val) (cl : P -> P) :
    (forall b v g m, shows m v (tb b) g -> below (m_next m) g -> makes (bc v) m (shown m (tb (cl b)))) ->
    forall vs rs m S F, rules_at tb m vs rs S F -> wf m S F ->
      makes (each (rule_copy bc) vs) m (rules_made (m_next m) (map (rule_clone cl) rs)).
  Proof.
    intro Hbc. induction vs as [|v vs IH]; intros rs m S F H Hw; inversion H as [|v' r S1 F1 vs' rs' S2 F2 Hr Hrs]; subst;
      cbn [each map].
    - apply makes_ret. exists [], []. split; [constructor|]. apply new_since_looks. constructor.
    - pose proof (wf_left _ _ _ _ _ Hw) as Hwl. pose proof (wf_right _ _ _ _ _ Hw) as Hwr.
      eapply makes_bind; [exact (rule_copy_made bc cl r v S1 F1 m Hbc Hr (proj1 (proj2 (proj2 Hwl))))|].
      intros v1 m1 Ho1 (Sa & Fa & H1 & N1).
      eapply makes_bind; [exact (IH rs' m1 S2 F2 (rules_at_old tb _ _ _ _ _ _ Ho1 Hwr Hrs) (wf_old _ _ _ _ Ho1 Hwr))|].
      intros vs1 m2 Ho2 (Sb & Fb & H2 & N2). apply makes_ret. exists (Sa ++ Sb), (Fa ++ Fb). split.
      + constructor; [exact (rule_at_old tb _ _ _ _ _ _ Ho2 (proj1 N1) H1)|exact H2].
      + exact (new_since_join _ _ _ _ _ _ _ N1 Ho2 (proj1 Ho1) N2).
  Qed.

  (** a new slice with new rules *)
  Definition slice_made (n : nat) (rs : list (rule P)) : val -> memory -> Prop :=
    fun x m' => exists vs A S F, owned m' x vs A /\ rules_at tb m' vs rs S F /\ new_since n m' (A ++ S) F.

  Lemma finish_rules m m1 vs rs :
    old m m1 -> rules_made (m_next m) rs vs m1 -> makes (make_slice vs) m1 (slice_made (m_next m) rs).
  Proof.
    intros Ho (S & F & H & N). destruct (make_slice_owned m1 vs) as (m2 & E2 & Ho2 & Hn2 & Hown).
    eexists _, m2. split; [exact E2|]. split; [exact Ho2|].
    exists vs, [Arr (m_next m1) (length vs)], S, F. split; [exact Hown|].
    split; [exact (rules_at_old tb _ _ _ _ _ _ Ho2 (proj1 N) H)|].
    pose proof (new_since_item (m_next m1) m1 (Arr (m_next m1) (length vs)) m2 (le_n _) ltac:(cbn [iaddr]; lia)) as H2.
    pose proof (new_since_join _ _ _ _ _ _ _ N Ho2 (proj1 Ho) H2) as H12. rewrite app_nil_r in H12.
    destruct H12 as (Hw & HS & HF). split; [|split; [|exact HF]].
    - exact (wf_perm _ _ _ _ _ (Permutation_app_comm S _) (fun l H => H) Hw).
    - exact (Permutation_Forall (Permutation_app_comm S _) HS).
  Qed.

  Lemma copy_rules_made (bc : val -> prog val) (cl : P -> P) x vs A rs m S F :
    (forall b v g m, shows m v (tb b) g -> below (m_next m) g -> makes (bc v) m (shown m (tb (cl b)))) ->
    owned m x vs A -> rules_at tb m vs rs S F -> wf m S F ->
    makes (copy_slice (rule_copy bc) x) m (slice_made (m_next m) (map (rule_clone cl) rs)).
  Proof.
    intros Hbc Ho Hr Hw. unfold copy_slice. eapply makes_read; [exact (owned_elems _ _ _ _ Ho)|].
    eapply makes_bind; [exact (each_copy_made bc cl Hbc vs rs m S F Hr Hw)|].
    intros l m1 Ho1 Hl. exact (finish_rules m m1 l _ Ho1 Hl).
  Qed.

  Lemma slice_made_later n rs x m m' : old m m' -> slice_made n rs x m -> slice_made n rs x m'.
  Proof.
    intros Ho (vs & A & S & F & H1 & H2 & N). pose proof (proj1 N) as Hw.
    assert (wf m S F) as HwS by exact (wf_right m A S [] F Hw).
    exists vs, A, S, F. split; [|split; [exact (rules_at_old tb _ _ _ _ _ _ Ho HwS H2)|exact (new_since_later _ _ _ _ _ N Ho)]].
    apply (owned_frame m); [exact H1|]. intros p Hp. apply (proj2 Ho). apply in_map_iff in Hp. destruct Hp as (i & <- & Hi).
    apply (proj1 (Forall_forall _ _) (proj1 (proj2 Hw))). apply in_or_app. left. exact Hi.
  Qed.
End Rule.

(** ** Rule sets *)

Definition set_made (n : nat) (R : rule_set) : val -> memory -> Prop :=
  fun v m' => exists S F, set_at m' v R S F /\ new_since n m' S F.

Lemma finish_set m0 m1 m2 m3 R ns ms rr :
  old m0 m1 -> old m1 m2 -> old m2 m3 ->
  shown m0 (t_bytes (rs_namespace R)) ns m1 ->
  slice_made t_mbody (m_next m1) (rs_mapping R) ms m2 -> slice_made t_rbody (m_next m2) (rs_rollup R) rr m3 ->
  makes (new_obj (set_cells R ns ms rr)) m3 (set_made (m_next m0) R).
Proof.
  intros Ho1 Ho2 Ho3 (Fn & Hn & HFn) Hms Hrr.
  set (q := m_next m3). set (m4 := mk_mem (m_at (put q (set_cells R ns ms rr) m3)) (Datatypes.S q)).
  assert (old m3 m4) as Ho4 by apply old_alloc.
  exists (VPtr q), m4. split; [reflexivity|]. split; [exact Ho4|].
  destruct Hms as (vms & Am & S1 & F1 & Hm & H1 & N1). destruct Hrr as (vrr & Ar & S2 & F2 & Hr & H2 & N2).
  pose proof (old_trans _ _ _ Ho3 Ho4) as Ho24.
  pose proof (new_since_looks _ _ _ HFn) as N0.
  pose proof (new_since_item (m_next m3) m3 (Obj q) m4 (le_n _) ltac:(cbn [iaddr m4 m_next]; unfold q; lia)) as N3.
  pose proof (new_since_join _ _ _ _ _ _ _ N2 Ho4 (proj1 Ho3) N3) as N23.
  pose proof (new_since_join _ _ _ _ _ _ _ N1 Ho24 (proj1 Ho2) N23) as N123.
  pose proof (new_since_join _ _ _ _ _ _ _ N0 (old_trans _ _ _ Ho2 Ho24) (proj1 Ho1) N123) as N.
  cbn [app] in N. rewrite app_nil_r in N.
  assert (Permutation ((Am ++ S1) ++ (Ar ++ S2) ++ [Obj q]) (((Am ++ [Obj q]) ++ S1) ++ (Ar ++ S2))) as HP.
  { rewrite (app_assoc (Am ++ S1)). rewrite <- (app_assoc Am [Obj q]). cbn [app].
    etransitivity; [apply Permutation_app_comm|]. cbn [app]. rewrite <- !app_assoc. cbn [app].
    apply Permutation_middle. }
  exists (((Am ++ [Obj q]) ++ S1) ++ (Ar ++ S2)), (F1 ++ (F2 ++ Fn)). split.
  - exists q, ns, ms, rr, vms, vrr, Am, Ar, S1, S2, Fn, F1, F2.
    split; [reflexivity|]. split; [apply at_alloc|].
    split; [exact (shows_old m1 m4 _ _ _ (old_trans _ _ _ Ho2 Ho24) (within_below _ _ _ HFn) Hn)|].
    split; [exact (owned_old _ _ _ _ _ _ _ Ho24 (proj1 N1) Hm)|].
    split; [exact (owned_old _ _ _ _ _ _ _ Ho4 (proj1 N2) Hr)|].
    split; [exact (rules_at_old t_mbody _ _ _ _ _ _ Ho24 (wf_right _ Am S1 [] F1 (proj1 N1)) H1)|].
    split; [exact (rules_at_old t_rbody _ _ _ _ _ _ Ho4 (wf_right _ Ar S2 [] F2 (proj1 N2)) H2)|]. auto.
  - destruct N as (Hw & HS & HF).
    assert (forall l, In l (F1 ++ F2 ++ Fn) -> In l (Fn ++ F1 ++ F2)) as Hin by (intro l; rewrite !in_app_iff; tauto).
    split; [exact (wf_perm _ _ _ _ _ HP Hin Hw)|]. split; [exact (Permutation_Forall HP HS)|].
    apply Forall_forall. intros l Hl. exact (proj1 (Forall_forall _ _) HF l (Hin l Hl)).
Qed.

Lemma new_set_made R m : makes (new_set R) m (set_made (m_next m) R).
Proof.
  unfold new_set. eapply makes_bind; [apply new_bytes_shown|]. intros ns m1 Ho1 Hns.
  eapply makes_bind; [apply (each_rules_made t_mbody new_mbody new_mbody_shown)|]. intros ml m2 Ho2 Hml.
  eapply makes_bind; [exact (finish_rules t_mbody m1 m2 ml _ Ho2 Hml)|]. intros ms m3 Ho3 Hms.
  eapply makes_bind; [apply (each_rules_made t_rbody new_rbody new_rbody_shown)|]. intros rl m4 Ho4 Hrl.
  eapply makes_bind; [exact (finish_rules t_rbody m3 m4 rl _ Ho4 Hrl)|]. intros rr m5 Ho5 Hrr.
  exact (finish_set m m1 m3 m5 R ns ms rr Ho1 (old_trans _ _ _ Ho2 Ho3) (old_trans _ _ _ Ho4 Ho5) Hns Hms Hrr).
Qed.

Lemma set_copy_made v R S F m :
  set_at m v R S F -> wf m S F -> makes (set_copy v) m (set_made (m_next m) (rule_set_clone R)).
Proof.
  intros (p & ns & ms & rr & vms & vrr & Am & Ar & S1 & S2 & Fn & F1 & F2 & -> & E & Hn & Hm & Hr & H1 & H2 & -> & ->) Hw.
  pose proof (proj1 (proj2 (proj2 Hw))) as HF. rewrite !below_app in HF. destruct HF as (HF1 & HF2 & HFn).
  pose proof (wf_right m (Am ++ [Obj p]) S1 [] F1 (wf_left _ _ _ _ _ Hw)) as Hw1.
  pose proof (wf_right _ _ _ _ _ Hw) as Hwr. pose proof (wf_right m Ar S2 [] (F2 ++ Fn) Hwr) as Hw2n.
  assert (wf m S2 F2) as Hw2 by (apply (wf_left m S2 [] F2 Fn); rewrite app_nil_r; exact Hw2n).
  unfold set_copy. eapply makes_read; [reflexivity|]. rewrite E. unfold set_cells.
  eapply makes_bind; [exact (bytes_copy_shown _ _ _ _ Hn HFn)|]. intros ns' m1 Ho1 Hns.
  assert (wf m (Am ++ [Obj p] ++ S1) F1) as HwA by (rewrite app_assoc; exact (wf_left _ _ _ _ _ Hw)).
  eapply makes_bind.
  { exact (copy_rules_made t_mbody mbody_copy mb_clone ms vms Am _ m1 S1 F1 mbody_copy_shown
      (owned_old _ _ _ _ _ _ _ Ho1 HwA Hm) (rules_at_old t_mbody _ _ _ _ _ _ Ho1 Hw1 H1) (wf_old _ _ _ _ Ho1 Hw1)). }
  intros ms' m2 Ho2 Hms. pose proof (old_trans _ _ _ Ho1 Ho2) as Ho02.
  eapply makes_bind.
  { exact (copy_rules_made t_rbody rbody_copy targets_clone rr vrr Ar _ m2 S2 F2 rbody_copy_shown
      (owned_old _ _ _ _ _ _ _ Ho02 Hwr Hr) (rules_at_old t_rbody _ _ _ _ _ _ Ho02 Hw2 H2) (wf_old _ _ _ _ Ho02 Hw2)). }
  intros rr' m3 Ho3 Hrr.
  exact (finish_set m m1 m2 m3 (rule_set_clone R) ns' ms' rr' Ho1 Ho2 Ho3 Hns Hms Hrr).
Qed.
