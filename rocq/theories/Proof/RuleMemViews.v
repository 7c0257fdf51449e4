(** Views and active sets taken from rule sets in memory. *)
From Coq Require Import Ascii String Arith NArith ZArith Bool Lia Permutation List.
From Verif.Proof Require Import MemProof MemSep RuleMemCopy RuleMemRules RuleMemKinds RuleMemSets RuleMemFresh.
From Verif.Base Require Import Bytes Mem.
From Verif.Model Require Import AggType Policy Transformation Pipeline Metadata Filter MetricID Rules RuleSet
  RuleMem.
From Verif.Spec Require Import RuleMemSpec.
Import ListNotations.
Open Scope nat_scope.

(** ** Values in separate new memory, one after the other *)

Inductive chain (m : memory) : nat -> list val -> list tree -> nat -> Prop :=
| chain_nil n : chain m n [] [] n
| chain_cons n v t g n1 vs ts n2 :
    shows m v t g -> within n n1 g -> n <= n1 -> chain m n1 vs ts n2 -> chain m n (v :: vs) (t :: ts) n2.

Lemma chain_le m n vs ts n' : chain m n vs ts n' -> n <= n'.
Proof. induction 1; lia. Qed.

Lemma chain_old m m' n vs ts n' : chain m n vs ts n' -> old m m' -> n' <= m_next m -> chain m' n vs ts n'.
Proof.
  induction 1 as [n|n v t g n1 vs ts n2 H1 H2 Hn H3 IH]; intros Ho Hle; [constructor|].
  pose proof (chain_le _ _ _ _ _ H3). apply (chain_cons m' n v t g n1); auto.
  apply (shows_old m m'); [exact Ho| |exact H1].
  apply (below_old n1); [exact (within_below _ _ _ H2)|lia].
Qed.

Lemma chain_app m n vs ts n1 vs' ts' n2 :
  chain m n vs ts n1 -> chain m n1 vs' ts' n2 -> chain m n (vs ++ vs') (ts ++ ts') n2.
Proof. induction 1; intro H'; [exact H'|]. cbn [app]. econstructor; eauto. Qed.

Lemma chain_skip m n n1 vs ts n2 : n <= n1 -> chain m n1 vs ts n2 -> exists n2', chain m n vs ts n2' /\ n2' <= n2.
Proof.
  intros Hn H. destruct H as [k|k v t g k1 vs ts k2 H1 H2 Hk H3].
  - exists n. split; [constructor|exact Hn].
  - exists k2. split; [|lia]. apply (chain_cons m n v t g k1); auto; [|lia].
    exact (within_wider _ _ _ _ _ H2 Hn (le_n _)).
Qed.

Definition chained (m : memory) (ts : list tree) : list val -> memory -> Prop :=
  fun vs m' => exists n', chain m' (m_next m) vs ts n' /\ n' <= m_next m'.

Lemma each_chained {A} (f : val -> prog val) (t : A -> tree) (t' : A -> tree) (l : list A) :
  (forall x v g m, shows m v (t x) g -> below (m_next m) g -> makes (f v) m (shown m (t' x))) ->
  forall vs g m, shows_all m vs (map t l) g -> below (m_next m) g -> makes (each f vs) m (chained m (map t' l)).
Proof.
  intro Hf. induction l as [|x l IH]; intros vs g m H Hb; cbn [map] in *.
  - inversion H; subst. apply makes_ret. exists (m_next m). split; [constructor|lia].
  - inversion H as [|v t0 g1 vs' ts g2 H1 H2]; subst. apply below_app in Hb. destruct Hb as [Hb1 Hb2]. cbn [each].
    eapply makes_bind; [exact (Hf x v g1 m H1 Hb1)|]. intros y m1 Ho1 (f1 & K1 & W1).
    eapply makes_bind; [exact (IH vs' g2 m1 (shows_all_old _ _ _ _ _ Ho1 Hb2 H2) (below_old _ _ _ Hb2 (proj1 Ho1)))|].
    intros ys m2 Ho2 (n2 & K2 & Hn2). apply makes_ret. exists n2. split; [|exact Hn2].
    apply (chain_cons m2 (m_next m) y (t' x) f1 (m_next m1)); auto.
    + exact (shows_old _ _ _ _ _ Ho2 (within_below _ _ _ W1) K1).
    + exact (proj1 Ho1).
Qed.

Section Views.
  Context {P : Type} (tb : P -> tree) (bc : val -> prog val) (cl : P -> P) (bv : val -> prog val).
  Context (bc_shown : forall b v g m, shows m v (tb b) g -> below (m_next m) g ->
                        makes (bc v) m (shown m (tb (cl b)))).
  Context (bv_shown : forall b v g m, shows m v (tb b) g -> below (m_next m) g ->
                        makes (bv v) m (near m (tb b) g)).

  Lemma history_chained v r S F m :
    rule_at tb m v r S F -> below (m_next m) F ->
    makes (history_of bc bv v) m (chained m (map (t_view tb) (history cl r))).
  Proof.
    intros (p & ss & ps & A & -> & E & Ho & -> & Hs) Hb. unfold history_of.
    eapply makes_read; [reflexivity|]. rewrite E. eapply makes_read; [exact (owned_elems _ _ _ _ Ho)|].
    destruct (shows_all_rev _ _ _ _ Hs) as (F' & Hs' & Hin). rewrite <- map_rev in Hs'.
    unfold history. rewrite map_map.
    apply (each_chained _ (t_snapshot tb) (fun s => t_view tb (view_of cl (ru_uuid r) s)) (rev (ru_snapshots r)))
      with (g := F'); [|exact Hs'|].
    2:{ apply (below_incl _ _ _ Hb). intros l Hl. exact (proj1 (Hin l) Hl). }
    intros s w g m0 Hw Hg. eapply makes_bind; [exact (snapshot_copy_shown bc cl tb bc_shown s w g m0 Hw Hg)|].
    intros c m1 Ho1 (b & -> & f & Hf & Wf). unfold snapshot_cells. cbn beta iota. unfold VInt at 1, VInt at 1.
    eapply makes_bind; [exact (bv_shown _ b f m1 Hf (within_below _ _ _ Wf))|].
    intros b' m2 Ho2 (g' & Hg' & Bg' & Ng'). apply makes_ret.
    assert (shown m0 (tb (cl (sn_body s))) b' m2) as Hb'.
    { exists g'. split; [exact Hg'|]. apply Forall_forall. intros l Hl. split; [|exact (proj1 (Forall_forall _ _) Bg' l Hl)].
      destruct (Ng' l Hl) as [X|X]; [exact (proj1 (proj1 (Forall_forall _ _) Wf l X))|]. pose proof (proj1 Ho1). lia. }
    unfold t_view, view_of, snapshot_clone. cbn [rv_id rv_name rv_tomb rv_cutover_ms rv_filter rv_body rv_by rv_at_ms
      sn_name sn_tomb sn_cutover sn_raw sn_body sn_by sn_at]. apply struct_shown. all_atoms.
  Qed.

  Lemma histories_chained : forall vs rs m S F,
    rules_at tb m vs rs S F -> wf m S F ->
    makes (each (history_of bc bv) vs) m
      (fun hs m' => chained m (map (t_view tb) (flat_map (history cl) rs)) (concat hs) m').
  Proof.
    induction vs as [|v vs IH]; intros rs m S F H Hw; inversion H as [|v' r S1 F1 vs' rs' S2 F2 Hr Hrs]; subst; cbn [each].
    - apply makes_ret. exists (m_next m). split; [constructor|lia].
    - pose proof (wf_left _ _ _ _ _ Hw) as Hwl. pose proof (wf_right _ _ _ _ _ Hw) as Hwr.
      eapply makes_bind; [exact (history_chained v r S1 F1 m Hr (proj1 (proj2 (proj2 Hwl))))|].
      intros h m1 Ho1 (n1 & K1 & L1).
      eapply makes_bind; [exact (IH rs' m1 S2 F2 (rules_at_old tb _ _ _ _ _ _ Ho1 Hwr Hrs) (wf_old _ _ _ _ Ho1 Hwr))|].
      intros hs m2 Ho2 (n2 & K2 & L2). apply makes_ret. cbn [flat_map concat]. rewrite map_app.
      destruct (chain_skip _ _ _ _ _ _ L1 K2) as (n3 & K3 & L3).
      exists n3. split; [|lia]. exact (chain_app _ _ _ _ _ _ _ _ (chain_old _ _ _ _ _ _ K1 Ho2 L1) K3).
  Qed.

  Lemma chain_bodies m n vs (l : list (rule_view P)) n' :
    chain m n vs (map (t_view tb) l) n' -> chain m n (map view_body vs) (map (fun w => tb (rv_body w)) l) n'.
  Proof.
    revert n vs. induction l as [|w l IH]; intros n vs H; cbn [map] in H.
    - inversion H; subst. constructor.
    - inversion H as [|n0 v t g n1 vs' ts n2 H1 H2 Hn H3]; subst. cbn [map].
      unfold t_view in H1.
      assert (exists g', shows m (view_body v) (tb (rv_body w)) g' /\ incl g' g) as (g' & Hg & Hi).
      { clear - H1. flat. inversion H1 as [| |l0 ts f Hall| |]; subst.
        repeat match goal with
          | H : shows_all _ _ (_ :: _) _ |- _ => inversion H; clear H; subst
          | H : shows_all _ _ [] _ |- _ => inversion H; clear H; subst
          end.
        cbn [view_body]. eexists. split; [eassumption|]. intros x Hx. rewrite !in_app_iff. auto 12. }
      apply (chain_cons _ _ _ _ g' n1); auto. apply Forall_forall. intros x Hx.
      exact (proj1 (Forall_forall _ _) H2 x (Hi x Hx)).
  Qed.
End Views.

Lemma rbody_view_near' b v g m :
  shows m v (t_rbody b) g -> below (m_next m) g -> makes (rbody_view v) m (near m (t_rbody b) g).
Proof.
  intros H Hb. pose proof (rbody_view_near b v g m H Hb) as K.
  replace (targets_from_view b) with b in K; [exact K|].
  unfold targets_from_view. clear. induction b as [|t b IH]; [reflexivity|]. cbn [map]. rewrite <- IH. destruct t; reflexivity.
Qed.

(** the parts of a rule set that are read *)
Lemma set_parts m v R S F :
  set_at m v R S F -> wf m S F ->
  exists p ns ms rr vms vrr Am Ar S1 S2 Fn F1 F2,
    v = VPtr p /\ m_at m p = set_cells R ns ms rr /\
    owned m ms vms Am /\ owned m rr vrr Ar /\
    rules_at t_mbody m vms (rs_mapping R) S1 F1 /\ rules_at t_rbody m vrr (rs_rollup R) S2 F2 /\
    wf m (Am ++ S1) F1 /\ wf m (Ar ++ S2) F2 /\
    S = ((Am ++ [Obj p]) ++ S1) ++ (Ar ++ S2) /\ F = F1 ++ (F2 ++ Fn).
Proof.
  intros (p & ns & ms & rr & vms & vrr & Am & Ar & S1 & S2 & Fn & F1 & F2 & -> & E & Hn & Hm & Hr & H1 & H2 & -> & ->) Hw.
  exists p, ns, ms, rr, vms, vrr, Am, Ar, S1, S2, Fn, F1, F2.
  repeat (split; [assumption || reflexivity|]). split; [|split; [|auto]].
  - assert (Permutation (((Am ++ [Obj p]) ++ S1) ++ Ar ++ S2) ((Am ++ S1) ++ ([Obj p] ++ Ar ++ S2))) as HP.
    { rewrite <- !app_assoc. apply Permutation_app_head. rewrite (app_assoc [Obj p]), (app_assoc S1 [Obj p]).
      apply Permutation_app_tail. apply Permutation_app_comm. }
    exact (wf_left m (Am ++ S1) _ F1 _ (wf_perm m _ _ _ _ HP (fun l H => H) Hw)).
  - apply (wf_left m (Ar ++ S2) [] F2 Fn). rewrite app_nil_r. exact (wf_right _ _ _ _ _ Hw).
Qed.

Lemma set_views_chained m v R S F :
  set_at m v R S F -> wf m S F ->
  makes (set_views v) m
    (fun vs m' => exists n', chain m' (m_next m) (map view_body (concat (fst vs)) ++ map view_body (concat (snd vs)))
                               (map t_body (all_views R)) n' /\ n' <= m_next m').
Proof.
  intros H Hw.
  destruct (set_parts _ _ _ _ _ H Hw) as (p & ns & ms & rr & vms & vrr & Am & Ar & S1 & S2 & Fn & F1 & F2 & -> & E & Hm & Hr & H1 & H2 & Hw1 & Hw2 & -> & ->).
  pose proof (wf_right m Am S1 [] F1 Hw1) as Hw1'. pose proof (wf_right m Ar S2 [] F2 Hw2) as Hw2'.
  unfold set_views.
  eapply makes_read. { unfold field_elems, field, bind. cbn [deref]. rewrite E. exact (owned_elems _ _ _ _ Hm). }
  eapply makes_bind.
  { exact (histories_chained t_mbody mbody_copy mb_clone mbody_view mbody_copy_shown mbody_view_near vms _ m S1 F1 H1 Hw1'). }
  intros mv m1 Ho1 (n1 & K1 & L1).
  assert (m_at m1 p = set_cells R ns ms rr) as E1.
  { rewrite (proj2 Ho1); [exact E|]. apply (proj1 (Forall_forall _ _) (proj1 (proj2 Hw)) (Obj p)).
    rewrite !in_app_iff. left. left. right. left. reflexivity. }
  eapply makes_read.
  { unfold field_elems, field, bind. cbn [deref]. rewrite E1.
    exact (owned_elems _ _ _ _ (owned_old _ _ _ _ _ _ _ Ho1 Hw2 Hr)). }
  eapply makes_bind.
  { exact (histories_chained t_rbody rbody_copy targets_clone rbody_view rbody_copy_shown rbody_view_near' vrr _ m1 S2 F2
      (rules_at_old t_rbody _ _ _ _ _ _ Ho1 Hw2' H2) (wf_old _ _ _ _ Ho1 Hw2')). }
  intros rv m2 Ho2 (n2 & K2 & L2). apply makes_ret. cbn [fst snd].
  destruct (chain_skip _ _ _ _ _ _ L1 (chain_bodies _ _ _ _ _ _ K2)) as (n3 & K3 & L3).
  exists n3. split; [|lia]. unfold all_views. rewrite map_app, !map_map.
  exact (chain_app _ _ _ _ _ _ _ _ (chain_old _ _ _ _ _ _ (chain_bodies _ _ _ _ _ _ K1) Ho2 L1) K3).
Qed.

(** ** Active sets *)

(** What is looked at: new memory, the snapshots, arrays of snapshots as far as they were in use, and the
    rules themselves if they are waiting. *)
Definition seen (n : nat) (S : list item) (F : list look) (waits : bool) (l : look) : Prop :=
  n <= addr l \/ In l F \/ (exists a k, l = Upto a k /\ In (Arr a k) S) \/ (waits = true /\ In (addr l) (addrs S)).

Lemma seen_wider n n' S S' F F' (w w' : bool) l :
  seen n S F w l -> n' <= n -> incl S S' -> incl F F' -> (w = true -> w' = true) -> seen n' S' F' w' l.
Proof.
  intros [H|[H|[(a & k & E & H)|[H1 H2]]]] Hn HS HF Hw.
  - left. lia.
  - right. left. exact (HF l H).
  - right. right. left. exists a, k. split; [exact E|exact (HS _ H)].
  - right. right. right. split; [exact (Hw H1)|]. apply in_map_iff in H2. destruct H2 as (i & <- & Hi).
    apply in_map. exact (HS i Hi).
Qed.

Section Active.
  Context {P : Type} (tb : P -> tree).

  Lemma shows_all_nth m vs ts F i t :
    shows_all m vs ts F -> nth_error ts i = Some t -> exists v g, nth_error vs i = Some v /\ shows m v t g.
  Proof.
    intro H. revert i. induction H as [|v t0 f vs ts fs H1 H2 IH]; intros [|i] E; try discriminate.
    - injection E as <-. exists v, f. split; [reflexivity|exact H1].
    - exact (IH i E).
  Qed.

  Lemma active_index_ok m ps (l : list (snapshot P)) F t :
    shows_all m ps (map (t_snapshot tb) l) F ->
    forall n, n <= length l -> active_index_in ps n t m = Some (active_index_from l n t, m).
  Proof.
    intro H. induction n as [|n IH]; intro Hn; [reflexivity|]. cbn [active_index_in active_index_from].
    destruct (nth_error l n) as [s|] eqn:E; [|apply nth_error_None in E; lia].
    destruct (shows_all_nth m ps _ F n (t_snapshot tb s) H) as (v & g & Ev & Hv).
    { rewrite nth_error_map, E. reflexivity. }
    rewrite Ev. destruct (snapshot_fields tb _ _ _ _ Hv) as (q & b & gb & -> & Eq & _).
    unfold bind. cbn [deref]. rewrite Eq. unfold VStr, VBool, VInt.
    destruct (t <? sn_cutover s)%Z; [apply IH; lia|reflexivity].
  Qed.

  Lemma active_index_lt (l : list (snapshot P)) t : forall n i, active_index_from l n t = Some i -> i < n.
  Proof.
    induction n as [|n IH]; intros i H; cbn [active_index_from] in H; [discriminate|].
    destruct (nth_error l n) as [s|]; [|discriminate]. destruct (t <? sn_cutover s)%Z.
    - specialize (IH i H). lia.
    - injection H as <-. lia.
  Qed.

  Lemma active_rule_seen v r S F m t :
    rule_at tb m v r S F -> wf m S F ->
    makes (active_rule_of t v) m (fun w m' => exists h, shows m' w (t_rule tb (active_rule r t)) h /\
      below (m_next m') h /\ forall l, In l h -> seen (m_next m) S F (waiting t r) l).
  Proof.
    intros (p & ss & ps & A & -> & E & Ho & -> & Hs) (W1 & W2 & W3 & W4). unfold active_rule_of.
    eapply makes_read; [reflexivity|]. rewrite E. eapply makes_read; [exact (owned_elems _ _ _ _ Ho)|].
    pose proof (shows_all_length _ _ _ _ Hs) as El. rewrite map_length in El.
    eapply makes_read; [rewrite El; exact (active_index_ok m ps _ F t Hs _ (le_n _))|].
    unfold waiting, active_rule, active_index.
    destruct (active_index_from (ru_snapshots r) (length (ru_snapshots r)) t) as [i|] eqn:Ei.
    - pose proof (active_index_lt _ _ _ _ Ei) as Hi.
      destruct Ho as [(-> & -> & _)|(a & n & -> & Hn & -> & ->)]; [cbn [length] in El; lia|].
      assert (length (firstn n (m_at m a)) = n) as Ef by (apply firstn_length_le; exact Hn).
      set (cells := [VStr (ru_uuid r); VSlice a (0 + i) (n - i) (length (m_at m a) - i)]).
      pose proof (old_alloc m cells) as Ho'.
      eexists _, _. split; [reflexivity|]. split; [exact Ho'|].
      destruct (shows_all_skipn m i _ _ _ Hs) as (f' & Hf' & Hinc).
      assert (a < m_next m) as Ha.
      { inversion W2; subst. assumption. }
      exists (Whole (m_next m) :: (Upto a (0 + i + (n - i)) :: f') ++ []). unfold t_rule. cbn [ru_uuid ru_snapshots].
      split; [|split].
      + constructor. rewrite at_alloc. unfold cells. flat. 
        change ((Upto a (0 + i + (n - i)) :: f') ++ []) with ([] ++ (Upto a (0 + i + (n - i)) :: f') ++ []).
        constructor; [constructor|]. constructor; [|constructor].
        pose proof (proj2 Ho' a Ha) as Ea. unfold cells in Ea.
        constructor; rewrite Ea; [lia|].
        replace (firstn (n - i) (skipn (0 + i) (m_at m a))) with (skipn i (firstn n (m_at m a)))
          by (rewrite firstn_skipn_comm; cbn [plus]; replace (i + (n - i)) with n by lia; reflexivity).
        rewrite skipn_map in Hf'.
        exact (shows_all_old m _ _ _ _ Ho' (below_incl _ _ _ W3 Hinc) Hf').
      + constructor; [cbn [addr m_next]; lia|]. rewrite app_nil_r.
        constructor; [cbn [addr m_next]; lia|]. exact (below_old _ _ _ (below_incl _ _ _ W3 Hinc) (proj1 Ho')).
      + intros l [<-|Hl]; [left; cbn [addr]; lia|]. rewrite app_nil_r in Hl. destruct Hl as [<-|Hl].
        * right. right. left. exists a, n. split; [f_equal; lia|]. left. reflexivity.
        * right. left. exact (Hinc l Hl).
    - apply makes_ret. destruct (owned_shows _ _ _ _ _ _ Ho Hs) as (g & Hg & Hgs).
      exists (Whole p :: [] ++ (g ++ F) ++ []). split; [|split].
      + constructor. rewrite E. constructor; [constructor|]. constructor; [exact Hg|constructor].
      + constructor; [cbn [addr]; apply (proj1 (Forall_forall _ _) W2 (Obj p)); rewrite in_app_iff; right; left; reflexivity|].
        cbn [app]. rewrite app_nil_r. apply below_app. split; [|exact W3]. apply Forall_forall. intros l Hl.
        destruct (Hgs l Hl) as (k & El' & Hk). apply (proj1 (Forall_forall _ _) W2 (Arr (addr l) k)). rewrite in_app_iff. auto.
      + intros l [<-|Hl].
        * right. right. right. split; [reflexivity|]. rewrite map_app, in_app_iff. right. left. reflexivity.
        * cbn [app] in Hl. rewrite app_nil_r in Hl. apply in_app_iff in Hl. destruct Hl as [Hl|Hl].
          -- right. right. left. destruct (Hgs l Hl) as (k & El' & Hk). exists (addr l), k. split; [exact El'|].
             rewrite in_app_iff. auto.
          -- right. left. exact Hl.
  Qed.

  Lemma each_active_seen t : forall vs rs m S F,
    rules_at tb m vs rs S F -> wf m S F ->
    makes (each (active_rule_of t) vs) m (fun ws m' => exists h,
      shows_all m' ws (map (t_rule tb) (map (fun r => active_rule r t) rs)) h /\ below (m_next m') h /\
      forall l, In l h -> seen (m_next m) S F (existsb (waiting t) rs) l).
  Proof.
    induction vs as [|v vs IH]; intros rs m S F H Hw; inversion H as [|v' r S1 F1 vs' rs' S2 F2 Hr Hrs]; subst; cbn [each].
    - apply makes_ret. exists []. split; [constructor|]. split; [constructor|]. intros l [].
    - pose proof (wf_left _ _ _ _ _ Hw) as Hwl. pose proof (wf_right _ _ _ _ _ Hw) as Hwr.
      eapply makes_bind; [exact (active_rule_seen v r S1 F1 m t Hr Hwl)|]. intros w m1 Ho1 (h1 & K1 & B1 & N1).
      eapply makes_bind; [exact (IH rs' m1 S2 F2 (rules_at_old tb _ _ _ _ _ _ Ho1 Hwr Hrs) (wf_old _ _ _ _ Ho1 Hwr))|].
      intros ws m2 Ho2 (h2 & K2 & B2 & N2). apply makes_ret. exists (h1 ++ h2). cbn [map existsb]. split; [|split].
      + constructor; [exact (shows_old _ _ _ _ _ Ho2 B1 K1)|exact K2].
      + apply below_app. split; [exact (below_old _ _ _ B1 (proj1 Ho2))|exact B2].
      + intros l Hl. apply in_app_iff in Hl. destruct Hl as [Hl|Hl].
        * apply (seen_wider (m_next m) (m_next m) S1 _ F1 _ (waiting t r) _ l (N1 l Hl)); auto.
          -- intros x Hx. apply in_or_app. auto.
          -- intros x Hx. apply in_or_app. auto.
          -- intros ->. reflexivity.
        * apply (seen_wider (m_next m1) (m_next m) S2 _ F2 _ (existsb (waiting t) rs') _ l (N2 l Hl)).
          -- exact (proj1 Ho1).
          -- intros x Hx. apply in_or_app. auto.
          -- intros x Hx. apply in_or_app. auto.
          -- intros ->. apply orb_true_r.
  Qed.

  Lemma active_rules_seen at_ p x t vs rs m A S F :
    field (VPtr p) at_ m = Some (x, m) -> owned m x vs A -> rules_at tb m vs rs S F -> wf m S F ->
    makes (active_rules_of at_ (VPtr p) t) m (fun w m' => exists h,
      shows m' w (t_rules tb (map (fun r => active_rule r t) rs)) h /\ below (m_next m') h /\
      forall l, In l h -> seen (m_next m) S F (existsb (waiting t) rs) l).
  Proof.
    intros Ef Ho Hr Hw. unfold active_rules_of, copy_slice. eapply makes_read; [exact Ef|].
    eapply makes_read; [exact (owned_elems _ _ _ _ Ho)|].
    eapply makes_bind; [exact (each_active_seen t vs rs m S F Hr Hw)|]. intros ws m1 Ho1 (h & K & Bh & N).
    pose proof (old_alloc m1 ws) as Ho2. eexists _, _. split; [reflexivity|]. split; [exact Ho2|].
    exists (Upto (m_next m1) (0 + length ws) :: h). split; [|split].
    - constructor; cbn [skipn plus]; rewrite at_alloc; [lia|]. rewrite firstn_all. exact (shows_all_old _ _ _ _ _ Ho2 Bh K).
    - constructor; [cbn [addr m_next]; lia|]. exact (below_old _ _ _ Bh (proj1 Ho2)).
    - intros l [<-|Hl]; [left; cbn [addr]; exact (proj1 Ho1)|exact (N l Hl)].
  Qed.
End Active.

Lemma set_active_seen m v R S F t :
  set_at m v R S F -> wf m S F ->
  makes (set_active v t) m (fun w m' => exists f g,
    shows m' (fst w) (t_rules t_mbody (as_mapping (active_set R t))) f /\
    shows m' (snd w) (t_rules t_rbody (as_rollup (active_set R t))) g /\
    below (m_next m') (f ++ g) /\
    forall l, In l (f ++ g) ->
      seen (m_next m) S F (existsb (waiting t) (rs_mapping R) || existsb (waiting t) (rs_rollup R)) l).
Proof.
  intros H Hw.
  destruct (set_parts _ _ _ _ _ H Hw) as (p & ns & ms & rr & vms & vrr & Am & Ar & S1 & S2 & Fn & F1 & F2 & -> & E & Hm & Hr & H1 & H2 & Hw1 & Hw2 & -> & ->).
  pose proof (wf_right m Am S1 [] F1 Hw1) as Hw1'. pose proof (wf_right m Ar S2 [] F2 Hw2) as Hw2'.
  unfold set_active. eapply makes_bind.
  { apply (active_rules_seen t_mbody 8 p ms t vms (rs_mapping R) m Am S1 F1); try assumption.
    unfold field, bind. cbn [deref]. rewrite E. reflexivity. }
  intros ms' m1 Ho1 (f & Kf & Bf & Nf).
  assert (m_at m1 p = set_cells R ns ms rr) as E1.
  { rewrite (proj2 Ho1); [exact E|]. apply (proj1 (Forall_forall _ _) (proj1 (proj2 Hw)) (Obj p)).
    rewrite !in_app_iff. left. left. right. left. reflexivity. }
  eapply makes_bind.
  { apply (active_rules_seen t_rbody 9 p rr t vrr (rs_rollup R) m1 Ar S2 F2).
    - unfold field, bind. cbn [deref]. rewrite E1. reflexivity.
    - exact (owned_old _ _ _ _ _ _ _ Ho1 Hw2 Hr).
    - exact (rules_at_old t_rbody _ _ _ _ _ _ Ho1 Hw2' H2).
    - exact (wf_old _ _ _ _ Ho1 Hw2'). }
  intros rr' m2 Ho2 (g & Kg & Bg & Ng). apply makes_ret. exists f, g. cbn [fst snd]. split; [|split; [|split]].
  - exact (shows_old _ _ _ _ _ Ho2 Bf Kf).
  - exact Kg.
  - apply below_app. split; [exact (below_old _ _ _ Bf (proj1 Ho2))|exact Bg].
  - intros l Hl. apply in_app_iff in Hl. destruct Hl as [Hl|Hl].
    + apply (seen_wider (m_next m) (m_next m) S1 _ F1 _ (existsb (waiting t) (rs_mapping R)) _ l (Nf l Hl)); auto.
      * intros x Hx. rewrite !in_app_iff. auto.
      * intros x Hx. rewrite !in_app_iff. auto.
      * intros ->. reflexivity.
    + apply (seen_wider (m_next m1) (m_next m) S2 _ F2 _ (existsb (waiting t) (rs_rollup R)) _ l (Ng l Hl)).
      * exact (proj1 Ho1).
      * intros x Hx. rewrite !in_app_iff. auto.
      * intros x Hx. rewrite !in_app_iff. auto.
      * intros ->. apply orb_true_r.
Qed.
