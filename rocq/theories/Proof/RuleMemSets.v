(** Rule sets in memory, and their edits. *)
From Coq Require Import Ascii String Arith NArith ZArith Bool Lia Permutation List.
From Verif.Proof Require Import MemProof MemSep RuleMemCopy RuleMemRules RuleMemKinds.
From Verif.Base Require Import Bytes Mem.
From Verif.Model Require Import AggType Policy Transformation Pipeline Metadata Filter MetricID Rules RuleSet
  RuleMem.
From Verif.Spec Require Import RuleMemSpec.
Import ListNotations.
Open Scope nat_scope.

Definition set_cells (R : rule_set) (ns ms rr : val) : list val :=
  [VStr (rs_uuid R); VInt (rs_version R); ns; VInt (rs_created_at R); VInt (rs_updated_at R);
   VStr (rs_updated_by R); VBool (rs_tomb R); VInt (rs_cutover R); ms; rr;
   VAtom (AFuncs (rs_opts R) (rs_new_id R) (rs_is_rollup R))].

Definition set_at (m : memory) (v : val) (R : rule_set) (S : list item) (F : list look) : Prop :=
  exists p ns ms rr vms vrr Am Ar S1 S2 Fn F1 F2,
    v = VPtr p /\ m_at m p = set_cells R ns ms rr /\
    shows m ns (t_bytes (rs_namespace R)) Fn /\
    owned m ms vms Am /\ owned m rr vrr Ar /\
    rules_at t_mbody m vms (rs_mapping R) S1 F1 /\ rules_at t_rbody m vrr (rs_rollup R) S2 F2 /\
    S = ((Am ++ [Obj p]) ++ S1) ++ (Ar ++ S2) /\ F = F1 ++ (F2 ++ Fn).

Lemma set_at_frame m m' v R S F :
  set_at m v R S F -> (forall p, In p (addrs S) -> m_at m' p = m_at m p) -> Forall (agree m m') F ->
  set_at m' v R S F.
Proof.
  intros (p & ns & ms & rr & vms & vrr & Am & Ar & S1 & S2 & Fn & F1 & F2 & -> & E & Hn & Hm & Hr & H1 & H2 & -> & ->)
    Hs Hf. exists p, ns, ms, rr, vms, vrr, Am, Ar, S1, S2, Fn, F1, F2.
  rewrite !Forall_app in Hf. destruct Hf as (Hf1 & Hf2 & Hfn).
  rewrite !map_app in Hs. cbn [map iaddr] in Hs.
  assert (forall q, In q (addrs Am) \/ q = p \/ In q (addrs S1) \/ In q (addrs Ar) \/ In q (addrs S2) ->
    m_at m' q = m_at m q) as Hs'.
  { intros q Hq. apply Hs. rewrite !in_app_iff. cbn [In]. intuition auto. }
  split; [reflexivity|]. split; [rewrite Hs'; auto|]. split; [exact (shows_frame _ _ _ _ _ Hn Hfn)|].
  split; [apply (owned_frame m); auto|]. split; [apply (owned_frame m); auto 6|].
  split; [apply (rules_at_frame t_mbody m); auto|]. split; [apply (rules_at_frame t_rbody m); auto 7|]. auto.
Qed.

Lemma set_at_old m m' v R S F : old m m' -> wf m S F -> set_at m v R S F -> set_at m' v R S F.
Proof.
  intros Ho (_ & Hlt & Hb & _) H. apply (set_at_frame m); [exact H| |exact (agree_old _ _ _ Ho Hb)].
  intros p Hp. apply (proj2 Ho). apply in_map_iff in Hp. destruct Hp as (i & <- & Hi).
  exact (proj1 (Forall_forall _ _) Hlt i Hi).
Qed.

(** ** What it shows *)

Lemma rule_shows {P} (tb : P -> tree) m v r S F :
  rule_at tb m v r S F -> exists f, shows m v (t_rule tb r) f.
Proof.
  intros (p & ss & ps & A & -> & E & Ho & -> & Hs). destruct (owned_shows _ _ _ _ _ _ Ho Hs) as (g & Hg & _).
  eexists. constructor. rewrite E. constructor; [constructor|]. constructor; [exact Hg|constructor].
Qed.
Lemma rules_show {P} (tb : P -> tree) m vs rs S F :
  rules_at tb m vs rs S F -> exists f, shows_all m vs (map (t_rule tb) rs) f.
Proof.
  induction 1 as [|v r S F vs rs S' F' H1 H2 (f & IH)]; [exists []; constructor|].
  destruct (rule_shows _ _ _ _ _ _ H1) as (g & Hg). exists (g ++ f). constructor; assumption.
Qed.

Lemma set_shows m v R S F : set_at m v R S F -> exists f, shows m v (t_set R) f.
Proof.
  intros (p & ns & ms & rr & vms & vrr & Am & Ar & S1 & S2 & Fn & F1 & F2 & -> & E & Hn & Hm & Hr & H1 & H2 & -> & ->).
  destruct (rules_show _ _ _ _ _ _ H1) as (f1 & K1). destruct (rules_show _ _ _ _ _ _ H2) as (f2 & K2).
  destruct (owned_shows _ _ _ _ _ _ Hm K1) as (g1 & G1 & _). destruct (owned_shows _ _ _ _ _ _ Hr K2) as (g2 & G2 & _).
  eexists. constructor. rewrite E. unfold set_cells. flat.
  repeat (eapply shows_more; [first [exact Hn|exact G1|exact G2|apply shows_atom]|]). constructor.
Qed.

(** ** Replacing the rules of one kind *)

Lemma set_mapping m v R S F :
  set_at m v R S F -> wf m S F ->
  exists p ns ms rr S1 F1, v = VPtr p /\
    kind_at t_mbody 8 m p (set_cells R ns ms rr) (rs_mapping R) S1 F1 /\ wf m S1 F1 /\ incl S1 S /\
    forall G m' R' ms' S1' F1',
      kind_at t_mbody 8 m' p (set_cells R' ns ms' rr) (rs_mapping R') S1' F1' ->
      rs_namespace R' = rs_namespace R -> rs_rollup R' = rs_rollup R ->
      wf m' S1' F1' -> evo G m S1 F1 m' S1' F1' -> (forall l, In l G -> ~ In (addr l) (addrs S)) ->
      exists S' F', set_at m' v R' S' F' /\ wf m' S' F' /\ evo G m S F m' S' F'.
Proof.
  intros (p & ns & ms & rr & vms & vrr & Am & Ar & S1 & S2 & Fn & F1 & F2 & -> & E & Hn & Hm & Hr & H1 & H2 & -> & ->) Hw.
  exists p, ns, ms, rr, ((Am ++ [Obj p]) ++ S1), F1. split; [reflexivity|]. split; [|split; [|split]].
  - split; [exact E|]. exists ms, vms, Am, S1. repeat (split; [assumption || reflexivity|]). reflexivity.
  - exact (wf_left _ _ _ _ _ Hw).
  - intros x Hx. apply in_or_app. left. exact Hx.
  - intros G m' R' ms' S1' F1' Hk Ens Err Hw' He HG.
    destruct (wf_replace_left G m _ _ S1' _ _ F1' m' Hw He Hw' HG) as (Hwa & Hea & Hsa & Hga).
    exists (S1' ++ (Ar ++ S2)), (F1' ++ (F2 ++ Fn)). split; [|auto].
    destruct Hk as (E' & x & vs & A & S0 & Ex & Ho & Hk & ->). injection Ex as <-.
    apply Forall_app in Hga. destruct Hga as [Hg2 Hgn]. rewrite map_app in Hsa.
    exists p, ns, ms', rr, vs, vrr, A, Ar, S0, S2, Fn, F1', F2.
    split; [reflexivity|]. split; [exact E'|]. rewrite Ens, Err. split; [exact (shows_frame _ _ _ _ _ Hn Hgn)|].
    split; [exact Ho|]. split; [|split; [exact Hk|split; [|auto]]].
    + apply (owned_frame m); [exact Hr|]. intros q Hq. apply Hsa. rewrite in_app_iff. auto.
    + apply (rules_at_frame t_rbody m); [exact H2| |exact Hg2]. intros q Hq. apply Hsa. rewrite in_app_iff. auto.
Qed.

Lemma perm_kinds (A Ob S1 Ar S2 : list item) :
  Permutation (((A ++ Ob) ++ S1) ++ (Ar ++ S2)) (((Ar ++ Ob) ++ S2) ++ (A ++ S1)).
Proof.
  rewrite <- !app_assoc.
  transitivity (A ++ S1 ++ Ob ++ Ar ++ S2).
  - apply Permutation_app_head. rewrite !app_assoc. do 2 apply Permutation_app_tail. apply Permutation_app_comm.
  - rewrite app_assoc. transitivity ((Ob ++ Ar ++ S2) ++ A ++ S1); [apply Permutation_app_comm|].
    rewrite <- !app_assoc. rewrite (app_assoc Ob), (app_assoc Ar Ob). apply Permutation_app_tail. apply Permutation_app_comm.
Qed.

Lemma in_swap (F1 F2 Fn : list look) l : In l (F1 ++ F2 ++ Fn) -> In l (F2 ++ F1 ++ Fn).
Proof. rewrite !in_app_iff. tauto. Qed.

Lemma set_rollup m v R S F :
  set_at m v R S F -> wf m S F ->
  exists p ns ms rr S2 F2, v = VPtr p /\
    kind_at t_rbody 9 m p (set_cells R ns ms rr) (rs_rollup R) S2 F2 /\ wf m S2 F2 /\ incl S2 S /\
    forall G m' R' rr' S2' F2',
      kind_at t_rbody 9 m' p (set_cells R' ns ms rr') (rs_rollup R') S2' F2' ->
      rs_namespace R' = rs_namespace R -> rs_mapping R' = rs_mapping R ->
      wf m' S2' F2' -> evo G m S2 F2 m' S2' F2' -> (forall l, In l G -> ~ In (addr l) (addrs S)) ->
      exists S' F', set_at m' v R' S' F' /\ wf m' S' F' /\ evo G m S F m' S' F'.
Proof.
  intros (p & ns & ms & rr & vms & vrr & Am & Ar & S1 & S2 & Fn & F1 & F2 & -> & E & Hn & Hm & Hr & H1 & H2 & -> & ->) Hw.
  pose proof (perm_kinds Am [Obj p] S1 Ar S2) as HP.
  pose proof (wf_perm m _ _ _ _ HP (in_swap F2 F1 Fn) Hw) as Hwp.
  exists p, ns, ms, rr, ((Ar ++ [Obj p]) ++ S2), F2. split; [reflexivity|]. split; [|split; [|split]].
  - split; [exact E|]. exists rr, vrr, Ar, S2. repeat (split; [assumption || reflexivity|]). reflexivity.
  - exact (wf_left _ _ _ _ _ Hwp).
  - intros x Hx. apply (Permutation_in _ (Permutation_sym HP)). apply in_or_app. left. exact Hx.
  - intros G m' R' rr' S2' F2' Hk Ens Err Hw' He HG.
    assert (forall l, In l G -> ~ In (addr l) (addrs (((Ar ++ [Obj p]) ++ S2) ++ (Am ++ S1)))) as HG'.
    { intros l Hl K. apply (HG l Hl). exact (Permutation_in _ (Permutation_sym (Permutation_map iaddr HP)) K). }
    destruct (wf_replace_left G m _ _ S2' _ _ F2' m' Hwp He Hw' HG') as (Hwa & Hea & Hsa & Hga).
    destruct Hk as (E' & x & vs & A & S0 & Ex & Ho & Hk & ->). injection Ex as <-.
    pose proof (Permutation_sym (perm_kinds Am [Obj p] S1 A S0)) as HP'.
    exists (((Am ++ [Obj p]) ++ S1) ++ (A ++ S0)), (F1 ++ (F2' ++ Fn)). split; [|split].
    + apply Forall_app in Hga. destruct Hga as [Hg1 Hgn]. rewrite map_app in Hsa.
      exists p, ns, ms, rr', vms, vs, Am, A, S1, S0, Fn, F1, F2'.
      split; [reflexivity|]. split; [exact E'|]. rewrite Ens, Err. split; [exact (shows_frame _ _ _ _ _ Hn Hgn)|].
      split; [|split; [exact Ho|split; [|split; [exact Hk|auto]]]].
      * apply (owned_frame m); [exact Hm|]. intros q Hq. apply Hsa. rewrite in_app_iff. auto.
      * apply (rules_at_frame t_mbody m); [exact H1| |exact Hg1]. intros q Hq. apply Hsa. rewrite in_app_iff. auto.
    + exact (wf_perm m' _ _ _ _ HP' (in_swap F1 F2' Fn) Hwa).
    + exact (evo_perm G m _ _ _ _ m' _ _ _ _ (Permutation_sym HP) HP' (in_swap F2 F1 Fn) (in_swap F1 F2' Fn) Hea).
Qed.

(** A change of the fields of the rule set that are not slices. *)
Lemma set_fields m v R S F m' R' :
  set_at m v R S F -> wf m S F ->
  (forall p ns ms rr, v = VPtr p -> m_at m p = set_cells R ns ms rr ->
     only p m m' /\ m_at m' p = set_cells R' ns ms rr) ->
  rs_namespace R' = rs_namespace R -> rs_mapping R' = rs_mapping R -> rs_rollup R' = rs_rollup R ->
  set_at m' v R' S F /\ wf m' S F /\ evo [] m S F m' S F.
Proof.
  intros H Hw Hc En Em Er.
  pose proof H as (p & ns & ms & rr & vms & vrr & Am & Ar & S1 & S2 & Fn & F1 & F2 & -> & E & Hn & Hm & Hr & H1 & H2 & -> & ->).
  destruct (Hc p ns ms rr eq_refl E) as [Ho E'].
  assert (In (Obj p) (((Am ++ [Obj p]) ++ S1) ++ (Ar ++ S2))) as Hin by (rewrite !in_app_iff; left; left; right; left; reflexivity).
  destruct (only_evo p m m' _ _ [] Ho Hin Hw) as [Hw' He]. split; [|auto].
  destruct Hw as (W1 & W2 & W3 & W4).
  assert (~ In p (addrs Am) /\ ~ In p (addrs S1) /\ ~ In p (addrs Ar) /\ ~ In p (addrs S2)) as (N1 & N2 & N3 & N4).
  { rewrite !map_app, <- !app_assoc in W1. cbn [map iaddr app] in W1. apply NoDup_remove_2 in W1.
    rewrite !in_app_iff in W1. tauto. }
  assert (Forall (agree m m') (F1 ++ F2 ++ Fn)) as Hf.
  { apply agree_all_same. intros q Hq. apply (proj2 Ho). intros ->. apply in_map_iff in Hq. destruct Hq as (l & El & Hl).
    apply (W4 l Hl). rewrite El. exact (in_map iaddr _ (Obj p) Hin). }
  rewrite !Forall_app in Hf. destruct Hf as (Hf1 & Hf2 & Hfn).
  exists p, ns, ms, rr, vms, vrr, Am, Ar, S1, S2, Fn, F1, F2. rewrite En, Em, Er.
  split; [reflexivity|]. split; [exact E'|]. split; [exact (shows_frame _ _ _ _ _ Hn Hfn)|].
  assert (forall L : list item, ~ In p (addrs L) -> forall q, In q (addrs L) -> m_at m' q = m_at m q) as Hs.
  { intros L HL q Hq. apply (proj2 Ho). intros ->. exact (HL Hq). }
  split; [exact (owned_frame _ _ _ _ _ Hm (Hs _ N1))|]. split; [exact (owned_frame _ _ _ _ _ Hr (Hs _ N3))|].
  split; [exact (rules_at_frame _ _ _ _ _ _ _ H1 (Hs _ N2) Hf1)|].
  split; [exact (rules_at_frame _ _ _ _ _ _ _ H2 (Hs _ N4) Hf2)|]. auto.
Qed.

(** ** The bodies of views *)

Lemma mbody_view_near b v g m :
  shows m v (t_mbody b) g -> below (m_next m) g -> makes (mbody_view v) m (near m (t_mbody b) g).
Proof.
  intros H Hb. apply makes_ret. exists g. split; [exact H|]. split; [exact Hb|]. auto.
Qed.

Lemma each_near {A} (f : val -> prog val) (t t' : A -> tree) (l : list A) :
  (forall x v g m, shows m v (t x) g -> f v m = Some (v, m) /\ shows m v (t' x) g) ->
  forall vs g m, shows_all m vs (map t l) g -> each f vs m = Some (vs, m) /\ shows_all m vs (map t' l) g.
Proof.
  intro Hf. induction l as [|x l IH]; intros vs g m H; cbn [map] in H.
  - inversion H; subst. split; [reflexivity|constructor].
  - inversion H as [|v t0 g1 vs' ts g2 H1 H2]; subst. destruct (Hf x v g1 m H1) as [E1 K1].
    destruct (IH _ _ _ H2) as [E2 K2]. split; [|constructor; assumption].
    cbn [each]. unfold bind. rewrite E1, E2. reflexivity.
Qed.

Lemma rbody_view_near b v g m :
  shows m v (t_rbody b) g -> below (m_next m) g -> makes (rbody_view v) m (near m (t_rbody (targets_from_view b)) g).
Proof.
  intros H Hb. unfold t_rbody in H. destruct (elems_shows m v _ g H) as (vs & g1 & E1 & H1 & Hi).
  unfold rbody_view, copy_slice. eapply makes_read; [exact E1|].
  destruct (each_near (fun t => match t with VStruct [p; sps] => ret (VStruct [p; sps]) | _ => panic end)
    t_target (fun t => t_target (mk_target (tg_pipeline t) (tg_sps t))) b) with (vs := vs) (g := g1) (m := m) as [E2 H2].
  { intros x w h m0 Hx. split.
    - unfold t_target in Hx. inv_shows. reflexivity.
    - destruct x. exact Hx. }
  { exact H1. }
  eapply makes_read; [exact E2|].
  pose proof (old_alloc m vs) as Ho. eexists _, _. split; [reflexivity|]. split; [exact Ho|].
  exists (Upto (m_next m) (0 + length vs) :: g1). unfold t_rbody, targets_from_view. rewrite map_map. split; [|split].
  - constructor; cbn [skipn plus]; rewrite at_alloc; [lia|]. rewrite firstn_all.
    exact (shows_all_old m _ _ _ _ Ho (below_incl _ _ _ Hb Hi) H2).
  - constructor; [cbn [addr m_next]; lia|]. exact (below_old _ _ _ (below_incl _ _ _ Hb Hi) (proj1 Ho)).
  - intros l [<-|Hl]; [right; cbn [addr]; lia|left; exact (Hi l Hl)].
Qed.

Lemma mbody_tomb_shows m : shows m mbody_tomb (t_mbody mb_empty) [].
Proof.
  unfold mbody_tomb, t_mbody, mb_empty. cbn [mb_agg mb_sps mb_drop t_sps map].
  constructor. change (@nil look) with (@nil look ++ @nil look ++ @nil look ++ []). flat.
  repeat (apply shows_more; [constructor|]). constructor.
Qed.
Lemma rbody_tomb_shows m : shows m rbody_tomb (t_rbody targets_empty) [].
Proof. constructor. Qed.

(** ** Edits *)

Lemma cells_mapping um R ns ms rr cells' (o : option (list mapping_rule)) :
  length cells' = length (set_cells R ns ms rr) ->
  (forall i, i <> 8 -> nth_error cells' i =
     nth_error (match o with Some _ => update_cells um (set_cells R ns ms rr) | None => set_cells R ns ms rr end) i) ->
  exists ms', cells' =
    set_cells (match o with Some l => with_rules R l (rs_rollup R) (rs_tomb R) um | None => R end) ns ms' rr.
Proof.
  intros Hl Hi. do 11 (destruct cells' as [|? cells']; [discriminate Hl|]). destruct cells'; [|discriminate Hl].
  eexists. unfold set_cells, update_cells in *.
  pose proof (Hi 0 ltac:(lia)) as E0. pose proof (Hi 1 ltac:(lia)) as E1. pose proof (Hi 2 ltac:(lia)) as E2.
  pose proof (Hi 3 ltac:(lia)) as E3. pose proof (Hi 4 ltac:(lia)) as E4. pose proof (Hi 5 ltac:(lia)) as E5.
  pose proof (Hi 6 ltac:(lia)) as E6. pose proof (Hi 7 ltac:(lia)) as E7. pose proof (Hi 9 ltac:(lia)) as E9.
  pose proof (Hi 10 ltac:(lia)) as E10. clear Hi.
  destruct o; cbn [nth_error set_cell] in *; repeat match goal with H : Some _ = Some _ |- _ => injection H as -> end;
    reflexivity.
Qed.

Lemma cells_rollup um R ns ms rr cells' (o : option (list rollup_rule)) :
  length cells' = length (set_cells R ns ms rr) ->
  (forall i, i <> 9 -> nth_error cells' i =
     nth_error (match o with Some _ => update_cells um (set_cells R ns ms rr) | None => set_cells R ns ms rr end) i) ->
  exists rr', cells' =
    set_cells (match o with Some l => with_rules R (rs_mapping R) l (rs_tomb R) um | None => R end) ns ms rr'.
Proof.
  intros Hl Hi. do 11 (destruct cells' as [|? cells']; [discriminate Hl|]). destruct cells'; [|discriminate Hl].
  eexists. unfold set_cells, update_cells in *.
  pose proof (Hi 0 ltac:(lia)) as E0. pose proof (Hi 1 ltac:(lia)) as E1. pose proof (Hi 2 ltac:(lia)) as E2.
  pose proof (Hi 3 ltac:(lia)) as E3. pose proof (Hi 4 ltac:(lia)) as E4. pose proof (Hi 5 ltac:(lia)) as E5.
  pose proof (Hi 6 ltac:(lia)) as E6. pose proof (Hi 7 ltac:(lia)) as E7. pose proof (Hi 8 ltac:(lia)) as E8.
  pose proof (Hi 10 ltac:(lia)) as E10. clear Hi.
  destruct o; cbn [nth_error set_cell] in *; repeat match goal with H : Some _ = Some _ |- _ => injection H as -> end;
    reflexivity.
Qed.

(** [edited G m v R S F R' x e]: running [e] gives [x] and turns the rule set [R] into [R'] *)
Definition edited {X} (G : list look) (m : memory) (v : val) (S : list item) (F : list look) (R' : rule_set) (x : X)
    (e : prog X) : Prop :=
  exists m' S' F', e m = Some (x, m') /\ set_at m' v R' S' F' /\ wf m' S' F' /\ evo G m S F m' S' F'.

Lemma mapping_edited {X} G m v R S F um o (x : X) e :
  set_at m v R S F -> wf m S F -> (forall l, In l G -> ~ In (addr l) (addrs S)) ->
  (forall p cells S1 F1, v = VPtr p -> kind_at t_mbody 8 m p cells (rs_mapping R) S1 F1 -> wf m S1 F1 -> incl S1 S ->
     kind_result t_mbody 8 m p cells S1 F1 G um (rs_mapping R) o x e) ->
  edited G m v S F (match o with Some l => with_rules R l (rs_rollup R) (rs_tomb R) um | None => R end) x e.
Proof.
  intros H Hw HG He. destruct (set_mapping _ _ _ _ _ H Hw) as (p & ns & ms & rr & S1 & F1 & Ev & Hk & Hw1 & Hinc & Hnext).
  destruct (He p _ _ _ Ev Hk Hw1 Hinc) as (m' & cells' & S' & F' & Ee & Hk' & Hl & Hi & Hw' & Hevo).
  destruct (cells_mapping um R ns ms rr cells' o Hl Hi) as (ms' & ->).
  destruct (Hnext G m' (match o with Some l => with_rules R l (rs_rollup R) (rs_tomb R) um | None => R end) ms' S' F')
    as (S2 & F2 & H2 & Hw2 & He2); try assumption; try (destruct o; reflexivity).
  - destruct o; exact Hk'.
  - exists m', S2, F2. auto.
Qed.

Lemma rollup_edited {X} G m v R S F um o (x : X) e :
  set_at m v R S F -> wf m S F -> (forall l, In l G -> ~ In (addr l) (addrs S)) ->
  (forall p cells S1 F1, v = VPtr p -> kind_at t_rbody 9 m p cells (rs_rollup R) S1 F1 -> wf m S1 F1 -> incl S1 S ->
     kind_result t_rbody 9 m p cells S1 F1 G um (rs_rollup R) o x e) ->
  edited G m v S F (match o with Some l => with_rules R (rs_mapping R) l (rs_tomb R) um | None => R end) x e.
Proof.
  intros H Hw HG He. destruct (set_rollup _ _ _ _ _ H Hw) as (p & ns & ms & rr & S1 & F1 & Ev & Hk & Hw1 & Hinc & Hnext).
  destruct (He p _ _ _ Ev Hk Hw1 Hinc) as (m' & cells' & S' & F' & Ee & Hk' & Hl & Hi & Hw' & Hevo).
  destruct (cells_rollup um R ns ms rr cells' o Hl Hi) as (ms' & ->).
  destruct (Hnext G m' (match o with Some l => with_rules R (rs_mapping R) l (rs_tomb R) um | None => R end) ms' S' F')
    as (S2 & F2 & H2 & Hw2 & He2); try assumption; try (destruct o; reflexivity).
  - destruct o; exact Hk'.
  - exists m', S2, F2. auto.
Qed.

(** The call as the program makes it and as a plain edit; [G] is the memory of the view handed over. *)
Inductive edit_shows (m : memory) : mem_edit -> edit -> list look -> Prop :=
| es_add_mapping fresh e b g :
    shows m (re_body e) (t_mbody b) g -> edit_shows m (MAddMapping fresh e) (AddMapping fresh (with_body e b)) g
| es_update_mapping e b g :
    shows m (re_body e) (t_mbody b) g -> edit_shows m (MUpdateMapping e) (UpdateMapping (with_body e b)) g
| es_delete_mapping id : edit_shows m (MDeleteMapping id) (DeleteMapping id) []
| es_add_rollup fresh e b g :
    shows m (re_body e) (t_rbody b) g -> edit_shows m (MAddRollup fresh e) (AddRollup fresh (with_body e b)) g
| es_update_rollup e b g :
    shows m (re_body e) (t_rbody b) g -> edit_shows m (MUpdateRollup e) (UpdateRollup (with_body e b)) g
| es_delete_rollup id : edit_shows m (MDeleteRollup id) (DeleteRollup id) []
| es_delete_set : edit_shows m MDeleteSet DeleteSet []
| es_revive_set : edit_shows m MReviveSet ReviveSet [].

Lemma edited_bind {X Y} G m v S F R' (x : X) (y : Y) e (k : X -> prog Y) :
  edited G m v S F R' x e -> (forall m', k x m' = Some (y, m')) -> edited G m v S F R' y (bind e k).
Proof.
  intros (m' & S' & F' & E & H) Hk. exists m', S', F'. split; [|exact H]. unfold bind. rewrite E. apply Hk.
Qed.

Lemma off_incl (G : list look) (S S1 : list item) :
  (forall l, In l G -> ~ In (addr l) (addrs S)) -> incl S1 S -> forall l, In l G -> ~ In (addr l) (addrs S1).
Proof.
  intros H Hi l Hl K. apply (H l Hl). apply in_map_iff in K. destruct K as (i & <- & Hin). apply in_map. exact (Hi i Hin).
Qed.

Lemma field_tomb m v R S F : set_at m v R S F -> field v 6 m = Some (VBool (rs_tomb R), m).
Proof.
  intros (p & ns & ms & rr & vms & vrr & Am & Ar & S1 & S2 & Fn & F1 & F2 & -> & E & _).
  unfold field, bind. cbn [deref]. rewrite E. reflexivity.
Qed.

(** [rs.tombstoned = tomb; rs.updateMetadata(um)] *)
Lemma retomb_ok m v R S F tomb um :
  set_at m v R S F -> wf m S F ->
  edited [] m v S F (with_rules R (rs_mapping R) (rs_rollup R) tomb um) tt
    (bind (set_field v 6 (VBool tomb)) (fun _ => update_metadata v um)).
Proof.
  intros H Hw. pose proof H as (p & ns & ms & rr & vms & vrr & Am & Ar & S1 & S2 & Fn & F1 & F2 & -> & E & _).
  destruct (update_metadata_ok (put p (set_cell 6 (VBool tomb) (m_at m p)) m) p um) as (m' & Eu & Ho & Ec).
  rewrite at_put_same in Ec.
  exists m', S, F. split; [unfold bind; cbn [set_field]; exact Eu|].
  apply (set_fields m (VPtr p) R S F m' _ H Hw); try reflexivity.
  intros p' ns' ms' rr' Ep E'. injection Ep as <-. split.
  - exact (only_trans _ _ _ _ (only_put _ _ _) Ho).
  - rewrite Ec, E'. reflexivity.
Qed.

Lemma delete_mapping_loop m v R S F grow um :
  set_at m v R S F -> wf m S F ->
  edited [] m v S F
    (mk_rs (rs_uuid R) (rs_version R) (rs_namespace R) (rs_created_at R) (rs_updated_at R) (rs_updated_by R) (rs_tomb R)
       (rs_cutover R) (rules_delete_all mb_clone mb_empty (rs_mapping R) um) (rs_rollup R) (rs_opts R) (rs_new_id R)
       (rs_is_rollup R)) tt
    (delete_rules mbody_copy mbody_tomb 8 grow v um).
Proof.
  intros H Hw. destruct (set_mapping _ _ _ _ _ H Hw) as (p & ns & ms & rr & S1 & F1 & -> & Hk & Hw1 & Hinc & Hnext).
  destruct (delete_rules_ok t_mbody mbody_copy mb_clone mbody_tomb mb_empty mbody_copy_shown mbody_tomb_shows
    8 grow m p _ _ _ _ um Hk Hw1) as (m' & S' & F' & Ee & Hk' & Hw' & He').
  match goal with |- edited _ _ _ _ _ ?R' _ _ => destruct (Hnext [] m' R' ms S' F') as (S2 & F2 & H2 & Hw2 & He2) end;
    try assumption; try reflexivity.
  - intros l [].
  - exists m', S2, F2. auto.
Qed.

Lemma delete_rollup_loop m v R S F grow um :
  set_at m v R S F -> wf m S F ->
  edited [] m v S F
    (mk_rs (rs_uuid R) (rs_version R) (rs_namespace R) (rs_created_at R) (rs_updated_at R) (rs_updated_by R) (rs_tomb R)
       (rs_cutover R) (rs_mapping R) (rules_delete_all targets_clone targets_empty (rs_rollup R) um) (rs_opts R)
       (rs_new_id R) (rs_is_rollup R)) tt
    (delete_rules rbody_copy rbody_tomb 9 grow v um).
Proof.
  intros H Hw. destruct (set_rollup _ _ _ _ _ H Hw) as (p & ns & ms & rr & S1 & F1 & -> & Hk & Hw1 & Hinc & Hnext).
  destruct (delete_rules_ok t_rbody rbody_copy targets_clone rbody_tomb targets_empty rbody_copy_shown rbody_tomb_shows
    9 grow m p _ _ _ _ um Hk Hw1) as (m' & S' & F' & Ee & Hk' & Hw' & He').
  match goal with |- edited _ _ _ _ _ ?R' _ _ => destruct (Hnext [] m' R' rr S' F') as (S2 & F2 & H2 & Hw2 & He2) end;
    try assumption; try reflexivity.
  - intros l [].
  - exists m', S2, F2. auto.
Qed.

Lemma edit_set_ok grow m v R S F ce e G um :
  set_at m v R S F -> wf m S F -> edit_shows m ce e G -> below (m_next m) G ->
  (forall l, In l G -> ~ In (addr l) (addrs S)) ->
  edited G m v S F (fst (run_edit R e um)) (snd (run_edit R e um)) (edit_set grow v ce um).
Proof.
  intros H Hw Hes Hb HG. destruct Hes as [fresh e b g Hs|e b g Hs|id|fresh e b g Hs|e b g Hs|id| |].
  - cbn [run_edit edit_set].
    set (o := option_map fst (rules_add true fresh (rs_mapping R) (with_body e b) um)).
    eapply edited_bind with (x := option_map snd (rules_add true fresh (rs_mapping R) (with_body e b) um)).
    + replace (fst (match o with Some l => _ | None => _ end))
        with (match o with Some l => with_rules R l (rs_rollup R) (rs_tomb R) um | None => R end)
        by (destruct o; reflexivity).
      apply (mapping_edited g m v R S F um o); try assumption.
      intros p cells S1 F1 -> Hk Hw1 Hinc.
      exact (add_rule_ok t_mbody mbody_view (fun b => b) mbody_view_near true 8 grow m p cells _ S1 F1
        fresh e b g um Hk Hw1 (or_introl eq_refl) Hs Hb (off_incl _ _ _ HG Hinc)).
    + intro m'. unfold o. destruct (rules_add true fresh (rs_mapping R) (with_body e b) um); reflexivity.
  - cbn [run_edit edit_set]. set (o := rules_update (rs_mapping R) (with_body e b) um).
    replace (fst (match o with Some l => _ | None => _ end))
      with (match o with Some l => with_rules R l (rs_rollup R) (rs_tomb R) um | None => R end)
      by (destruct o; reflexivity).
    replace (snd (match o with Some l => _ | None => _ end)) with (match o with Some _ => true | None => false end)
      by (destruct o; reflexivity).
    apply (mapping_edited g m v R S F um o); try assumption.
    intros p cells S1 F1 -> Hk Hw1 Hinc.
    exact (update_rule_ok t_mbody mbody_view (fun b => b) mbody_view_near 8 grow m p cells _ S1 F1
      e b g um Hk Hw1 (or_introl eq_refl) Hs Hb (off_incl _ _ _ HG Hinc)).
  - cbn [run_edit edit_set]. set (o := rules_delete mb_clone mb_empty (rs_mapping R) id um).
    replace (fst (match o with Some l => _ | None => _ end))
      with (match o with Some l => with_rules R l (rs_rollup R) (rs_tomb R) um | None => R end)
      by (destruct o; reflexivity).
    replace (snd (match o with Some l => _ | None => _ end)) with (match o with Some _ => true | None => false end)
      by (destruct o; reflexivity).
    apply (mapping_edited [] m v R S F um o); try assumption.
    intros p cells S1 F1 -> Hk Hw1 Hinc.
    exact (delete_rule_ok t_mbody mbody_copy mb_clone mbody_tomb mb_empty mbody_copy_shown mbody_tomb_shows
      8 grow m p cells _ S1 F1 id um Hk Hw1 (or_introl eq_refl)).
  - cbn [run_edit edit_set].
    set (o := option_map fst (rules_add false fresh (rs_rollup R) (view_targets (with_body e b)) um)).
    eapply edited_bind with (x := option_map snd (rules_add false fresh (rs_rollup R) (view_targets (with_body e b)) um)).
    + replace (fst (match o with Some l => _ | None => _ end))
        with (match o with Some l => with_rules R (rs_mapping R) l (rs_tomb R) um | None => R end)
        by (destruct o; reflexivity).
      apply (rollup_edited g m v R S F um o); try assumption.
      intros p cells S1 F1 -> Hk Hw1 Hinc.
      exact (add_rule_ok t_rbody rbody_view targets_from_view rbody_view_near false 9 grow m p cells _ S1 F1
        fresh e b g um Hk Hw1 (or_intror eq_refl) Hs Hb (off_incl _ _ _ HG Hinc)).
    + intro m'. unfold o. destruct (rules_add false fresh (rs_rollup R) (view_targets (with_body e b)) um); reflexivity.
  - cbn [run_edit edit_set]. set (o := rules_update (rs_rollup R) (view_targets (with_body e b)) um).
    replace (fst (match o with Some l => _ | None => _ end))
      with (match o with Some l => with_rules R (rs_mapping R) l (rs_tomb R) um | None => R end)
      by (destruct o; reflexivity).
    replace (snd (match o with Some l => _ | None => _ end)) with (match o with Some _ => true | None => false end)
      by (destruct o; reflexivity).
    apply (rollup_edited g m v R S F um o); try assumption.
    intros p cells S1 F1 -> Hk Hw1 Hinc.
    exact (update_rule_ok t_rbody rbody_view targets_from_view rbody_view_near 9 grow m p cells _ S1 F1
      e b g um Hk Hw1 (or_intror eq_refl) Hs Hb (off_incl _ _ _ HG Hinc)).
  - cbn [run_edit edit_set]. set (o := rules_delete targets_clone targets_empty (rs_rollup R) id um).
    replace (fst (match o with Some l => _ | None => _ end))
      with (match o with Some l => with_rules R (rs_mapping R) l (rs_tomb R) um | None => R end)
      by (destruct o; reflexivity).
    replace (snd (match o with Some l => _ | None => _ end)) with (match o with Some _ => true | None => false end)
      by (destruct o; reflexivity).
    apply (rollup_edited [] m v R S F um o); try assumption.
    intros p cells S1 F1 -> Hk Hw1 Hinc.
    exact (delete_rule_ok t_rbody rbody_copy targets_clone rbody_tomb targets_empty rbody_copy_shown rbody_tomb_shows
      9 grow m p cells _ S1 F1 id um Hk Hw1 (or_intror eq_refl)).
  - cbn [run_edit edit_set]. unfold edited, bind at 1. rewrite (field_tomb _ _ _ _ _ H). unfold VBool at 1.
    destruct (rs_tomb R); cbn [fst snd].
    + exists m, S, F. split; [reflexivity|]. split; [exact H|]. split; [exact Hw|]. apply evo_refl.
    + destruct (retomb_ok m v R S F true um H Hw) as (m1 & S1 & F1 & E1 & H1 & Hw1 & He1).
      destruct (delete_mapping_loop m1 v _ S1 F1 grow um H1 Hw1) as (m2 & S2 & F2 & E2 & H2 & Hw2 & He2).
      destruct (delete_rollup_loop m2 v _ S2 F2 grow um H2 Hw2) as (m3 & S3 & F3 & E3 & H3 & Hw3 & He3).
      exists m3, S3, F3. split; [|split; [exact H3|split; [exact Hw3|]]].
      * unfold bind in E1 |- *. destruct (set_field v 6 (VBool true) m) as [[u mm]|]; [|discriminate E1].
        rewrite E1, E2, E3. reflexivity.
      * exact (evo_trans _ _ _ _ _ _ _ _ _ _ (proj1 Hw) He1 (evo_trans _ _ _ _ _ _ _ _ _ _ (proj1 Hw1) He2 He3)).
  - cbn [run_edit edit_set]. unfold edited, bind at 1. rewrite (field_tomb _ _ _ _ _ H). unfold VBool at 1.
    destruct (rs_tomb R); cbn [negb fst snd].
    + destruct (retomb_ok m v R S F false um H Hw) as (m1 & S1 & F1 & E1 & H1 & Hw1 & He1).
      exists m1, S1, F1. split; [|auto].
      unfold bind in E1 |- *. destruct (set_field v 6 (VBool false) m) as [[u mm]|]; [|discriminate E1].
      rewrite E1. reflexivity.
    + exists m, S, F. split; [reflexivity|]. split; [exact H|]. split; [exact Hw|]. apply evo_refl.
Qed.
