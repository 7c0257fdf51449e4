(** Edits of the rules of one kind in a rule set in memory. *)
From Coq Require Import Ascii String Arith NArith ZArith Bool Lia Permutation List.
From Verif.Proof Require Import MemProof MemSep RuleMemCopy RuleMemRules.
From Verif.Base Require Import Bytes Mem.
From Verif.Model Require Import AggType Policy Transformation Pipeline Metadata Filter MetricID Rules RuleSet
  RuleMem.
From Verif.Spec Require Import RuleMemSpec.
Import ListNotations.
Open Scope nat_scope.

(** ** More about owned memory *)

Lemma evo_after_old g gb m m1 S F m2 S2 F2 :
  old m m1 -> (forall l, In l g -> In l gb \/ m_next m <= addr l) ->
  NoDup (addrs S) -> evo g m1 S F m2 S2 F2 -> evo gb m S F m2 S2 F2.
Proof.
  intros Ho Hg Hnd (K & E & X).
  assert (evo (gb ++ g) m S F m2 S2 F2) as (K' & E' & X').
  { apply (evo_trans _ _ _ _ m1 S F); [exact Hnd|exact (evo_old _ _ _ _ _ Ho)|].
    apply (evo_wider g); [intros x Hx; apply in_or_app; right; exact Hx|]. exact (conj K (conj E X)). }
  split; [exact K'|]. split; [exact E'|]. intros l Hl. destruct (X' l Hl) as [H|[H|H]]; auto.
  apply in_app_iff in H. destruct H as [H|H]; [auto|]. destruct (Hg l H); auto.
Qed.

(** a change of one object *)
Definition only (p : nat) (m m' : memory) : Prop :=
  m_next m' = m_next m /\ forall q, q <> p -> m_at m' q = m_at m q.

Lemma only_put p c m : only p m (put p c m).
Proof. split; [reflexivity|]. intros q Hq. exact (at_put_other m p q c Hq). Qed.
Lemma only_trans p m m1 m2 : only p m m1 -> only p m1 m2 -> only p m m2.
Proof. intros [H1 K1] [H2 K2]. split; [congruence|]. intros q Hq. rewrite K2, K1; auto. Qed.

Lemma only_evo p m m' S F G : only p m m' -> In (Obj p) S -> wf m S F -> wf m' S F /\ evo G m S F m' S F.
Proof.
  intros [Hn Hs] Hin (W1 & W2 & W3 & W4). split; [|split; [|split]].
  - split; [exact W1|]. rewrite Hn. auto.
  - split; [lia|]. intros q Hq. split.
    + intro Hnot. apply Hs. intros ->. apply Hnot. exact (in_map iaddr S (Obj p) Hin).
    + intros n Hn'. rewrite Hs; [reflexivity|]. intros ->.
      pose proof (nodup_same _ _ _ W1 Hin Hn' eq_refl) as X. discriminate X.
  - intros i Hi. right. destruct i as [q|a n]; [exact Hi|]. exists n. auto.
  - auto.
Qed.

Lemma wf_perm m S S' F F' :
  Permutation S S' -> (forall l, In l F' -> In l F) -> wf m S F -> wf m S' F'.
Proof.
  intros HS HF (W1 & W2 & W3 & W4). split; [|split; [|split]].
  - exact (Permutation_NoDup (Permutation_map iaddr HS) W1).
  - exact (Permutation_Forall HS W2).
  - exact (below_incl _ _ _ W3 HF).
  - intros l Hl K. apply (W4 l (HF l Hl)).
    exact (Permutation_in _ (Permutation_sym (Permutation_map iaddr HS)) K).
Qed.

Lemma evo_perm G m S1 F1 S2 F2 m' S1' F1' S2' F2' :
  Permutation S1 S2 -> Permutation S1' S2' -> (forall l, In l F1 -> In l F2) -> (forall l, In l F2' -> In l F1') ->
  evo G m S1 F1 m' S1' F1' -> evo G m S2 F2 m' S2' F2'.
Proof.
  intros HS HS' HF HF' (K & E & X). split; [|split].
  - split; [exact (proj1 K)|]. intros p Hp. destruct (proj2 K p Hp) as [A1 A2]. split.
    + intro Hnot. apply A1. intro H. apply Hnot. exact (Permutation_in _ (Permutation_map iaddr HS) H).
    + intros n Hn. apply A2. exact (Permutation_in _ (Permutation_sym HS) Hn).
  - intros i Hi. destruct (E i (Permutation_in _ (Permutation_sym HS') Hi)) as [H|H]; [left; exact H|right].
    destruct i as [p|a n'].
    + exact (Permutation_in _ HS H).
    + destruct H as (n & Hle & H). exists n. split; [exact Hle|]. exact (Permutation_in _ HS H).
  - intros l Hl. destruct (X l (HF' l Hl)) as [H|[H|H]]; auto.
Qed.

Lemma evo_less G m S F m' S' F' S2 F2 :
  evo G m S F m' S' F' -> incl S2 S' -> incl F2 F' -> evo G m S F m' S2 F2.
Proof. intros (K & E & X) HS HF. split; [exact K|]. split; [intros i Hi; exact (E i (HS i Hi))|intros l Hl; exact (X l (HF l Hl))]. Qed.

(** new memory is nobody's yet *)
Lemma wf_fresh m S F q m' :
  wf m S F -> old m m' -> m_next m <= q < m_next m' -> 
  wf m' (S ++ [Obj q]) (F ++ []) /\ forall G, evo G m S F m' (S ++ [Obj q]) (F ++ []).
Proof.
  intros (W1 & W2 & W3 & W4) Ho Hq. rewrite app_nil_r. split; [|intro G].
  - split; [|split; [|split]].
    + rewrite map_app. cbn [map iaddr]. apply nodup_snoc; [exact W1|]. intro K. apply in_map_iff in K.
      destruct K as (i & Ei & Hi). pose proof (proj1 (Forall_forall _ _) W2 i Hi). cbn beta in *. lia.
    + apply Forall_app. split; [|constructor; [cbn [iaddr]; lia|constructor]].
      revert W2. apply Forall_impl. intros i Hi. pose proof (proj1 Ho). lia.
    + exact (below_old _ _ _ W3 (proj1 Ho)).
    + intros l Hl. rewrite map_app, in_app_iff. cbn [map iaddr In]. intros [K|[K|[]]]; [exact (W4 l Hl K)|].
      pose proof (proj1 (Forall_forall _ _) W3 l Hl). cbn beta in *. lia.
  - split; [|split].
    + split; [exact (proj1 Ho)|]. intros p Hp. rewrite (proj2 Ho p Hp). auto.
    + intros i Hi. apply in_app_iff in Hi. destruct Hi as [Hi|[<-|[]]]; [right|left; cbn [iaddr]; lia].
      destruct i as [p|a n]; [exact Hi|]. exists n. auto.
    + auto.
Qed.

(** ** Fields *)

Definition update_cells (um : update_meta) (cells : list val) : list val :=
  set_cell 5 (VStr (um_by um)) (set_cell 4 (VInt (um_at um)) (set_cell 7 (VInt (um_cutover um)) cells)).

Lemma nth_set_cell_same {A} i (x : value A) l : i < length l -> nth_error (set_cell i x l) i = Some x.
Proof.
  revert i. induction l as [|y l IH]; intros [|i] H; cbn [length] in H; try lia; [reflexivity|].
  cbn [set_cell nth_error]. apply IH. lia.
Qed.
Lemma nth_set_cell_other {A} i j (x : value A) l : i <> j -> nth_error (set_cell i x l) j = nth_error l j.
Proof.
  revert i j. induction l as [|y l IH]; intros [|i] [|j] H; cbn [set_cell nth_error]; try reflexivity; try lia.
  apply IH. lia.
Qed.

Lemma update_metadata_ok m p um :
  exists m', update_metadata (VPtr p) um m = Some (tt, m') /\ only p m m' /\
    m_at m' p = update_cells um (m_at m p).
Proof.
  eexists. split; [reflexivity|]. split.
  - eapply only_trans; [apply only_put|]. eapply only_trans; apply only_put.
  - rewrite !at_put_same. reflexivity.
Qed.

Lemma update_cells_nth um cells i : i <> 4 -> i <> 5 -> i <> 7 -> nth_error (update_cells um cells) i = nth_error cells i.
Proof. intros H4 H5 H7. unfold update_cells. rewrite !nth_set_cell_other by lia. reflexivity. Qed.

Section Kind.
  Context {P : Type} (tb : P -> tree).
  Context (bc : val -> prog val) (cl : P -> P) (btomb : val) (empty : P).
  Context (bc_shown : forall b v g m, shows m v (tb b) g -> below (m_next m) g ->
                        makes (bc v) m (shown m (tb (cl b)))).
  Context (btomb_shows : forall m, shows m btomb (tb empty) []).

  (** what the body of a rule's view becomes: some of the view's memory, or new memory *)
  Context (bv : val -> prog val) (vw : P -> P).
  Definition near (m : memory) (t : tree) (gb : list look) : val -> memory -> Prop :=
    fun v m' => exists g, shows m' v t g /\ below (m_next m') g /\
      forall l, In l g -> In l gb \/ m_next m <= addr l.
  Context (bv_shown : forall b v g m, shows m v (tb b) g -> below (m_next m) g ->
                        makes (bv v) m (near m (tb (vw b)) g)).

  (** The object of the rule set, the slice of rules in one of its fields, and the rules. *)
  Definition kind_at (at_ : nat) (m : memory) (p : nat) (cells : list val) (rs : list (rule P))
      (S : list item) (F : list look) : Prop :=
    m_at m p = cells /\
    exists x vs A S0, nth_error cells at_ = Some x /\ owned m x vs A /\ rules_at tb m vs rs S0 F /\
      S = (A ++ [Obj p]) ++ S0.

  Lemma kind_own at_ m p cells rs S F : kind_at at_ m p cells rs S F -> In (Obj p) S.
  Proof. intros (_ & x & vs & A & S0 & _ & _ & _ & ->). rewrite !in_app_iff. left. right. left. reflexivity. Qed.

  Lemma kind_frame at_ m m' p cells rs S F :
    kind_at at_ m p cells rs S F -> (forall q, In q (addrs S) -> m_at m' q = m_at m q) -> Forall (agree m m') F ->
    kind_at at_ m' p cells rs S F.
  Proof.
    intros H Hs Hf. pose proof (kind_own _ _ _ _ _ _ _ H) as Hp. destruct H as (E & x & vs & A & S0 & Ex & Ho & Hr & ->).
    split; [rewrite (Hs p); [exact E|exact (in_map iaddr _ (Obj p) Hp)]|].
    exists x, vs, A, S0. rewrite !map_app in Hs. split; [exact Ex|]. split; [|split; [|reflexivity]].
    - apply (owned_frame m); [exact Ho|]. intros q Hq. apply Hs. rewrite !in_app_iff. auto.
    - apply (rules_at_frame tb m); [exact Hr| |exact Hf]. intros q Hq. apply Hs. rewrite !in_app_iff. auto.
  Qed.

  (** a change of the other fields of the rule set *)
  Lemma kind_only at_ m m' p cells rs S F :
    kind_at at_ m p cells rs S F -> wf m S F -> only p m m' -> nth_error (m_at m' p) at_ = nth_error cells at_ ->
    kind_at at_ m' p (m_at m' p) rs S F.
  Proof.
    intros (E & x & vs & A & S0 & Ex & Ho & Hr & ->) (W1 & W2 & W3 & W4) [Hn Hs] En.
    split; [reflexivity|]. exists x, vs, A, S0. rewrite En. split; [exact Ex|].
    assert (~ In p (addrs A ++ addrs S0)) as Hp.
    { rewrite !map_app in W1. cbn [map iaddr] in W1. rewrite <- app_assoc in W1. exact (NoDup_remove_2 _ _ _ W1). }
    rewrite in_app_iff in Hp. split; [|split; [|reflexivity]].
    - apply (owned_frame m); [exact Ho|]. intros q Hq. apply Hs. intros ->. tauto.
    - apply (rules_at_frame tb m); [exact Hr| |].
      + intros q Hq. apply Hs. intros ->. tauto.
      + apply agree_all_same. intros q Hq. apply Hs. intros ->. apply in_map_iff in Hq. destruct Hq as (l & El & Hl).
        apply (W4 l Hl). rewrite El, !map_app, !in_app_iff. left. right. left. reflexivity.
  Qed.

  Lemma kind_old at_ m m' p cells rs S F :
    old m m' -> wf m S F -> kind_at at_ m p cells rs S F -> kind_at at_ m' p cells rs S F.
  Proof.
    intros Ho (_ & Hlt & Hb & _) H. apply (kind_frame at_ m); [exact H| |exact (agree_old _ _ _ Ho Hb)].
    intros q Hq. apply (proj2 Ho). apply in_map_iff in Hq. destruct Hq as (i & <- & Hi).
    exact (proj1 (Forall_forall _ _) Hlt i Hi).
  Qed.

  Lemma field_elems_ok at_ m p cells rs S F :
    kind_at at_ m p cells rs S F ->
    exists x vs A S0, nth_error cells at_ = Some x /\ owned m x vs A /\ rules_at tb m vs rs S0 F /\
      S = (A ++ [Obj p]) ++ S0 /\ field (VPtr p) at_ m = Some (x, m) /\ field_elems (VPtr p) at_ m = Some (vs, m).
  Proof.
    intros (E & x & vs & A & S0 & Ex & Ho & Hr & HS). exists x, vs, A, S0.
    assert (field (VPtr p) at_ m = Some (x, m)) as Ef.
    { unfold field, bind. cbn [deref]. rewrite E, Ex. reflexivity. }
    repeat (split; [assumption|]). unfold field_elems, bind. rewrite Ef. exact (owned_elems _ _ _ _ Ho).
  Qed.

  (** The result of an edit: [None] is an error, and then nothing has changed. *)
  Definition kind_result {X} (at_ : nat) (m : memory) (p : nat) (cells : list val) (S : list item) (F G : list look)
      (um : update_meta) (rs : list (rule P)) (o : option (list (rule P))) (x : X) (e : prog X) : Prop :=
    exists m' cells' S' F', e m = Some (x, m') /\
      kind_at at_ m' p cells' (match o with Some rs' => rs' | None => rs end) S' F' /\
      length cells' = length cells /\
      (forall i, i <> at_ -> nth_error cells' i =
        nth_error (match o with Some _ => update_cells um cells | None => cells end) i) /\
      wf m' S' F' /\ evo G m S F m' S' F'.

  Lemma update_cells_length um cells : length (update_cells um cells) = length cells.
  Proof. unfold update_cells. rewrite !set_cell_length. reflexivity. Qed.

  (** the last step of every edit *)
  Lemma finish {X} at_ m p cells S F G um rs (x : X) :
    kind_at at_ m p cells rs S F -> wf m S F -> at_ = 8 \/ at_ = 9 ->
    exists m', update_metadata (VPtr p) um m = Some (tt, m') /\ only p m m' /\
      kind_at at_ m' p (update_cells um cells) rs S F /\ wf m' S F /\ evo G m S F m' S F.
  Proof.
    intros H Hw Hat. destruct (update_metadata_ok m p um) as (m' & E & Ho & Ec). exists m'.
    pose proof H as (Em & _). rewrite Em in Ec.
    destruct (only_evo p m m' S F G Ho (kind_own _ _ _ _ _ _ _ H) Hw) as [Hw' He].
    split; [exact E|]. split; [exact Ho|]. split; [|auto]. rewrite <- Ec. apply (kind_only at_ m m' p cells); auto.
    rewrite Ec. apply update_cells_nth; lia.
  Qed.

  (** An edit of one of the rules. *)
  Lemma edit_place at_ m p cells x vs rs A S0 F v i G e (pure : rule P -> option (rule P)) :
    m_at m p = cells -> nth_error cells at_ = Some x -> owned m x vs A -> rules_at tb m vs rs S0 F ->
    place tb m vs rs S0 F v i -> wf m ((A ++ [Obj p]) ++ S0) F ->
    (forall l, In l G -> ~ In (addr l) (addrs ((A ++ [Obj p]) ++ S0))) ->
    (forall r Sr Fr, rule_at tb m v r Sr Fr -> wf m Sr Fr -> incl Sr S0 -> rule_result tb m v Sr Fr G r (pure r) e) ->
    exists r m' S' F', nth_error rs i = Some r /\
      e m = Some (match pure r with Some _ => true | None => false end, m') /\
      kind_at at_ m' p cells (match pure r with Some r' => set_nth i r' rs | None => rs end) S' F' /\
      wf m' S' F' /\ evo G m ((A ++ [Obj p]) ++ S0) F m' S' F' /\
      exists q rest, v = VPtr q /\ q <> p /\
        m_at m' q = VStr (ru_uuid (match pure r with Some r' => r' | None => r end)) :: rest.
  Proof.
    intros E Ex Ho Hr Hp Hw HG He.
    pose proof (wf_right m (A ++ [Obj p]) S0 [] F Hw) as Hw0.
    destruct (place_edit tb m vs rs S0 F v i G e pure Hp Hw0) as (r & m' & S' & F' & En & Ee & Hr' & Hw' & He').
    { intros l Hl K. apply (HG l Hl). rewrite map_app, in_app_iff. right. exact K. }
    { exact He. }
    destruct (wf_replace_right G m (A ++ [Obj p]) S0 S' [] F F' m' Hw He' Hw' HG) as (Hwa & Hea & Hsa & _).
    exists r, m', ((A ++ [Obj p]) ++ S'), F'. split; [exact En|]. split; [exact Ee|].
    split; [|split; [exact Hwa|split; [exact Hea|]]].
    2:{ destruct (rules_at_nth tb m' vs _ S' F' i v (match pure r with Some r' => r' | None => r end) Hr'
          (place_nth _ _ _ _ _ _ _ _ Hp)) as (Sr & Fr & (q & ss & ps & A' & -> & Eq & _ & -> & _) & Hinc).
        { destruct (pure r); [|exact En]. apply nth_set_nth. apply nth_error_Some. rewrite En. discriminate. }
        exists q, [ss]. split; [reflexivity|]. split; [|exact Eq]. intros ->.
        pose proof (proj1 Hwa) as Hnd. rewrite !map_app, <- app_assoc in Hnd. cbn [map iaddr app] in Hnd.
        apply NoDup_remove_2 in Hnd. apply Hnd. rewrite in_app_iff. right.
        apply (in_map iaddr S' (Obj p)). apply Hinc. rewrite in_app_iff. right. left. reflexivity. }
    rewrite map_app in Hsa. split.
    - rewrite Hsa; [exact E|]. rewrite in_app_iff. right. left. reflexivity.
    - exists x, vs, A, S'. split; [exact Ex|]. split; [|split; [exact Hr'|reflexivity]].
      apply (owned_frame m); [exact Ho|]. intros q Hq. apply Hsa. rewrite in_app_iff. auto.
  Qed.

  Lemma delete_rule_ok at_ grow m p cells rs S F id um :
    kind_at at_ m p cells rs S F -> wf m S F -> at_ = 8 \/ at_ = 9 ->
    kind_result at_ m p cells S F [] um rs (rules_delete cl empty rs id um)
      (match rules_delete cl empty rs id um with Some _ => true | None => false end)
      (delete_rule bc btomb at_ grow (VPtr p) id um).
  Proof.
    intros H Hw Hat. unfold kind_result, delete_rule, bind at 1.
    destruct (field_elems_ok _ _ _ _ _ _ _ H) as (x & vs & A & S0 & Ex & Ho & Hr & -> & Ef & Efe).
    rewrite Efe. unfold rules_delete. unfold bind at 1.
    destruct (find_by_id_ok tb m vs rs S0 F id Hr) as [[Ei Hn]|(v & i & Ei & Hi & Hp)].
    - rewrite Ei, (Hn 0). exists m, cells, ((A ++ [Obj p]) ++ S0), F. split; [reflexivity|]. split; [exact H|].
      split; [reflexivity|]. split; [reflexivity|]. split; [exact Hw|]. apply evo_refl.
    - rewrite Ei, (Hi 0). cbn [plus].
      destruct (edit_place at_ m p cells x vs rs A S0 F v i [] (tombstone_rule bc btomb grow v um)
        (fun r => mark_tombstoned cl empty r um) (proj1 H) Ex Ho Hr Hp Hw (fun l (K : In l []) => match K with end)
        (fun r Sr Fr Hr0 Hw0 _ => tombstone_ok tb bc cl btomb empty bc_shown btomb_shows grow m v r Sr Fr um Hr0 Hw0))
        as (r & m' & S' & F' & En & Ee & Hk & Hw' & He' & q & rest & Ev & Hqp & Eq).
      rewrite En. unfold bind. rewrite Ee. destruct (mark_tombstoned cl empty r um) as [r'|]; cbn [option_map].
      + destruct (@finish unit at_ m' p cells S' F' [] um _ tt Hk Hw' Hat) as (m2 & Eu & Hon & Hk2 & Hw2 & He2).
        exists m2, (update_cells um cells), S', F'. rewrite Eu. split; [reflexivity|]. split; [exact Hk2|].
        split; [apply update_cells_length|]. split; [reflexivity|]. split; [exact Hw2|].
        exact (evo_trans _ _ _ _ _ _ _ _ _ _ (proj1 Hw) He' He2).
      + exists m', cells, S', F'. split; [reflexivity|]. split; [exact Hk|]. auto.
  Qed.

  Lemma update_rule_ok at_ grow m p cells rs S F e b gb um :
    kind_at at_ m p cells rs S F -> wf m S F -> at_ = 8 \/ at_ = 9 ->
    shows m (re_body e) (tb b) gb -> below (m_next m) gb -> (forall l, In l gb -> ~ In (addr l) (addrs S)) ->
    kind_result at_ m p cells S F gb um rs (rules_update rs (with_body e (vw b)) um)
      (match rules_update rs (with_body e (vw b)) um with Some _ => true | None => false end)
      (update_rule bv at_ grow (VPtr p) e um).
  Proof.
    intros H Hw Hat Hb Hbb Hsep. unfold kind_result, update_rule, bind at 1.
    destruct (field_elems_ok _ _ _ _ _ _ _ H) as (x & vs & A & S0 & Ex & Ho & Hr & -> & Ef & Efe).
    rewrite Efe. unfold rules_update, with_body. cbn [re_id re_name re_filter re_body]. unfold bind at 1.
    destruct (find_by_id_ok tb m vs rs S0 F (re_id e) Hr) as [[Ei Hn]|(v & i & Ei & Hi & Hp)].
    - rewrite Ei, (Hn 0). exists m, cells, ((A ++ [Obj p]) ++ S0), F. split; [reflexivity|]. split; [exact H|].
      split; [reflexivity|]. split; [reflexivity|]. split; [exact Hw|]. apply evo_refl.
    - rewrite Ei, (Hi 0). cbn [plus].
      destruct (bv_shown b (re_body e) gb m Hb Hbb) as (b' & m1 & Eb & Ho1 & g & Hg & Hgb & Hgn).
      unfold bind at 1. rewrite Eb.
      assert (forall l, In l g -> ~ In (addr l) (addrs ((A ++ [Obj p]) ++ S0))) as Hgs.
      { intros l Hl K. destruct (Hgn l Hl) as [X|X]; [exact (Hsep l X K)|].
        apply in_map_iff in K. destruct K as (j & Ej & Hj). pose proof (proj1 (Forall_forall _ _) (proj1 (proj2 Hw)) j Hj).
        cbn beta in *. lia. }
      pose proof (wf_old _ _ _ _ Ho1 Hw) as Hw1. pose proof (kind_old _ _ _ _ _ _ _ _ Ho1 Hw H) as H1.
      pose proof (wf_right m (A ++ [Obj p]) S0 [] F Hw) as Hw0.
      assert (owned m1 x vs A) as Hown1.
      { apply (owned_frame m); [exact Ho|]. intros q Hq. apply (proj2 Ho1). apply in_map_iff in Hq.
        destruct Hq as (j & <- & Hj). apply (proj1 (Forall_forall _ _) (proj1 (proj2 Hw))). rewrite !in_app_iff. auto. }
      assert (place tb m1 vs rs S0 F v i) as Hp1.
      { revert Hp. apply place_old; assumption. }
      destruct (edit_place at_ m1 p cells x vs rs A S0 F v i g (add_snapshot_to grow v (re_name e) (re_filter e) b' um)
        (fun r => add_snapshot r (re_name e) (re_filter e) (vw b) um) (proj1 H1) Ex Hown1
        (rules_at_old tb _ _ _ _ _ _ Ho1 Hw0 Hr) Hp1 Hw1 Hgs)
        as (r & m' & S' & F' & En & Ee & Hk & Hw' & He' & q & rest & Ev & Hqp & Eq).
      { intros r Sr Fr Hr0 Hwr Hinc. apply (add_snapshot_ok tb grow m1 v r Sr Fr _ _ _ _ _ _ Hr0 Hwr Hg Hgb).
        intros l Hl K. apply (Hgs l Hl). rewrite map_app, in_app_iff. right. apply in_map_iff in K.
        destruct K as (j & <- & Hj). apply in_map. exact (Hinc j Hj). }
      pose proof (evo_after_old g gb m m1 _ _ _ _ _ Ho1 Hgn (proj1 Hw) He') as Hevo.
      rewrite En. unfold bind. rewrite Ee.
      destruct (add_snapshot r (re_name e) (re_filter e) (vw b) um) as [r'|]; cbn [option_map].
      + destruct (@finish unit at_ m' p cells S' F' gb um _ tt Hk Hw' Hat) as (m2 & Eu & Hon & Hk2 & Hw2 & He2).
        exists m2, (update_cells um cells), S', F'. rewrite Eu. split; [reflexivity|]. split; [exact Hk2|].
        split; [apply update_cells_length|]. split; [reflexivity|]. split; [exact Hw2|].
        exact (evo_trans _ _ _ _ _ _ _ _ _ _ (proj1 Hw) Hevo He2).
      + exists m', cells, S', F'. split; [reflexivity|]. split; [exact Hk|]. auto.
  Qed.

  (** the body of a view, ready to be stored *)
  Lemma view_ready m S F b v gb :
    wf m S F -> shows m v (tb b) gb -> below (m_next m) gb -> (forall l, In l gb -> ~ In (addr l) (addrs S)) ->
    exists b' m1 g, bv v m = Some (b', m1) /\ old m m1 /\ shows m1 b' (tb (vw b)) g /\ below (m_next m1) g /\
      (forall l, In l g -> In l gb \/ m_next m <= addr l) /\ (forall l, In l g -> ~ In (addr l) (addrs S)).
  Proof.
    intros Hw Hb Hbb Hsep. destruct (bv_shown b v gb m Hb Hbb) as (b' & m1 & Eb & Ho1 & g & Hg & Hgb & Hgn).
    exists b', m1, g. repeat (split; [assumption|]). intros l Hl K. destruct (Hgn l Hl) as [X|X]; [exact (Hsep l X K)|].
    apply in_map_iff in K. destruct K as (j & Ej & Hj). pose proof (proj1 (Forall_forall _ _) (proj1 (proj2 Hw)) j Hj).
    cbn beta in *. lia.
  Qed.

  (** a new rule, not in any list yet *)
  Lemma create_rule_ok grow m b v gb fresh name raw um :
    shows m v (tb b) gb -> below (m_next m) gb ->
    exists r m1 m2 S' F', new_obj [VStr fresh; VNil] m = Some (r, m1) /\ old m m1 /\ m_next m < m_next m1 /\
      add_snapshot_to grow r name raw v um m1 =
        Some (match add_snapshot (mk_rule fresh []) name raw b um with Some _ => true | None => false end, m2) /\
      rule_at tb m2 r (match add_snapshot (mk_rule fresh []) name raw b um with Some q => q | None => mk_rule fresh [] end)
        S' F' /\
      wf m2 S' F' /\ evo gb m1 [Obj (m_next m)] [] m2 S' F'.
  Proof.
    intros Hb Hbb. set (q := m_next m). set (m1 := mk_mem (m_at (put q [VStr fresh; VNil] m)) (S q)).
    assert (old m m1) as Ho by apply old_alloc.
    assert (m_at m1 q = [VStr fresh; VNil]) as Eq by apply at_alloc.
    assert (rule_at tb m1 (VPtr q) (mk_rule fresh []) [Obj q] []) as Hr.
    { exists q, VNil, [], []. cbn [ru_uuid ru_snapshots map app]. repeat split; auto; [left; auto|constructor]. }
    assert (wf m1 [Obj q] []) as Hw.
    { split; [|split; [|split]].
      - constructor; [intros []|constructor].
      - constructor; [cbn [iaddr m1 m_next]; lia|constructor].
      - constructor.
      - intros l []. }
    destruct (add_snapshot_ok tb grow m1 (VPtr q) (mk_rule fresh []) [Obj q] [] name raw b v gb um Hr Hw
      (shows_old _ _ _ _ _ Ho Hbb Hb) (below_old _ _ _ Hbb (proj1 Ho))) as (m2 & S' & F' & E & Hr2 & Hw2 & He2).
    { intros l Hl [K|[]]. cbn [iaddr] in K. pose proof (proj1 (Forall_forall _ _) Hbb l Hl). cbn beta in *. unfold q in K. lia. }
    exists (VPtr q), m1, m2, S', F'. split; [reflexivity|]. split; [exact Ho|].
    split; [cbn [m1 m_next]; lia|]. auto.
  Qed.

  Lemma add_rule_ok skip at_ grow m p cells rs S F fresh e b gb um :
    kind_at at_ m p cells rs S F -> wf m S F -> at_ = 8 \/ at_ = 9 ->
    shows m (re_body e) (tb b) gb -> below (m_next m) gb -> (forall l, In l gb -> ~ In (addr l) (addrs S)) ->
    kind_result at_ m p cells S F gb um rs (option_map fst (rules_add skip fresh rs (with_body e (vw b)) um))
      (option_map snd (rules_add skip fresh rs (with_body e (vw b)) um))
      (add_rule bv skip at_ grow (VPtr p) fresh e um).
  Proof.
    intros H Hw Hat Hb Hbb Hsep. unfold kind_result, add_rule, bind at 1.
    destruct (field_elems_ok _ _ _ _ _ _ _ H) as (x & vs & A & S0 & Ex & Ho & Hr & HS & Ef & Efe).
    rewrite Efe. unfold rules_add, with_body. cbn [re_id re_name re_filter re_body]. unfold bind at 1.
    destruct (view_ready m S F b (re_body e) gb Hw Hb Hbb Hsep) as (b' & m1 & g & Eb & Ho1 & Hg & Hgb & Hgn & Hgs).
    pose proof (wf_old _ _ _ _ Ho1 Hw) as Hw1. pose proof (kind_old _ _ _ _ _ _ _ _ Ho1 Hw H) as H1.
    destruct (find_by_name_ok tb m vs rs S0 F skip (re_name e) Hr) as [[Ei Hn]|[[Ei Hn]|(v & i & Ei & Hi & Hp)]].
    - (* a new rule *)
      rewrite Ei, (Hn 0). unfold bind at 1. rewrite Eb.
      destruct (create_rule_ok grow m1 (vw b) b' g fresh (re_name e) (re_filter e) um Hg Hgb)
        as (r & m2 & m3 & Sr & Fr & En & Ho2 & Hlt2 & Es & Hr3 & Hw3 & He3).
      unfold bind at 1. rewrite En. unfold bind at 1. rewrite Es.
      destruct (wf_fresh m1 S F (m_next m1) m2 Hw1 Ho2 ltac:(lia)) as [Hw2 He2].
      assert (forall l, In l g -> ~ In (addr l) (addrs (S ++ [Obj (m_next m1)]))) as Hgs2.
      { intros l Hl. rewrite map_app, in_app_iff. intros [K|[K|[]]]; [exact (Hgs l Hl K)|]. cbn [iaddr] in K.
        pose proof (proj1 (Forall_forall _ _) Hgb l Hl). cbn beta in *. lia. }
      destruct (wf_replace_right g m2 S [Obj (m_next m1)] Sr F [] Fr m3 Hw2 He3 Hw3 Hgs2) as (Hwa & Hea & Hsa & Hga).
      pose proof (evo_after_old g gb m m1 _ _ _ _ _ Ho1 Hgn (proj1 Hw)
        (evo_trans _ _ _ _ _ _ _ _ _ _ (proj1 Hw) (He2 g) Hea)) as Hev3.
      pose proof (kind_frame _ _ _ _ _ _ _ _ (kind_old _ _ _ _ _ _ _ _ Ho2 Hw1 H1) Hsa Hga) as H3.
      destruct (add_snapshot (mk_rule fresh []) (re_name e) (re_filter e) (vw b) um) as [r'|] eqn:Ea; cbn [option_map fst snd].
      + destruct (field_elems_ok _ _ _ _ _ _ _ H3) as (x3 & vs3 & A3 & S3 & Ex3 & Ho3 & Hr03 & HS3 & Ef3 & _).
        unfold bind at 1. rewrite Ef3.
        (* append to the list *)
        assert (wf m3 A3 []) as HwA.
        { rewrite HS3 in Hwa. rewrite <- !app_assoc in Hwa. exact (wf_left m3 A3 _ [] _ Hwa). }
        destruct (append_owned grow m3 x3 vs3 A3 r Ho3 (proj1 (proj2 HwA)))
          as (x4 & A4 & m4 & E4 & Ho4 & Hnd4 & Hlt4 & Hk4 & He4).
        unfold bind at 1. rewrite E4.
        assert (evo gb m3 A3 [] m4 A4 []) as Hev4 by (split; [exact Hk4|split; [exact He4|intros l []]]).
        assert (wf m4 A4 []) as Hw4.
        { split; [exact Hnd4|]. split; [exact Hlt4|]. split; [constructor|intros l []]. }
        assert (wf m3 (A3 ++ ([Obj p] ++ S3 ++ Sr)) ([] ++ (F ++ Fr))) as Hwa'.
        { rewrite HS3 in Hwa. rewrite <- !app_assoc in Hwa. exact Hwa. }
        assert (evo gb m S F m3 (A3 ++ ([Obj p] ++ S3 ++ Sr)) ([] ++ (F ++ Fr))) as Hev3'.
        { rewrite HS3 in Hev3 at 2. rewrite <- !app_assoc in Hev3. exact Hev3. }
        destruct (wf_replace_left gb m3 ([Obj p] ++ S3 ++ Sr) A3 A4 (F ++ Fr) [] [] m4 Hwa' Hev4 Hw4) as (Hwb & Heb & Hsb & Hgb4).
        { intros l Hl K. apply in_map_iff in K. destruct K as (j & Ej & Hj).
          pose proof (proj1 (Forall_forall _ _) Hbb l Hl) as Hlm. cbn beta in Hlm.
          destruct (proj1 (proj2 Hev3') j Hj) as [X|X]; [lia|].
          apply (Hsep l Hl). rewrite <- Ej. destruct (comes_from_addr (m_next m) S j (or_intror X)) as [Y|Y]; [lia|exact Y]. }
        pose proof (evo_trans _ _ _ _ _ _ _ _ _ _ (proj1 Hw) Hev3' Heb) as Hev4'.
        cbn [app] in Hgb4, Hwb, Hev4', Hsb. cbn [map iaddr] in Hsb.
        apply Forall_app in Hgb4. destruct Hgb4 as [HgF HgFr].
        assert (m_at m4 p = cells) as Ep4.
        { rewrite Hsb by (left; reflexivity). exact (proj1 H3). }
        assert (rules_at tb m4 (vs3 ++ [r]) (rs ++ [r']) (S3 ++ Sr) (F ++ Fr)) as Hr4.
        { rewrite <- (app_nil_r Sr), <- (app_nil_r Fr). apply rules_at_app.
          - apply (rules_at_frame tb m3); [exact Hr03| |exact HgF]. intros y Hy. apply Hsb. right.
            rewrite map_app, in_app_iff. auto.
          - constructor; [|constructor]. apply (rule_at_frame tb m3); [exact Hr3| |exact HgFr].
            intros y Hy. apply Hsb. right. rewrite map_app, in_app_iff. auto. }
        (* store the slice *)
        set (m5 := put p (set_cell at_ x4 cells) m4).
        unfold bind at 1. cbn [set_field]. rewrite Ep4. fold m5.
        assert (only p m4 m5) as Hon5 by apply only_put.
        assert (at_ < length cells) as Hlen.
        { apply nth_error_Some. rewrite Ex. discriminate. }
        assert (In (Obj p) (A4 ++ Obj p :: S3 ++ Sr)) as HinP by (rewrite in_app_iff; right; left; reflexivity).
        destruct (only_evo p m4 m5 _ _ gb Hon5 HinP Hwb) as [Hw5 He5].
        assert (~ In p (addrs A4 ++ addrs (S3 ++ Sr))) as HpN.
        { pose proof (proj1 Hwb) as K. rewrite map_app in K. cbn [map iaddr] in K. exact (NoDup_remove_2 _ _ _ K). }
        rewrite in_app_iff in HpN.
        assert (kind_at at_ m5 p (set_cell at_ x4 cells) (rs ++ [r']) ((A4 ++ [Obj p]) ++ (S3 ++ Sr)) (F ++ Fr)) as Hk5.
        { split; [apply at_put_same|]. exists x4, (vs3 ++ [r]), A4, (S3 ++ Sr).
          split; [exact (nth_set_cell_same _ _ _ Hlen)|]. split; [|split; [|reflexivity]].
          - apply (owned_frame m4); [exact Ho4|]. intros y Hy. apply (proj2 Hon5). intros ->. tauto.
          - apply (rules_at_frame tb m4); [exact Hr4| |].
            + intros y Hy. apply (proj2 Hon5). intros ->. tauto.
            + apply agree_all_same. intros y Hy. apply (proj2 Hon5). intros ->. apply in_map_iff in Hy.
              destruct Hy as (l & El & Hl). apply (proj2 (proj2 (proj2 Hwb)) l Hl).
              rewrite El, map_app, in_app_iff. right. left. reflexivity. }
        replace (A4 ++ Obj p :: S3 ++ Sr) with ((A4 ++ [Obj p]) ++ (S3 ++ Sr)) in *
          by (rewrite <- app_assoc; reflexivity).
        destruct (@finish unit at_ m5 p (set_cell at_ x4 cells) _ _ gb um _ tt Hk5 Hw5 Hat) as (m6 & Eu & Hon & Hk6 & Hw6 & He6).
        unfold bind at 1. rewrite Eu.
        assert (ru_uuid r' = fresh) as Eid.
        { unfold add_snapshot in Ea. destruct (new_snapshot_from_fields _ _ _ _ _ _ _) as [s|]; [|discriminate Ea].
          injection Ea as <-. reflexivity. }
        rewrite Eid.
        exists m6, (update_cells um (set_cell at_ x4 cells)), ((A4 ++ [Obj p]) ++ (S3 ++ Sr)), (F ++ Fr).
        split; [reflexivity|]. split; [exact Hk6|]. split; [|split; [|split; [exact Hw6|]]].
        * rewrite update_cells_length, set_cell_length. reflexivity.
        * intros j Hj. unfold update_cells.
          clear - Hj Hat. 
          destruct (Nat.eq_dec j 5) as [->|N5].
          { destruct (le_lt_dec (length cells) 5) as [L|L].
            - rewrite !(proj2 (nth_error_None _ _)); [reflexivity| |]; rewrite ?set_cell_length; lia.
            - rewrite !nth_set_cell_same by (rewrite ?set_cell_length; lia). reflexivity. }
          rewrite !(nth_set_cell_other 5) by lia.
          destruct (Nat.eq_dec j 4) as [->|N4].
          { destruct (le_lt_dec (length cells) 4) as [L|L].
            - rewrite !(proj2 (nth_error_None _ _)); [reflexivity| |]; rewrite ?set_cell_length; lia.
            - rewrite !nth_set_cell_same by (rewrite ?set_cell_length; lia). reflexivity. }
          rewrite !(nth_set_cell_other 4) by lia.
          destruct (Nat.eq_dec j 7) as [->|N7].
          { destruct (le_lt_dec (length cells) 7) as [L|L].
            - rewrite !(proj2 (nth_error_None _ _)); [reflexivity| |]; rewrite ?set_cell_length; lia.
            - rewrite !nth_set_cell_same by (rewrite ?set_cell_length; lia). reflexivity. }
          rewrite !(nth_set_cell_other 7) by lia. apply nth_set_cell_other. lia.
        * exact (evo_trans _ _ _ _ _ _ _ _ _ _ (proj1 Hw) Hev4' (evo_trans _ _ _ _ _ _ _ _ _ _ (proj1 Hwb) He5 He6)).
      + (* the new rule was not valid: it is dropped *)
        exists m3, cells, S, F. split; [reflexivity|]. split; [exact H3|]. split; [reflexivity|].
        split; [reflexivity|]. split; [exact (wf_left _ _ _ _ _ Hwa)|].
        apply (evo_less gb m S F m3 _ _ S F Hev3); intros y Hy; apply in_or_app; left; exact Hy.
    - rewrite Ei, (Hn 0). exists m, cells, S, F. split; [reflexivity|]. split; [exact H|].
      split; [reflexivity|]. split; [reflexivity|]. split; [exact Hw|]. apply evo_refl.
    - (* the rule is revived *)
      rewrite Ei, (Hi 0). cbn [plus]. unfold bind at 1. rewrite Eb. subst S.
      pose proof (wf_right m (A ++ [Obj p]) S0 [] F Hw) as Hw0.
      assert (owned m1 x vs A) as Hown1.
      { apply (owned_frame m); [exact Ho|]. intros q Hq. apply (proj2 Ho1). apply in_map_iff in Hq.
        destruct Hq as (j & <- & Hj). apply (proj1 (Forall_forall _ _) (proj1 (proj2 Hw))). rewrite !in_app_iff. auto. }
      destruct (edit_place at_ m1 p cells x vs rs A S0 F v i g (revive_rule_at grow v (re_name e) (re_filter e) b' um)
        (fun r => revive_rule r (re_name e) (re_filter e) (vw b) um) (proj1 H1) Ex Hown1
        (rules_at_old tb _ _ _ _ _ _ Ho1 Hw0 Hr) (place_old tb _ _ _ _ _ _ _ _ Ho1 Hw0 Hp) Hw1 Hgs)
        as (r & m' & S' & F' & En & Ee & Hk & Hw' & He' & q & rest & Ev & Hqp & Eq).
      { intros r Sr Fr Hr0 Hwr Hinc. apply (revive_ok tb grow m1 v r Sr Fr _ _ _ _ _ _ Hr0 Hwr Hg Hgb).
        intros l Hl K. apply (Hgs l Hl). rewrite map_app, in_app_iff. right. apply in_map_iff in K.
        destruct K as (j & <- & Hj). apply in_map. exact (Hinc j Hj). }
      pose proof (evo_after_old g gb m m1 _ _ _ _ _ Ho1 Hgn (proj1 Hw) He') as Hevo.
      rewrite En. unfold bind at 1. rewrite Ee.
      destruct (revive_rule r (re_name e) (re_filter e) (vw b) um) as [r'|]; cbn [option_map fst snd].
      + destruct (@finish unit at_ m' p cells S' F' gb um _ tt Hk Hw' Hat) as (m2 & Eu & Hon & Hk2 & Hw2 & He2).
        exists m2, (update_cells um cells), S', F'. unfold bind at 1. rewrite Eu.
        split; [unfold bind, field; rewrite Ev; unfold bind; cbn [deref]; rewrite (proj2 Hon q Hqp), Eq; reflexivity|].
        split; [exact Hk2|].
        split; [apply update_cells_length|]. split; [reflexivity|]. split; [exact Hw2|].
        exact (evo_trans _ _ _ _ _ _ _ _ _ _ (proj1 Hw) Hevo He2).
      + exists m', cells, S', F'. split; [reflexivity|]. split; [exact Hk|]. auto.
  Qed.

  Lemma delete_rules_ok at_ grow m p cells rs S F um :
    kind_at at_ m p cells rs S F -> wf m S F ->
    exists m' S' F', delete_rules bc btomb at_ grow (VPtr p) um m = Some (tt, m') /\
      kind_at at_ m' p cells (rules_delete_all cl empty rs um) S' F' /\ wf m' S' F' /\ evo [] m S F m' S' F'.
  Proof.
    intros H Hw. unfold delete_rules, bind at 1.
    destruct (field_elems_ok _ _ _ _ _ _ _ H) as (x & vs & A & S0 & Ex & Ho & Hr & -> & Ef & Efe). rewrite Efe.
    pose proof (wf_right m (A ++ [Obj p]) S0 [] F Hw) as Hw0.
    destruct (each_delete_ok tb bc cl btomb empty bc_shown btomb_shows grow um vs rs m S0 F Hr Hw0)
      as (y & m' & S' & F' & E & Hr' & Hw' & He').
    destruct (wf_replace_right [] m (A ++ [Obj p]) S0 S' [] F F' m' Hw He' Hw' (fun l (K : In l []) => match K with end))
      as (Hwa & Hea & Hsa & _).
    unfold bind at 1. rewrite E. exists m', ((A ++ [Obj p]) ++ S'), F'. split; [reflexivity|]. split; [|auto].
    rewrite map_app in Hsa. split.
    - rewrite Hsa; [exact (proj1 H)|]. rewrite in_app_iff. right. left. reflexivity.
    - exists x, vs, A, S'. split; [exact Ex|]. split; [|split; [exact Hr'|reflexivity]].
      apply (owned_frame m); [exact Ho|]. intros q Hq. apply Hsa. rewrite in_app_iff. auto.
  Qed.
End Kind.
