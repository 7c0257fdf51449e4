(** Rules and lists of rules in memory. *)
From Coq Require Import Ascii String Arith NArith ZArith Bool Lia List.
From Verif.Proof Require Import MemProof MemSep RuleMemCopy.
From Verif.Base Require Import Bytes Mem.
From Verif.Model Require Import AggType Policy Transformation Pipeline Metadata Filter MetricID Rules RuleSet
  RuleMem.
From Verif.Spec Require Import RuleMemSpec.
Import ListNotations.
Open Scope nat_scope.

(** A slice that nobody else appends to, its elements, and its array. *)
Definition owned (m : memory) (ss : val) (ps : list val) (S : list item) : Prop :=
  (ss = VNil /\ ps = [] /\ S = []) \/
  exists a n, ss = VSlice a 0 n (length (m_at m a)) /\ n <= length (m_at m a) /\ ps = firstn n (m_at m a) /\
              S = [Arr a n].

Lemma owned_elems m ss ps S : owned m ss ps S -> elems ss m = Some (ps, m).
Proof.
  intros [(-> & -> & _)|(a & n & -> & Hn & -> & _)]; [reflexivity|].
  cbn [elems plus skipn]. rewrite (proj2 (Nat.leb_le _ _) Hn). reflexivity.
Qed.

Lemma owned_frame m m' ss ps S :
  owned m ss ps S -> (forall p, In p (addrs S) -> m_at m' p = m_at m p) -> owned m' ss ps S.
Proof.
  intros [H|(a & n & -> & Hn & -> & ->)] Hs; [left; exact H|right].
  assert (m_at m' a = m_at m a) as E by (apply Hs; left; reflexivity).
  exists a, n. rewrite E. auto.
Qed.

Lemma owned_shows m ss ps S ts f :
  owned m ss ps S -> shows_all m ps ts f ->
  exists g, shows m ss (TList ts) (g ++ f) /\
    forall l, In l g -> exists n, l = Upto (addr l) n /\ In (Arr (addr l) n) S.
Proof.
  intros [(-> & -> & ->)|(a & n & -> & Hn & -> & ->)] H.
  - inversion H; subst. exists []. split; [constructor|]. intros l [].
  - exists [Upto a (0 + n)]. split.
    + cbn [app]. constructor; [exact Hn|]. exact H.
    + intros l [<-|[]]. exists n. split; [reflexivity|left; reflexivity].
Qed.

(** ** Appending *)

Lemma set_cell_length {A} i (x : value A) l : length (set_cell i x l) = length l.
Proof. revert i. induction l as [|y l IH]; intros [|i]; cbn [set_cell length]; auto. Qed.
Lemma set_cell_firstn {A} i (x : value A) l : firstn i (set_cell i x l) = firstn i l.
Proof. revert i. induction l as [|y l IH]; intros [|i]; cbn [set_cell firstn]; try reflexivity. rewrite IH. reflexivity. Qed.
Lemma set_cell_firstn_S {A} i (x : value A) l : i < length l -> firstn (S i) (set_cell i x l) = firstn i l ++ [x].
Proof.
  revert i. induction l as [|y l IH]; intros [|i] H; cbn [length] in H; try lia; [reflexivity|].
  change (set_cell (S i) x (y :: l)) with (y :: set_cell i x l).
  change (firstn (S (S i)) (y :: set_cell i x l)) with (y :: firstn (S i) (set_cell i x l)).
  rewrite IH by lia. reflexivity.
Qed.

Lemma at_put_same (m : memory) p l : m_at (put p l m) p = l.
Proof. cbn [put m_at]. rewrite Nat.eqb_refl. reflexivity. Qed.
Lemma at_put_other (m : memory) p q l : q <> p -> m_at (put p l m) q = m_at m q.
Proof. intro H. cbn [put m_at]. destruct (Nat.eqb q p) eqn:E; [apply Nat.eqb_eq in E; contradiction|reflexivity]. Qed.

Lemma append_owned grow m ss ps S x :
  owned m ss ps S -> Forall (fun i => iaddr i < m_next m) S ->
  exists ss' S' m', append grow ss x m = Some (ss', m') /\ owned m' ss' (ps ++ [x]) S' /\
    NoDup (addrs S') /\ Forall (fun i => iaddr i < m_next m') S' /\
    keeps S (m_next m) m m' /\ evolves (m_next m) S S'.
Proof.
  intros [(-> & -> & ->)|(a & n & -> & Hn & -> & ->)] Hlt.
  - set (cells := x :: repeat VNil (grow 1)). pose proof (old_alloc m cells) as Ho. pose proof (at_alloc m cells) as Ha.
    exists (VSlice (m_next m) 0 1 (length cells)), [Arr (m_next m) 1],
      (mk_mem (m_at (put (m_next m) cells m)) (Datatypes.S (m_next m))).
    split; [reflexivity|]. split; [|split; [|split; [|split]]].
    + right. exists (m_next m), 1. rewrite Ha. repeat split. unfold cells. cbn [length]. lia.
    + constructor; [intros []|constructor].
    + constructor; [cbn [iaddr m_next]; lia|constructor].
    + split; [exact (proj1 Ho)|]. intros p Hp. split; [intros _; exact (proj2 Ho p Hp)|]. intros k [].
    + intros i [<-|[]]. left. cbn [iaddr]. lia.
  - cbn [append]. inversion Hlt as [|i l Ha _]; subst. cbn [iaddr] in Ha.
    destruct (n <? length (m_at m a)) eqn:E.
    + apply Nat.ltb_lt in E. cbn [plus].
      set (cells := set_cell n x (m_at m a)).
      exists (VSlice a 0 (Datatypes.S n) (length (m_at m a))), [Arr a (Datatypes.S n)], (put a cells m).
      split; [reflexivity|]. pose proof (at_put_same m a cells) as Hp. split; [|split; [|split; [|split]]].
      * right. exists a, (Datatypes.S n). rewrite Hp. unfold cells. rewrite set_cell_length.
        repeat split; [lia|]. rewrite set_cell_firstn_S by exact E. reflexivity.
      * constructor; [intros []|constructor].
      * constructor; [cbn [iaddr m_next put]; exact Ha|constructor].
      * split; [cbn [m_next put]; lia|]. intros p Hlp. split.
        -- intro Hnot. apply at_put_other. intro Ep. apply Hnot. left. exact (eq_sym Ep).
        -- intros k [Ek|[]]. injection Ek as -> ->. rewrite Hp. apply set_cell_firstn.
      * intros i [<-|[]]. right. exists n. split; [lia|left; reflexivity].
    + apply Nat.ltb_ge in E. cbn [skipn].
      set (cells := firstn n (m_at m a) ++ x :: repeat VNil (grow (Datatypes.S n))).
      pose proof (old_alloc m cells) as Ho. pose proof (at_alloc m cells) as Hat.
      exists (VSlice (m_next m) 0 (Datatypes.S n) (length cells)), [Arr (m_next m) (Datatypes.S n)],
        (mk_mem (m_at (put (m_next m) cells m)) (Datatypes.S (m_next m))).
      assert (length (firstn n (m_at m a)) = n) as El by (apply firstn_length_le; exact Hn).
      split; [reflexivity|]. split; [|split; [|split; [|split]]].
      * right. exists (m_next m), (Datatypes.S n). rewrite Hat. repeat split.
        -- unfold cells. rewrite app_length, El. cbn [length]. lia.
        -- unfold cells. rewrite firstn_app, El.
           replace (Datatypes.S n - n) with 1 by lia.
           rewrite (firstn_all2 (firstn n (m_at m a))) by (rewrite El; lia). reflexivity.
      * constructor; [intros []|constructor].
      * constructor; [cbn [iaddr m_next]; lia|constructor].
      * split; [exact (proj1 Ho)|]. intros p Hp. split; [intros _; exact (proj2 Ho p Hp)|].
        intros k _. rewrite (proj2 Ho p Hp). reflexivity.
      * intros i [<-|[]]. left. cbn [iaddr]. lia.
Qed.

Lemma nodup_snoc {A} (l : list A) x : NoDup l -> ~ In x l -> NoDup (l ++ [x]).
Proof.
  induction l as [|y l IH]; intros Hn Hx; cbn [app].
  - constructor; [intros []|constructor].
  - inversion Hn as [|z k H1 H2]; subst. constructor.
    + rewrite in_app_iff. intros [H|[->|[]]]; [exact (H1 H)|]. apply Hx. left. reflexivity.
    + apply IH; [exact H2|]. intro H. apply Hx. right. exact H.
Qed.

Section Rule.
  Context {P : Type} (tb : P -> tree).

  Definition rule_at (m : memory) (v : val) (r : rule P) (S : list item) (F : list look) : Prop :=
    exists p ss ps A, v = VPtr p /\ m_at m p = [VStr (ru_uuid r); ss] /\ owned m ss ps A /\ S = A ++ [Obj p] /\
      shows_all m ps (map (t_snapshot tb) (ru_snapshots r)) F.

  Lemma rule_at_frame m m' v r S F :
    rule_at m v r S F -> (forall p, In p (addrs S) -> m_at m' p = m_at m p) -> Forall (agree m m') F ->
    rule_at m' v r S F.
  Proof.
    intros (p & ss & ps & A & -> & E & Ho & -> & Hs) Hsame Hf. exists p, ss, ps, A.
    rewrite map_app in Hsame. repeat split.
    - rewrite Hsame; [exact E|]. apply in_or_app. right. left. reflexivity.
    - apply (owned_frame m); [exact Ho|]. intros q Hq. apply Hsame. apply in_or_app. left. exact Hq.
    - exact (shows_all_frame _ _ _ _ _ Hs Hf).
  Qed.

  (** ** Reading *)

  Lemma map_last_opt {A C} (f : A -> C) l : last_opt (map f l) = option_map f (last_opt l).
  Proof.
    induction l as [|x [|y l] IH]; [reflexivity|reflexivity|].
    change (last_opt (map f (y :: l)) = option_map f (last_opt (y :: l))). exact IH.
  Qed.

  Lemma shows_all_last m ps (l : list (snapshot P)) F :
    shows_all m ps (map (t_snapshot tb) l) F ->
    match last_opt l with
    | None => last_opt ps = None
    | Some s => exists v g, last_opt ps = Some v /\ shows m v (t_snapshot tb s) g /\ incl g F
    end.
  Proof.
    revert ps F. induction l as [|x l IH]; intros ps F H; cbn [map] in H.
    - inversion H; subst. reflexivity.
    - inversion H as [|v t g vs ts gs H1 H2]; subst. specialize (IH _ _ H2).
      destruct l as [|y l].
      + cbn [map] in H2. inversion H2; subst. exists v, g. repeat split; [exact H1|]. rewrite app_nil_r. apply incl_refl.
      + change (last_opt (x :: y :: l)) with (last_opt (y :: l)).
        inversion H2; subst. change (last_opt (v :: v0 :: vs0)) with (last_opt (v0 :: vs0)).
        destruct (last_opt (y :: l)) as [s|] eqn:El; [|exact IH].
        destruct IH as (w & h & Hw & Hs & Hi). exists w, h. repeat split; auto.
        intros z Hz. apply in_or_app. right. apply Hi. exact Hz.
  Qed.

  Lemma latest_snapshot_ok m v r S F :
    rule_at m v r S F ->
    match last_opt (ru_snapshots r) with
    | None => latest_snapshot v m = Some (None, m)
    | Some s => exists b, latest_snapshot v m = Some (Some (snapshot_cells s b), m)
    end.
  Proof.
    intros (p & ss & ps & A & -> & E & Ho & -> & Hs). pose proof (shows_all_last _ _ _ _ Hs) as Hl.
    unfold latest_snapshot, bind. cbn [deref]. rewrite E, (owned_elems _ _ _ _ Ho).
    destruct (last_opt (ru_snapshots r)) as [s|].
    - destruct Hl as (w & g & -> & Hw & _). destruct (snapshot_fields tb _ _ _ _ Hw) as (q & b & gb & -> & Eq & _).
      exists b. cbn [deref]. rewrite Eq. reflexivity.
    - rewrite Hl. reflexivity.
  Qed.

  Lemma name_of_ok m v r S F : rule_at m v r S F -> name_of v m = Some (rule_name r, m).
  Proof.
    intro H. pose proof (latest_snapshot_ok _ _ _ _ _ H) as Hl. unfold name_of, rule_name, bind.
    destruct (last_opt (ru_snapshots r)) as [s|]; [destruct Hl as (b & ->)|rewrite Hl]; reflexivity.
  Qed.

  Lemma is_tombstoned_ok m v r S F : rule_at m v r S F -> is_tombstoned v m = Some (rule_tombstoned r, m).
  Proof.
    intro H. pose proof (latest_snapshot_ok _ _ _ _ _ H) as Hl. unfold is_tombstoned, rule_tombstoned, bind.
    destruct (last_opt (ru_snapshots r)) as [s|]; [destruct Hl as (b & ->)|rewrite Hl]; reflexivity.
  Qed.

  (** ** Adding a snapshot *)

  Lemma push_snapshot_ok grow m v r S F s b gb :
    rule_at m v r S F -> wf m S F ->
    shows m b (tb (sn_body s)) gb -> below (m_next m) gb -> (forall l, In l gb -> ~ In (addr l) (addrs S)) ->
    exists m' S' F', push_snapshot grow v (snapshot_cells s b) m = Some (tt, m') /\
      rule_at m' v (mk_rule (ru_uuid r) (ru_snapshots r ++ [s])) S' F' /\
      wf m' S' F' /\ evo gb m S F m' S' F'.
  Proof.
    intros (p & ss & ps & A & -> & E & Ho & -> & Hs) (Hnd & Hlt & Hb & Hsep) Hbs Hbb Hbsep.
    set (cells := snapshot_cells s b). set (q := m_next m).
    set (m1 := mk_mem (m_at (put q cells m)) (Datatypes.S q)).
    assert (old m m1) as Ho1 by apply old_alloc.
    assert (m_at m1 q = cells) as Eq by apply at_alloc.
    apply Forall_app in Hlt. destruct Hlt as [HltA HltP]. inversion HltP as [|i l Hp _]; subst. cbn [iaddr] in Hp.
    assert (m_at m1 p = [VStr (ru_uuid r); ss]) as E1 by (rewrite (proj2 Ho1 p Hp); exact E).
    assert (owned m1 ss ps A) as Hown1.
    { apply (owned_frame m); [exact Ho|]. intros x Hx. apply (proj2 Ho1). apply in_map_iff in Hx.
      destruct Hx as (i & <- & Hi). exact (proj1 (Forall_forall _ _) HltA i Hi). }
    assert (Forall (fun i => iaddr i < m_next m1) A) as HltA1.
    { revert HltA. apply Forall_impl. intros i Hi. cbn [m1 m_next]. fold q in Hi. lia. }
    destruct (append_owned grow m1 ss ps A (VPtr q) Hown1 HltA1)
      as (ss' & A' & m2 & Eapp & Hown2 & HndA' & HltA2 & Hk2 & He2).
    assert (~ In p (addrs A)) as HpA.
    { rewrite map_app in Hnd. apply NoDup_remove_2 in Hnd. rewrite app_nil_r in Hnd. exact Hnd. }
    assert (m_at m2 p = [VStr (ru_uuid r); ss]) as E2.
    { rewrite (proj1 (proj2 Hk2 p ltac:(cbn [m1 m_next]; fold q in Hp; lia)) HpA). exact E1. }
    set (m3 := put p [VStr (ru_uuid r); ss'] m2).
    assert (m_next m < m_next m2) as Hn2 by (destruct Hk2 as [Hk2 _]; cbn [m1 m_next] in Hk2; fold q; lia).
    assert (forall x, x < m_next m -> ~ In x (addrs A) -> x <> p -> m_at m3 x = m_at m x) as Hsame3.
    { intros x Hx HxA Hxp. unfold m3. rewrite at_put_other by exact Hxp.
      rewrite (proj1 (proj2 Hk2 x ltac:(cbn [m1 m_next]; fold q in Hx; lia)) HxA). apply (proj2 Ho1). exact Hx. }
    assert (~ In q (addrs A)) as HqA.
    { intro H. apply in_map_iff in H. destruct H as (i & Ei & Hi).
      pose proof (proj1 (Forall_forall _ _) HltA i Hi). fold q in H. cbn beta in H. lia. }
    assert (m_at m3 q = cells) as Eq3.
    { unfold m3. rewrite at_put_other by (fold q in Hp; lia).
      rewrite (proj1 (proj2 Hk2 q ltac:(cbn [m1 m_next]; lia)) HqA). exact Eq. }
    assert (~ In p (addrs A')) as HpA'.
    { intro H. apply in_map_iff in H. destruct H as (i & Ei & Hi). destruct (comes_from_addr _ _ _ (He2 i Hi)) as [K|K].
      - cbn [m1 m_next] in K. fold q in Hp. lia.
      - rewrite Ei in K. exact (HpA K). }
    assert (Forall (agree m m3) (F ++ gb)) as Hag.
    { apply agree_all_same. intros x Hx. rewrite map_app, in_app_iff in Hx.
      assert (x < m_next m /\ ~ In x (addrs (A ++ [Obj p]))) as [H1 H2].
      { destruct Hx as [Hx|Hx]; apply in_map_iff in Hx; destruct Hx as (l & <- & Hl).
        - split; [exact (proj1 (Forall_forall _ _) Hb l Hl)|exact (Hsep l Hl)].
        - split; [exact (proj1 (Forall_forall _ _) Hbb l Hl)|exact (Hbsep l Hl)]. }
      rewrite map_app, in_app_iff in H2. apply Hsame3; [exact H1| |].
      - intro K. apply H2. left. exact K.
      - intro K. apply H2. right. left. exact (eq_sym K). }
    apply Forall_app in Hag. destruct Hag as [HagF Hagb].
    exists m3, (A' ++ [Obj p]), (F ++ (Whole q :: gb) ++ []).
    split; [|split; [|split]].
    - unfold push_snapshot, bind. cbn [new_obj deref]. fold q. fold cells. fold m1. rewrite E1, Eapp.
      cbn [set_field]. rewrite E2. reflexivity.
    - exists p, ss', (ps ++ [VPtr q]), A'. cbn [ru_uuid ru_snapshots]. repeat split.
      + apply at_put_same.
      + apply (owned_frame m2); [exact Hown2|]. intros x Hx. apply at_put_other. intros ->. exact (HpA' Hx).
      + rewrite map_app. cbn [map]. apply shows_all_app.
        * exact (shows_all_frame _ _ _ _ _ Hs HagF).
        * constructor; [|constructor]. unfold t_snapshot.
          assert (shows m3 b (tb (sn_body s)) gb) as Hb3 by exact (shows_frame _ _ _ _ _ Hbs Hagb).
          constructor. rewrite Eq3. unfold cells, snapshot_cells. flat.
          change gb with ([] ++ [] ++ [] ++ [] ++ [] ++ gb).
          replace ([] ++ [] ++ [] ++ [] ++ [] ++ gb) with ([] ++ [] ++ [] ++ [] ++ [] ++ gb ++ [] ++ [] ++ [])
            by (cbn [app]; rewrite !app_nil_r; reflexivity).
          repeat (apply shows_more; [first [exact Hb3|apply shows_atom]|]). constructor.
    - split; [|split; [|split]].
      + rewrite map_app. cbn [map]. exact (nodup_snoc _ _ HndA' HpA').
      + apply Forall_app. split; [exact HltA2|]. constructor; [|constructor]. cbn [iaddr m3 put m_next]. lia.
      + apply below_app. split; [exact (below_old _ (m_next m3) _ Hb (Nat.lt_le_incl _ _ Hn2))|].
        cbn [app]. rewrite app_nil_r. constructor; [exact Hn2|].
        exact (below_old _ (m_next m3) _ Hbb (Nat.lt_le_incl _ _ Hn2)).
      + assert (forall x, x <= m_next m -> ~ In x (addrs A) -> x <> p -> ~ In x (addrs (A' ++ [Obj p]))) as Hno.
        { intros x Hx HxA Hxp. rewrite map_app, in_app_iff. intros [K|[K|[]]]; [|exact (Hxp (eq_sym K))].
          apply in_map_iff in K. destruct K as (i & Ei & Hi). destruct (comes_from_addr _ _ _ (He2 i Hi)) as [K|K].
          - cbn [m1 m_next] in K. fold q in Hx. lia.
          - rewrite Ei in K. exact (HxA K). }
        intros l Hl. rewrite !in_app_iff in Hl. cbn [In] in Hl.
        assert (l = Whole q \/ In l F \/ In l gb) as [->|Hl'] by (destruct Hl as [H|[[H|H]|[]]]; auto).
        * apply Hno; [cbn [addr]; fold q; lia|exact HqA|cbn [addr]; fold q in Hp; lia].
        * assert (addr l < m_next m /\ ~ In (addr l) (addrs (A ++ [Obj p]))) as [H1 H2].
          { destruct Hl' as [H|H].
            - split; [exact (proj1 (Forall_forall _ _) Hb l H)|exact (Hsep l H)].
            - split; [exact (proj1 (Forall_forall _ _) Hbb l H)|exact (Hbsep l H)]. }
          rewrite map_app, in_app_iff in H2. apply Hno; [lia| |].
          -- intro K. apply H2. left. exact K.
          -- intro K. apply H2. right. left. exact (eq_sym K).
    - split; [|split].
      + split; [cbn [m3 put m_next]; lia|]. intros x Hx. split.
        * intro Hnot. rewrite map_app, in_app_iff in Hnot. apply Hsame3; [exact Hx| |].
          -- intro K. apply Hnot. left. exact K.
          -- intro K. apply Hnot. right. left. exact (eq_sym K).
        * intros n Hin. apply in_app_iff in Hin. destruct Hin as [Hin|[Hin|[]]]; [|discriminate Hin].
          unfold m3. rewrite at_put_other.
          -- rewrite (proj2 (proj2 Hk2 x ltac:(cbn [m1 m_next]; fold q in Hx; lia)) n Hin).
             rewrite (proj2 Ho1 x Hx). reflexivity.
          -- intros ->. apply HpA. exact (in_map iaddr A (Arr p n) Hin).
      + intros i Hi. apply in_app_iff in Hi. destruct Hi as [Hi|[<-|[]]].
        * destruct (He2 i Hi) as [K|K]; [left; cbn [m1 m_next] in K; fold q; lia|]. right.
          destruct i as [x|x n']; [apply in_or_app; left; exact K|].
          destruct K as (n & Hle & K). exists n. split; [exact Hle|apply in_or_app; left; exact K].
        * right. apply in_or_app. right. left. reflexivity.
      + intros l Hl. rewrite !in_app_iff in Hl. cbn [In] in Hl. destruct Hl as [H|[[<-|H]|[]]]; auto.
  Qed.

  (** The result of an edit of one rule: [None] is an error, and then nothing has happened. *)
  Definition rule_result (m : memory) (v : val) (S : list item) (F G : list look) (r : rule P)
      (o : option (rule P)) (e : prog bool) : Prop :=
    exists m' S' F', e m = Some (match o with Some _ => true | None => false end, m') /\
      rule_at m' v (match o with Some r' => r' | None => r end) S' F' /\ wf m' S' F' /\ evo G m S F m' S' F'.

  Lemma add_snapshot_ok grow m v r S F name raw body b gb um :
    rule_at m v r S F -> wf m S F ->
    shows m b (tb body) gb -> below (m_next m) gb -> (forall l, In l gb -> ~ In (addr l) (addrs S)) ->
    rule_result m v S F gb r (add_snapshot r name raw body um) (add_snapshot_to grow v name raw b um).
  Proof.
    intros H Hw Hb Hbb Hsep. unfold rule_result, add_snapshot, add_snapshot_to, new_snapshot_from_fields.
    destruct (validate_tags_filter raw) as [z|].
    - set (s := mk_snap name false (um_cutover um) None raw body (um_at um) (um_by um)).
      destruct (push_snapshot_ok grow m v r S F s b gb H Hw Hb Hbb Hsep) as (m' & S' & F' & E & H1 & H2 & H3).
      exists m', S', F'. unfold bind. unfold snapshot_cells in E. cbn [sn_name sn_tomb sn_cutover sn_filter sn_raw sn_at sn_by s] in E.
      rewrite E. auto.
    - exists m, S, F. split; [reflexivity|]. split; [exact H|]. split; [exact Hw|]. apply evo_refl.
  Qed.

  Lemma revive_ok grow m v r S F name raw body b gb um :
    rule_at m v r S F -> wf m S F ->
    shows m b (tb body) gb -> below (m_next m) gb -> (forall l, In l gb -> ~ In (addr l) (addrs S)) ->
    rule_result m v S F gb r (revive_rule r name raw body um) (revive_rule_at grow v name raw b um).
  Proof.
    intros H Hw Hb Hbb Hsep. unfold rule_result, revive_rule, revive_rule_at, bind.
    rewrite (name_of_ok _ _ _ _ _ H).
    destruct (rule_name r) as [n|].
    - rewrite (is_tombstoned_ok _ _ _ _ _ H). destruct (rule_tombstoned r); cbn [negb].
      + exact (add_snapshot_ok grow m v r S F name raw body b gb um H Hw Hb Hbb Hsep).
      + exists m, S, F. split; [reflexivity|]. split; [exact H|]. split; [exact Hw|]. apply evo_refl.
    - exists m, S, F. split; [reflexivity|]. split; [exact H|]. split; [exact Hw|]. apply evo_refl.
  Qed.

  Context (bc : val -> prog val) (cl : P -> P) (btomb : val) (empty : P).
  Context (bc_shown : forall b v g m, shows m v (tb b) g -> below (m_next m) g ->
                        makes (bc v) m (shown m (tb (cl b)))).
  Context (btomb_shows : forall m, shows m btomb (tb empty) []).

  Lemma rule_at_old m m' v r S F : old m m' -> wf m S F -> rule_at m v r S F -> rule_at m' v r S F.
  Proof.
    intros Ho (_ & Hlt & Hb & _) H. apply (rule_at_frame m); [exact H| |exact (agree_old _ _ _ Ho Hb)].
    intros p Hp. apply (proj2 Ho). apply in_map_iff in Hp. destruct Hp as (i & <- & Hi).
    exact (proj1 (Forall_forall _ _) Hlt i Hi).
  Qed.

  Lemma tombstone_ok grow m v r S F um :
    rule_at m v r S F -> wf m S F ->
    rule_result m v S F [] r (mark_tombstoned cl empty r um) (tombstone_rule bc btomb grow v um).
  Proof.
    intros H Hw. unfold rule_result, mark_tombstoned, tombstone_rule, bind.
    rewrite (name_of_ok _ _ _ _ _ H). unfold rule_name.
    pose proof (is_tombstoned_ok _ _ _ _ _ H) as Et. unfold rule_tombstoned in *.
    pose proof H as (p & ss & ps & A & -> & E & Ho & -> & Hs).
    pose proof (shows_all_last _ _ _ _ Hs) as Hl.
    destruct (last_opt (ru_snapshots r)) as [s|]; cbn [option_map].
    - rewrite Et. destruct (sn_tomb s).
      + exists m, (A ++ [Obj p]), F. split; [reflexivity|]. split; [exact H|]. split; [exact Hw|]. apply evo_refl.
      + cbn [deref]. rewrite E, (owned_elems _ _ _ _ Ho). destruct Hl as (w & g & -> & Hsw & Hi).
        destruct Hw as (W1 & W2 & W3 & W4).
        destruct (snapshot_copy_shown bc cl tb bc_shown s w g m Hsw (below_incl _ _ _ W3 Hi))
          as (c & m1 & Ec & Ho1 & (b & -> & _)).
        rewrite Ec. unfold snapshot_cells at 1.
        assert (wf m (A ++ [Obj p]) F) as Hw by (repeat split; assumption).
        set (s' := mk_snap (sn_name s) true (um_cutover um) (sn_filter s) (sn_raw s) empty (um_at um) (um_by um)).
        destruct (push_snapshot_ok grow m1 (VPtr p) r (A ++ [Obj p]) F s' btomb []
                    (rule_at_old _ _ _ _ _ _ Ho1 Hw H) (wf_old _ _ _ _ Ho1 Hw) (btomb_shows m1)
                    (Forall_nil _) (fun l (K : In l []) => match K with end)) as (m' & S' & F' & Ep & H1 & H2 & H3).
        exists m', S', F'. unfold snapshot_cells in Ep.
        cbn [sn_name sn_tomb sn_cutover sn_filter sn_raw sn_at sn_by s'] in Ep. rewrite Ep.
        split; [reflexivity|]. split; [exact H1|]. split; [exact H2|].
        exact (evo_trans _ _ _ _ _ _ _ _ _ _ W1 (evo_old [] m _ _ m1 Ho1) H3).
    - exists m, (A ++ [Obj p]), F. split; [reflexivity|]. split; [exact H|]. split; [exact Hw|]. apply evo_refl.
  Qed.

  (** * Lists of rules *)

  Inductive rules_at (m : memory) : list val -> list (rule P) -> list item -> list look -> Prop :=
  | rules_none : rules_at m [] [] [] []
  | rules_more v r S F vs rs S' F' :
      rule_at m v r S F -> rules_at m vs rs S' F' -> rules_at m (v :: vs) (r :: rs) (S ++ S') (F ++ F').

  Lemma rules_at_frame m m' vs rs S F :
    rules_at m vs rs S F -> (forall p, In p (addrs S) -> m_at m' p = m_at m p) -> Forall (agree m m') F ->
    rules_at m' vs rs S F.
  Proof.
    induction 1 as [|v r S F vs rs S' F' H1 H2 IH]; intros Hs Hf; [constructor|].
    rewrite map_app in Hs. apply Forall_app in Hf. destruct Hf as [Hf1 Hf2]. constructor.
    - apply (rule_at_frame m); [exact H1| |exact Hf1]. intros p Hp. apply Hs. apply in_or_app. left. exact Hp.
    - apply IH; [|exact Hf2]. intros p Hp. apply Hs. apply in_or_app. right. exact Hp.
  Qed.

  Lemma rules_at_old m m' vs rs S F : old m m' -> wf m S F -> rules_at m vs rs S F -> rules_at m' vs rs S F.
  Proof.
    intros Ho (_ & Hlt & Hb & _) H. apply (rules_at_frame m); [exact H| |exact (agree_old _ _ _ Ho Hb)].
    intros p Hp. apply (proj2 Ho). apply in_map_iff in Hp. destruct Hp as (i & <- & Hi).
    exact (proj1 (Forall_forall _ _) Hlt i Hi).
  Qed.

  Lemma rules_at_app m vs rs S F vs' rs' S' F' :
    rules_at m vs rs S F -> rules_at m vs' rs' S' F' -> rules_at m (vs ++ vs') (rs ++ rs') (S ++ S') (F ++ F').
  Proof.
    intros H K. induction H as [|v r S F vs rs S2 F2 H1 H2 IH]; [exact K|].
    cbn [app]. rewrite <- !app_assoc. constructor; assumption.
  Qed.

  (** a rule at a place in a list *)
  Record place (m : memory) (vs : list val) (rs : list (rule P)) (S : list item) (F : list look)
      (v : val) (i : nat) : Prop := mk_place {
    place_all : exists vs1 rs1 S1 F1 r Sr Fr vs2 rs2 S2 F2,
      vs = vs1 ++ v :: vs2 /\ rs = rs1 ++ r :: rs2 /\ S = S1 ++ Sr ++ S2 /\ F = F1 ++ Fr ++ F2 /\
      i = length rs1 /\
      rules_at m vs1 rs1 S1 F1 /\ rule_at m v r Sr Fr /\ rules_at m vs2 rs2 S2 F2 }.

  Lemma place_first m v r S F vs rs S' F' :
    rule_at m v r S F -> rules_at m vs rs S' F' -> place m (v :: vs) (r :: rs) (S ++ S') (F ++ F') v 0.
  Proof.
    intros H K. constructor. exists [], [], [], [], r, S, F, vs, rs, S', F'. repeat split; auto. constructor.
  Qed.
  Lemma place_next m v r S F vs rs S' F' w i :
    rule_at m v r S F -> place m vs rs S' F' w i ->
    place m (v :: vs) (r :: rs) (S ++ S') (F ++ F') w (Datatypes.S i).
  Proof.
    intros H [(vs1 & rs1 & S1 & F1 & r' & Sr & Fr & vs2 & rs2 & S2 & F2 & -> & -> & -> & -> & -> & H1 & H2 & H3)].
    constructor. exists (v :: vs1), (r :: rs1), (S ++ S1), (F ++ F1), r', Sr, Fr, vs2, rs2, S2, F2.
    cbn [app length]. rewrite <- !app_assoc. repeat split; auto. constructor; assumption.
  Qed.

  Lemma place_old m m' vs rs S F v i : old m m' -> wf m S F -> place m vs rs S F v i -> place m' vs rs S F v i.
  Proof.
    intros Ho Hw
      [(vs1 & rs1 & S1 & F1 & r & Sr & Fr & vs2 & rs2 & S2 & F2 & -> & -> & -> & -> & -> & H1 & H2 & H3)].
    constructor. exists vs1, rs1, S1, F1, r, Sr, Fr, vs2, rs2, S2, F2. repeat (split; [reflexivity|]).
    pose proof (wf_right _ _ _ _ _ Hw) as Hwr. split; [|split].
    - exact (rules_at_old _ _ _ _ _ _ Ho (wf_left _ _ _ _ _ Hw) H1).
    - exact (rule_at_old _ _ _ _ _ _ Ho (wf_left _ _ _ _ _ Hwr) H2).
    - exact (rules_at_old _ _ _ _ _ _ Ho (wf_right _ _ _ _ _ Hwr) H3).
  Qed.

  Lemma rules_at_length m vs rs S F : rules_at m vs rs S F -> length vs = length rs.
  Proof. induction 1; cbn [length]; congruence. Qed.

  Lemma place_nth m vs rs S F v i : place m vs rs S F v i -> nth_error vs i = Some v.
  Proof.
    intros [(vs1 & rs1 & S1 & F1 & r & Sr & Fr & vs2 & rs2 & S2 & F2 & -> & -> & -> & -> & -> & H1 & H2 & H3)].
    rewrite <- (rules_at_length _ _ _ _ _ H1). clear. induction vs1 as [|x vs1 IH]; [reflexivity|exact IH].
  Qed.

  Lemma rules_at_nth m vs rs S F i v r :
    rules_at m vs rs S F -> nth_error vs i = Some v -> nth_error rs i = Some r ->
    exists Sr Fr, rule_at m v r Sr Fr /\ incl Sr S.
  Proof.
    intro H. revert i. induction H as [|w q S1 F1 vs rs S2 F2 H1 H2 IH]; intros [|i] Hv Hr; try discriminate.
    - injection Hv as <-. injection Hr as <-. exists S1, F1. split; [exact H1|]. intros x Hx. apply in_or_app. auto.
    - destruct (IH i Hv Hr) as (Sr & Fr & H & K). exists Sr, Fr. split; [exact H|]. intros x Hx. apply in_or_app. right. exact (K x Hx).
  Qed.

  Lemma find_by_id_ok m vs rs S F id :
    rules_at m vs rs S F ->
    (find_by_id vs id m = Some (None, m) /\ forall k, rule_by_id k rs id = None) \/
    (exists v i, find_by_id vs id m = Some (Some v, m) /\ (forall k, rule_by_id k rs id = Some (k + i)) /\
                 place m vs rs S F v i).
  Proof.
    induction 1 as [|v r S F vs rs S' F' H1 H2 IH].
    - left. split; reflexivity.
    - pose proof H1 as (p & ss & ps & A & -> & E & _). cbn [find_by_id rule_by_id]. unfold bind. cbn [deref].
      rewrite E. unfold VStr. destruct (beqb (ru_uuid r) id).
      + right. exists (VPtr p), 0. split; [reflexivity|]. split; [intro k; rewrite Nat.add_0_r; reflexivity|].
        exact (place_first _ _ _ _ _ _ _ _ _ H1 H2).
      + destruct IH as [[Ef Hn]|(w & i & Ef & Hi & Hp)].
        * left. split; [exact Ef|]. intro k. exact (Hn (Datatypes.S k)).
        * right. exists w, (Datatypes.S i). split; [exact Ef|]. split.
          -- intro k. rewrite Hi. f_equal. lia.
          -- exact (place_next _ _ _ _ _ _ _ _ _ _ _ H1 Hp).
  Qed.

  Lemma find_by_name_ok m vs rs S F skip name :
    rules_at m vs rs S F ->
    (find_by_name skip vs name m = Some (Absent, m) /\ forall k, rule_by_name skip k rs name = NotFound) \/
    (find_by_name skip vs name m = Some (Broken, m) /\ forall k, rule_by_name skip k rs name = Failed) \/
    (exists v i, find_by_name skip vs name m = Some (At v, m) /\
                 (forall k, rule_by_name skip k rs name = Found (k + i)) /\ place m vs rs S F v i).
  Proof.
    induction 1 as [|v r S F vs rs S' F' H1 H2 IH].
    - left. split; reflexivity.
    - cbn [find_by_name rule_by_name]. unfold bind. rewrite (name_of_ok _ _ _ _ _ H1).
      destruct (rule_name r) as [n|].
      + destruct (beqb n name).
        * right. right. exists v, 0. split; [reflexivity|]. split; [intro k; rewrite Nat.add_0_r; reflexivity|].
          exact (place_first _ _ _ _ _ _ _ _ _ H1 H2).
        * destruct IH as [[Ef Hn]|[[Ef Hn]|(w & i & Ef & Hi & Hp)]].
          -- left. split; [exact Ef|]. intro k. exact (Hn (Datatypes.S k)).
          -- right. left. split; [exact Ef|]. intro k. exact (Hn (Datatypes.S k)).
          -- right. right. exists w, (Datatypes.S i). split; [exact Ef|]. split.
             ++ intro k. rewrite Hi. f_equal. lia.
             ++ exact (place_next _ _ _ _ _ _ _ _ _ _ _ H1 Hp).
      + destruct skip.
        * destruct IH as [[Ef Hn]|[[Ef Hn]|(w & i & Ef & Hi & Hp)]].
          -- left. split; [exact Ef|]. intro k. exact (Hn (Datatypes.S k)).
          -- right. left. split; [exact Ef|]. intro k. exact (Hn (Datatypes.S k)).
          -- right. right. exists w, (Datatypes.S i). split; [exact Ef|]. split.
             ++ intro k. rewrite Hi. f_equal. lia.
             ++ exact (place_next _ _ _ _ _ _ _ _ _ _ _ H1 Hp).
        * right. left. split; [reflexivity|]. intro k. reflexivity.
  Qed.

  Lemma set_nth_middle {A} (l1 l2 : list A) x y : set_nth (length l1) y (l1 ++ x :: l2) = l1 ++ y :: l2.
  Proof. induction l1 as [|z l1 IH]; [reflexivity|]. cbn [length app set_nth]. rewrite IH. reflexivity. Qed.
  Lemma nth_set_nth {A} i (x : A) l : i < length l -> nth_error (set_nth i x l) i = Some x.
  Proof.
    revert i. induction l as [|y l IH]; intros [|i] H; cbn [length] in H; try lia; [reflexivity|].
    cbn [set_nth nth_error]. apply IH. lia.
  Qed.
  Lemma nth_error_middle {A} (l1 l2 : list A) x : nth_error (l1 ++ x :: l2) (length l1) = Some x.
  Proof. induction l1 as [|z l1 IH]; [reflexivity|]. exact IH. Qed.

  (** an edit of the rule at a place *)
  Lemma place_edit m vs rs S F v i G e (pure : rule P -> option (rule P)) :
    place m vs rs S F v i -> wf m S F -> (forall l, In l G -> ~ In (addr l) (addrs S)) ->
    (forall r Sr Fr, rule_at m v r Sr Fr -> wf m Sr Fr -> incl Sr S -> rule_result m v Sr Fr G r (pure r) e) ->
    exists r m' S' F', nth_error rs i = Some r /\
      e m = Some (match pure r with Some _ => true | None => false end, m') /\
      rules_at m' vs (match pure r with Some r' => set_nth i r' rs | None => rs end) S' F' /\
      wf m' S' F' /\ evo G m S F m' S' F'.
  Proof.
    intros [(vs1 & rs1 & S1 & F1 & r & Sr & Fr & vs2 & rs2 & S2 & F2 & -> & -> & -> & -> & -> & H1 & H2 & H3)]
      Hw HG He.
    pose proof (wf_middle _ _ _ _ _ _ _ Hw) as Hwr.
    destruct (He r Sr Fr H2 Hwr) as (m' & Sr' & Fr' & Ee & Hr' & Hwr' & Hevo).
    { intros x Hx. rewrite !in_app_iff. auto. }
    destruct (wf_replace G m S1 S2 Sr Sr' F1 F2 Fr Fr' m' Hw Hevo Hwr' HG) as (Hw' & Hevo' & Hsame & Hag).
    rewrite map_app in Hsame. apply Forall_app in Hag. destruct Hag as [Hag1 Hag2].
    exists r, m', (S1 ++ Sr' ++ S2), (F1 ++ Fr' ++ F2).
    split; [apply nth_error_middle|]. split; [exact Ee|]. split; [|auto].
    assert (rules_at m' (vs1 ++ v :: vs2) (rs1 ++ (match pure r with Some r' => r' | None => r end) :: rs2)
              (S1 ++ Sr' ++ S2) (F1 ++ Fr' ++ F2)) as Hall.
    { apply rules_at_app.
      - apply (rules_at_frame m); [exact H1| |exact Hag1]. intros p Hp. apply Hsame. apply in_or_app. left. exact Hp.
      - constructor; [exact Hr'|]. apply (rules_at_frame m); [exact H3| |exact Hag2].
        intros p Hp. apply Hsame. apply in_or_app. right. exact Hp. }
    destruct (pure r) as [r'|]; [rewrite set_nth_middle|]; exact Hall.
  Qed.

  (** the loop of [Delete] *)
  Lemma each_delete_ok grow um : forall vs rs m S F,
    rules_at m vs rs S F -> wf m S F ->
    exists x m' S' F',
      each (fun r => bind (is_tombstoned r) (fun t : bool => if t then ret tt
                     else bind (tombstone_rule bc btomb grow r um) (fun _ => ret tt))) vs m = Some (x, m') /\
      rules_at m' vs (rules_delete_all cl empty rs um) S' F' /\ wf m' S' F' /\ evo [] m S F m' S' F'.
  Proof.
    induction vs as [|v vs IH]; intros rs m S F H Hw.
    - inversion H; subst. exists [], m, [], []. split; [reflexivity|]. split; [constructor|]. split; [exact Hw|].
      apply evo_refl.
    - inversion H as [|v' r S1 F1 vs' rs' S2 F2 Hr Hrs]; subst.
      set (r1 := if negb (rule_tombstoned r)
                 then match mark_tombstoned cl empty r um with Some r' => r' | None => r end else r).
      assert (exists m1 S1' F1',
        bind (is_tombstoned v) (fun t : bool => if t then ret tt
          else bind (tombstone_rule bc btomb grow v um) (fun _ => ret tt)) m = Some (tt, m1) /\
        rule_at m1 v r1 S1' F1' /\ wf m1 S1' F1' /\ evo [] m S1 F1 m1 S1' F1')
        as (m1 & S1' & F1' & E1 & Hr1 & Hw1 & Hevo1).
      { unfold bind, r1. rewrite (is_tombstoned_ok _ _ _ _ _ Hr). pose proof (wf_left _ _ _ _ _ Hw) as Hwl.
        destruct (rule_tombstoned r); cbn [negb].
        - exists m, S1, F1. split; [reflexivity|]. split; [exact Hr|]. split; [exact Hwl|]. apply evo_refl.
        - destruct (tombstone_ok grow m v r S1 F1 um Hr Hwl) as (m1 & Sx & Fx & Ee & Hx & Hwx & Hex).
          exists m1, Sx, Fx. rewrite Ee. auto. }
      destruct (wf_replace_left [] _ _ _ _ _ _ _ _ Hw Hevo1 Hw1 (fun l (K : In l []) => match K with end))
        as (Hwa & Hea & Hsa & Hga).
      destruct (IH rs' m1 S2 F2 (rules_at_frame _ _ _ _ _ _ Hrs Hsa Hga) (wf_right _ _ _ _ _ Hwa))
        as (x & m2 & S2' & F2' & E2 & Hr2 & Hw2 & He2).
      destruct (wf_replace_right [] _ _ _ _ _ _ _ _ Hwa He2 Hw2 (fun l (K : In l []) => match K with end))
        as (Hwb & Heb & Hsb & Hgb).
      exists (tt :: x), m2, (S1' ++ S2'), (F1' ++ F2').
      split; [|split; [|split]].
      + cbn [each]. unfold bind at 1. rewrite E1. unfold bind at 1. rewrite E2. reflexivity.
      + cbn [rules_delete_all map]. constructor; [exact (rule_at_frame _ _ _ _ _ _ Hr1 Hsb Hgb)|exact Hr2].
      + exact Hwb.
      + exact (evo_trans _ _ _ _ _ _ _ _ _ _ (proj1 Hw) Hea Heb).
  Qed.
End Rule.
