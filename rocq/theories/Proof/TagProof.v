From Coq Require Import Ascii String Arith NArith Bool Lia Permutation Sorting.Sorted List.
From Verif.Base Require Import Bytes BytesFacts.
From Verif.Model Require Import Filter MetricID.
From Verif.Spec Require Import TextSpec FilterSpec.
From Verif.Proof Require Import TrimProof.
Import ListNotations.

(** ** Combinators *)

Lemma multi_loop_conj ms : multi_loop Conjunction ms = forallb (fun b => b) ms.
Proof. induction ms as [|[] ms IH]; simpl; auto. Qed.

Lemma multi_loop_disj ms : multi_loop Disjunction ms = existsb (fun b => b) ms.
Proof. induction ms as [|[] ms IH]; simpl; auto. Qed.

Lemma multi_loop_unknown ms : multi_loop UnknownOp ms = false.
Proof. induction ms as [|[] ms IH]; simpl; auto. Qed.

Lemma multi_conj fs v :
  matches (FMulti fs Conjunction) v = true <-> forall f, In f fs -> matches f v = true.
Proof.
  cbn [matches]. destruct fs as [|f fs]; [split; [intros _ ? []|auto]|].
  rewrite multi_loop_conj, forallb_forall. split.
  - intros H g Hg. apply H. apply in_map_iff; eauto.
  - intros H b Hb. apply in_map_iff in Hb as (g & <- & Hg); auto.
Qed.

Lemma multi_disj fs v :
  fs <> [] ->
  matches (FMulti fs Disjunction) v = true <-> exists f, In f fs /\ matches f v = true.
Proof.
  intros Hne; cbn [matches]. destruct fs as [|f fs]; [congruence|].
  rewrite multi_loop_disj, existsb_exists. split.
  - intros (b & Hb & ->). apply in_map_iff in Hb as (g & Hg & Hin); eauto.
  - intros (g & Hg & H). exists true; split; auto. apply in_map_iff; eauto.
Qed.

(** ** Tag filters *)

Lemma first_value_fun n ps v w : first_value n ps v -> first_value n ps w -> v = w.
Proof.
  intros H; revert w; induction H; intros w' H'; inversion H'; subst; auto; congruence.
Qed.

Lemma first_value_in n ps v : first_value n ps v -> In (n, v) ps.
Proof. induction 1; simpl; auto. Qed.

Lemma first_value_cons n m v ps w :
  first_value n ((m, v) :: ps) w <-> (m = n /\ v = w) \/ (m <> n /\ first_value n ps w).
Proof.
  split.
  - intros H; inversion H; subst; auto.
  - intros [[-> ->]|[Hne H]]; constructor; auto.
Qed.

Definition hit (ps : list (bytes * bytes)) (e : bytes * filter) : Prop :=
  exists v, first_value (fst e) ps v /\ matches (snd e) v = true.

Definition strictly_sorted {A} (l : list (bytes * A)) : Prop :=
  StronglySorted (fun x y => bltb (fst x) (fst y) = true) l.

Lemma hit_skip n v ps e : n <> fst e -> hit ((n, v) :: ps) e <-> hit ps e.
Proof.
  intros Hne; unfold hit; split; intros (w & H & Hm); exists w; split; auto.
  - apply first_value_cons in H as [[? _]|[_ H]]; [congruence|auto].
  - apply first_value_cons; auto.
Qed.

Lemma hit_here n v ps g : hit ((n, v) :: ps) (n, g) <-> matches g v = true.
Proof.
  unfold hit; simpl; split.
  - intros (w & H & Hm). apply first_value_cons in H as [[_ ->]|[? _]]; [auto|congruence].
  - intros H; exists v; split; auto; constructor.
Qed.

Lemma hit_below n ps e :
  names_sorted ps -> Forall (fun p => bleb n (fst p) = true) ps -> bltb (fst e) n = true -> ~ hit ps e.
Proof.
  intros _ Hall Hlt (v & H & _). apply first_value_in in H.
  rewrite Forall_forall in Hall. specialize (Hall _ H). simpl in Hall.
  rewrite bltb_bleb in Hlt. now rewrite Hall in Hlt.
Qed.

Lemma above_neq n fn : bltb n fn = true -> n <> fn.
Proof. apply bltb_neq. Qed.

Lemma bcompare_gt n m : bcompare n m = Gt -> bltb m n = true.
Proof. intros H; apply bltb_lt. rewrite bcompare_antisym, H; auto. Qed.

Lemma Forall_hit_skip n v ps fs :
  Forall (fun e => n <> fst e) fs -> Forall (hit ((n, v) :: ps)) fs <-> Forall (hit ps) fs.
Proof.
  rewrite !Forall_forall. intros H; split; intros Hf e He; apply (hit_skip n v ps e (H e He)); auto.
Qed.

Lemma Exists_hit_skip n v ps fs :
  Forall (fun e => n <> fst e) fs -> Exists (hit ((n, v) :: ps)) fs <-> Exists (hit ps) fs.
Proof.
  rewrite Forall_forall, !Exists_exists. intros H; split; intros (e & He & Hh); exists e; split; auto;
  apply (hit_skip n v ps e (H e He)); auto.
Qed.

Lemma sorted_above fn (ff : filter) fs n :
  strictly_sorted ((fn, ff) :: fs) -> (n = fn \/ bltb n fn = true) ->
  Forall (fun e => n <> fst e) fs.
Proof.
  intros H Hn; inversion H as [|? ? Hs Ha]; subst. eapply Forall_impl; [|exact Ha].
  intros e He; simpl in He. destruct Hn as [->|Hn]; [now apply bltb_neq|].
  apply bltb_neq. eapply bltb_trans; eauto.
Qed.

Lemma tags_loop_conj ps : forall fs err,
  strictly_sorted fs -> names_sorted ps ->
  (tags_loop Conjunction fs ps err = true -> Forall (hit ps) fs) /\
  (err = false -> Forall (hit ps) fs -> tags_loop Conjunction fs ps err = true).
Proof.
  induction ps as [|[n v] ps IH]; intros fs err Hfs Hps.
  - cbn [tags_loop is_disj]. rewrite orb_false_r. destruct err; simpl.
    + split; discriminate.
    + destruct fs as [|e fs]; split; auto; try discriminate.
      intros _ H. apply Forall_inv in H as (w & H & _). inversion H.
  - inversion Hps as [|? ? Hps' Hall]; subst; simpl in Hall.
    destruct fs as [|[fn ff] fs']; [simpl; auto|].
    cbn [tags_loop is_conj is_disj].
    destruct (bcompare n fn) eqn:C.
    + apply bcompare_eq in C; subst fn.
      rewrite andb_false_r, andb_true_r.
      assert (Hne : Forall (fun e => n <> fst e) fs') by (eapply sorted_above; eauto).
      inversion Hfs as [|? ? Hfs' _]; subst.
      specialize (IH fs' err Hfs' Hps').
      destruct (matches ff v) eqn:M; cbn [negb].
      * split.
        { intros H. constructor; [now apply hit_here|]. apply Forall_hit_skip; auto. now apply IH. }
        { intros He H. inversion H; subst. apply IH; auto. eapply Forall_hit_skip; eauto. }
      * split; [discriminate|]. intros _ H. apply Forall_inv in H. apply hit_here in H. congruence.
    + apply bltb_lt in C.
      assert (Hne : Forall (fun e => n <> fst e) ((fn, ff) :: fs')).
      { constructor; [now apply above_neq|]. eapply sorted_above; eauto. }
      specialize (IH ((fn, ff) :: fs') err Hfs Hps').
      rewrite (Forall_hit_skip n v ps ((fn, ff) :: fs') Hne). exact IH.
    + split; [discriminate|]. intros _ H. exfalso. apply Forall_inv in H.
      apply (hit_below n ((n, v) :: ps) (fn, ff)) in H; auto.
      * constructor; [apply bleb_refl|auto].
      * now apply bcompare_gt.
Qed.

Lemma skip_below_spec n fs :
  exists pre, fs = pre ++ skip_below n fs /\ Forall (fun e => bltb (fst e) n = true) pre /\
    match skip_below n fs with [] => True | e :: _ => bcompare n (fst e) <> Gt end.
Proof.
  induction fs as [|e fs (pre & Hp & Hf & Hh)]; simpl.
  - exists []; repeat split; auto.
  - destruct (bcompare n (fst e)) eqn:C.
    + exists []; repeat split; auto; congruence.
    + exists []; repeat split; auto; congruence.
    + exists (e :: pre); split; [simpl; congruence|]. split; auto.
      constructor; auto. now apply bcompare_gt.
Qed.

Lemma strictly_sorted_app {A} (l1 l2 : list (bytes * A)) : strictly_sorted (l1 ++ l2) -> strictly_sorted l2.
Proof. induction l1; simpl; auto. intros H; inversion H; auto. Qed.

Lemma Exists_hit_cons ps e fs : Exists (hit ps) (e :: fs) <-> hit ps e \/ Exists (hit ps) fs.
Proof. apply Exists_cons. Qed.

Lemma tags_loop_disj ps : forall fs err,
  strictly_sorted fs -> names_sorted ps ->
  tags_loop Disjunction fs ps err = true <-> Exists (hit ps) fs.
Proof.
  induction ps as [|[n v] ps IH]; intros fs err Hfs Hps.
  - cbn [tags_loop is_disj]. rewrite orb_true_r. split; [discriminate|].
    rewrite Exists_exists. intros (e & _ & w & H & _). inversion H.
  - inversion Hps as [|? ? Hps' Hall]; subst; simpl in Hall.
    destruct fs as [|[fn ff] fs'].
    { simpl. split; [discriminate|]. intros H; inversion H. }
    cbn [tags_loop is_conj is_disj]. rewrite !andb_true_r, !andb_false_r.
    assert (Hcheck : forall gn g gs, gn = n -> strictly_sorted ((gn, g) :: gs) ->
      (if matches g v then true else tags_loop Disjunction gs ps err) = true
      <-> Exists (hit ((n, v) :: ps)) ((gn, g) :: gs)).
    { intros gn g gs -> Hs. rewrite Exists_hit_cons, hit_here.
      assert (Hne : Forall (fun e => n <> fst e) gs) by (eapply sorted_above; eauto).
      inversion Hs as [|? ? Hs' _]; subst.
      rewrite (Exists_hit_skip n v ps gs Hne), <- (IH gs err Hs' Hps').
      destruct (matches g v); intuition. }
    assert (Hlt : forall gn g gs, bltb n gn = true -> strictly_sorted ((gn, g) :: gs) ->
      tags_loop Disjunction ((gn, g) :: gs) ps err = true <-> Exists (hit ((n, v) :: ps)) ((gn, g) :: gs)).
    { intros gn g gs Hn Hs.
      assert (Hne : Forall (fun e => n <> fst e) ((gn, g) :: gs)).
      { constructor; [now apply above_neq|]. eapply sorted_above; eauto. }
      rewrite (Exists_hit_skip n v ps _ Hne). now apply IH. }
    destruct (bcompare n fn) eqn:C.
    + apply bcompare_eq in C. apply Hcheck; auto.
    + apply bltb_lt in C. apply Hlt; auto.
    + apply bcompare_gt in C.
      assert (Hmiss : forall e, bltb (fst e) n = true -> ~ hit ((n, v) :: ps) e).
      { intros e He. apply (hit_below n); auto. constructor; [apply bleb_refl|auto]. }
      destruct (skip_below_spec n fs') as (pre & Hpre & Hf & Hh).
      assert (Hred : Exists (hit ((n, v) :: ps)) ((fn, ff) :: fs') <->
                     Exists (hit ((n, v) :: ps)) (skip_below n fs')).
      { rewrite Exists_hit_cons, Hpre at 1. rewrite Exists_app. split; auto.
        intros [H|[H|H]]; auto.
        - exfalso; eapply (Hmiss (fn, ff)); eauto.
        - exfalso. rewrite Exists_exists in H. destruct H as (e & He & H).
          rewrite Forall_forall in Hf. eapply Hmiss; eauto. }
      rewrite Hred.
      assert (Hs' : strictly_sorted (skip_below n fs')).
      { inversion Hfs as [|? ? Hx _]; subst. rewrite Hpre in Hx. now apply strictly_sorted_app in Hx. }
      destruct (skip_below n fs') as [|[gn g] gs].
      * split; [discriminate|intros H; inversion H].
      * simpl in Hh. destruct (bcompare n gn) eqn:C2; [| |congruence].
        -- apply bcompare_eq in C2. rewrite andb_true_r, andb_false_r. apply Hcheck; auto.
        -- apply bltb_lt in C2. apply Hlt; auto.
Qed.

Lemma compile_tags_spec key m : forall name0 tags0 nm ts,
  compile_tags key m name0 tags0 = Some (nm, ts) -> NoDup (map fst m) ->
  (forall n g, In (n, g) ts <->
     In (n, g) tags0 \/ (n <> key /\ exists fv, In (n, fv) m /\ new_filter_from_value fv = Some g)) /\
  ((exists fv g, In (key, fv) m /\ new_filter_from_value fv = Some g /\ nm = Some g)
   \/ ((forall fv, ~ In (key, fv) m) /\ nm = name0)) /\
  (forall n fv, In (n, fv) m -> exists g, new_filter_from_value fv = Some g) /\
  map fst ts = map fst tags0 ++ List.filter (fun n => negb (beqb key n)) (map fst m).
Proof.
  induction m as [|[n v] m IH]; intros name0 tags0 nm ts H Hnd.
  - injection H as <- <-. simpl. rewrite app_nil_r.
    split; [|split; [|split]]; auto.
    + intros; split; auto. intros [?|(_ & ? & [] & _)]; auto.
    + intros ? ? [].
  - cbn [compile_tags] in H. inversion Hnd as [|? ? Hnin Hnd']; subst.
    destruct (new_filter_from_value v) as [f|] eqn:Ef; [|discriminate].
    cbn [map fst List.filter].
    destruct (beqb key n) eqn:Ek.
    + apply beqb_eq in Ek; subst n. cbn [negb].
      apply IH in H as (H1 & H2 & H3 & H4); auto.
      split; [|split; [|split]]; auto.
      * intros k g; rewrite H1. split; intros [?|(Hne & fv & Hin & Hg)]; auto; right; split; auto; exists fv; split; auto.
        { now right. } { destruct Hin as [[= -> ->]|]; [congruence|auto]. }
      * left. exists v, f. split; [now left|]. split; auto.
        destruct H2 as [(fv & g & Hin & _)|[_ ->]]; auto.
        exfalso. apply Hnin. apply in_map_iff. now exists (key, fv).
      * intros k fv [[= <- <-]|Hin]; eauto.
    + apply beqb_neq in Ek. cbn [negb].
      apply IH in H as (H1 & H2 & H3 & H4); auto.
      split; [|split; [|split]].
      * intros k g; rewrite H1, in_app_iff. split.
        { intros [[?|[[= <- <-]|[]]]|(Hne & fv & Hin & Hg)]; auto.
          - right; split; [congruence|]. exists v; split; [now left|auto].
          - right; split; auto. exists fv; split; [now right|auto]. }
        { intros [?|(Hne & fv & [[= -> ->]|Hin] & Hg)]; auto.
          - left; right; left. congruence.
          - right; split; auto. eauto. }
      * destruct H2 as [(fv & g & Hin & Hg & ->)|[Hno ->]].
        { left; exists fv, g; split; [now right|auto]. }
        { right; split; auto. intros fv [[= -> ->]|Hin]; [congruence|]. eapply Hno; eauto. }
      * intros k fv [[= <- <-]|Hin]; eauto.
      * rewrite H4, map_app, <- app_assoc. reflexivity.
Qed.

Lemma compile_tags_none key m : forall name0 tags0,
  compile_tags key m name0 tags0 = None <-> exists n fv, In (n, fv) m /\ new_filter_from_value fv = None.
Proof.
  induction m as [|[n v] m IH]; intros name0 tags0; cbn [compile_tags].
  - split; [discriminate|intros (? & ? & [] & _)].
  - destruct (new_filter_from_value v) as [f|] eqn:Ef.
    + assert (E : (exists n0 fv, In (n0, fv) ((n, v) :: m) /\ new_filter_from_value fv = None)
                  <-> exists n0 fv, In (n0, fv) m /\ new_filter_from_value fv = None).
      { split; intros (k & fv & Hin & H); exists k, fv; split; auto.
        - destruct Hin as [[= -> ->]|]; [congruence|auto].
        - now right. }
      rewrite E. destruct (beqb key n); apply IH.
    + split; auto. intros _; exists n, v; split; [now left|auto].
Qed.

Lemma strict_of_isort {A} (l : list (bytes * A)) :
  NoDup (map fst l) -> strictly_sorted (isort by_name_leb l).
Proof.
  intros Hnd.
  assert (Hs : StronglySorted (fun a b : bytes * A => by_name_leb a b = true) (isort by_name_leb l)).
  { apply isort_sorted.
    - intros x y; apply bleb_total.
    - intros x y z; apply bleb_trans. }
  assert (Hnd' : NoDup (map fst (isort by_name_leb l))).
  { eapply Permutation_NoDup; [|exact Hnd]. apply Permutation_map, isort_perm. }
  revert Hs Hnd'. generalize (isort by_name_leb l). clear.
  induction 1 as [|x l Hs IH Ha]; intros Hnd; constructor.
  - apply IH. now inversion Hnd.
  - inversion Hnd as [|? ? Hn _]; subst. rewrite Forall_forall in *. intros y Hy.
    specialize (Ha y Hy). unfold by_name_leb in Ha. apply bleb_spec in Ha as [Ha|Ha]; auto.
    exfalso; apply Hn. rewrite Ha. now apply in_map.
Qed.

Lemma NoDup_filter_keys key (l : list bytes) : NoDup l -> NoDup (List.filter (fun n => negb (beqb key n)) l).
Proof. apply NoDup_filter. Qed.

Section TagsFilter.
  Variables (m : list (bytes * filter_value)) (opts : tags_filter_options) (f : tags_filter) (op : logical_op).
  Hypothesis Hnd : NoDup (map fst m).
  Hypothesis Hf : new_tags_filter m op opts = Some f.

  Lemma new_tags_parts :
    exists ts, compile_tags (tfo_name_tag_key opts) m None [] = Some (tf_name f, ts) /\
      tf_tags f = isort by_name_leb ts /\ tf_op f = op /\ tf_opts f = opts /\ strictly_sorted (tf_tags f).
  Proof.
    unfold new_tags_filter in Hf.
    destruct (compile_tags (tfo_name_tag_key opts) m None []) as [[nm ts]|] eqn:E; [|discriminate].
    injection Hf as <-. exists ts; simpl. repeat split; auto.
    apply strict_of_isort. apply compile_tags_spec in E as (_ & _ & _ & Hk); auto.
    rewrite Hk; simpl. now apply NoDup_filter_keys.
  Qed.

  Variables (id name tags : bytes) (ps : list (bytes * bytes)) (err : bool).
  Hypothesis Hid : tfo_name_and_tags opts id = Some (name, tags).
  Hypothesis Hit : tfo_sorted_tags opts tags = (ps, err).
  Hypothesis Hs : names_sorted ps.

  (* the conditions, one by one *)
  Definition cond_of (e : bytes * filter_value) : Prop :=
    exists g, new_filter_from_value (snd e) = Some g /\
      condition (tfo_name_tag_key opts) (matches g) (fst e) name ps.

  Lemma cond_split (Q : (bytes * filter_value -> Prop)) : True. Proof. exact I. Qed.

  Lemma tags_conj :
    op = Conjunction ->
    (tags_matches f id = true -> Forall cond_of m) /\
    (err = false -> Forall cond_of m -> tags_matches f id = true).
  Proof.
    intros Hop. destruct new_tags_parts as (ts & Hc & Htags & Hfop & Hfopts & Hss).
    apply compile_tags_spec in Hc as (H1 & H2 & H3 & _); auto.
    set (key := tfo_name_tag_key opts) in *.
    assert (Hname : forall nf, tf_name f = Some nf <->
              exists fv, In (key, fv) m /\ new_filter_from_value fv = Some nf).
    { intros nf. destruct H2 as [(fv & g & Hin & Hg & ->)|[Hno ->]].
      - split; [intros [= <-]; eauto|]. intros (fv' & Hin' & Hg').
        assert (fv' = fv).
        { clear -Hnd Hin Hin'. induction m as [|[k v] l IH]; [destruct Hin|].
          simpl in Hnd; inversion Hnd as [|? ? Hn Hnd']; subst.
          destruct Hin as [[= -> ->]|Hin], Hin' as [[= E]|Hin']; subst; auto.
          - exfalso; apply Hn, in_map_iff; now exists (key, fv').
          - exfalso; apply Hn, in_map_iff; now exists (key, fv). }
        congruence.
      - split; [discriminate|]. intros (fv & Hin & _). now apply Hno in Hin. }
    assert (Htag : forall e, In e (tf_tags f) <-> fst e <> key /\ exists fv, In (fst e, fv) m /\ new_filter_from_value fv = Some (snd e)).
    { intros [n g]. rewrite Htags, isort_in, H1. simpl. tauto. }
    assert (Hall : Forall cond_of m <->
       (forall nf, tf_name f = Some nf -> matches nf name = true) /\ Forall (hit ps) (tf_tags f)).
    { rewrite !Forall_forall. split.
      - intros H; split.
        + intros nf Hnf. apply Hname in Hnf as (fv & Hin & Hg). destruct (H _ Hin) as (g & Hg' & [[_ Hm]|[Hk _]]).
          * simpl in Hg'. congruence.
          * now elim Hk.
        + intros [n g] He. apply Htag in He as (Hk & fv & Hin & Hg). simpl in *.
          destruct (H _ Hin) as (g' & Hg' & [[Hk' _]|[_ (v & Hv & Hm)]]); simpl in *; [now elim Hk|].
          exists v; split; auto. simpl. congruence.
      - intros [Hn Hh] [n fv] Hin. destruct (H3 _ _ Hin) as (g & Hg). exists g; split; auto. simpl.
        destruct (bytes_dec n key) as [->|Hk].
        + left; split; auto. apply Hn. apply Hname; eauto.
        + right; split; auto. apply (Hh (n, g)). apply Htag; simpl; eauto. }
    rewrite Hall. unfold tags_matches. rewrite Hfopts, Hid, Hit, Hfop, Hop.
    pose proof (tags_loop_conj ps (tf_tags f) err Hss Hs) as [L1 L2].
    assert (Hcore :
      let r := match tf_name f with
               | Some nf => if matches nf name && is_disj Conjunction then true
                            else if negb (matches nf name) && is_conj Conjunction then false
                            else tags_loop Conjunction (tf_tags f) ps err
               | None => tags_loop Conjunction (tf_tags f) ps err end in
      (r = true -> (forall nf, tf_name f = Some nf -> matches nf name = true) /\ Forall (hit ps) (tf_tags f)) /\
      (err = false -> (forall nf, tf_name f = Some nf -> matches nf name = true) /\ Forall (hit ps) (tf_tags f) -> r = true)).
    { cbv zeta. destruct (tf_name f) as [nf|].
      - cbn [is_disj is_conj]. rewrite andb_false_r, andb_true_r.
        destruct (matches nf name) eqn:M; cbn [negb].
        + split; [intros H; split; auto; intros ? [= <-]; auto|]. intros He [_ H]; auto.
        + split; [discriminate|]. intros _ [H _]. rewrite (H nf eq_refl) in M. discriminate.
      - split; [intros H; split; auto; discriminate|]. intros He [_ H]; auto. }
    destruct (tf_name f) as [nf|] eqn:En; [exact Hcore|].
    destruct (tf_tags f) as [|e l] eqn:Et; [|exact Hcore].
    split; auto. intros _; split; [discriminate|constructor].
  Qed.

  Lemma tags_disj :
    op = Disjunction -> m <> [] -> tags_matches f id = true <-> Exists cond_of m.
  Proof.
    intros Hop Hne. destruct new_tags_parts as (ts & Hc & Htags & Hfop & Hfopts & Hss).
    apply compile_tags_spec in Hc as (H1 & H2 & H3 & _); auto.
    set (key := tfo_name_tag_key opts) in *.
    assert (Htag : forall e, In e (tf_tags f) <-> fst e <> key /\ exists fv, In (fst e, fv) m /\ new_filter_from_value fv = Some (snd e)).
    { intros [n g]. rewrite Htags, isort_in, H1. simpl. tauto. }
    assert (Hall : Exists cond_of m <->
       (exists nf, tf_name f = Some nf /\ matches nf name = true) \/ Exists (hit ps) (tf_tags f)).
    { rewrite !Exists_exists. split.
      - intros ([n fv] & Hin & g & Hg & [[Hk Hm]|[Hk (v & Hv & Hm)]]); simpl in *.
        + left. subst n. destruct H2 as [(fv' & g' & Hin' & Hg' & ->)|[Hno _]]; [|now apply Hno in Hin].
          assert (fv' = fv).
          { clear -Hnd Hin Hin'. induction m as [|[k v] l IH]; [destruct Hin|].
            simpl in Hnd; inversion Hnd as [|? ? Hn Hnd']; subst.
            destruct Hin as [[= -> ->]|Hin], Hin' as [[= E]|Hin']; subst; auto.
            - exfalso; apply Hn, in_map_iff; now exists (key, fv').
            - exfalso; apply Hn, in_map_iff; now exists (key, fv). }
          subst. exists g'; split; auto. congruence.
        + right. exists (n, g). split; [apply Htag; simpl; eauto|]. exists v; auto.
      - intros [(nf & Hnf & Hm)|([n g] & He & v & Hv & Hm)].
        + destruct H2 as [(fv & g & Hin & Hg & E)|[_ E]]; [|congruence].
          exists (key, fv); split; auto. exists g; split; auto. left; split; auto. congruence.
        + apply Htag in He as (Hk & fv & Hin & Hg). exists (n, fv); split; auto.
          exists g; split; auto. right; eauto. }
    rewrite Hall. unfold tags_matches. rewrite Hfopts, Hid, Hit, Hfop, Hop.
    pose proof (tags_loop_disj ps (tf_tags f) err Hss Hs) as L.
    assert (Hcore :
      match tf_name f with
               | Some nf => if matches nf name && is_disj Disjunction then true
                            else if negb (matches nf name) && is_conj Disjunction then false
                            else tags_loop Disjunction (tf_tags f) ps err
               | None => tags_loop Disjunction (tf_tags f) ps err end = true <->
      (exists nf, tf_name f = Some nf /\ matches nf name = true) \/ Exists (hit ps) (tf_tags f)).
    { destruct (tf_name f) as [nf|].
      - cbn [is_disj is_conj]. rewrite andb_false_r, andb_true_r.
        destruct (matches nf name) eqn:M.
        + split; auto. intros _; left; eauto.
        + rewrite L. split; auto. intros [(nf' & [= <-] & H)|H]; [congruence|auto].
      - rewrite L. split; auto. intros [(nf & ? & _)|H]; [discriminate|auto]. }
    destruct (tf_name f) as [nf|] eqn:En; [exact Hcore|].
    destruct (tf_tags f) as [|e l] eqn:Et; [|exact Hcore].
    (* nothing compiled: impossible for a non-empty map *)
    exfalso. destruct m as [|[n fv] m']; [congruence|].
    destruct (H3 n fv) as (g & Hg); [now left|].
    destruct (bytes_dec n key) as [->|Hk].
    - destruct H2 as [(? & ? & _ & _ & ?)|[Hno _]]; [discriminate|]. apply (Hno fv). now left.
    - destruct (proj2 (Htag (n, g))). split; [auto|exists fv; split; [now left|auto]].
  Qed.
End TagsFilter.

Lemma tags_empty op opts :
  exists f, new_tags_filter [] op opts = Some f /\ forall id, tags_matches f id = true.
Proof. eexists; split; reflexivity. Qed.

(** ** Parsing tag filter strings *)

Definition nonempty (s : bytes) : bool := match s with [] => false | _ => true end.
Definition toks (s : bytes) : list bytes :=
  List.filter nonempty (map trim_space (split_on " "%char s)).

Lemma split_on_app_gen c x s : split_on c (x ++ c :: s) = split_on c x ++ split_on c s.
Proof.
  induction x as [|a x IH]; simpl.
  - now rewrite Ascii.eqb_refl.
  - destruct (Ascii.eqb a c); simpl; [now rewrite IH|].
    rewrite IH. destruct (split_on c x) as [|p ps] eqn:E; [now apply split_on_nonempty in E|]. reflexivity.
Qed.

Lemma toks_app x s : toks (x ++ " "%char :: s) = toks x ++ toks s.
Proof. unfold toks. rewrite split_on_app_gen, map_app, filter_app. reflexivity. Qed.

Lemma split_first w s : ~ In " "%char w -> exists p ps, split_on " "%char s = p :: ps /\ split_on " "%char (w ++ s) = (w ++ p) :: ps.
Proof.
  intros H. destruct (split_on " "%char s) as [|p ps] eqn:E; [now apply split_on_nonempty in E|].
  exists p, ps. split; [reflexivity|]. induction w as [|a w IH]; [exact E|].
  cbn [app split_on]. destruct (Ascii.eqb_spec a " "%char) as [->|Ha]; [exfalso; apply H; now left|].
  rewrite IH by (intros Hin; apply H; now right). reflexivity.
Qed.

Lemma toks_blank_l w s : white w -> toks (w ++ s) = toks s.
Proof.
  intros H. destruct (white_no_space w H) as [->|Hn].
  - change ([" "%char] ++ s) with ([] ++ " "%char :: s). now rewrite toks_app.
  - unfold toks. destruct (split_first w s Hn) as (p & ps & -> & ->). cbn [map]. now rewrite trim_space_blank_l.
Qed.

Lemma toks_blanks_l l s : blanks l -> toks (l ++ s) = toks s.
Proof.
  intros H. revert l H. apply blanks_ind; [reflexivity|]. intros w l Hw IH. now rewrite <- app_assoc, toks_blank_l.
Qed.

Lemma split_last w s : ~ In " "%char w ->
  exists pre p, split_on " "%char s = pre ++ [p] /\ split_on " "%char (s ++ w) = pre ++ [p ++ w].
Proof.
  intros Hw. induction s as [|a s IH].
  - exists [], []. split; [reflexivity|]. cbn [app]. now rewrite split_on_no_sep.
  - cbn [app split_on]. destruct IH as (pre & p & H1 & H2). destruct (Ascii.eqb a " "%char).
    + exists ([] :: pre), p. rewrite H1, H2; auto.
    + rewrite H1, H2. destruct pre as [|q pre]; simpl.
      * exists [], (a :: p); auto.
      * exists ((a :: q) :: pre), p; auto.
Qed.

Lemma toks_blank_r w s : white w -> toks (s ++ w) = toks s.
Proof.
  intros H. destruct (white_no_space w H) as [->|Hn].
  - rewrite toks_app. apply app_nil_r.
  - unfold toks. destruct (split_last w s Hn) as (pre & p & -> & ->). rewrite !map_app; cbn [map].
    now rewrite trim_space_blank_r.
Qed.

Lemma toks_blanks_r s r : blanks r -> toks (s ++ r) = toks s.
Proof.
  intros H. revert r H. apply blanks_rind; [now rewrite app_nil_r|]. intros w r Hw IH. now rewrite app_assoc, toks_blank_r.
Qed.

Lemma toks_trim s : toks (trim_space s) = toks s.
Proof.
  destruct (trim_space_spec s) as (l & r & Hs & Hl & Hr & _).
  rewrite Hs at 2. rewrite toks_blanks_l, toks_blanks_r; auto.
Qed.

Lemma toks_token t : token t -> toks t = [t].
Proof.
  intros (Hne & Hsp & H1 & H2). unfold toks. rewrite split_on_no_sep by auto.
  cbn [map List.filter]. rewrite trim_space_id by auto. destruct t; [congruence|reflexivity].
Qed.

Lemma spaced_toks ts s : spaced ts s -> toks s = ts.
Proof.
  induction 1 as [s Hs|l t r Hl Ht Hr|l t r t' ts s Hl Ht Hr Hs IH].
  - rewrite <- (app_nil_r s), toks_blanks_l by auto. reflexivity.
  - rewrite toks_blanks_l, toks_blanks_r by auto. now apply toks_token.
  - rewrite toks_blanks_l by auto. rewrite app_assoc, toks_app, toks_blanks_r, IH by auto.
    now rewrite toks_token.
Qed.

Lemma spaced_blanks_l l ts s : blanks l -> spaced ts s -> spaced ts (l ++ s).
Proof.
  intros Hc H; destruct H.
  - constructor. now apply blanks_app.
  - rewrite app_assoc. constructor; auto. now apply blanks_app.
  - rewrite app_assoc. constructor; auto. now apply blanks_app.
Qed.

Lemma spaced_space_l ts s : spaced ts s -> spaced ts (" "%char :: s).
Proof. apply (spaced_blanks_l [" "%char]). apply blanks_one, white_space_char. Qed.

Lemma toks_piece x :
  ~ In " "%char x ->
  (toks x = [] /\ blanks x) \/
  (exists l t r, toks x = [t] /\ x = l ++ t ++ r /\ blanks l /\ blanks r /\ token t).
Proof.
  intros Hx. destruct (trim_space_spec x) as (l & r & Hs & Hl & Hr & H1 & H2).
  unfold toks. rewrite split_on_no_sep by auto. cbn [map List.filter].
  destruct (trim_space x) as [|a t] eqn:E.
  - left; split; auto. rewrite Hs; simpl. apply blanks_app; auto.
  - right. exists l, (a :: t), r. repeat split; auto; try discriminate.
    intros Hin. apply Hx. rewrite Hs. apply in_or_app; right; apply in_or_app; now left.
Qed.

Lemma toks_spaced_join ps :
  Forall (fun p => ~ In " "%char p) ps -> ps <> [] ->
  spaced (toks (join_with " "%char ps)) (join_with " "%char ps).
Proof.
  induction 1 as [|x ps Hx Hps IH]; intros Hne; [congruence|].
  destruct ps as [|y ps].
  - simpl. destruct (toks_piece x Hx) as [[-> Hb]|(l & t & r & -> & -> & Hl & Hr & Ht)].
    + now constructor.
    + now apply Sp_last.
  - change (join_with " "%char (x :: y :: ps)) with (x ++ " "%char :: join_with " "%char (y :: ps)).
    rewrite toks_app. specialize (IH ltac:(discriminate)).
    set (s := join_with " "%char (y :: ps)) in *. clearbody s.
    destruct (toks_piece x Hx) as [[-> Hb]|(l & t & r & -> & -> & Hl & Hr & Ht)].
    + simpl. apply spaced_blanks_l; auto. now apply spaced_space_l.
    + simpl. destruct (toks s) as [|t' ts] eqn:E.
      * assert (blanks s) by (inversion IH; auto).
        rewrite <- !app_assoc.
        apply Sp_last; auto. apply blanks_app; auto. apply (blanks_cons [" "%char]); auto. apply white_space_char.
      * rewrite <- !app_assoc. now constructor.
Qed.

Lemma toks_spaced s : spaced (toks s) s.
Proof.
  rewrite <- (join_split " "%char s). apply toks_spaced_join; [apply split_on_pieces|apply split_on_nonempty].
Qed.

Lemma spaced_exists s : exists ts, spaced ts s.
Proof. exists (toks s); apply toks_spaced. Qed.

Lemma spaced_unique s ts ts' : spaced ts s -> spaced ts' s -> ts = ts'.
Proof. intros H H'; rewrite <- (spaced_toks _ _ H); now apply spaced_toks. Qed.

Lemma parse_tag_filter_spec t n p :
  parse_tag_filter t = Some (n, p) <-> t = tag_filter_text n p /\ tag_filter_ok n p.
Proof.
  unfold parse_tag_filter, tag_filter_text, tag_filter_ok. split.
  - intros H. pose proof (join_split ":"%char t) as Hj. pose proof (split_on_pieces ":"%char t) as Hp.
    destruct (split_on ":"%char t) as [|x [|y [|z l]]]; try discriminate.
    destruct x as [|a x]; [discriminate|]. destruct y as [|b y]; [discriminate|].
    injection H as <- <-. inversion Hp as [|? ? H1 H2]; subst. inversion H2; subst.
    split; [auto|]. repeat split; auto; discriminate.
  - intros (-> & Hn & Hp & Hcn & Hcp). rewrite split_on_app, split_on_no_sep by auto.
    destruct n; [congruence|]. destruct p; [congruence|]. reflexivity.
Qed.

Fixpoint parse_tokens (ts : list bytes) (res : list (bytes * filter_value)) :=
  match ts with
  | [] => Some res
  | t :: ts' =>
      match parse_tag_filter t with
      | None => None
      | Some (n, v) => if has_key n res then None else parse_tokens ts' (res ++ [(n, mk_fv v false)])
      end
  end.

Lemma parse_loop_tokens ps : forall res,
  parse_loop ps res = parse_tokens (List.filter nonempty (map trim_space ps)) res.
Proof.
  induction ps as [|p ps IH]; intros res; simpl; auto.
  destruct (trim_space p) as [|a t] eqn:E; simpl; auto.
  destruct (parse_tag_filter (a :: t)) as [[n v]|]; auto.
  destruct (has_key n res); auto.
Qed.

Definition entry (t : bytes) (e : bytes * filter_value) : Prop :=
  t = tag_filter_text (fst e) (fv_pattern (snd e)) /\ tag_filter_ok (fst e) (fv_pattern (snd e)) /\
  fv_negate (snd e) = false.

Lemma has_key_false {A} k (m : list (bytes * A)) : has_key k m = false <-> ~ In k (map fst m).
Proof.
  unfold has_key. rewrite <- not_true_iff_false, existsb_exists, in_map_iff. split; intros H; contradict H.
  - destruct H as (e & <- & He). exists e; split; auto. apply beqb_refl.
  - destruct H as (e & He & H). apply beqb_eq in H. eauto.
Qed.

Lemma parse_tokens_spec ts : forall res m, NoDup (map fst res) ->
  parse_tokens ts res = Some m <->
  exists es, m = res ++ es /\ Forall2 entry ts es /\ NoDup (map fst (res ++ es)).
Proof.
  induction ts as [|t ts IH]; intros res m Hnd; simpl.
  - split.
    + intros [= <-]. exists []; rewrite app_nil_r; auto.
    + intros (es & -> & H & _). inversion H; subst. now rewrite app_nil_r.
  - destruct (parse_tag_filter t) as [[n v]|] eqn:E.
    + apply parse_tag_filter_spec in E as [-> Hok].
      destruct (has_key n res) eqn:K.
      * split; [discriminate|]. intros (es & -> & H & Hn). exfalso.
        inversion H as [|? [n' [p' ng]] ? es' He Hes]; subst. destruct He as (Ht & Hok' & _). simpl in *.
        assert (n = n').
        { destruct Hok as (_ & _ & Hc & _), Hok' as (_ & _ & Hc' & _). unfold tag_filter_text in Ht.
          assert (Hs : split_on ":"%char (n ++ ":"%char :: v) = split_on ":"%char (n' ++ ":"%char :: p')) by now rewrite Ht.
          rewrite !split_on_app in Hs by auto. now injection Hs. }
        subst n'. rewrite map_app in Hn. simpl in Hn. apply NoDup_remove_2 in Hn.
        apply Hn, in_or_app; left.
        destruct (in_dec bytes_dec n (map fst res)); auto. exfalso.
        apply has_key_false in n0. congruence.
      * assert (Hnd' : NoDup (map fst (res ++ [(n, mk_fv v false)]))).
        { rewrite map_app; simpl. apply has_key_false in K.
          eapply Permutation_NoDup; [apply Permutation_cons_append|]. constructor; auto. }
        rewrite IH by auto. split.
        -- intros (es & -> & H & Hn). exists ((n, mk_fv v false) :: es).
           rewrite <- app_assoc in *. split; auto. split; auto. constructor; auto.
           split; [auto|split; auto].
        -- intros (es & -> & H & Hn).
           inversion H as [|? [n' [p' ng]] ? es' He Hes]; subst. destruct He as (Ht & Hok' & Hng). simpl in *.
           subst ng.
           assert (n = n' /\ v = p') as [<- <-].
           { destruct Hok as (_ & _ & Hc & Hv), Hok' as (_ & _ & Hc' & Hv'). unfold tag_filter_text in Ht.
             assert (Hs : split_on ":"%char (n ++ ":"%char :: v) = split_on ":"%char (n' ++ ":"%char :: p')) by now rewrite Ht.
             rewrite !split_on_app, !split_on_no_sep in Hs by auto. now injection Hs. }
           exists es'. rewrite <- app_assoc. auto.
    + split; [discriminate|]. intros (es & -> & H & _).
      inversion H as [|? [n p] ? es' He Hes]; subst. destruct He as (Ht & Hok & _).
      assert (parse_tag_filter t = Some (n, fv_pattern p)) by (apply parse_tag_filter_spec; auto). congruence.
Qed.

Lemma parse_spec ts s m :
  spaced ts s ->
  parse_tag_filter_value_map s = Some m <-> Forall2 entry ts m /\ NoDup (map fst m).
Proof.
  intros H. unfold parse_tag_filter_value_map.
  rewrite parse_loop_tokens. change (List.filter nonempty (map trim_space (split_on " "%char (trim_space s))))
    with (toks (trim_space s)). rewrite toks_trim, (spaced_toks _ _ H).
  rewrite parse_tokens_spec by constructor. simpl. split.
  - intros (es & -> & ?); auto.
  - intros [? ?]; eauto.
Qed.

(** ** Metric IDs *)

Lemma firstn_len_app {A} (l r : list A) : firstn (length l) (l ++ r) = l.
Proof. now rewrite firstn_app, Nat.sub_diag, firstn_all, firstn_O, app_nil_r. Qed.

Lemma skipn_len_cons {A} (l r : list A) x : skipn (S (length l)) (l ++ x :: r) = r.
Proof.
  rewrite skipn_app, skipn_all2 by lia. now replace (S (length l) - length l) with 1 by lia.
Qed.

Lemma iterate_tags_ok ps e s :
  tag_section ps e s -> forall fuel, length s <= fuel -> iterate_tags fuel s = (ps, e).
Proof.
  induction 1 as [|j Hj Hno|n v [Hn Hv]|n v ps e s [Hn Hv] Hs IH]; intros fuel Hf; try (simpl in Hn, Hv).
  - destruct fuel; auto.
  - destruct fuel; [destruct j; [congruence|simpl in Hf; lia]|].
    cbn [iterate_tags]. assert (E : index_byte tag_name_splitter j = None) by (now apply index_byte_none).
    rewrite E. destruct j; [congruence|auto].
  - change "="%char with tag_name_splitter in *. change ","%char with tag_pair_splitter in *.
    destruct fuel; [rewrite app_length in Hf; simpl in Hf; lia|].
    cbn [iterate_tags]. rewrite index_byte_app by auto.
    rewrite skipn_len_cons, firstn_len_app.
    assert (E : index_byte tag_pair_splitter v = None) by (now apply index_byte_none). rewrite E.
    destruct (n ++ tag_name_splitter :: v) eqn:En; [destruct n; discriminate|reflexivity].
  - change "="%char with tag_name_splitter in *. change ","%char with tag_pair_splitter in *.
    rewrite app_length in Hf; simpl length in Hf. rewrite app_length in Hf; simpl length in Hf.
    destruct fuel; [lia|].
    cbn [iterate_tags]. rewrite index_byte_app by auto.
    rewrite skipn_len_cons, firstn_len_app.
    rewrite index_byte_app by auto.
    rewrite skipn_len_cons, firstn_len_app.
    rewrite IH by lia.
    destruct (n ++ tag_name_splitter :: v ++ tag_pair_splitter :: s) eqn:En; [destruct n; discriminate|reflexivity].
Qed.

Lemma tag_section_exists s : exists ps e, tag_section ps e s.
Proof.
  remember (length s) as k eqn:Hk. assert (Hle : length s <= k) by lia. clear Hk.
  revert s Hle; induction k as [|k IH]; intros s Hle.
  - destruct s; [|simpl in Hle; lia]. do 2 eexists; constructor.
  - destruct s as [|c s']; [do 2 eexists; constructor|].
    set (s := c :: s') in *. assert (Hs0 : s <> []) by discriminate. clearbody s. clear c s'.
    destruct (index_byte "="%char s) as [i|] eqn:Ei.
    + apply index_byte_some in Ei as (Hn & Hs & Hi). set (n := firstn i s) in *. set (a := skipn (S i) s) in *.
      destruct (index_byte ","%char a) as [j|] eqn:Ej.
      * apply index_byte_some in Ej as (Hv & Ha & Hj). set (v := firstn j a) in *. set (r := skipn (S j) a) in *.
        destruct (IH r) as (ps & e & Hr).
        { subst r a. rewrite !skipn_length. lia. }
        exists ((n, v) :: ps), e. rewrite Hs, Ha. constructor; auto. split; auto.
      * apply index_byte_none in Ej. exists [(n, a)], false. rewrite Hs. constructor. split; auto.
    + apply index_byte_none in Ei. exists [], true. now constructor.
Qed.

Lemma sorted_tags_spec s ps e : sorted_tags s = (ps, e) <-> tag_section ps e s.
Proof.
  split.
  - intros H. destruct (tag_section_exists s) as (ps' & e' & Ht).
    pose proof (iterate_tags_ok _ _ _ Ht (length s) (le_n _)) as E. unfold sorted_tags in H. congruence.
  - intros H; apply (iterate_tags_ok _ _ _ H); auto.
Qed.

Lemma name_and_tags_spec id name tags :
  name_and_tags id = Some (name, tags) <->
  exists before, name_ok before /\ name_ok name /\ id = id_text before name tags.
Proof.
  unfold name_and_tags, name_ok, id_text. split.
  - destruct (index_byte component_splitter id) as [i|] eqn:Ei; [|discriminate].
    apply index_byte_some in Ei as (Hn & Hid & Hi).
    destruct (has_suffix (firstn (S i) id) m3_prefix) eqn:Es; [|discriminate].
    destruct (index_byte component_splitter (skipn (S i) id)) as [j|] eqn:Ej; [|discriminate].
    intros [= <- <-]. apply index_byte_some in Ej as (Hn2 & Hid2 & Hj).
    apply has_suffix_spec in Es as (before & Hb).
    assert (Hfs : firstn (S i) id = firstn i id ++ ["+"%char]).
    { rewrite Hid at 1. replace (S i) with (length (firstn i id) + 1) by (rewrite firstn_length; lia).
      rewrite firstn_app_2. reflexivity. }
    rewrite Hfs in Hb. change m3_prefix with (["m"; "3"]%char ++ ["+"%char]) in Hb.
    rewrite app_assoc in Hb. apply app_inv_tail in Hb.
    exists before. split; [|split; auto].
    + intros Hin. apply Hn. rewrite Hb. apply in_or_app; auto.
    + rewrite Hid at 1. rewrite Hb, Hid2 at 1. rewrite <- app_assoc. reflexivity.
  - intros (before & Hb & Hn & ->).
    replace (before ++ ["m"; "3"; "+"]%char ++ name ++ "+"%char :: tags)
      with ((before ++ ["m"; "3"]%char) ++ component_splitter :: name ++ component_splitter :: tags)
      by (rewrite <- app_assoc; reflexivity).
    assert (Hm : ~ In component_splitter (before ++ ["m"; "3"]%char)).
    { rewrite in_app_iff. intros [?|[?|[?|[]]]]; [auto|discriminate|discriminate]. }
    rewrite index_byte_app by auto.
    rewrite !skipn_len_cons.
    assert (Hs : has_suffix (firstn (S (length (before ++ ["m"; "3"]%char)))
              ((before ++ ["m"; "3"]%char) ++ component_splitter :: name ++ component_splitter :: tags)) m3_prefix = true).
    { replace (S (length (before ++ ["m"; "3"]%char))) with (length (before ++ ["m"; "3"]%char) + 1) by lia.
      rewrite firstn_app_2. apply has_suffix_spec. exists before. rewrite <- app_assoc. reflexivity. }
    rewrite Hs. rewrite index_byte_app by auto. rewrite skipn_len_cons, firstn_len_app. reflexivity.
Qed.

Lemma find_tag_spec n ps v : find_tag n ps = Some v <-> first_value n ps v.
Proof.
  induction ps as [|[m w] ps IH]; simpl.
  - split; [discriminate|inversion 1].
  - rewrite first_value_cons. destruct (beqb n m) eqn:E.
    + apply beqb_eq in E; subst. split; [intros [= <-]; auto|]. intros [[_ ->]|[? _]]; congruence.
    + apply beqb_neq in E. rewrite IH. split; [auto|]. intros [[? _]|[_ ?]]; [congruence|auto].
Qed.

Lemma write_tags_section ps :
  Forall tag_ok ps -> tag_section ps false (write_tags ps).
Proof.
  induction 1 as [|[n v] ps Hp Hps IH]; [constructor|].
  destruct ps as [|q ps]; [now constructor|].
  change (write_tags ((n, v) :: q :: ps)) with (n ++ "="%char :: v ++ ","%char :: write_tags (q :: ps)).
  now constructor.
Qed.

Lemma rollup_ok : tag_ok rollup_tag_pair.
Proof. split; simpl; intuition discriminate. Qed.

Lemma tag_pair_total x y : tag_pair_leb x y = true \/ tag_pair_leb y x = true.
Proof. apply bleb_total. Qed.
Lemma tag_pair_trans x y z : tag_pair_leb x y = true -> tag_pair_leb y z = true -> tag_pair_leb x z = true.
Proof. apply bleb_trans. Qed.

Lemma rollup_id_parse name tags :
  name_ok name -> Forall tag_ok tags ->
  exists section ps,
    name_and_tags (new_rollup_id name tags) = Some (name, section) /\
    sorted_tags section = (ps, false) /\
    Permutation ps (rollup_tag_pair :: tags) /\ names_sorted ps /\
    is_rollup_id name section = true.
Proof.
  intros Hn Ht. set (ps := isort tag_pair_leb (tags ++ [rollup_tag_pair])).
  assert (Hperm : Permutation ps (rollup_tag_pair :: tags)).
  { subst ps. rewrite <- isort_perm. symmetry; apply Permutation_cons_append. }
  assert (Hok : Forall tag_ok ps).
  { eapply Permutation_Forall; [symmetry; exact Hperm|]. constructor; auto. apply rollup_ok. }
  assert (Hsec : sorted_tags (write_tags ps) = (ps, false)).
  { apply sorted_tags_spec. now apply write_tags_section. }
  exists (write_tags ps), ps. split; [|split; [|split; [|split]]]; auto.
  - apply name_and_tags_spec. exists []. split; [intros []|]. split; auto.
  - apply isort_sorted; [apply tag_pair_total|apply tag_pair_trans].
  - unfold is_rollup_id. rewrite Hsec. apply existsb_exists. exists rollup_tag_pair. split.
    + eapply Permutation_in; [symmetry; exact Hperm|now left].
    + rewrite !beqb_refl; auto.
Qed.

Lemma rollup_id_canonical name tags1 tags2 :
  NoDup (map fst (rollup_tag_pair :: tags1)) -> Permutation tags1 tags2 ->
  new_rollup_id name tags1 = new_rollup_id name tags2.
Proof.
  intros Hnd Hp. unfold new_rollup_id. do 4 f_equal.
  eapply (sorted_perm_unique tag_pair_leb).
  - intros x; apply bleb_refl.
  - intros x y Hx Hy Hxy Hyx.
    assert (Hfst : fst x = fst y) by (apply bleb_antisym; auto).
    apply isort_in in Hx, Hy.
    assert (Hnd' : NoDup (map fst (tags1 ++ [rollup_tag_pair]))).
    { eapply Permutation_NoDup; [|exact Hnd]. apply Permutation_map, Permutation_cons_append. }
    clear -Hx Hy Hfst Hnd'. induction (tags1 ++ [rollup_tag_pair]) as [|z l IH]; [destruct Hx|].
    simpl in Hnd'; inversion Hnd' as [|? ? Hz Hl]; subst.
    destruct Hx as [->|Hx], Hy as [->|Hy]; auto.
    + exfalso; apply Hz. rewrite Hfst. now apply in_map.
    + exfalso; apply Hz. rewrite <- Hfst. now apply in_map.
  - apply isort_sorted; [apply tag_pair_total|apply tag_pair_trans].
  - apply isort_sorted; [apply tag_pair_total|apply tag_pair_trans].
  - rewrite <- !isort_perm. now apply Permutation_app_tail.
Qed.

Lemma rollup_id_injective n1 n2 t1 t2 :
  name_ok n1 -> name_ok n2 -> Forall tag_ok t1 -> Forall tag_ok t2 ->
  new_rollup_id n1 t1 = new_rollup_id n2 t2 -> n1 = n2 /\ Permutation t1 t2.
Proof.
  intros H1 H2 T1 T2 E.
  destruct (rollup_id_parse n1 t1 H1 T1) as (s1 & ps1 & N1 & S1 & P1 & _).
  destruct (rollup_id_parse n2 t2 H2 T2) as (s2 & ps2 & N2 & S2 & P2 & _).
  rewrite E, N2 in N1. injection N1 as -> ->. rewrite S1 in S2. injection S2 as ->.
  split; auto. apply (Permutation_cons_inv (a := rollup_tag_pair)). now rewrite <- P1, <- P2.
Qed.

Lemma tag_value_spec before name section ps e n :
  name_ok before -> name_ok name -> tag_section ps e section ->
  forall r, tag_value (id_text before name section) n = r <->
    match r with Some v => first_value n ps v | None => forall v, ~ first_value n ps v end.
Proof.
  intros Hb Hn Hs r. unfold tag_value.
  rewrite (proj2 (name_and_tags_spec (id_text before name section) name section)) by eauto.
  rewrite (proj2 (sorted_tags_spec _ _ _) Hs). simpl.
  destruct r as [v|].
  - apply find_tag_spec.
  - split.
    + intros E v H. apply find_tag_spec in H. congruence.
    + intros H. destruct (find_tag n ps) as [v|] eqn:E; auto. apply find_tag_spec in E. now apply H in E.
Qed.

Lemma tag_value_bad id n :
  (forall before name section, name_ok before -> name_ok name -> id <> id_text before name section) ->
  tag_value id n = None.
Proof.
  intros H. unfold tag_value. destruct (name_and_tags id) as [[name section]|] eqn:E; auto.
  apply name_and_tags_spec in E as (b & Hb & Hn & ->). exfalso; now apply (H b name section).
Qed.
