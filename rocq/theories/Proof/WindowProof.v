(** Proofs about match results over a window of time. *)
From Coq Require Import Ascii String Arith NArith ZArith Bool Lia Permutation Sorting.Sorted List.
From Verif.Base Require Import Bytes BytesFacts.
From Verif.Model Require Import AggType Policy Transformation Pipeline Metadata Filter MetricID Rules.
From Verif.Spec Require Import AggSpec MetadataSpec FilterSpec.
From Verif.Proof Require Import AggProof MetadataProof TagProof RulesProof MatchProof TargetProof.
From Verif.Spec Require Import RulesSpec.
Import ListNotations.
Open Scope Z_scope.

(** ** Serving a stage *)

Lemma active_stages_from_spec l t : forall n, (n <= length l)%nat ->
  (forall i s, (n <= i)%nat -> nth_error l i = Some s -> t < sm_cutover s) ->
  (exists pre s post, l = pre ++ s :: post /\ active_stages_from l n t = s :: post /\
     sm_cutover s <= t /\ Forall (fun s' => t < sm_cutover s') post) \/
  (active_stages_from l n t = l /\ Forall (fun s' => t < sm_cutover s') l).
Proof.
  induction n as [|n IH]; intros Hn Hi; cbn [active_stages_from].
  - right; split; auto. apply Forall_forall; intros s Hs. apply In_nth_error in Hs as (i & Hs). apply (Hi i); auto; lia.
  - destruct (nth_error l n) as [s|] eqn:E; [|apply nth_error_None in E; lia].
    destruct (Z.leb_spec (sm_cutover s) t) as [Hle|Hgt].
    + left. exists (firstn n l), s, (skipn (S n) l). split; [now apply split_skipn|].
      split; [now rewrite skipn_nth_error, E|]. split; auto.
      apply Forall_forall; intros s' Hs'. apply In_nth_error in Hs' as (i & Hs').
      rewrite nth_error_skipn_add in Hs'. apply (Hi (S n + i)%nat); auto; lia.
    + apply IH; [lia|]. intros i s' Hle Hs'. destruct (Nat.eq_dec i n) as [->|]; [congruence|]. apply (Hi i); auto; lia.
Qed.

Lemma active_stages_at_spec l t :
  (exists pre s post, l = pre ++ s :: post /\ active_stages_at l t = s :: post /\
     sm_cutover s <= t /\ Forall (fun s' => t < sm_cutover s') post) \/
  (active_stages_at l t = l /\ Forall (fun s' => t < sm_cutover s') l).
Proof.
  apply active_stages_from_spec; auto. intros i s Hi H.
  assert (i < length l)%nat by (apply nth_error_Some; congruence). lia.
Qed.

(** The served stage has the content of the instant that governs [t], provided a stage that is dated
    before an instant comes after no change of content at that instant. *)
Section Serve.
  Context {C : Type} (content : Z -> C) (content_of : staged_metadata -> C).

  Lemma chain seg : forall k t cj,
    StronglySorted Z.lt (k :: seg) -> (forall q, In q seg -> t < q) -> cj <= t ->
    (forall A p q B, k :: seg = A ++ p :: q :: B -> cj < q -> content p = content q) ->
    content k = content (last (k :: seg) k).
  Proof.
    induction seg as [|q seg IH]; intros k t cj Hs Hgt Hc H; auto.
    rewrite (H [] k q seg eq_refl) by (specialize (Hgt q (or_introl eq_refl)); lia).
    inversion Hs as [|? ? Hs' _]; subst. rewrite (IH q t cj); auto.
    - assert (Hl : forall (l : list Z) d d', l <> [] -> last l d = last l d').
      { clear. induction l as [|x l IH]; intros; [congruence|]. destruct l; auto. simpl in *. apply IH; discriminate. }
      f_equal. change (last (k :: q :: seg) k) with (last (q :: seg) k). apply Hl; discriminate.
    - intros q' Hq; apply Hgt; now right.
    - intros A p q' B0 E. apply (H (k :: A) p q' B0). simpl; now rewrite E.
  Qed.

  Lemma served I l t k :
    Forall2 (fun u s => content_of s = content u /\ sm_cutover s <= u) I l ->
    StronglySorted Z.lt I -> In k I -> k <= t -> (forall q, In q I -> q <= t -> q <= k) ->
    (forall A p q B s, I = A ++ p :: q :: B -> In s (skipn (length A + 1) l) -> sm_cutover s < q -> content p = content q) ->
    exists s rest, active_stages_at l t = s :: rest /\ content_of s = content k /\ sm_cutover s <= t.
  Proof.
    intros HF HI Hk Hkt Hmax Hcl.
    destruct (active_stages_at_spec l t) as [(pre & s & post & El & Ea & Hc & Hpost)|[Ea Hall]].
    2:{ exfalso. apply In_nth_error in Hk as (i & Hi).
        assert (Hex : exists s, nth_error l i = Some s /\ sm_cutover s <= k).
        { clear - HF Hi. revert i Hi; induction HF as [|u s I l (_ & Hu) _ IH]; intros [|i] Hi; try discriminate; simpl in *.
          - injection Hi as ->; eauto.
          - eauto. }
        destruct Hex as (s & Hs & Hc). apply nth_error_In in Hs. rewrite Forall_forall in Hall; apply Hall in Hs; lia. }
    subst l. apply Forall2_app_inv_r in HF as (I1 & Ij & HF1 & HFj & EI).
    inversion HFj as [|j s' I2 post' (Hcj & Hj) HF2]; subst Ij s' post'.
    exists s, post; split; auto. split; auto. rewrite Hcj.
    assert (Hkj : In k (I1 ++ [j])).
    { rewrite EI in Hk. apply in_app_or in Hk as [Hk|[<-|Hk]]; try (apply in_or_app; simpl; tauto). exfalso.
      clear - HF2 Hk Hpost Hkt. apply In_nth_error in Hk as (i & Hi).
      assert (Hex : exists s, nth_error post i = Some s /\ sm_cutover s <= k).
      { revert i Hi; clear Hpost; induction HF2 as [|u s I l (_ & Hu) _ IH]; intros [|i] Hi; try discriminate; simpl in *.
        - injection Hi as ->; eauto.
        - eauto. }
      destruct Hex as (s' & Hs & Hc). apply nth_error_In in Hs. rewrite Forall_forall in Hpost; apply Hpost in Hs; lia. }
    apply in_split in Hkj as (A0 & seg & Eseg).
    assert (EI' : I = A0 ++ k :: seg ++ I2).
    { rewrite EI. change (I1 ++ j :: I2) with (I1 ++ [j] ++ I2). rewrite app_assoc, Eseg, <- app_assoc. reflexivity. }
    assert (Hsk : StronglySorted Z.lt (k :: seg)).
    { rewrite EI' in HI. clear - HI. induction A0 as [|x A0 IH]; simpl in HI.
      - change (k :: seg ++ I2) with ((k :: seg) ++ I2) in HI. revert HI. generalize (k :: seg) as m. clear.
        induction m as [|y m IH]; intros H; [constructor|]. inversion H as [|? ? H1 H2]; subst. constructor; auto.
        apply Forall_app in H2; tauto.
      - inversion HI; auto. }
    assert (Hlast : last (k :: seg) k = j).
    { destruct (exists_last (l := k :: seg) ltac:(discriminate)) as (m & y & Ey). rewrite Ey, last_last.
      rewrite Ey, app_assoc in Eseg. apply app_inj_tail in Eseg as [_ ->]; auto. }
    rewrite <- Hlast. symmetry. apply (chain seg k t (sm_cutover s)); auto.
    - intros q Hq. assert (k < q) by (inversion Hsk as [|? ? _ F]; subst; rewrite Forall_forall in F; auto).
      assert (In q I) by (rewrite EI'; apply in_or_app; right; right; apply in_or_app; auto).
      specialize (Hmax q H0). lia.
    - intros A p q Bq E Hlt. apply (Hcl (A0 ++ A) p q (Bq ++ I2) s); auto.
      + rewrite EI'. change (k :: seg ++ I2) with ((k :: seg) ++ I2). rewrite E, <- !app_assoc. reflexivity.
      + (* s is at position length I1 >= length (A0 ++ A) + 1 *)
        assert (Hlen : (length I1 + 1 = length A0 + length A + 2 + length Bq)%nat).
        { apply (f_equal (@length Z)) in Eseg, E. repeat (rewrite app_length in Eseg || rewrite app_length in E || cbn [length] in Eseg, E). lia. }
        assert (Hpre : length pre = length I1) by (clear - HF1; induction HF1; simpl; auto).
        rewrite skipn_app. apply in_or_app; right. rewrite app_length.
        replace (length A0 + length A + 1 - length pre)%nat with 0%nat by lia. now left.
  Qed.
End Serve.

(** ** Results for new rollup IDs over a window *)

Definition by_id (x y : id_with_metadatas) : Prop := bltb (fst x) (fst y) = true.

Definition added (X : bytes) (next : list id_with_metadatas) (c : Z) : list staged_metadata :=
  match find (fun e => beqb (fst e) X) next with Some e => firstn 1 (snd e) | None => [tombstone_stage c] end.

Lemma find_skip X (e : id_with_metadatas) l : fst e <> X -> find (fun e => beqb (fst e) X) (e :: l) = find (fun e => beqb (fst e) X) l.
Proof. intros H; simpl. now rewrite (proj2 (beqb_neq _ _) H). Qed.

Lemma merge_news_loop_spec c : forall curr next,
  StronglySorted by_id curr -> StronglySorted by_id next ->
  merge_news_loop c curr next =
    (map (fun e => (fst e, snd e ++ added (fst e) next c)) curr,
     List.filter (fun e => negb (existsb (beqb (fst e)) (map fst curr))) next).
Proof.
  induction curr as [|[i ms] curr IH]; intros next Hc Hn.
  - assert (E : merge_news_loop c [] next = ([], next)) by (destruct next; reflexivity).
    rewrite E; simpl. f_equal. symmetry; apply filter_all; auto.
  - inversion Hc as [|? ? Hc' Hi]; subst. rewrite Forall_forall in Hi.
    induction next as [|[j ns] next IHn].
    + cbn [merge_news_loop]. rewrite IH by auto. reflexivity.
    + inversion Hn as [|? ? Hn' Hj]; subst. pose proof Hj as Hj'. rewrite Forall_forall in Hj'.
      cbn [merge_news_loop]. destruct (bcompare i j) eqn:E.
      * apply bcompare_eq in E; subst j. rewrite IH by auto. cbn [map fst snd].
        f_equal; [f_equal|].
        -- unfold added; simpl. rewrite beqb_refl. reflexivity.
        -- apply map_ext_in. intros e He. unfold added. rewrite find_skip; auto. simpl.
           apply Hi in He; unfold by_id in He; simpl in He. intros ->; now rewrite bltb_irrefl in He.
        -- cbn [List.filter fst existsb map]. rewrite beqb_refl; cbn [negb orb].
           apply filter_ext_in_list. intros e He. cbn [existsb].
           assert (fst e <> i). { apply Hj' in He; unfold by_id in He; simpl in He. intros Ee; rewrite Ee, bltb_irrefl in He; discriminate. }
           now rewrite (proj2 (beqb_neq _ _) H).
      * apply bltb_lt in E. rewrite IH by auto. cbn [map fst snd]. f_equal; [f_equal|].
        -- unfold added. destruct (find (fun e => beqb (fst e) i) ((j, ns) :: next)) as [e|] eqn:F; auto.
           exfalso. apply find_some in F as [Hin Eq]. apply beqb_eq in Eq.
           destruct Hin as [<-|Hin]; simpl in Eq.
           ++ subst; now rewrite bltb_irrefl in E.
           ++ apply Hj' in Hin; unfold by_id in Hin; simpl in Hin. rewrite Eq in Hin.
              rewrite (bltb_asym _ _ E) in Hin; discriminate.
        -- apply filter_ext_in_list. intros e He. cbn [existsb map fst].
           assert (fst e <> i).
           { intros Ee. destruct He as [<-|He]; simpl in Ee; [subst; now rewrite bltb_irrefl in E|].
             apply Hj' in He; unfold by_id in He; simpl in He. rewrite Ee in He. rewrite (bltb_asym _ _ E) in He; discriminate. }
           now rewrite (proj2 (beqb_neq _ _) H).
      * apply bcompare_gt in E.
        assert (Ein : (fix inner (next : list id_with_metadatas) : list id_with_metadatas * list id_with_metadatas :=
              match next with
              | [] => let (u, n) := merge_news_loop c curr [] in ((i, ms ++ [tombstone_stage c]) :: u, n)
              | (j, ns) :: next' =>
                  match bcompare i j with
                  | Eq => let (u, n) := merge_news_loop c curr next' in ((i, ms ++ firstn 1 ns) :: u, n)
                  | Lt => let (u, n) := merge_news_loop c curr ((j, ns) :: next') in ((i, ms ++ [tombstone_stage c]) :: u, n)
                  | Gt => let (u, n) := inner next' in (u, (j, ns) :: n)
                  end
              end) next = merge_news_loop c ((i, ms) :: curr) next) by (destruct next; reflexivity).
        rewrite Ein, IHn by auto. clear Ein IHn.
        assert (Hne : forall e, In e ((i, ms) :: curr) -> j <> fst e).
        { intros e [<-|He]; simpl; [now apply bltb_neq|]. apply Hi in He; unfold by_id in He; simpl in He.
          apply bltb_neq. eapply bltb_trans; eauto. }
        f_equal.
        -- apply map_ext_in. intros e He. unfold added. rewrite find_skip; auto.
        -- cbn [List.filter fst]. assert (existsb (beqb j) (map fst ((i, ms) :: curr)) = false) as ->; auto.
           destruct (existsb _ _) eqn:Ex; auto. apply existsb_exists in Ex as (x & Hx & Ex).
           apply beqb_eq in Ex; subst x. apply in_map_iff in Hx as (e & Ee & He). elim (Hne e He); auto.
Qed.

Lemma by_id_nodup l : StronglySorted by_id l -> NoDup (map fst l).
Proof.
  induction 1 as [|x l Hs IH Hf]; simpl; constructor; auto. intros Hin. apply in_map_iff in Hin as (y & E & Hy).
  rewrite Forall_forall in Hf; apply Hf in Hy. unfold by_id in Hy. rewrite E, bltb_irrefl in Hy; discriminate.
Qed.

Lemma isort_by_id l : NoDup (map fst l) -> StronglySorted by_id (isort id_leb l).
Proof.
  intros Hnd.
  assert (Hs : StronglySorted (fun a b : id_with_metadatas => id_leb a b = true) (isort id_leb l)).
  { apply isort_sorted; unfold id_leb; intros.
    - apply bleb_total.
    - eapply bleb_trans; eauto. }
  assert (Hn : NoDup (map fst (isort id_leb l))).
  { eapply Permutation_NoDup; [apply Permutation_map, isort_perm|]; auto. }
  induction Hs as [|x m Hs IH Hf]; constructor.
  - apply IH. now inversion Hn.
  - inversion Hn as [|? ? Hx Hn']; subst. rewrite Forall_forall in *; intros y Hy. specialize (Hf y Hy).
    unfold id_leb in Hf. apply bleb_spec in Hf as [Hf|Hf]; auto. elim Hx. rewrite Hf. now apply in_map.
Qed.

Section News.
  Variable at_ : Z -> list id_with_metadatas.

  (** Stages of every ID met so far. *)
  Definition accounts (T : list Z) (curr : list id_with_metadatas) : Prop :=
    StronglySorted by_id curr /\
    forall X l, In (X, l) curr <->
      exists T1 t T2, T = T1 ++ t :: T2 /\ (forall u, In u T1 -> ~ In X (map fst (at_ u))) /\
        In X (map fst (at_ t)) /\ Forall2 (stage_of at_ X) (t :: T2) l.

  Hypothesis Hshape : forall u e, In e (at_ u) -> exists X st, e = (X, [st]).

  Lemma shape_in u X : In X (map fst (at_ u)) -> exists st, In (X, [st]) (at_ u).
  Proof.
    intros H; apply in_map_iff in H as (e & E & He). destruct (Hshape u e He) as (Y & st & ->). simpl in E; subst; eauto.
  Qed.

  Lemma stage_exists X u : exists st, stage_of at_ X u st.
  Proof.
    destruct (in_dec bytes_dec X (map fst (at_ u))) as [H|H].
    - destruct (shape_in u X H) as (st & Hst). exists st; now left.
    - eexists; right; split; [exact H|reflexivity].
  Qed.

  Lemma stages_exist X T : exists l, Forall2 (stage_of at_ X) T l.
  Proof.
    induction T as [|u T (l & IH)]; [exists []; constructor|]. destruct (stage_exists X u) as (st & Hst).
    exists (st :: l); constructor; auto.
  Qed.

  Lemma first_producer X T : (exists u, In u T /\ In X (map fst (at_ u))) ->
    exists T1 t T2, T = T1 ++ t :: T2 /\ (forall u, In u T1 -> ~ In X (map fst (at_ u))) /\ In X (map fst (at_ t)).
  Proof.
    induction T as [|u T IH]; intros (w & Hw & Hx); [destruct Hw|].
    destruct (in_dec bytes_dec X (map fst (at_ u))) as [H|H].
    - exists [], u, T; repeat split; auto.
    - destruct Hw as [<-|Hw]; [contradiction|]. destruct IH as (T1 & t & T2 & -> & H1 & H2); [eauto|].
      exists (u :: T1), t, T2; repeat split; auto. intros v [<-|Hv]; auto.
  Qed.

  Lemma added_stage X u : NoDup (map fst (at_ u)) ->
    exists st, added X (at_ u) u = [st] /\ stage_of at_ X u st.
  Proof.
    intros Hnd. unfold added. destruct (find (fun e => beqb (fst e) X) (at_ u)) as [e|] eqn:F.
    - apply find_some in F as [Hin E]. apply beqb_eq in E. destruct (Hshape u e Hin) as (Y & st & ->). simpl in *; subst.
      exists st; split; auto. now left.
    - exists (tombstone_stage u); split; auto. right; split; auto. intros Hin. apply in_map_iff in Hin as (e & E & He).
      eapply find_none in F; eauto. cbv beta in F. rewrite E, beqb_refl in F; discriminate.
  Qed.

  Lemma nodup_entry (l : list id_with_metadatas) X (x y : list staged_metadata) : NoDup (map fst l) -> In (X, x) l -> In (X, y) l -> x = y.
  Proof.
    induction l as [|e l IH]; simpl; intros Hn; [tauto|]. inversion Hn; subst.
    intros [->|H] [E|H']; auto.
    - congruence.
    - exfalso. apply H1. simpl. apply in_map_iff; exists (X, y); auto.
    - subst e. exfalso. apply H1. simpl. apply in_map_iff; exists (X, x); auto.
  Qed.

  Lemma stage_unique X u s s' : NoDup (map fst (at_ u)) -> stage_of at_ X u s -> stage_of at_ X u s' -> s = s'.
  Proof.
    intros Hn [H|[H ->]] [H'|[H' ->]]; auto.
    - pose proof (nodup_entry _ _ _ _ Hn H H') as E. now injection E.
    - elim H'. apply in_map_iff; exists (X, [s]); auto.
    - elim H. apply in_map_iff; exists (X, [s']); auto.
  Qed.

  Lemma merge_step T curr c : accounts T curr -> StronglySorted by_id (at_ c) ->
    accounts (T ++ [c]) (merge_news curr (at_ c) c).
  Proof.
    intros [Hs Hin] Hc. pose proof (by_id_nodup _ Hc) as Hnd. unfold merge_news. rewrite merge_news_loop_spec by auto.
    set (u := map _ curr). set (n := List.filter _ _).
    assert (Hfu : map fst u = map fst curr) by (unfold u; rewrite map_map; reflexivity).
    assert (Hun : NoDup (map fst (u ++ n))).
    { rewrite map_app, Hfu.
      assert (Hnn : NoDup (map fst n)).
      { unfold n. apply by_id_nodup, sorted_filter; auto. }
      assert (Hdisj : forall x, In x (map fst curr) -> ~ In x (map fst n)).
      { intros x Hx Hxn. apply in_map_iff in Hxn as (e & <- & He). apply filter_In in He as [_ He].
        apply negb_true_iff in He. assert (existsb (beqb (fst e)) (map fst curr) = true); [|congruence].
        apply existsb_exists; exists (fst e); split; auto. apply beqb_refl. }
      pose proof (by_id_nodup _ Hs) as Hcn. clear - Hnn Hdisj Hcn. clearbody n.
      induction (map fst curr) as [|x l IH]; simpl; auto. inversion Hcn; subst. constructor.
      - rewrite in_app_iff; intros [|]; auto. apply (Hdisj x); auto; now left.
      - apply IH; auto. intros y Hy; apply Hdisj; now right. }
    split; [now apply isort_by_id|].
    intros X l. rewrite isort_in, in_app_iff. split.
    - intros [H|H].
      + unfold u in H. apply in_map_iff in H as ([Y l0] & E & He). cbn [fst snd] in E. injection E as <- <-.
        apply Hin in He as (T1 & t & T2 & -> & H1 & H2 & H3).
        exists T1, t, (T2 ++ [c]). rewrite <- app_assoc. split; [reflexivity|]. repeat split; auto.
        destruct (added_stage Y c Hnd) as (st & -> & Hst).
        change (t :: T2 ++ [c]) with ((t :: T2) ++ [c]). apply Forall2_app; auto.
      + apply filter_In in H as [H Hne]. apply negb_true_iff in Hne.
        assert (Hx : ~ In X (map fst curr)).
        { intros Hx. assert (existsb (beqb X) (map fst curr) = true); [|simpl in *; congruence].
          apply existsb_exists; exists X; split; auto. apply beqb_refl. }
        destruct (Hshape c _ H) as (Y & st & E). injection E as <- ->.
        exists T, c, []. split; auto. split.
        * intros w Hw Hxw. apply Hx. destruct (first_producer X T) as (T1 & t & T2 & -> & H1 & H2); [eauto|].
          destruct (stages_exist X (t :: T2)) as (l & Hl). apply in_map_iff. exists (X, l); split; auto.
          apply Hin. exists T1, t, T2; auto.
        * split; [apply in_map_iff; exists (X, [st]); auto|]. constructor; [now left|constructor].
    - intros (T1 & t & T2 & ET & H1 & H2 & H3).
      destruct T2 as [|x T2] using rev_ind.
      + apply app_inj_tail in ET as [-> ->]. right. inversion H3 as [|? st ? ? Hst Hnil]; subst. inversion Hnil; subst.
        destruct Hst as [Hst|[Hst _]]; [|contradiction]. unfold n. apply filter_In; split; auto.
        apply negb_true_iff. destruct (existsb _ _) eqn:Ex; auto. exfalso.
        apply existsb_exists in Ex as (Y & HY & EY). cbn [fst] in EY. apply beqb_eq in EY; subst Y.
        apply in_map_iff in HY as ([Y l] & EY & HY). simpl in EY; subst Y.
        apply Hin in HY as (A & t' & C & EA & _ & Hx & _). apply (H1 t'); auto. rewrite EA; apply in_elt.
      + clear IHT2. rewrite app_comm_cons, app_assoc in ET. apply app_inj_tail in ET as [-> <-].
        change (t :: T2 ++ [c]) with ((t :: T2) ++ [c]) in H3.
        left. apply Forall2_app_inv_l in H3 as (l0 & l1 & H3 & H4 & ->).
        inversion H4 as [|? st ? ? Hst Hnil]; subst. inversion Hnil; subst.
        unfold u. apply in_map_iff. exists (X, l0). cbn [fst snd]. split.
        * destruct (added_stage X c Hnd) as (st' & -> & Hst'). f_equal. f_equal. f_equal. eapply stage_unique; eauto.
        * apply Hin. exists T1, t, T2; auto.
  Qed.

  Lemma merge_all cs : forall T curr, accounts T curr -> (forall c, In c cs -> StronglySorted by_id (at_ c)) ->
    accounts (T ++ cs) (fold_left (fun n c => merge_news n (at_ c) c) cs curr).
  Proof.
    induction cs as [|c cs IH]; intros T curr H Hc; simpl; [now rewrite app_nil_r|].
    replace (T ++ c :: cs) with ((T ++ [c]) ++ cs) by now rewrite <- app_assoc.
    apply IH; [|intros; apply Hc; now right]. apply merge_step; auto. apply Hc; now left.
  Qed.

  Lemma accounts_init t : StronglySorted by_id (at_ t) -> accounts [t] (at_ t).
  Proof.
    intros Hs; split; auto. intros X l; split.
    - intros H. destruct (Hshape t _ H) as (Y & st & E). injection E as <- ->.
      exists [], t, []; split; auto. split; [intros ? []|]. split; [apply in_map_iff; exists (X, [st]); auto|].
      constructor; [now left|constructor].
    - intros (T1 & u & T2 & E & _ & Hx & HF). destruct T1 as [|w [|w' T1]]; try discriminate. simpl in E.
      injection E as <- <-. inversion HF as [|? st ? ? Hst Hnil]; subst. inversion Hnil; subst.
      destruct Hst as [|[Hst _]]; [auto|contradiction].
  Qed.
End News.
