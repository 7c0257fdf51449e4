(** The pointer based list refines the abstract sequence. *)
From Coq Require Import Arith ZArith Bool Lia List.
From Verif Require Import Base.Bytes Model.Rules Model.CacheList Spec.CacheListSpec.
Import ListNotations.

Definition lasto (q : list nat) : option nat := hd_error (rev q).

Lemma lasto_snoc q a : lasto (q ++ [a]) = Some a.
Proof. unfold lasto. rewrite rev_app_distr. reflexivity. Qed.

Lemma lasto_app q r : r <> [] -> lasto (q ++ r) = lasto r.
Proof.
  intros H. unfold lasto. rewrite rev_app_distr.
  destruct (rev r) as [|x t] eqn:E.
  - exfalso. apply H. rewrite <- (rev_involutive r), E. reflexivity.
  - reflexivity.
Qed.

Lemma lasto_some q a : lasto q = Some a -> exists r, q = r ++ [a].
Proof.
  unfold lasto. intros H. destruct (rev q) as [|x t] eqn:E; [discriminate|].
  cbn in H. injection H as ->. exists (rev t).
  rewrite <- (rev_involutive q), E. reflexivity.
Qed.

Lemma lasto_none q : lasto q = None -> q = [].
Proof.
  unfold lasto. intros H. destruct (rev q) as [|x t] eqn:E; [|discriminate].
  rewrite <- (rev_involutive q), E. reflexivity.
Qed.

Lemma hd_some (q : list nat) a : hd_error q = Some a -> exists r, q = a :: r.
Proof. destruct q as [|x r]; cbn; intros H; [discriminate|]. injection H as ->. eauto. Qed.

Lemma hd_none (q : list nat) : hd_error q = None -> q = [].
Proof. destruct q; [reflexivity|discriminate]. Qed.

Lemma hd_app (q r : list nat) : q <> [] -> hd_error (q ++ r) = hd_error q.
Proof. destruct q; [congruence|reflexivity]. Qed.

(** ** The heap *)

Lemma upd_same h a e : upd h a e a = e.
Proof. unfold upd. rewrite Nat.eqb_refl. reflexivity. Qed.
Lemma upd_other h a e b : b <> a -> upd h a e b = h b.
Proof. intros H. unfold upd. apply Nat.eqb_neq in H. rewrite H. reflexivity. Qed.

Ltac heap_case := intros; unfold set_prev, set_next, set_deleted, set_expiry, upd;
  match goal with |- context [Nat.eqb ?b ?a] => destruct (Nat.eqb_spec b a) as [->|?] end; reflexivity.

Lemma prev_set_prev h a v b : el_prev (set_prev h a v b) = if Nat.eqb b a then v else el_prev (h b).
Proof. heap_case. Qed.
Lemma next_set_prev h a v b : el_next (set_prev h a v b) = el_next (h b).
Proof. heap_case. Qed.
Lemma del_set_prev h a v b : el_deleted (set_prev h a v b) = el_deleted (h b).
Proof. heap_case. Qed.
Lemma prev_set_next h a v b : el_prev (set_next h a v b) = el_prev (h b).
Proof. heap_case. Qed.
Lemma next_set_next h a v b : el_next (set_next h a v b) = if Nat.eqb b a then v else el_next (h b).
Proof. heap_case. Qed.
Lemma del_set_next h a v b : el_deleted (set_next h a v b) = el_deleted (h b).
Proof. heap_case. Qed.
Lemma prev_set_deleted h a v b : el_prev (set_deleted h a v b) = el_prev (h b).
Proof. heap_case. Qed.
Lemma next_set_deleted h a v b : el_next (set_deleted h a v b) = el_next (h b).
Proof. heap_case. Qed.
Lemma del_set_deleted h a v b : el_deleted (set_deleted h a v b) = if Nat.eqb b a then v else el_deleted (h b).
Proof. heap_case. Qed.
Lemma prev_set_expiry h a v b : el_prev (set_expiry h a v b) = el_prev (h b).
Proof. heap_case. Qed.
Lemma next_set_expiry h a v b : el_next (set_expiry h a v b) = el_next (h b).
Proof. heap_case. Qed.
Lemma del_set_expiry h a v b : el_deleted (set_expiry h a v b) = el_deleted (h b).
Proof. heap_case. Qed.

Ltac fields := repeat rewrite ?prev_set_prev, ?next_set_prev, ?del_set_prev, ?prev_set_next,
  ?next_set_next, ?del_set_next, ?prev_set_deleted, ?next_set_deleted, ?del_set_deleted,
  ?prev_set_expiry, ?next_set_expiry, ?del_set_expiry.

(** ** Linked sequences *)

Definition linked (h : heap) (l : dlist) (q : list nat) : Prop :=
  dl_head l = hd_error q /\ dl_tail l = lasto q /\ dl_len l = Z.of_nat (length q) /\
  forall l1 a l2, q = l1 ++ a :: l2 ->
    el_prev (h a) = lasto l1 /\ el_next (h a) = hd_error l2.

Lemma linked_walks_next h l q :
  linked h l q -> walks (fun a => el_next (h a)) (hd_error q) q.
Proof.
  intros (_ & _ & _ & H).
  assert (forall s p, q = p ++ s -> walks (fun a => el_next (h a)) (hd_error s) s) as G.
  { induction s as [|a s IH]; intros p E; cbn; constructor.
    destruct (H p a s E) as [_ ->]. apply (IH (p ++ [a])). rewrite <- app_assoc. exact E. }
  exact (G q [] eq_refl).
Qed.

Lemma linked_walks_prev h l q :
  linked h l q -> walks (fun a => el_prev (h a)) (lasto q) (rev q).
Proof.
  intros (_ & _ & _ & H).
  assert (forall s p, q = rev s ++ p -> walks (fun a => el_prev (h a)) (hd_error s) s) as G.
  { induction s as [|a s IH]; intros p E; cbn; constructor.
    cbn [rev] in E. rewrite <- app_assoc in E. cbn in E.
    destruct (H _ _ _ E) as [-> _]. unfold lasto. rewrite rev_involutive.
    apply (IH (a :: p)). exact E. }
  apply (G (rev q) []). rewrite rev_involutive, app_nil_r. reflexivity.
Qed.

Lemma linked_shows s q : linked (ls_heap s) (ls_list s) q -> shows s q.
Proof.
  intros H. pose proof H as (E1 & E2 & E3 & _). unfold shows. rewrite E1, E2. split; [|split].
  - eapply linked_walks_next; eassumption.
  - eapply linked_walks_prev; eassumption.
  - exact E3.
Qed.

(** a heap with the same links shows the same sequence *)
Lemma linked_ext h h' l q :
  (forall a, In a q -> el_prev (h' a) = el_prev (h a) /\ el_next (h' a) = el_next (h a)) ->
  linked h l q -> linked h' l q.
Proof.
  intros E (A & B' & C & D). repeat split; try assumption;
    destruct (E a) as [P N]; try (rewrite H; apply in_elt); rewrite ?P, ?N; eapply D; eassumption.
Qed.

Lemma split_app {A} (m1 m2 l1 l2 : list A) b :
  m1 ++ b :: m2 = l1 ++ l2 ->
  (exists k, l1 = m1 ++ b :: k /\ m2 = k ++ l2) \/ (exists k, l2 = k ++ b :: m2 /\ m1 = l1 ++ k).
Proof.
  revert l1. induction m1 as [|x m1 IH]; intros l1 H.
  - destruct l1 as [|y l1]; cbn in H.
    + right. exists []. split; [symmetry; exact H|reflexivity].
    + injection H as X Y. subst. left. exists l1. split; reflexivity.
  - destruct l1 as [|y l1]; cbn in H.
    + right. exists (x :: m1). split; [symmetry; exact H|reflexivity].
    + injection H as X Y. subst y. destruct (IH l1 Y) as [(k & E1 & E2)|(k & E1 & E2)].
      * left. exists k. split; [cbn; f_equal; exact E1|exact E2].
      * right. exists k. split; [exact E1|cbn; f_equal; exact E2].
Qed.

Lemma in_lasto q a : lasto q = Some a -> In a q.
Proof. intros H. apply lasto_some in H as [r ->]. apply in_elt. Qed.
Lemma in_hd (q : list nat) a : hd_error q = Some a -> In a q.
Proof. intros H. apply hd_some in H as [r ->]. left. reflexivity. Qed.

Lemma eqb_neq_in a b (q : list nat) : In a q -> ~ In b q -> Nat.eqb a b = false.
Proof. intros A B'. apply Nat.eqb_neq. intros ->. exact (B' A). Qed.

(** matcher/cache/list.go [remove] *)
Lemma unlink_linked s l1 e l2 mark :
  NoDup (l1 ++ e :: l2) -> linked (ls_heap s) (ls_list s) (l1 ++ e :: l2) ->
  let s' := unlink s e mark in
  linked (ls_heap s') (ls_list s') (l1 ++ l2) /\
  forall b, el_deleted (ls_heap s' b) = if Nat.eqb b e then mark else el_deleted (ls_heap s b).
Proof.
  intros ND (Hh & Ht & Hl & HL). cbn zeta. unfold unlink.
  destruct (HL l1 e l2 eq_refl) as [Ep En]. rewrite Ep, En.
  assert (NDs : ~ In e (l1 ++ l2)) by (apply NoDup_remove_2; exact ND).
  assert (ND' : NoDup (l1 ++ l2)) by (eapply NoDup_remove_1; exact ND).
  assert (dis : forall x, In x l1 -> In x l2 -> False).
  { intros x X1 X2. apply in_split in X1 as (u & v & ->). rewrite <- app_assoc in ND'.
    cbn in ND'. apply NoDup_remove_2 in ND'. apply ND'. rewrite !in_app_iff. tauto. }
  set (h := ls_heap s) in *. set (l := ls_list s) in *.
  assert (P : forall h2,
    (forall b, el_deleted (h2 b) = el_deleted (h b)) ->
    (forall b, In b (l1 ++ l2) -> el_prev (h2 b) =
       match hd_error l2 with Some n => if Nat.eqb b n then lasto l1 else el_prev (h b) | None => el_prev (h b) end) ->
    (forall b, In b (l1 ++ l2) -> el_next (h2 b) =
       match lasto l1 with Some p => if Nat.eqb b p then hd_error l2 else el_next (h b) | None => el_next (h b) end) ->
    forall hd tl, hd = hd_error (l1 ++ l2) -> tl = lasto (l1 ++ l2) ->
    linked (set_deleted (set_next (set_prev h2 e None) e None) e mark) (mk_dl hd tl (dl_len l - 1)) (l1 ++ l2) /\
    forall b, el_deleted (set_deleted (set_next (set_prev h2 e None) e None) e mark b) =
              if Nat.eqb b e then mark else el_deleted (h b)).
  { intros h2 D2 P2 N2 hd tl -> ->. split.
    - split; [reflexivity|]. split; [reflexivity|]. split.
      + cbn [dl_len]. rewrite Hl, !app_length. cbn. lia.
      + intros m1 b m2 E.
        assert (Ib : In b (l1 ++ l2)) by (rewrite E; apply in_elt).
        fields. rewrite (eqb_neq_in b e (l1 ++ l2)) by assumption.
        rewrite (P2 b Ib), (N2 b Ib).
        symmetry in E. apply split_app in E as [(k & E1 & E2)|(k & E1 & E2)].
        * (* b in l1 *)
          assert (Ob : l1 ++ e :: l2 = m1 ++ b :: (k ++ e :: l2)) by (rewrite E1, <- app_assoc; reflexivity).
          destruct (HL _ _ _ Ob) as [O1 O2].
          assert (I1 : In b l1) by (rewrite E1; apply in_elt).
          split.
          -- destruct (hd_error l2) as [n|] eqn:En2; [|exact O1].
             rewrite (eqb_neq_in b n l1); [exact O1|exact I1|].
             intros X. exact (dis n X (in_hd _ _ En2)).
          -- destruct k as [|k0 k].
             ++ rewrite E1, lasto_snoc, Nat.eqb_refl. rewrite E2. reflexivity.
             ++ destruct (lasto l1) as [p|] eqn:El1.
                ** assert (In p (k0 :: k)) as Ipk.
                   { rewrite E1 in El1.
                     replace (m1 ++ b :: k0 :: k) with ((m1 ++ [b]) ++ (k0 :: k)) in El1 by (rewrite <- app_assoc; reflexivity).
                     rewrite lasto_app in El1 by discriminate. apply in_lasto. exact El1. }
                   assert (b <> p) as Nbp.
                   { intros ->. rewrite Ob in ND. apply NoDup_remove_2 in ND. apply ND.
                     rewrite !in_app_iff. tauto. }
                   apply Nat.eqb_neq in Nbp. rewrite Nbp, O2, E2. reflexivity.
                ** rewrite O2, E2. reflexivity.
        * (* b in l2 *)
          assert (Ob : l1 ++ e :: l2 = (l1 ++ e :: k) ++ b :: m2) by (rewrite E1, <- app_assoc; reflexivity).
          destruct (HL _ _ _ Ob) as [O1 O2].
          assert (I2 : In b l2) by (rewrite E1; apply in_elt).
          split.
          -- destruct k as [|k0 k].
             ++ rewrite E1. cbn [hd_error app]. rewrite Nat.eqb_refl. rewrite E2, app_nil_r. reflexivity.
             ++ rewrite E1. cbn [hd_error app].
                assert (b <> k0) as Nb.
                { intros ->. rewrite Ob in ND. apply NoDup_remove_2 in ND. apply ND.
                  rewrite !in_app_iff. cbn. tauto. }
                apply Nat.eqb_neq in Nb. rewrite Nb, O1, E2.
                replace (l1 ++ e :: k0 :: k) with ((l1 ++ [e]) ++ (k0 :: k)) by (rewrite <- app_assoc; reflexivity).
                rewrite !lasto_app by discriminate. reflexivity.
          -- destruct (lasto l1) as [p|] eqn:El1; [|exact O2].
             rewrite (eqb_neq_in b p l2); [exact O2|exact I2|].
             intros X. exact (dis p (in_lasto _ _ El1) X).
    - intros b. fields. rewrite D2. reflexivity. }
  assert (headeq : match lasto l1 with None => hd_error l2 | Some _ => dl_head l end = hd_error (l1 ++ l2)).
  { destruct (lasto l1) as [p|] eqn:E.
    - rewrite Hh. assert (l1 <> []) as Nl by (intros ->; discriminate).
      rewrite (hd_app l1 (e :: l2) Nl), (hd_app l1 l2 Nl). reflexivity.
    - apply lasto_none in E as ->. reflexivity. }
  assert (taileq : match hd_error l2 with None => lasto l1 | Some _ => dl_tail l end = lasto (l1 ++ l2)).
  { destruct (hd_error l2) as [n|] eqn:E.
    - rewrite Ht. apply hd_some in E as [r ->].
      replace (l1 ++ e :: n :: r) with ((l1 ++ [e]) ++ n :: r) by (rewrite <- app_assoc; reflexivity).
      rewrite !lasto_app by discriminate. reflexivity.
    - apply hd_none in E as ->. rewrite app_nil_r. reflexivity. }
  destruct (lasto l1) as [p|] eqn:El1; destruct (hd_error l2) as [n|] eqn:El2;
    cbn [ls_heap ls_list]; apply P; try assumption; intros b; intros; fields; try reflexivity.
Qed.

Lemma push_front_linked s e q :
  el_deleted (ls_heap s e) = false -> ~ In e q -> NoDup q ->
  linked (ls_heap s) (ls_list s) q ->
  let s' := push_front s (Some e) in
  linked (ls_heap s') (ls_list s') (e :: q) /\
  forall b, el_deleted (ls_heap s' b) = el_deleted (ls_heap s b).
Proof.
  intros D Ni ND (Hh & Ht & Hl & HL). cbn zeta. unfold push_front. rewrite D, Hh.
  destruct q as [|x q]; cbn [hd_error].
  - split; [|intros b; cbn [ls_heap]; fields; reflexivity].
    cbn [ls_heap ls_list]. split; [reflexivity|]. split; [reflexivity|].
    split; [cbn [dl_len]; rewrite Hl; reflexivity|].
    intros l1 a l2 E. destruct l1 as [|y l1]; cbn in E.
    + injection E as X Y. subst. fields. rewrite Nat.eqb_refl. split; reflexivity.
    + injection E as X Y. destruct l1; discriminate.
  - split; [|intros b; cbn [ls_heap]; fields; reflexivity].
    cbn [ls_heap ls_list]. split; [reflexivity|]. split.
    { cbn [dl_tail]. rewrite Ht. symmetry. apply (lasto_app [e]). discriminate. }
    split; [cbn [dl_len]; rewrite Hl; cbn [length]; lia|].
    intros l1 a l2 E. destruct l1 as [|y l1]; cbn [app] in E.
    + injection E as X Y. subst. fields. rewrite Nat.eqb_refl.
      destruct (Nat.eqb_spec a x) as [->|_]; [exfalso; apply Ni; left; reflexivity|].
      split; reflexivity.
    + injection E as X Y. subst y.
      destruct (HL _ _ _ Y) as [O1 O2].
      assert (In a (x :: q)) as Ia by (rewrite Y; apply in_elt).
      assert (a <> e) as Nae by (intros ->; exact (Ni Ia)).
      fields. apply Nat.eqb_neq in Nae. rewrite Nae. split.
      * destruct l1 as [|y l1]; cbn in Y.
        -- injection Y as X _. subst. rewrite Nat.eqb_refl. reflexivity.
        -- injection Y as X Y. subst y.
           destruct (Nat.eqb_spec a x) as [->|_].
           ++ exfalso. rewrite Y in ND. apply NoDup_cons_iff in ND as [ND _]. apply ND. apply in_elt.
           ++ rewrite O1. symmetry. apply (lasto_app [e]). discriminate.
      * exact O2.
Qed.

Lemma push_back_linked s e q :
  el_deleted (ls_heap s e) = false -> ~ In e q -> NoDup q ->
  linked (ls_heap s) (ls_list s) q ->
  let s' := push_back s (Some e) in
  linked (ls_heap s') (ls_list s') (q ++ [e]) /\
  forall b, el_deleted (ls_heap s' b) = el_deleted (ls_heap s b).
Proof.
  intros D Ni ND (Hh & Ht & Hl & HL). cbn zeta. unfold push_back. rewrite D, Ht.
  destruct (lasto q) as [x|] eqn:Eq.
  - split; [|intros b; cbn [ls_heap]; fields; reflexivity].
    cbn [ls_heap ls_list]. split.
    { cbn [dl_head]. rewrite Hh. symmetry. apply hd_app. intros ->. discriminate. }
    split; [rewrite lasto_snoc; reflexivity|].
    split; [cbn [dl_len]; rewrite Hl, app_length; cbn [length]; lia|].
    apply lasto_some in Eq as [r Eq].
    intros l1 a l2 E. symmetry in E. apply split_app in E as [(k & E1 & E2)|(k & E1 & E2)].
    + destruct (HL _ _ _ E1) as [O1 O2].
      assert (In a q) as Ia by (rewrite E1; apply in_elt).
      assert (a <> e) as Nae by (intros ->; exact (Ni Ia)).
      fields. apply Nat.eqb_neq in Nae. rewrite Nae. split; [exact O1|].
      destruct (Nat.eqb_spec a x) as [->|Nax].
      * destruct k as [|k0 k]; [rewrite E2; reflexivity|]. exfalso.
        rewrite E1 in ND. apply NoDup_remove_2 in ND. apply ND.
        assert (lasto (l1 ++ x :: k0 :: k) = Some x) as W by (rewrite <- E1, Eq; apply lasto_snoc).
        replace (l1 ++ x :: k0 :: k) with ((l1 ++ [x]) ++ k0 :: k) in W by (rewrite <- app_assoc; reflexivity).
        rewrite lasto_app in W by discriminate. apply in_lasto in W. rewrite in_app_iff. tauto.
      * rewrite O2, E2. destruct k as [|k0 k]; [|reflexivity]. exfalso. apply Nax.
        assert (lasto (l1 ++ [a]) = Some x) as W by (rewrite <- E1, Eq; apply lasto_snoc).
        rewrite lasto_snoc in W. congruence.
    + destruct k as [|k0 k].
      * cbn in E1. injection E1 as X Y. subst a l2. rewrite app_nil_r in E2. subst l1.
        fields. rewrite Nat.eqb_refl.
        destruct (Nat.eqb_spec e x) as [->|_]; [exfalso; apply Ni; rewrite Eq; apply in_elt|].
        rewrite Eq, lasto_snoc. split; reflexivity.
      * cbn in E1. injection E1 as X Y. destruct k; discriminate.
  - apply lasto_none in Eq. subst q.
    split; [|intros b; cbn [ls_heap]; fields; reflexivity].
    cbn [ls_heap ls_list]. split; [reflexivity|]. split; [reflexivity|].
    split; [cbn [dl_len]; rewrite Hl; reflexivity|].
    intros l1 a l2 E. destruct l1 as [|y l1]; cbn in E.
    + injection E as X Y. subst. fields. rewrite Nat.eqb_refl. split; reflexivity.
    + injection E as X Y. destruct l1; discriminate.
Qed.

(** ** The refinement *)

Definition refines (s : lstate) (x : abs_list) : Prop :=
  NoDup (known x) /\ linked (ls_heap s) (ls_list s) (al_seq x) /\
  (forall a, In a (al_gone x) -> el_deleted (ls_heap s a) = true) /\
  (forall a, In a (al_seq x ++ al_fresh x) -> el_deleted (ls_heap s a) = false).

Lemma memb_in a q : memb a q = true <-> In a q.
Proof.
  unfold memb. rewrite existsb_exists. split.
  - intros (b & Hb & E). apply Nat.eqb_eq in E. subst. exact Hb.
  - intros H. exists a. split; [exact H|apply Nat.eqb_refl].
Qed.

Lemma memb_not_in a q : memb a q = false <-> ~ In a q.
Proof.
  rewrite <- memb_in. destruct (memb a q); split; intros H; congruence.
Qed.

Lemma drop_in a b q : In b (drop_elem a q) <-> In b q /\ b <> a.
Proof.
  unfold drop_elem. rewrite filter_In. rewrite negb_true_iff, Nat.eqb_neq. reflexivity.
Qed.

Lemma drop_nodup a q : NoDup q -> NoDup (drop_elem a q).
Proof. apply NoDup_filter. Qed.

Lemma drop_not_in a q : ~ In a q -> drop_elem a q = q.
Proof.
  induction q as [|b q IH]; intros H; [reflexivity|]. cbn.
  destruct (Nat.eqb_spec b a) as [->|N]; cbn.
  - exfalso. apply H. left. reflexivity.
  - f_equal. apply IH. intros X. apply H. right. exact X.
Qed.

Lemma drop_split a l1 l2 : NoDup (l1 ++ a :: l2) -> drop_elem a (l1 ++ a :: l2) = l1 ++ l2.
Proof.
  intros H. pose proof (NoDup_remove_2 _ _ _ H) as N.
  unfold drop_elem. rewrite filter_app. cbn. rewrite Nat.eqb_refl. cbn.
  change (drop_elem a l1 ++ drop_elem a l2 = l1 ++ l2).
  rewrite !drop_not_in; [reflexivity| |]; intros X; apply N; rewrite in_app_iff; tauto.
Qed.

Lemma nodup_app {A} (p q : list A) :
  NoDup (p ++ q) <-> NoDup p /\ NoDup q /\ (forall x, In x p -> In x q -> False).
Proof.
  induction p as [|a p IH]; cbn.
  - split; [intros H; split; [constructor|split; [exact H|tauto]]|tauto].
  - rewrite !NoDup_cons_iff, IH, in_app_iff. split.
    + intros (H1 & H2 & H3 & H4). split; [tauto|]. split; [exact H3|].
      intros x [->|X] Y; [tauto|eauto].
    + intros ((H1 & H2) & H3 & H4). split; [|split; [exact H2|split; [exact H3|eauto]]].
      intros [X|X]; [tauto|eauto].
Qed.

Lemma known_nodup x :
  NoDup (known x) <->
  NoDup (al_seq x) /\ NoDup (al_fresh x) /\ NoDup (al_gone x) /\
  (forall a, In a (al_seq x) -> In a (al_fresh x) -> False) /\
  (forall a, In a (al_seq x) -> In a (al_gone x) -> False) /\
  (forall a, In a (al_fresh x) -> In a (al_gone x) -> False).
Proof.
  unfold known. rewrite !nodup_app. split.
  - intros (H1 & (H2 & H3 & H4) & H5). repeat split; try assumption;
      intros a X Y; apply (H5 a X); rewrite in_app_iff; tauto.
  - intros (H1 & H2 & H3 & H4 & H5 & H6). repeat split; try assumption.
    intros a X Y. rewrite in_app_iff in Y. destruct Y; eauto.
Qed.

Lemma push_step s x a q' :
  refines s x -> In a (al_fresh x) ->
  (forall b, In b q' <-> b = a \/ In b (al_seq x)) -> NoDup q' ->
  forall s', linked (ls_heap s') (ls_list s') q' ->
  (forall b, el_deleted (ls_heap s' b) = el_deleted (ls_heap s b)) ->
  refines s' (mk_al q' (drop_elem a (al_fresh x)) (al_gone x)).
Proof.
  intros (K & L & G & S) F Q ND s' L' D'. rewrite known_nodup in K.
  destruct K as (K1 & K2 & K3 & K4 & K5 & K6).
  split; [|split; [exact L'|split]].
  - rewrite known_nodup. cbn [al_seq al_fresh al_gone]. repeat split.
    + exact ND.
    + apply drop_nodup. exact K2.
    + exact K3.
    + intros b X Y. apply drop_in in Y as [Y N]. apply Q in X as [->|X]; [tauto|eauto].
    + intros b X Y. apply Q in X as [->|X]; eauto.
    + intros b X Y. apply drop_in in X as [X N]. eauto.
  - cbn [al_gone]. intros b H. rewrite D'. apply G. exact H.
  - cbn [al_seq al_fresh]. intros b H. rewrite D'. apply S. rewrite in_app_iff in *.
    destruct H as [H|H].
    + apply Q in H as [->|H]; tauto.
    + apply drop_in in H. tauto.
Qed.

Lemma step_refines s x c :
  refines s x -> allowed x c -> refines (list_step s c) (abs_step x c).
Proof.
  intros R A. pose proof R as (K & L & G & S).
  pose proof K as K'. rewrite known_nodup in K'. destruct K' as (K1 & K2 & K3 & K4 & K5 & K6).
  destruct c as [a ns id r|[a|]|[a|]|[a|]|[a|]|a t]; cbn [list_step abs_step allowed] in *; try exact R.
  - (* new *)
    assert (forall b, In b (known x) -> upd (ls_heap s) a (new_element ns id r) b = ls_heap s b) as U.
    { intros b Hb. apply upd_other. intros ->. exact (A Hb). }
    assert (N : ~ In a (al_seq x) /\ ~ In a (al_fresh x) /\ ~ In a (al_gone x)).
    { unfold known in A. rewrite !in_app_iff in A. tauto. }
    split; [|split; [|split]].
    + rewrite known_nodup. cbn [al_seq al_fresh al_gone]. repeat split; try assumption.
      * constructor; tauto.
      * intros b X [<-|Y]; [tauto|eauto].
      * intros b [<-|X] Y; [tauto|eauto].
    + cbn [ls_heap ls_list al_seq]. eapply linked_ext; [|exact L].
      intros b Hb. rewrite U by (unfold known; rewrite in_app_iff; tauto). split; reflexivity.
    + cbn [ls_heap al_gone]. intros b Hb. rewrite U by (unfold known; rewrite !in_app_iff; tauto). auto.
    + cbn [ls_heap al_seq al_fresh]. intros b Hb. rewrite in_app_iff in Hb. cbn [In] in Hb.
      destruct (Nat.eq_dec b a) as [->|Nb]; [rewrite upd_same; reflexivity|].
      rewrite upd_other by exact Nb. apply S. rewrite in_app_iff. destruct Hb as [Hb|[Hb|Hb]]; auto. congruence.
  - (* push front *)
    destruct (memb a (al_gone x)) eqn:M.
    + apply memb_in in M. unfold push_front. rewrite (G a M). exact R.
    + apply memb_not_in in M. destruct A as [A|A]; [|tauto].
      assert (Na : ~ In a (al_seq x)) by eauto.
      assert (Da : el_deleted (ls_heap s a) = false) by (apply S; rewrite in_app_iff; tauto).
      destruct (push_front_linked s a (al_seq x) Da Na K1 L) as [L' D'].
      eapply push_step; try eassumption.
      * intros b. cbn. split; intros [X|X]; auto.
      * constructor; assumption.
  - (* push back *)
    destruct (memb a (al_gone x)) eqn:M.
    + apply memb_in in M. unfold push_back. rewrite (G a M). exact R.
    + apply memb_not_in in M. destruct A as [A|A]; [|tauto].
      assert (Na : ~ In a (al_seq x)) by eauto.
      assert (Da : el_deleted (ls_heap s a) = false) by (apply S; rewrite in_app_iff; tauto).
      destruct (push_back_linked s a (al_seq x) Da Na K1 L) as [L' D'].
      eapply push_step; try eassumption.
      * intros b. rewrite in_app_iff. cbn. intuition congruence.
      * rewrite nodup_app. repeat split; [exact K1|repeat constructor; tauto|].
        cbn. intros b X [<-|[]]. exact (Na X).
  - (* remove *)
    unfold list_remove. destruct (memb a (al_gone x)) eqn:M.
    + apply memb_in in M. rewrite (G a M). exact R.
    + apply memb_not_in in M. destruct A as [A|A]; [|tauto].
      assert (Da : el_deleted (ls_heap s a) = false) by (apply S; rewrite in_app_iff; tauto).
      rewrite Da. apply in_split in A as (l1 & l2 & E). rewrite E in L, K1.
      destruct (unlink_linked s l1 a l2 true K1 L) as [L' D'].
      rewrite E, drop_split by exact K1.
      split; [|split; [exact L'|split]].
      * rewrite known_nodup. cbn [al_seq al_fresh al_gone]. repeat split; try assumption.
        -- eapply NoDup_remove_1. exact K1.
        -- constructor; assumption.
        -- intros b X Y. apply (K4 b); [rewrite E, in_app_iff in *; cbn; tauto|exact Y].
        -- intros b X [<-|Y].
           ++ exact (NoDup_remove_2 _ _ _ K1 X).
           ++ apply (K5 b); [rewrite E, in_app_iff in *; cbn; tauto|exact Y].
        -- intros b X [<-|Y]; [|eauto]. apply (K4 a); [rewrite E; apply in_elt|exact X].
      * cbn [al_gone]. intros b [<-|H]; rewrite D'; [rewrite Nat.eqb_refl; reflexivity|].
        destruct (Nat.eqb b a); [reflexivity|]. auto.
      * cbn [al_seq al_fresh]. intros b H. rewrite D'.
        destruct (Nat.eqb_spec b a) as [->|N].
        -- exfalso. apply in_app_iff in H as [H|H].
           ++ exact (NoDup_remove_2 _ _ _ K1 H).
           ++ apply (K4 a); [rewrite E; apply in_elt|exact H].
        -- apply S. rewrite E. rewrite !in_app_iff in *. cbn. tauto.
  - (* move to front *)
    unfold move_to_front. destruct (memb a (al_gone x)) eqn:M.
    + apply memb_in in M. rewrite (G a M). exact R.
    + apply memb_not_in in M. destruct A as [A|A]; [|tauto].
      assert (Da : el_deleted (ls_heap s a) = false) by (apply S; rewrite in_app_iff; tauto).
      rewrite Da. apply in_split in A as (l1 & l2 & E). rewrite E in L, K1.
      destruct (unlink_linked s l1 a l2 false K1 L) as [L' D'].
      rewrite E, drop_split by exact K1.
      pose proof (NoDup_remove_2 _ _ _ K1) as Na. pose proof (NoDup_remove_1 _ _ _ K1) as N1.
      assert (Da' : el_deleted (ls_heap (unlink s a false) a) = false)
        by (rewrite D', Nat.eqb_refl; reflexivity).
      destruct (push_front_linked (unlink s a false) a (l1 ++ l2) Da' Na N1 L') as [L'' D''].
      assert (Q : forall b, In b (a :: l1 ++ l2) <-> In b (al_seq x)).
      { intros b. rewrite E. cbn [In]. rewrite !in_app_iff. cbn. tauto. }
      split; [|split; [exact L''|split]].
      * rewrite known_nodup. cbn [al_seq al_fresh al_gone]. repeat split; try assumption.
        -- constructor; assumption.
        -- intros b X. apply Q in X. eauto.
        -- intros b X. apply Q in X. eauto.
      * cbn [al_gone]. intros b H. rewrite D'', D'.
        destruct (Nat.eqb_spec b a) as [->|N]; [exfalso; exact (M H)|auto].
      * cbn [al_seq al_fresh]. intros b H. rewrite D'', D'.
        destruct (Nat.eqb b a); [reflexivity|]. apply S. rewrite in_app_iff in *.
        destruct H as [H|H]; [left; apply Q; exact H|tauto].
  - (* expiry *)
    split; [exact K|]. split; [|split].
    + cbn [ls_heap ls_list]. eapply linked_ext; [|exact L]. intros b _. fields. split; reflexivity.
    + intros b H. cbn [ls_heap]. fields. auto.
    + intros b H. cbn [ls_heap]. fields. auto.
Qed.

Lemma run_refines cs : forall s x,
  refines s x -> all_allowed x cs -> refines (list_run s cs) (abs_run x cs).
Proof.
  induction cs as [|c cs IH]; intros s x R A; [exact R|].
  destruct A as [A1 A2]. cbn. apply IH; [apply step_refines; assumption|exact A2].
Qed.

Lemma empty_refines h : refines (mk_ls h empty_dlist) abs_empty.
Proof.
  split; [constructor|]. split; [|split].
  - split; [reflexivity|]. split; [reflexivity|]. split; [reflexivity|].
    intros l1 a l2 E. destruct l1; discriminate.
  - intros a [].
  - intros a [].
Qed.

Lemma list_is_sequence h cs :
  all_allowed abs_empty cs ->
  let s := list_run (mk_ls h empty_dlist) cs in
  let x := abs_run abs_empty cs in
  shows s (al_seq x) /\ NoDup (al_seq x) /\
  (forall a, In a (al_seq x) -> el_deleted (ls_heap s a) = false /\ ~ In a (al_gone x)) /\
  (forall a, In a (al_gone x) -> el_deleted (ls_heap s a) = true).
Proof.
  intros A s x.
  destruct (run_refines cs _ _ (empty_refines h) A) as (K & L & G & S). fold s x in K, L, G, S.
  rewrite known_nodup in K. destruct K as (K1 & K2 & K3 & K4 & K5 & K6).
  split; [apply linked_shows; exact L|]. split; [exact K1|]. split; [|exact G].
  intros a H. split; [apply S; rewrite in_app_iff; tauto|eauto].
Qed.

(** a walk determines what it visits, so [shows] fixes the sequence *)
Lemma walks_unique next a q q' : walks next a q -> walks next a q' -> q = q'.
Proof.
  intros H. revert q'. induction H as [|a s H IH]; intros q' H'; inversion H'; subst.
  - reflexivity.
  - f_equal. apply IH. assumption.
Qed.

Lemma shows_unique s q q' : shows s q -> shows s q' -> q = q'.
Proof. intros (H & _) (H' & _). eapply walks_unique; eassumption. Qed.

(** removed elements stay removed *)
Lemma gone_stays cs : forall x a, In a (al_gone x) -> In a (al_gone (abs_run x cs)).
Proof.
  induction cs as [|c cs IH]; intros x a H; [exact H|]. cbn. apply IH.
  destruct c as [b ns id r|[b|]|[b|]|[b|]|[b|]|b t]; cbn; try exact H;
    destruct (memb b (al_gone x)); cbn; auto.
Qed.

Lemma gone_no_op s x c a :
  refines s x -> In a (al_gone x) ->
  c = LPushFront (Some a) \/ c = LPushBack (Some a) \/ c = LRemove (Some a) \/ c = LMoveToFront (Some a) ->
  list_step s c = s.
Proof.
  intros (_ & _ & G & _) H C. specialize (G a H).
  destruct C as [-> | [-> | [-> | ->]]]; cbn; unfold push_front, push_back, list_remove, move_to_front;
    rewrite G; reflexivity.
Qed.

Lemma removed_for_good h cs a cs' :
  all_allowed abs_empty (cs ++ cs') -> In a (al_gone (abs_run abs_empty cs)) ->
  ~ In a (al_seq (abs_run abs_empty (cs ++ cs'))) /\
  forall c, c = LPushFront (Some a) \/ c = LPushBack (Some a) \/ c = LRemove (Some a) \/ c = LMoveToFront (Some a) ->
    list_step (list_run (mk_ls h empty_dlist) (cs ++ cs')) c = list_run (mk_ls h empty_dlist) (cs ++ cs').
Proof.
  intros A H.
  assert (In a (al_gone (abs_run abs_empty (cs ++ cs')))) as H'.
  { unfold abs_run. rewrite fold_left_app. apply gone_stays. exact H. }
  pose proof (run_refines (cs ++ cs') _ _ (empty_refines h) A) as R. split.
  - destruct (list_is_sequence h _ A) as (_ & _ & X & _). intros Y. apply X in Y. tauto.
  - intros c C. eapply gone_no_op; eassumption.
Qed.
