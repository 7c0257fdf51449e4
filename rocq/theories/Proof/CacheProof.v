(** The cache serves what its sources returned, refreshes purge, evictions
    remove the least recently promoted elements. *)
From Coq Require Import Arith ZArith Bool Lia List.
From Verif Require Import Base.Bytes Base.BytesFacts Base.BMap Base.BMapFacts
  Model.Rules Model.CacheList Model.Cache Spec.CacheListSpec Spec.CacheSpec Proof.CacheListProof.
Import ListNotations.
Local Open Scope nat_scope.

(** ** Traces *)

Lemma registered_app tr tr' ns :
  registered (tr ++ tr') ns = fold_left (registered_step ns) tr' (registered tr ns).
Proof. unfold registered. apply fold_left_app. Qed.

Lemma uncleared_snoc t1 ns t2 e :
  uncleared t1 ns t2 -> ~ clears (t1 ++ t2) ns e -> uncleared t1 ns (t2 ++ [e]).
Proof.
  intros H C u e' v E. symmetry in E.
  apply split_app in E as [(k & E1 & E2)|(k & E1 & E2)].
  - exact (H _ _ _ E1).
  - destruct k as [|k0 k]; cbn in E1.
    + injection E1 as X Y. subst. rewrite app_nil_r. exact C.
    + injection E1 as X Y. destruct k; discriminate.
Qed.

Definition answered (tr : list event) (ns : bytes) (s : nat) (id : bytes) (res : match_result) : Prop :=
  exists t1 f t t2, tr = t1 ++ EvSource ns s id f t res :: t2 /\
    uncleared (t1 ++ [EvSource ns s id f t res]) ns t2.

Lemma answered_snoc tr ns s id res e :
  answered tr ns s id res -> ~ clears tr ns e -> answered (tr ++ [e]) ns s id res.
Proof.
  intros (t1 & f & t & t2 & E & U) C. exists t1, f, t, (t2 ++ [e]). split.
  - rewrite E, <- app_assoc. reflexivity.
  - apply uncleared_snoc; [exact U|]. rewrite <- app_assoc. cbn. rewrite <- E. exact C.
Qed.

Lemma uncleared_nil t ns : uncleared t ns [].
Proof. intros u e v E. destruct u; discriminate. Qed.

Lemma answered_now tr ns s id f t res : answered (tr ++ [EvSource ns s id f t res]) ns s id res.
Proof. exists tr, f, t, []. split; [reflexivity|apply uncleared_nil]. Qed.

Lemma more_recent_snoc P tr a b e :
  more_recent P tr a b -> ~ P e b -> more_recent P (tr ++ [e]) a b.
Proof.
  intros (t1 & x & t2 & E & Pa & N) C. exists t1, x, (t2 ++ [e]). repeat split.
  - rewrite E, <- app_assoc. reflexivity.
  - exact Pa.
  - intros e' H. apply in_app_iff in H as [H|[<-|[]]]; auto.
Qed.

Lemma latest_first_snoc P tr q e :
  latest_first P tr q -> (forall b, In b q -> ~ P e b) -> latest_first P (tr ++ [e]) q.
Proof.
  intros H N l1 a l2 b l3 E. apply more_recent_snoc; [eapply H; exact E|].
  apply N. rewrite E. rewrite in_app_iff. right. right. apply in_elt.
Qed.

Lemma latest_first_drop P tr l1 x l2 :
  latest_first P tr (l1 ++ x :: l2) -> latest_first P tr (l1 ++ l2).
Proof.
  intros H m1 a m2 b m3 E. symmetry in E.
  apply split_app in E as [(k & E1 & E2)|(k & E1 & E2)].
  - apply split_app in E2 as [(k2 & E3 & E4)|(k2 & E3 & E4)].
    + apply (H m1 a m2 b (k2 ++ x :: l2)). rewrite E1, E3. repeat (rewrite <- app_assoc; cbn). reflexivity.
    + apply (H m1 a (k ++ x :: k2) b m3). rewrite E1, E3. repeat (rewrite <- app_assoc; cbn). reflexivity.
  - apply (H (l1 ++ x :: k) a m2 b m3). rewrite E1, <- app_assoc. reflexivity.
Qed.

(** a new latest element in front *)
Lemma latest_first_cons P tr q a e :
  latest_first P tr q -> P e a -> (forall b, In b q -> ~ P e b) -> latest_first P (tr ++ [e]) (a :: q).
Proof.
  intros H Pa N l1 x l2 b l3 E. destruct l1 as [|y l1]; cbn in E.
  - injection E as X Y. subst x. exists tr, e, []. repeat split; [exact Pa|intros e' []].
  - injection E as X Y. apply more_recent_snoc; [eapply H; exact Y|].
    apply N. rewrite Y. rewrite in_app_iff. right. right. apply in_elt.
Qed.

(** ** What the operations of the list leave alone *)

Definition same_payload (h h' : heap) : Prop :=
  forall a, el_ns (h' a) = el_ns (h a) /\ el_id (h' a) = el_id (h a) /\ el_result (h' a) = el_result (h a).

Lemma same_payload_refl h : same_payload h h.
Proof. intros a. repeat split. Qed.
Lemma same_payload_trans h1 h2 h3 : same_payload h1 h2 -> same_payload h2 h3 -> same_payload h1 h3.
Proof.
  intros H1 H2 a. destruct (H1 a) as (A & B' & C), (H2 a) as (D & E & F).
  repeat split; congruence.
Qed.
Lemma set_prev_payload h a v : same_payload h (set_prev h a v).
Proof. intros b. unfold set_prev, upd. destruct (Nat.eqb_spec b a) as [->|_]; repeat split. Qed.
Lemma set_next_payload h a v : same_payload h (set_next h a v).
Proof. intros b. unfold set_next, upd. destruct (Nat.eqb_spec b a) as [->|_]; repeat split. Qed.
Lemma set_deleted_payload h a v : same_payload h (set_deleted h a v).
Proof. intros b. unfold set_deleted, upd. destruct (Nat.eqb_spec b a) as [->|_]; repeat split. Qed.
Lemma set_expiry_payload h a v : same_payload h (set_expiry h a v).
Proof. intros b. unfold set_expiry, upd. destruct (Nat.eqb_spec b a) as [->|_]; repeat split. Qed.

Ltac payload := repeat (first [ apply same_payload_refl
  | eapply same_payload_trans; [|apply set_prev_payload]
  | eapply same_payload_trans; [|apply set_next_payload]
  | eapply same_payload_trans; [|apply set_deleted_payload]
  | eapply same_payload_trans; [|apply set_expiry_payload] ]).

Lemma push_front_payload s e : same_payload (ls_heap s) (ls_heap (push_front s e)).
Proof.
  destruct e as [e|]; cbn; [|payload]. destruct (el_deleted _); [payload|].
  destruct (dl_head _); cbn [ls_heap]; payload.
Qed.

Lemma unlink_payload s e m : same_payload (ls_heap s) (ls_heap (unlink s e m)).
Proof.
  unfold unlink. destruct (el_prev _), (el_next _); cbn [ls_heap]; payload.
Qed.

Lemma remove_payload s e : same_payload (ls_heap s) (ls_heap (list_remove s e)).
Proof.
  destruct e as [e|]; cbn; [|payload]. destruct (el_deleted _); [payload|]. apply unlink_payload.
Qed.

Lemma move_payload s e : same_payload (ls_heap s) (ls_heap (move_to_front s e)).
Proof.
  destruct e as [e|]; unfold move_to_front; [|payload]. destruct (el_deleted _); [payload|].
  eapply same_payload_trans; [apply unlink_payload|apply push_front_payload].
Qed.

Definition promote_calls (a : nat) (t : Z) : list list_call := [LSetExpiry a t; LMoveToFront (Some a)].

Lemma promote_payload s a t : same_payload (ls_heap s) (ls_heap (list_run s (promote_calls a t))).
Proof.
  cbn [list_run promote_calls fold_left list_step].
  eapply same_payload_trans; [|apply move_payload]. cbn [ls_heap]. payload.
Qed.

(** ** The invariant *)

Definition reg_ok (h : heap) (q dead : list nat) (tr : list event) (ns : bytes) (r : results) : Prop :=
  registered tr ns = Some (r_source r) /\
  forall id a, In (id, a) (r_elems r) ->
    In a q /\ el_ns (h a) = ns /\ el_id (h a) = id /\ ~ In a dead /\
    answered tr ns (r_source r) id (el_result (h a)).

Definition in_maps (m : bmap results) (a : nat) : Prop :=
  exists ns r id, In (ns, r) m /\ In (id, a) (r_elems r).

Record inv (s : lstate) (q g : list nat) (al : nat) (m : bmap results) (dead rd : list nat)
    (tr : list event) : Prop := mk_inv {
  i_ref : refines s (mk_al q [] g);
  i_al : forall a, In a (q ++ g) <-> a < al;
  i_dead : forall a, In a dead -> a < al;
  i_reg : forall ns r, In (ns, r) m -> reg_ok (ls_heap s) q dead tr ns r;
  i_none : forall ns, (forall r, ~ In (ns, r) m) -> registered tr ns = None;
  i_rd : forall a, In a rd -> in_maps m a;
  i_ord : latest_first promotes tr q }.

Lemma inv_init h : inv (mk_ls h empty_dlist) [] [] 0 [] [] [] [].
Proof.
  constructor.
  - apply empty_refines.
  - intros a. cbn. split; [tauto|lia].
  - intros a [].
  - intros ns r [].
  - reflexivity.
  - intros a [].
  - intros l1 a l2 b l3 E. destruct l1; discriminate.
Qed.

(** an event that is neither a promotion nor clears anything *)
Lemma inv_event s q g al m dead rd tr e :
  inv s q g al m dead rd tr ->
  (forall ns cur, registered_step ns cur e = cur) -> (forall ns, ~ clears tr ns e) ->
  (forall a, ~ promotes e a) ->
  inv s q g al m dead rd (tr ++ [e]).
Proof.
  intros [] R C P. constructor; try assumption.
  - intros ns r Hr. destruct (i_reg0 ns r Hr) as [A B']. split.
    + rewrite registered_app. cbn. rewrite R. exact A.
    + intros id a H. destruct (B' id a H) as (B1 & B2 & B3 & B4 & B5).
      repeat split; try assumption. apply answered_snoc; auto.
  - intros ns H. rewrite registered_app. cbn. rewrite R. auto.
  - apply latest_first_snoc; [assumption|]. intros b _. apply P.
Qed.

(** the parts that only matter as sets *)
Lemma inv_sets s q g al m dead rd dead' rd' tr :
  inv s q g al m dead rd tr ->
  (forall a, In a dead' -> In a dead) -> (forall a, In a rd' -> In a rd) ->
  inv s q g al m dead' rd' tr.
Proof.
  intros [] D R. constructor; auto.
  intros ns r Hr. destruct (i_reg0 ns r Hr) as [A B']. split; [exact A|].
  intros id a H. destruct (B' id a H) as (B1 & B2 & B3 & B4 & B5). repeat split; auto.
Qed.

Lemma known_seq q g : known (mk_al q [] g) = q ++ g.
Proof. reflexivity. Qed.

(** promotion of an element of the list *)
Lemma inv_promote s q g al m dead rd tr a t w :
  inv s q g al m dead rd tr -> In a q ->
  exists q', (forall b, In b q' <-> In b q) /\ q' = a :: drop_elem a q /\
    inv (list_run s (promote_calls a t)) q' g al m dead rd (tr ++ [EvPromote a w]).
Proof.
  intros [] Ha.
  assert (Al : all_allowed (mk_al q [] g) (promote_calls a t)).
  { cbn. split; [|split; [left; exact Ha|exact I]]. unfold known. rewrite in_app_iff. tauto. }
  pose proof (run_refines _ _ _ i_ref0 Al) as R.
  pose proof i_ref0 as (K & _). rewrite known_nodup in K.
  destruct K as (K1 & _ & _ & _ & K5 & _). cbn [al_seq al_gone] in K1, K5.
  assert (Mg : memb a g = false).
  { apply memb_not_in. intros X. exact (K5 a Ha X). }
  assert (E : abs_run (mk_al q [] g) (promote_calls a t) = mk_al (a :: drop_elem a q) [] g).
  { cbn [abs_run promote_calls fold_left abs_step al_gone al_seq al_fresh]. rewrite Mg. reflexivity. }
  rewrite E in R.
  assert (Q : forall b, In b (a :: drop_elem a q) <-> In b q).
  { intros b. cbn. rewrite drop_in. destruct (Nat.eq_dec b a) as [->|N]; [tauto|].
    split; [intros [X|X]; [congruence|tauto]|tauto]. }
  exists (a :: drop_elem a q). split; [exact Q|]. split; [reflexivity|].
  pose proof (promote_payload s a t) as PL.
  constructor; auto.
  - intros b. rewrite <- i_al0, !in_app_iff, Q. reflexivity.
  - intros ns r Hr. destruct (i_reg0 ns r Hr) as [A B']. split.
    + rewrite registered_app. exact A.
    + intros id b H. destruct (B' id b H) as (B1 & B2 & B3 & B4 & B5).
      destruct (PL b) as (P1 & P2 & P3). rewrite P1, P2, P3. repeat split; try assumption.
      * apply Q. exact B1.
      * apply answered_snoc; [exact B5|]. intros [].
  - intros ns H. rewrite registered_app. cbn. auto.
  - apply latest_first_cons.
    + apply in_split in Ha as (l1 & l2 & E1). rewrite E1, drop_split by (rewrite <- E1; exact K1).
      rewrite E1 in i_ord0. exact (latest_first_drop _ _ _ _ _ i_ord0).
    + exists w. reflexivity.
    + intros b Hb (w' & X). injection X as -> _. apply drop_in in Hb. tauto.
Qed.

(** removing an element no map of a namespace holds *)
Lemma inv_remove s q g al m dead rd tr a :
  inv s q g al m dead rd tr -> a < al -> ~ in_maps m a ->
  exists q' g', q' = drop_elem a q /\ inv (list_remove s (Some a)) q' g' al m dead rd tr /\
    In a g' /\ dl_len (ls_list (list_remove s (Some a))) = Z.of_nat (length q').
Proof.
  intros [] Ha Nm. pose proof i_ref0 as (K & L & G & S). rewrite known_nodup in K.
  destruct K as (K1 & K2 & K3 & K4 & K5 & K6). cbn [al_seq al_gone al_fresh] in *.
  apply i_al0 in Ha. rewrite in_app_iff in Ha.
  assert (Al : allowed (mk_al q [] g) (LRemove (Some a))) by exact Ha.
  pose proof (step_refines _ _ _ i_ref0 Al) as R. cbn [list_step abs_step al_gone al_seq al_fresh] in R.
  pose proof (remove_payload s (Some a)) as PL.
  destruct (memb a g) eqn:M.
  - apply memb_in in M.
    assert (Ed : drop_elem a q = q).
    { apply drop_not_in. intros X. exact (K5 a X M). }
    exists q, g. split; [symmetry; exact Ed|]. split; [|split; [exact M|]].
    + constructor; auto.
      intros ns r Hr. destruct (i_reg0 ns r Hr) as [A B']. split; [exact A|].
      intros id b H. destruct (B' id b H) as (B1 & B2 & B3 & B4 & B5).
      destruct (PL b) as (P1 & P2 & P3). rewrite P1, P2, P3. repeat split; assumption.
    + apply R.
  - apply memb_not_in in M. destruct Ha as [Ha|Ha]; [|tauto].
    exists (drop_elem a q), (a :: g). split; [reflexivity|]. split; [|split; [left; reflexivity|apply R]].
    constructor; auto.
    + intros b. rewrite <- i_al0, !in_app_iff, drop_in. cbn.
      destruct (Nat.eq_dec b a) as [->|N]; [tauto|]. split; [|tauto].
      intros [X|[X|X]]; [tauto|congruence|tauto].
    + intros ns r Hr. destruct (i_reg0 ns r Hr) as [A B']. split; [exact A|].
      intros id b H. destruct (B' id b H) as (B1 & B2 & B3 & B4 & B5).
      destruct (PL b) as (P1 & P2 & P3). rewrite P1, P2, P3. repeat split; try assumption.
      apply drop_in. split; [exact B1|]. intros ->. apply Nm. exists ns, r, id. split; assumption.
    + apply in_split in Ha as (l1 & l2 & E1). rewrite E1, drop_split by (rewrite <- E1; exact K1).
      rewrite E1 in i_ord0. exact (latest_first_drop _ _ _ _ _ i_ord0).
Qed.

(** taking the elements of one namespace out of the maps *)
Lemma inv_shrink s q g al m dead rd tr ns r m' dead' tr' :
  inv s q g al m dead rd tr -> In (ns, r) m ->
  (forall n r', In (n, r') m' -> n <> ns -> In (n, r') m) ->
  (forall r', In (ns, r') m' ->
     registered tr' ns = Some (r_source r') /\ r_elems r' = []) ->
  ((forall r', ~ In (ns, r') m') -> registered tr' ns = None) ->
  (forall n r', In (n, r') m -> n <> ns -> In (n, r') m') ->
  (forall a, In a dead' -> In a dead \/ In a (map snd (r_elems r))) ->
  (tr' = tr \/ exists e, tr' = tr ++ [e] /\
     (forall n cur, n <> ns -> registered_step n cur e = cur) /\
     (forall n, n <> ns -> ~ clears tr n e) /\ (forall a, ~ promotes e a)) ->
  inv s q g al m' dead' [] tr'.
Proof.
  intros [] Hr M1 M2 M3 M4 D T.
  assert (TR : (forall n, n <> ns -> registered tr' n = registered tr n) /\
    (forall n s' id res, n <> ns -> answered tr n s' id res -> answered tr' n s' id res) /\
    latest_first promotes tr' q).
  { destruct T as [-> | (e & -> & T1 & T2 & T3)]; [tauto|]. split; [|split].
    - intros n N. rewrite registered_app. cbn. apply T1. exact N.
    - intros n s' id res N A. apply answered_snoc; auto.
    - apply latest_first_snoc; [assumption|]. intros b _. apply T3. }
  destruct TR as (TR1 & TR2 & TR3).
  constructor; auto.
  - intros a H. apply D in H as [H|H]; [auto|]. apply in_map_iff in H as ([id b] & E & H).
    cbn in E. subst b. destruct (i_reg0 ns r Hr) as [_ X]. destruct (X id a H) as (X1 & _).
    apply i_al0. rewrite in_app_iff. tauto.
  - intros n r' Hr'. destruct (bytes_dec n ns) as [->|N].
    + destruct (M2 r' Hr') as [A E]. split; [exact A|]. rewrite E. intros id a [].
    + destruct (i_reg0 n r' (M1 n r' Hr' N)) as [A B']. split; [rewrite TR1 by exact N; exact A|].
      intros id a H. destruct (B' id a H) as (B1 & B2 & B3 & B4 & B5). repeat split; auto.
      intros X. apply D in X as [X|X]; [auto|]. apply in_map_iff in X as ([id' b] & E & X).
      cbn in E. subst b. destruct (i_reg0 ns r Hr) as [_ Y]. destruct (Y id' a X) as (_ & Y2 & _).
      congruence.
  - intros n H. destruct (bytes_dec n ns) as [->|N]; [auto|].
    rewrite TR1 by exact N. apply i_none0. intros r' Hr'. apply (H r'). auto.
  - intros a [].
Qed.

(** registering a new namespace *)
Lemma inv_register s q g al m dead tr ns src :
  inv s q g al m dead [] tr -> (forall r, ~ In (ns, r) m) ->
  inv s q g al (bset m ns (new_results src)) dead [] (tr ++ [EvRegister ns src]).
Proof.
  intros [] N. constructor; auto.
  - intros n r Hr. apply bset_in in Hr as [[-> ->]|[Hr Nn]].
    + split; [rewrite registered_app; cbn; rewrite beqb_refl; reflexivity|intros id a []].
    + destruct (i_reg0 n r Hr) as [A B'].
      assert (beqb ns n = false) as E by (apply beqb_neq; congruence).
      split; [rewrite registered_app; cbn; rewrite E; exact A|].
      intros id a H. destruct (B' id a H) as (B1 & B2 & B3 & B4 & B5). repeat split; auto.
      apply answered_snoc; [exact B5|]. cbn. congruence.
  - intros n H. destruct (bytes_dec n ns) as [->|Nn].
    + exfalso. apply (H (new_results src)). apply bset_in. left. split; reflexivity.
    + rewrite registered_app. cbn. assert (beqb ns n = false) as E by (apply beqb_neq; congruence).
      rewrite E. apply i_none0. intros r Hr. apply (H r). apply bset_in. right. split; [exact Hr|exact Nn].
  - intros a [].
  - apply latest_first_snoc; [assumption|]. intros b _ (w' & X). discriminate.
Qed.

(** dropping one entry of one namespace *)
Lemma inv_drop_entry s q g al m dead rd tr ns r id :
  inv s q g al m dead rd tr -> bget m ns = Some r -> (forall a, In a rd -> False) ->
  inv s q g al (bset m ns (mk_results (bdel (r_elems r) id) (r_source r))) dead rd tr.
Proof.
  intros [] Hr Nr. apply bget_in in Hr. constructor; auto.
  - intros n r' Hr'. apply bset_in in Hr' as [[-> ->]|[Hr' Nn]]; [|auto].
    destruct (i_reg0 ns r Hr) as [A B']. split; [exact A|].
    cbn. intros id' a H. apply bdel_in in H as [H _]. auto.
  - intros n H. apply i_none0. intros r' Hr'. destruct (bytes_dec n ns) as [->|Nn].
    + eapply H. apply bset_in. left. split; reflexivity.
    + apply (H r'). apply bset_in. right. split; assumption.
  - intros a H. exfalso. eauto.
Qed.

(** a new element for a metric that has none *)
Lemma inv_add s q g al m dead tr ns r id from to res t w :
  inv s q g al m dead [] tr -> bget m ns = Some r -> (forall a, ~ In (id, a) (r_elems r)) ->
  inv (list_run s [LNew al ns id res; LSetExpiry al t; LPushFront (Some al)])
    (al :: q) g (S al) (bset m ns (mk_results (bset (r_elems r) id al) (r_source r))) dead []
    (tr ++ [EvSource ns (r_source r) id from to res; EvPromote al w]).
Proof.
  intros [] Hr Nid. apply bget_in in Hr.
  assert (Fresh : ~ In al (q ++ g)) by (rewrite i_al0; lia).
  set (calls := [LNew al ns id res; LSetExpiry al t; LPushFront (Some al)]).
  assert (Mg : memb al g = false).
  { apply memb_not_in. intros X. apply Fresh. rewrite in_app_iff. tauto. }
  assert (Al : all_allowed (mk_al q [] g) calls).
  { cbn. split; [exact Fresh|]. split; [|split; [left; left; reflexivity|exact I]].
    unfold known. cbn. rewrite !in_app_iff. cbn. tauto. }
  pose proof (run_refines _ _ _ i_ref0 Al) as R.
  assert (E : abs_run (mk_al q [] g) calls = mk_al (al :: q) [] g).
  { unfold calls. cbn [abs_run fold_left abs_step al_gone al_seq al_fresh]. rewrite Mg. cbn. rewrite Nat.eqb_refl. reflexivity. }
  rewrite E in R.
  assert (PL : forall a, a <> al ->
    el_ns (ls_heap (list_run s calls) a) = el_ns (ls_heap s a) /\
    el_id (ls_heap (list_run s calls) a) = el_id (ls_heap s a) /\
    el_result (ls_heap (list_run s calls) a) = el_result (ls_heap s a)).
  { intros a Na. unfold calls. cbn [list_run fold_left list_step].
    match goal with |- context [push_front ?x ?y] => destruct (push_front_payload x y a) as (P1 & P2 & P3) end.
    rewrite P1, P2, P3. cbn [ls_heap].
    destruct (set_expiry_payload (upd (ls_heap s) al (new_element ns id res)) al t a) as (Q1 & Q2 & Q3).
    rewrite Q1, Q2, Q3. rewrite upd_other by exact Na. repeat split. }
  assert (PN : el_ns (ls_heap (list_run s calls) al) = ns /\
    el_id (ls_heap (list_run s calls) al) = id /\
    el_result (ls_heap (list_run s calls) al) = res).
  { unfold calls. cbn [list_run fold_left list_step].
    match goal with |- context [push_front ?x ?y] => destruct (push_front_payload x y al) as (P1 & P2 & P3) end.
    rewrite P1, P2, P3. cbn [ls_heap].
    destruct (set_expiry_payload (upd (ls_heap s) al (new_element ns id res)) al t al) as (Q1 & Q2 & Q3).
    rewrite Q1, Q2, Q3. rewrite upd_same. repeat split. }
  assert (TRR : forall n, registered (tr ++ [EvSource ns (r_source r) id from to res; EvPromote al w]) n = registered tr n).
  { intros n. rewrite registered_app. reflexivity. }
  assert (TRE : tr ++ [EvSource ns (r_source r) id from to res; EvPromote al w] =
    (tr ++ [EvSource ns (r_source r) id from to res]) ++ [EvPromote al w]).
  { rewrite <- app_assoc. reflexivity. }
  assert (TRA : forall n s' i x, answered tr n s' i x ->
    answered (tr ++ [EvSource ns (r_source r) id from to res; EvPromote al w]) n s' i x).
  { intros n s' i x H. rewrite TRE. apply answered_snoc; [apply answered_snoc; [exact H|intros []]|intros []]. }
  assert (Old : forall n r' i a, In (n, r') m -> In (i, a) (r_elems r') ->
    In a (al :: q) /\ el_ns (ls_heap (list_run s calls) a) = n /\ el_id (ls_heap (list_run s calls) a) = i /\
    ~ In a dead /\ answered (tr ++ [EvSource ns (r_source r) id from to res; EvPromote al w]) n (r_source r') i
                     (el_result (ls_heap (list_run s calls) a))).
  { intros n r' i a H1 H2. destruct (i_reg0 n r' H1) as [_ B'].
    destruct (B' i a H2) as (B1 & B2 & B3 & B4 & B5).
    destruct (PL a) as (P1 & P2 & P3); [intros ->; apply Fresh; rewrite in_app_iff; tauto|].
    rewrite P1, P2, P3. repeat split; auto. right. exact B1. }
  constructor; auto.
  - intros a. cbn. rewrite i_al0. lia.
  - intros a H. specialize (i_dead0 a H). lia.
  - intros n r' Hr'. apply bset_in in Hr' as [[-> ->]|[Hr' Nn]].
    + split; [rewrite TRR; exact (proj1 (i_reg0 ns r Hr))|].
      cbn [r_elems r_source]. intros i a H. apply bset_in in H as [[-> ->]|[H Ni]].
      * destruct PN as (P1 & P2 & P3). rewrite P1, P2, P3. repeat split.
        -- left. reflexivity.
        -- intros X. specialize (i_dead0 al X). lia.
        -- rewrite TRE. apply answered_snoc; [apply answered_now|intros []].
      * exact (Old ns r i a Hr H).
    + split; [rewrite TRR; exact (proj1 (i_reg0 n r' Hr'))|]. intros i a H. exact (Old n r' i a Hr' H).
  - intros n H. rewrite TRR. apply i_none0. intros r' Hr'. destruct (bytes_dec n ns) as [->|Nn].
    + eapply H. apply bset_in. left. split; reflexivity.
    + apply (H r'). apply bset_in. right. split; assumption.
  - intros a [].
  - rewrite TRE. apply latest_first_cons.
    + apply latest_first_snoc; [assumption|]. intros b _ (w' & X). discriminate.
    + exists w. reflexivity.
    + intros b Hb (w' & X). injection X as -> _. apply Fresh. rewrite in_app_iff. tauto.
Qed.
