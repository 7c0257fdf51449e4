(** Iterators that live in one memory do not disturb each other. *)
From Coq Require Import Ascii String Arith NArith ZArith Bool Lia Permutation List.
From Verif.Base Require Import Bytes.
From Verif.Proof Require Import MsgpackLibProof IterMemArrays IterMemNext.
From Verif.Model Require Import AggType Policy Transformation ProtoWire MsgpackLib Msgpack IterMem.
From Verif.Spec Require Import IterMemSpec.
Import ListNotations.
Open Scope nat_scope.

(** ** The invariant *)
Record fine (m : memory) (it : iter) : Prop := {
  fi_buf : wf (h_ids m) (i_id_buf it);
  fi_id : wf (h_ids m) (i_id it);
  fi_id_in : incl (addrs (i_id it)) (own_ids it);
  fi_tbuf : wf (h_floats m) (i_timer_buf it);
  fi_timer : wf (h_floats m) (i_timer it);
  fi_timer_in : i_pooled it = false -> incl (addrs (i_timer it)) (addrs (i_timer_buf it));
  fi_cached : Forall (wf (h_policies m)) (i_cached it);
  fi_list : wf (h_staged m) (i_cached_list it);
  fi_policies : wf (h_staged m) (i_policies it);
  fi_policies_in : incl (addrs (i_policies it)) (0 :: own_staged it);
  fi_cells : cells_in m (i_policies it) (i_cached it) }.

Definition tbuf (it : iter) : list nat := addrs (i_timer_buf it).
Definition floats_of (free out : list slice) (iters : list iter) : list nat :=
  flat_map tbuf iters ++ flat_map addrs free ++ flat_map addrs out.

Record inv (w : world) : Prop := {
  iv_fine : Forall (fine (w_mem w)) (w_iters w);
  iv_ids : NoDup (flat_map own_ids (w_iters w));
  iv_floats : NoDup (floats_of (h_free (w_mem w)) (w_out w) (w_iters w));
  iv_policies : NoDup (flat_map own_policies (w_iters w));
  iv_staged : NoDup (flat_map own_staged (w_iters w));
  iv_not0 : ~ In 0 (flat_map own_staged (w_iters w));
  iv_default : ar_at (h_staged (w_mem w)) 0 = [default_cell];
  iv_next : 0 < ar_next (h_staged (w_mem w));
  iv_free : Forall (wf (h_floats (w_mem w))) (h_free (w_mem w));
  iv_out : Forall (wf (h_floats (w_mem w))) (w_out w) }.

Lemma in_flat {A C} (f : A -> list C) l i x a : nth_error l i = Some x -> In a (f x) -> In a (flat_map f l).
Proof. intros E I. apply in_flat_map. exists x. split; [exact (nth_error_In _ _ E)|exact I]. Qed.
Lemma flat_nodup {A C} (f : A -> list C) l i x : nth_error l i = Some x -> NoDup (flat_map f l) -> NoDup (f x).
Proof.
  intros E N. rewrite (nth_split _ _ _ E), flat_app in N. cbn [flat_map] in N.
  apply nodup_app in N. destruct N as (_ & N & _). apply nodup_app in N. tauto.
Qed.
Lemma flat_disjoint {A C} (f : A -> list C) l i j x y a : nth_error l i = Some x -> nth_error l j = Some y -> i <> j ->
  NoDup (flat_map f l) -> In a (f x) -> In a (f y) -> False.
Proof.
  revert i j. induction l as [|z l IH]; intros i j Ei Ej Nij N Ix Iy; [destruct i; discriminate Ei|].
  cbn [flat_map] in N. apply nodup_app in N. destruct N as (_ & N & D).
  destruct i as [|i], j as [|j]; cbn [nth_error] in Ei, Ej.
  - exact (Nij eq_refl).
  - injection Ei as ->. exact (D a Ix (in_flat f l j y a Ej Iy)).
  - injection Ej as ->. exact (D a Iy (in_flat f l i x a Ei Ix)).
  - refine (IH i j Ei Ej _ N Ix Iy). intros E. apply Nij. f_equal. exact E.
Qed.

Lemma inv_good w i it : inv w -> nth_error (w_iters w) i = Some it -> good (w_mem w) (emptied it).
Proof.
  intros I E. pose proof (proj1 (Forall_forall _ _) (iv_fine _ I) it (nth_error_In _ _ E)) as [A B C D F G H J K L M].
  split.
  - split; try assumption; cbn [emptied with_timer i_id_buf i_id i_timer_buf i_timer i_pooled].
    + apply wf_nil.
    + intros _ a [].
    + exact (iv_free _ I).
    + unfold own_floats. cbn [emptied with_timer i_timer_buf i_pooled]. rewrite app_nil_r.
      pose proof (iv_floats _ I) as N. unfold floats_of in N. rewrite app_assoc in N. apply nodup_app in N. destruct N as (N & _ & _).
      rewrite (nth_split _ _ _ E), flat_app in N. cbn [flat_map] in N.
      apply nodup_app in N. destruct N as (N1 & N2 & N3). apply nodup_app in N1. destruct N1 as (_ & N1 & _).
      apply nodup_app in N1. destruct N1 as (N1 & _ & _). apply nodup_app. split; [exact N1|]. split; [exact N2|].
      intros a X Y. apply (N3 a); [|exact Y]. apply in_or_app. right. apply in_or_app. left. exact X.
  - split; try assumption.
    + exact (flat_nodup own_policies _ _ _ E (iv_policies _ I)).
    + intros X. apply (iv_not0 _ I). exact (in_flat own_staged _ _ _ _ E X).
    + exact (iv_default _ I).
    + exact (iv_next _ I).
Qed.

(** What an iterator has stays as it is when memory elsewhere changes. *)
Lemma fine_frame m m' it I I' F F' Q Q' S S' :
  grows (h_ids m) (h_ids m') I I' -> grows (h_floats m) (h_floats m') F F' ->
  grows (h_policies m) (h_policies m') Q Q' -> grows (h_staged m) (h_staged m') S S' ->
  (forall a, In a (0 :: own_staged it) -> ~ In a S) -> fine m it -> fine m' it.
Proof.
  intros GI GF GQ GS N [A B C D E G H J K L M].
  split; try assumption; try (eapply wf_grows; eassumption).
  - apply Forall_forall. intros x X. exact (wf_grows _ _ _ _ _ (proj1 (Forall_forall _ _) H x X) GQ).
  - intros c X. rewrite (elements_grows _ _ _ _ _ K GS) in X.
    + destruct (M c X) as [Y Z]. split; [exact (wf_grows _ _ _ _ _ Y GQ)|exact Z].
    + intros a Y. exact (N a (L a Y)).
Qed.

Lemma metric_frame m m' it I I' F F' :
  grows (h_ids m) (h_ids m') I I' -> grows (h_floats m) (h_floats m') F F' ->
  wf (h_ids m) (i_id it) -> wf (h_floats m) (i_timer it) ->
  (forall a, In a (addrs (i_id it)) -> ~ In a I) -> (forall a, In a (addrs (i_timer it)) -> ~ In a F) ->
  metric_seen m' it = metric_seen m it.
Proof.
  intros GI GF WI WF NI NF. unfold metric_seen.
  rewrite (elements_grows _ _ _ _ _ WI GI NI), (elements_grows _ _ _ _ _ WF GF NF). reflexivity.
Qed.
Lemma policies_frame m m' s Q Q' S S' :
  grows (h_policies m) (h_policies m') Q Q' -> grows (h_staged m) (h_staged m') S S' ->
  wf (h_staged m) s -> (forall c, In c (elements (h_staged m) s) -> wf (h_policies m) (ce_policies c)) ->
  (forall a, In a (addrs s) -> ~ In a S) ->
  (forall c a, In c (elements (h_staged m) s) -> In a (addrs (ce_policies c)) -> ~ In a Q) ->
  policies_seen m' s = policies_seen m s.
Proof.
  intros GQ GS W Wc NS NQ. unfold policies_seen. rewrite (elements_grows _ _ _ _ _ W GS NS).
  apply map_ext_in. intros c J. exact (staged_seen_grows m m' _ _ c (Wc c J) GQ (fun a K => NQ c a J K)).
Qed.

Lemma rewritten_grows {X} (A A' : arrays X) l own : rewritten A A' l -> incl l own -> grows A A' own own.
Proof.
  intros (N & L & F) I. split.
  - lia.
  - intros a _ J. apply F. intros K. exact (J (I a K)).
  - intros a _. apply L.
  - intros a J. left. exact J.
  - intros J. exact J.
Qed.

(** ** One iterator moves *)
Lemma count_le l : NoDup l <-> forall x, count_occ Nat.eq_dec l x <= 1.
Proof. apply NoDup_count_occ. Qed.

Lemma Forall_set_nth {A} (Q : A -> Prop) i x : forall l, Forall Q l -> Q x -> Forall Q (set_nth i x l).
Proof.
  induction i as [|i IH]; intros [|y l] H Hx; cbn [set_nth]; inversion H; subst; constructor; auto.
Qed.
Lemma nth_set_same {A} i (x y : A) : forall l, nth_error l i = Some y -> nth_error (set_nth i x l) i = Some x.
Proof. induction i as [|i IH]; intros [|z l] E; try discriminate E; [reflexivity|exact (IH l E)]. Qed.
Lemma nth_set_other {A} (x : A) : forall i j l, i <> j -> nth_error (set_nth i x l) j = nth_error l j.
Proof.
  induction i as [|i IH]; intros [|j] [|z l] N; try reflexivity; [exfalso; exact (N eq_refl)|].
  cbn [set_nth nth_error]. apply IH. intros E. apply N. f_equal. exact E.
Qed.
Lemma set_nth_self {A} i (x : A) l : nth_error l i = Some x -> set_nth i x l = l.
Proof. intros E. rewrite (set_nth_split _ _ _ _ E). symmetry. exact (nth_split _ _ _ E). Qed.

Record moves (w : world) (i : nat) (m' : memory) (it it' : iter) (out' : list slice) : Prop := {
  mv_at : nth_error (w_iters w) i = Some it;
  mv_ids : grows (h_ids (w_mem w)) (h_ids m') (own_ids it) (own_ids it');
  mv_floats : exists extra, grows (h_floats (w_mem w)) (h_floats m') (tbuf it ++ flat_map addrs (h_free (w_mem w)))
                 (tbuf it' ++ flat_map addrs (h_free m') ++ extra) /\ flat_map addrs out' = extra ++ flat_map addrs (w_out w);
  mv_policies : grows (h_policies (w_mem w)) (h_policies m') (own_policies it) (own_policies it');
  mv_staged : grows (h_staged (w_mem w)) (h_staged m') (own_staged it) (own_staged it');
  mv_fine : fine m' it';
  mv_free : Forall (wf (h_floats m')) (h_free m');
  mv_out : Forall (wf (h_floats m')) out' }.

Lemma flat_below {X A} (f : A -> list nat) (Ar : arrays X) l : (forall x a, In x l -> In a (f x) -> a < ar_next Ar) ->
  forall a, In a (flat_map f l) -> a < ar_next Ar.
Proof. intros H a J. apply in_flat_map in J. destruct J as (x & Jx & J). exact (H x a Jx J). Qed.

Lemma below_ids w it a : inv w -> In it (w_iters w) -> In a (own_ids it) -> a < ar_next (h_ids (w_mem w)).
Proof. intros I E J. exact (wf_addr _ _ _ (fi_buf _ _ (proj1 (Forall_forall _ _) (iv_fine _ I) it E)) J). Qed.
Lemma below_tbuf w it a : inv w -> In it (w_iters w) -> In a (tbuf it) -> a < ar_next (h_floats (w_mem w)).
Proof. intros I E J. exact (wf_addr _ _ _ (fi_tbuf _ _ (proj1 (Forall_forall _ _) (iv_fine _ I) it E)) J). Qed.
Lemma below_staged w it a : inv w -> In it (w_iters w) -> In a (own_staged it) -> a < ar_next (h_staged (w_mem w)).
Proof. intros I E J. exact (wf_addr _ _ _ (fi_list _ _ (proj1 (Forall_forall _ _) (iv_fine _ I) it E)) J). Qed.
Lemma below_policies w it a : inv w -> In it (w_iters w) -> In a (own_policies it) -> a < ar_next (h_policies (w_mem w)).
Proof.
  intros I E J. apply in_flat_map in J. destruct J as (s & Js & J).
  exact (wf_addr _ _ _ (proj1 (Forall_forall _ _) (fi_cached _ _ (proj1 (Forall_forall _ _) (iv_fine _ I) it E)) s Js) J).
Qed.
Lemma below_slices {X} (A : arrays X) l : Forall (wf A) l -> forall a, In a (flat_map addrs l) -> a < ar_next A.
Proof. intros F. apply flat_below. intros x a J. exact (wf_addr _ _ _ (proj1 (Forall_forall _ _) F x J)). Qed.

Lemma inv_moves w i m' it it' out' : inv w -> moves w i m' it it' out' ->
  inv (mk_world m' (set_nth i it' (w_iters w)) out').
Proof.
  intros I [E GI (extra & GF & EO) GP GS Fi Fr Ou].
  pose proof (nth_split _ _ _ E) as Sp. pose proof (set_nth_split _ it' _ _ E) as Sp'.
  set (l := firstn i (w_iters w)) in *. set (r := skipn (S i) (w_iters w)) in *.
  assert (Lr : forall x, In x (l ++ r) -> In x (w_iters w)).
  { intros x J. rewrite Sp. apply in_app_or in J. apply in_or_app. destruct J as [J|J]; [left; exact J|right; right; exact J]. }
  assert (Mid : forall X (A A' : arrays X) f, grows A A' (f it) (f it') -> NoDup (flat_map f (w_iters w)) ->
    (forall x a, In x (w_iters w) -> In a (f x) -> a < ar_next A) ->
    grows A A' (flat_map f (w_iters w)) (flat_map f (set_nth i it' (w_iters w)))).
  { intros X A A' f G N Bl. rewrite Sp'. rewrite Sp at 1. rewrite Sp in N. rewrite !flat_app in *. cbn [flat_map] in *.
    apply grows_mid; [exact G| |exact N]. rewrite <- flat_app. apply flat_below. intros x a Jx J. exact (Bl x a (Lr x Jx) J). }
  pose proof (Mid _ _ _ own_ids GI (iv_ids _ I) (fun x a => below_ids w x a I)) as MI.
  pose proof (Mid _ _ _ own_policies GP (iv_policies _ I) (fun x a => below_policies w x a I)) as MP.
  pose proof (Mid _ _ _ own_staged GS (iv_staged _ I) (fun x a => below_staged w x a I)) as MS.
  assert (Z0 : ~ In 0 (own_staged it)).
  { intros J. apply (iv_not0 _ I). exact (in_flat own_staged _ _ _ _ E J). }
  split; cbn [w_mem w_iters w_out].
  - rewrite Sp'.
    assert (Fw : forall x k, nth_error (w_iters w) k = Some x -> k <> i -> fine m' x).
    { intros x k Ek Nk. refine (fine_frame _ _ x _ _ _ _ _ _ _ _ GI GF GP GS _ _).
      - intros a [<-|J] K; [exact (Z0 K)|]. exact (flat_disjoint own_staged _ k i x it a Ek E Nk (iv_staged _ I) J K).
      - exact (proj1 (Forall_forall _ _) (iv_fine _ I) x (nth_error_In _ _ Ek)). }
    assert (Li : i < length (w_iters w)) by (apply nth_error_Some; congruence).
    apply Forall_app. split; [|constructor; [exact Fi|]].
    + apply Forall_forall. intros x J. apply In_nth_error in J. destruct J as [k Ek].
      assert (Lk : k < length l) by (apply nth_error_Some; congruence).
      unfold l in Lk. rewrite firstn_length in Lk. apply (Fw x k); [|lia].
      rewrite Sp. rewrite nth_error_app1; [exact Ek|]. unfold l. rewrite firstn_length. lia.
    + apply Forall_forall. intros x J. apply In_nth_error in J. destruct J as [k Ek].
      apply (Fw x (S i + k)); [|lia]. rewrite Sp. rewrite nth_error_app2; unfold l; rewrite firstn_length; [|lia].
      replace (S i + k - Nat.min i (length (w_iters w))) with (S k) by lia. exact Ek.
  - exact (g_nodup _ _ _ _ MI (iv_ids _ I)).
  - pose proof (iv_floats _ I) as N. unfold floats_of in *. rewrite Sp'. rewrite EO. rewrite Sp in N.
    rewrite flat_app in *. cbn [flat_map] in *.
    set (R := flat_map tbuf l ++ flat_map tbuf r ++ flat_map addrs (w_out w)).
    assert (N1 : NoDup ((tbuf it ++ flat_map addrs (h_free (w_mem w))) ++ R)).
    { apply count_le. intros x. pose proof (proj1 (count_le _) N x) as C. unfold R. rewrite !count_occ_app in *. lia. }
    assert (Bl : forall a, In a R -> a < ar_next (h_floats (w_mem w))).
    { intros a J. unfold R in J. rewrite app_assoc in J. apply in_app_or in J. destruct J as [J|J].
      - rewrite <- flat_app in J. revert a J. apply flat_below. intros x a Jx J. exact (below_tbuf w x a I (Lr x Jx) J).
      - exact (below_slices _ _ (iv_out _ I) a J). }
    pose proof (g_nodup _ _ _ _ (grows_more _ _ _ _ R GF Bl N1) N1) as N2.
    apply count_le. intros x. pose proof (proj1 (count_le _) N2 x) as C. unfold R in C. rewrite !count_occ_app in *. lia.
  - exact (g_nodup _ _ _ _ MP (iv_policies _ I)).
  - exact (g_nodup _ _ _ _ MS (iv_staged _ I)).
  - intros J. destruct (g_own _ _ _ _ MS 0 J) as [K|K]; [exact (iv_not0 _ I K)|]. pose proof (iv_next _ I). lia.
  - rewrite (g_frame _ _ _ _ GS 0 (iv_next _ I) Z0). exact (iv_default _ I).
  - pose proof (g_next _ _ _ _ GS). pose proof (iv_next _ I). lia.
  - exact Fr.
  - exact Ou.
Qed.

(** ** The steps *)
Lemma good_fine m it : good m it -> fine m it.
Proof. intros [[A B C D E F G H] [A' B' C' D' E' F' G' H' I']]. split; assumption. Qed.

Lemma next_moves w i it grow pick ok it' m' : inv w -> nth_error (w_iters w) i = Some it ->
  mem_next grow pick it (w_mem w) = Some (ok, it', m') ->
  moves w i m' it it' (if took it it' then i_timer it' :: w_out w else w_out w).
Proof.
  intros I E En. pose proof (inv_good w i it I E) as G.
  destruct (mem_next_ok grow pick it (w_mem w) G) as (ok1 & it1 & m1 & E1 & _ & S).
  rewrite En in E1. injection E1 as <- <- <-.
  pose proof (proj1 (Forall_forall _ _) (iv_fine _ I) it (nth_error_In _ _ E)) as Fi.
  unfold took. unfold runs in S.
  destruct (d_err (i_st it)) as [e|]; [|destruct (i_closed it); cbn [negb andb] in *].
  3:{ pose proof (is_good _ _ _ _ S G) as G'. destruct S as [K SI SF SP SS _].
      unfold own_floats at 1 in SF. cbn [emptied with_timer i_timer_buf i_pooled] in SF. rewrite app_nil_r in SF.
      assert (Fr : Forall (wf (h_floats m')) (w_out w)).
      { apply Forall_forall. intros x J. exact (wf_grows _ _ _ _ _ (proj1 (Forall_forall _ _) (iv_out _ I) x J) SF). }
      split; [exact E|exact SI| |exact SP|exact SS|exact (good_fine _ _ G')|exact (gm_free _ _ (proj1 G'))|].
      - exists (if i_pooled it' then addrs (i_timer it') else []). split; [exact SF|].
        destruct (i_pooled it'); reflexivity.
      - destruct (i_pooled it'); [constructor; [exact (gm_timer _ _ (proj1 G'))|exact Fr]|exact Fr]. }
  all: destruct S as [-> ->]; (split; [exact E|apply grows_refl| |apply grows_refl|apply grows_refl|exact Fi|exact (iv_free _ I)|exact (iv_out _ I)]);
    exists []; rewrite app_nil_r; (split; [apply grows_refl|reflexivity]).
Qed.

Lemma grows_none {X} (A : arrays X) own : grows A A own [].
Proof. split; auto; [intros a []|intros _; constructor]. Qed.

Lemma reset_moves w i it d : inv w -> nth_error (w_iters w) i = Some it ->
  moves w i (w_mem w) it (mem_reset d it) (w_out w).
Proof.
  intros I E. pose proof (proj1 (Forall_forall _ _) (iv_fine _ I) it (nth_error_In _ _ E)) as [A B C D F G H J K L M].
  split; [exact E|apply grows_refl| |apply grows_refl|apply grows_refl| |exact (iv_free _ I)|exact (iv_out _ I)].
  - exists []. rewrite app_nil_r. split; [apply grows_refl|reflexivity].
  - split; try assumption; cbn [mem_reset i_id i_timer i_pooled]; try apply wf_nil; first [solve [intros _ a []] | solve [intros a []]].
Qed.
Lemma close_moves w i it : inv w -> nth_error (w_iters w) i = Some it ->
  moves w i (w_mem w) it (mem_close it) (w_out w).
Proof.
  intros I E. pose proof (proj1 (Forall_forall _ _) (iv_fine _ I) it (nth_error_In _ _ E)) as Fi.
  unfold mem_close. destruct (i_closed it).
  - split; [exact E|apply grows_refl| |apply grows_refl|apply grows_refl|exact Fi|exact (iv_free _ I)|exact (iv_out _ I)].
    exists []. rewrite app_nil_r. split; [apply grows_refl|reflexivity].
  - destruct Fi as [A B C D F G H J K L M].
    split; [exact E|apply grows_refl| |apply grows_none|apply grows_none| |exact (iv_free _ I)|exact (iv_out _ I)].
    + exists []. rewrite app_nil_r. split; [apply grows_refl|reflexivity].
    + split; cbn [i_id_buf i_id i_timer_buf i_timer i_pooled i_cached i_cached_list i_policies];
        try assumption; try apply wf_nil; first [solve [intros _ a []] | solve [intros a []] | constructor].
Qed.

Lemma write_moves w i it m' : inv w -> nth_error (w_iters w) i = Some it -> holder_wrote (w_mem w) m' it ->
  moves w i m' it it (w_out w).
Proof.
  intros I E (RI & RF & RP & RS & RC & Fr).
  pose proof (proj1 (Forall_forall _ _) (iv_fine _ I) it (nth_error_In _ _ E)) as [A B C D F G H J K L M].
  assert (GI : grows (h_ids (w_mem w)) (h_ids m') (own_ids it) (own_ids it)) by exact (rewritten_grows _ _ _ _ RI C).
  assert (IF : incl (if i_pooled it then [] else addrs (i_timer it)) (tbuf it)).
  { destruct (i_pooled it); [intros a []|exact (G eq_refl)]. }
  assert (GF : forall more, grows (h_floats (w_mem w)) (h_floats m') (tbuf it ++ more) (tbuf it ++ more)).
  { intros more. refine (rewritten_grows _ _ _ _ RF _). intros a X. apply in_or_app. left. exact (IF a X). }
  assert (GP : grows (h_policies (w_mem w)) (h_policies m') (own_policies it) (own_policies it)).
  { refine (rewritten_grows _ _ _ _ RP _). intros a X. apply in_flat_map in X. destruct X as (c & X & Y).
    exact (proj2 (M c X) a Y). }
  assert (GS : grows (h_staged (w_mem w)) (h_staged m') (own_staged it) (own_staged it)).
  { refine (rewritten_grows _ _ _ _ RS _). intros a X. apply filter_In in X. destruct X as [X Y].
    destruct (L a X) as [Z|Z]; [subst a; discriminate Y|exact Z]. }
  split; [exact E|exact GI| |exact GP|exact GS| | |].
  - exists []. rewrite app_nil_r, Fr. split; [exact (GF _)|reflexivity].
  - split; try assumption; try (eapply wf_grows; [eassumption|first [exact GI|exact (GF [])|exact GS]]).
    + apply Forall_forall. intros x X. exact (wf_grows _ _ _ _ _ (proj1 (Forall_forall _ _) H x X) GP).
    + intros c' X.
      assert (Em : map ce_policies (elements (h_staged m') (i_policies it)) = map ce_policies (elements (h_staged (w_mem w)) (i_policies it))).
      { unfold elements. rewrite <- !firstn_map. rewrite RC. reflexivity. }
      apply (in_map ce_policies) in X. rewrite Em in X. apply in_map_iff in X. destruct X as (c & Ec & X).
      destruct (M c X) as [Y Z]. rewrite <- Ec. split; [exact (wf_grows _ _ _ _ _ Y GP)|exact Z].
  - rewrite Fr. apply Forall_forall. intros x X.
    exact (wf_grows _ _ _ _ _ (proj1 (Forall_forall _ _) (iv_free _ I) x X) (GF [])).
  - apply Forall_forall. intros x X.
    exact (wf_grows _ _ _ _ _ (proj1 (Forall_forall _ _) (iv_out _ I) x X) (GF [])).
Qed.

(** What a step that moves no iterator does to memory. *)
Lemma fine_floats m m' it F F' : h_ids m' = h_ids m -> h_policies m' = h_policies m -> h_staged m' = h_staged m ->
  grows (h_floats m) (h_floats m') F F' -> fine m it -> fine m' it.
Proof.
  intros EI EP ES G. apply (fine_frame m m' it [] [] F F' [] [] [] []); rewrite ?EI, ?EP, ?ES; try apply grows_refl; [exact G|].
  intros a _ [].
Qed.

Lemma inv_new w d ignore large it m : inv w -> mem_new d ignore large (w_mem w) = (it, m) ->
  inv (mk_world m (w_iters w ++ [it]) (w_out w)).
Proof.
  intros I. unfold mem_new. destruct (make (h_floats (w_mem w)) 0 (repeat 0%Z 16)) as [s A] eqn:Em.
  intros E. injection E as <- <-.
  pose proof (proj2 (make_ok _ _ _ _ _ Em (Nat.le_0_l _))) as W. pose proof (make_grows _ _ _ _ _ [] Em) as G.
  split; cbn [w_mem w_iters w_out h_ids h_floats h_policies h_staged h_free].
  - apply Forall_app. split.
    + apply Forall_forall. intros x J. match goal with |- fine ?m _ => refine (fine_floats (w_mem w) m x _ _ eq_refl eq_refl eq_refl G _) end.
      exact (proj1 (Forall_forall _ _) (iv_fine _ I) x J).
    + constructor; [|constructor].
      split; cbn [i_id_buf i_id i_timer_buf i_timer i_pooled i_cached i_cached_list i_policies];
        try assumption; try apply wf_nil; first [solve [intros _ a []] | solve [intros a []] | constructor].
  - rewrite flat_app. cbn [flat_map]. unfold own_ids at 2. cbn [i_id_buf]. rewrite addrs_nil. cbn [app]. rewrite app_nil_r. exact (iv_ids _ I).
  - unfold floats_of. rewrite flat_app. cbn [flat_map]. rewrite app_nil_r. unfold tbuf at 2. cbn [i_timer_buf].
    pose proof (grows_more _ _ _ _ (floats_of (h_free (w_mem w)) (w_out w) (w_iters w)) G) as G2. cbn [app] in G2.
    assert (N : NoDup (addrs s ++ floats_of (h_free (w_mem w)) (w_out w) (w_iters w))).
    { refine (g_nodup _ _ _ _ (G2 _ (iv_floats _ I)) (iv_floats _ I)). intros a J. unfold floats_of in J.
      apply in_app_or in J. destruct J as [J|J].
      - revert a J. apply flat_below. intros x a Jx J. exact (below_tbuf w x a I Jx J).
      - apply in_app_or in J. destruct J as [J|J]; [exact (below_slices _ _ (iv_free _ I) a J)|exact (below_slices _ _ (iv_out _ I) a J)]. }
    unfold floats_of in N. apply count_le. intros x. pose proof (proj1 (count_le _) N x) as C. rewrite !count_occ_app in *. lia.
  - rewrite flat_app. cbn [flat_map]. unfold own_policies at 2. cbn [i_cached flat_map app]. rewrite app_nil_r. exact (iv_policies _ I).
  - rewrite flat_app. cbn [flat_map]. unfold own_staged at 2. cbn [i_cached_list]. rewrite addrs_nil. cbn [app]. rewrite app_nil_r. exact (iv_staged _ I).
  - rewrite flat_app. cbn [flat_map]. unfold own_staged at 2. cbn [i_cached_list]. rewrite addrs_nil. cbn [app]. rewrite app_nil_r. exact (iv_not0 _ I).
  - exact (iv_default _ I).
  - exact (iv_next _ I).
  - apply Forall_forall. intros x J. exact (wf_grows _ _ _ _ _ (proj1 (Forall_forall _ _) (iv_free _ I) x J) G).
  - apply Forall_forall. intros x J. exact (wf_grows _ _ _ _ _ (proj1 (Forall_forall _ _) (iv_out _ I) x J) G).
Qed.

Lemma inv_give_back w a s b : inv w -> w_out w = a ++ s :: b ->
  inv (mk_world (pool_put s (w_mem w)) (w_iters w) (a ++ b)).
Proof.
  intros I E. pose proof (iv_out _ I) as Wo. rewrite E in Wo. apply Forall_app in Wo. destruct Wo as [Wa Wb].
  inversion Wb as [|? ? Ws Wb']; subst.
  split; cbn [w_mem w_iters w_out pool_put h_ids h_floats h_policies h_staged h_free].
  - apply Forall_forall. intros x J. match goal with |- fine ?m _ => refine (fine_floats (w_mem w) m x [] [] eq_refl eq_refl eq_refl (grows_refl _ _) _) end.
    exact (proj1 (Forall_forall _ _) (iv_fine _ I) x J).
  - exact (iv_ids _ I).
  - pose proof (iv_floats _ I) as N. unfold floats_of in *. rewrite E in N. rewrite !flat_app in *. cbn [flat_map] in *. rewrite addrs_cut.
    apply count_le. intros x. pose proof (proj1 (count_le _) N x) as C. rewrite !count_occ_app in *. lia.
  - exact (iv_policies _ I).
  - exact (iv_staged _ I).
  - exact (iv_not0 _ I).
  - exact (iv_default _ I).
  - exact (iv_next _ I).
  - constructor; [apply wf_cut; [exact Ws|lia]|exact (iv_free _ I)].
  - apply Forall_app. split; assumption.
Qed.

Lemma inv_write_batch w s A : inv w -> rewritten (h_floats (w_mem w)) A (addrs s) ->
  inv (mk_world (mk_memory (h_ids (w_mem w)) A (h_policies (w_mem w)) (h_staged (w_mem w)) (h_free (w_mem w)))
         (w_iters w) (w_out w)).
Proof.
  intros I R. pose proof (rewritten_grows _ _ _ _ R (incl_refl _)) as G.
  split; cbn [w_mem w_iters w_out h_ids h_floats h_policies h_staged h_free]; try (destruct I; assumption).
  - apply Forall_forall. intros x J. match goal with |- fine ?m _ => refine (fine_floats (w_mem w) m x _ _ eq_refl eq_refl eq_refl G _) end.
    exact (proj1 (Forall_forall _ _) (iv_fine _ I) x J).
  - apply Forall_forall. intros x J. exact (wf_grows _ _ _ _ _ (proj1 (Forall_forall _ _) (iv_free _ I) x J) G).
  - apply Forall_forall. intros x J. exact (wf_grows _ _ _ _ _ (proj1 (Forall_forall _ _) (iv_out _ I) x J) G).
Qed.

Lemma inv_start : inv start.
Proof. split; cbn; try constructor; auto; intros []. Qed.

Lemma inv_step w a w' : inv w -> step w a w' -> inv w'.
Proof.
  intros I S. destruct S as [w d ignore large it m E|w i it grow pick ok it' m E En|w i it d E|w i it E|w a s b E|w i it m E Hw|w s A E R].
  - exact (inv_new _ _ _ _ _ _ I E).
  - exact (inv_moves _ _ _ _ _ _ I (next_moves _ _ _ _ _ _ _ _ I E En)).
  - exact (inv_moves _ _ _ _ _ _ I (reset_moves _ _ _ d I E)).
  - exact (inv_moves _ _ _ _ _ _ I (close_moves _ _ _ I E)).
  - exact (inv_give_back _ _ _ _ I E).
  - pose proof (inv_moves _ _ _ _ _ _ I (write_moves _ _ _ _ I E Hw)) as H. rewrite (set_nth_self _ _ _ E) in H. exact H.
  - exact (inv_write_batch _ _ _ I R).
Qed.
Lemma inv_steps w l w' : steps w l w' -> inv w -> inv w'.
Proof. induction 1; auto. intros I. apply IHsteps. eapply inv_step; eassumption. Qed.
Lemma lives_inv w : lives w -> inv w.
Proof. intros (l & S). exact (inv_steps _ _ _ S inv_start). Qed.
