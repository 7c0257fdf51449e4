(** Slices and arrays: what the operations of [Model/IterMem.v] show and change. *)
From Coq Require Import Ascii String Arith NArith ZArith Bool Lia List.
From Verif.Base Require Import Bytes.
From Verif.Model Require Import AggType Policy Transformation ProtoWire MsgpackLib Msgpack IterMem.
From Verif.Spec Require Import IterMemSpec.
Import ListNotations.
Open Scope nat_scope.

Section A.
  Context {X : Type}.
  Implicit Types (A : arrays X) (s : slice) (own : list nat).

  Definition wf A s : Prop :=
    sl_len s <= sl_cap s /\
    (0 < sl_cap s -> sl_arr s < ar_next A /\ sl_cap s <= length (ar_at A (sl_arr s))).

  (** From [A] to [A']: only the arrays [own] and new ones were written; now [own'] may be written. *)
  Record grows A A' own own' : Prop := {
    g_next : ar_next A <= ar_next A';
    g_frame : forall a, a < ar_next A -> ~ In a own -> ar_at A' a = ar_at A a;
    g_length : forall a, a < ar_next A -> length (ar_at A' a) = length (ar_at A a);
    g_own : forall a, In a own' -> In a own \/ (ar_next A <= a < ar_next A');
    g_nodup : NoDup own -> NoDup own' }.

  Lemma grows_refl A own : grows A A own own.
  Proof. split; auto. Qed.
  Lemma grows_trans A A' A'' own own' own'' :
    grows A A' own own' -> grows A' A'' own' own'' -> grows A A'' own own''.
  Proof.
    intros [N F L O D] [N' F' L' O' D']. split.
    - lia.
    - intros a La Na. rewrite <- (F a La Na). apply F'; [lia|].
      intros I. destruct (O a I) as [I'|I']; [exact (Na I')|lia].
    - intros a La. rewrite <- (L a La). apply L'. lia.
    - intros a I. destruct (O' a I) as [I'|I'].
      + destruct (O a I') as [J|J]; [left; exact J|right; lia].
      + right. lia.
    - auto.
  Qed.
  (** More may be written. *)
  Lemma grows_more A A' own own' rest :
    grows A A' own own' -> (forall a, In a rest -> a < ar_next A) -> NoDup (own ++ rest) ->
    grows A A' (own ++ rest) (own' ++ rest).
  Proof.
    intros [N F L O D] R ND. split.
    - exact N.
    - intros a La Na. apply F; [exact La|]. intros I. apply Na. apply in_or_app. left. exact I.
    - exact L.
    - intros a I. apply in_app_or in I. destruct I as [I|I].
      + destruct (O a I) as [J|J]; [left; apply in_or_app; left; exact J|right; exact J].
      + left. apply in_or_app. right. exact I.
    - intros _. clear F L.
      assert (ND1 : NoDup own).
      { clear - ND. induction own as [|x l IH]; [constructor|]. inversion ND; subst. constructor.
        - intros I. apply H1. apply in_or_app. left. exact I.
        - exact (IH H2). }
      assert (ND2 : NoDup rest).
      { clear - ND. induction own as [|x l IH]; [exact ND|]. inversion ND; subst. exact (IH H2). }
      assert (DJ : forall a, In a own -> In a rest -> False).
      { clear - ND. induction own as [|x l IH]; intros a I J; [exact I|].
        inversion ND; subst. destruct I as [->|I].
        - apply H1. apply in_or_app. right. exact J.
        - exact (IH H2 a I J). }
      specialize (D ND1).
      assert (DJ' : forall a, In a own' -> In a rest -> False).
      { intros a I J. destruct (O a I) as [K|K]; [exact (DJ a K J)|]. specialize (R a J). lia. }
      clear - D ND2 DJ'. induction own' as [|x l IH]; [exact ND2|].
      inversion D; subst. cbn [app]. constructor.
      + intros I. apply in_app_or in I. destruct I as [I|I]; [exact (H1 I)|].
        apply (DJ' x); [left; reflexivity|exact I].
      + apply IH; [exact H2|]. intros a I J. apply (DJ' a); [right; exact I|exact J].
  Qed.

  Lemma wf_grows A A' own own' s : wf A s -> grows A A' own own' -> wf A' s.
  Proof.
    intros [L C] G. split; [exact L|]. intros P. destruct (C P) as [N K]. split.
    - pose proof (g_next _ _ _ _ G). lia.
    - rewrite (g_length _ _ _ _ G _ N). exact K.
  Qed.
  Lemma wf_cut A s n : wf A s -> n <= sl_cap s -> wf A (cut n s).
  Proof. intros [L C] H. split; [exact H|exact C]. Qed.
  Lemma wf_nil A : wf A nil_slice.
  Proof. split; cbn; lia. Qed.
  Lemma addrs_cut n s : addrs (cut n s) = addrs s.
  Proof. reflexivity. Qed.
  Lemma addrs_nil : addrs nil_slice = [].
  Proof. reflexivity. Qed.
  Lemma addrs_in s a : In a (addrs s) <-> 0 < sl_cap s /\ a = sl_arr s.
  Proof.
    unfold addrs. destruct (sl_cap s) as [|c]; cbn [In].
    - split; [intros []|intros [H _]; lia].
    - split; [intros [E|[]]; split; [lia|congruence]|intros [_ ->]; left; reflexivity].
  Qed.
  Lemma addrs_nodup s : NoDup (addrs s).
  Proof. unfold addrs. destruct (sl_cap s); repeat constructor. intros []. Qed.
  Lemma wf_addr A s a : wf A s -> In a (addrs s) -> a < ar_next A.
  Proof. intros [_ C] I. apply addrs_in in I. destruct I as [P ->]. exact (proj1 (C P)). Qed.

  Lemma elements_nil A : elements A nil_slice = [].
  Proof. reflexivity. Qed.
  Lemma elements_cut0 A s : elements A (cut 0 s) = [].
  Proof. reflexivity. Qed.
  Lemma elements_same A A' s : sl_len s <= sl_cap s ->
    (forall a, In a (addrs s) -> ar_at A' a = ar_at A a) -> elements A' s = elements A s.
  Proof.
    intros L H. unfold elements. destruct (Nat.eq_dec (sl_cap s) 0) as [E|E].
    - replace (sl_len s) with 0 by lia. reflexivity.
    - rewrite (H (sl_arr s)); [reflexivity|]. apply addrs_in. split; [lia|reflexivity].
  Qed.
  Lemma elements_grows A A' own own' s : wf A s -> grows A A' own own' ->
    (forall a, In a (addrs s) -> ~ In a own) -> elements A' s = elements A s.
  Proof.
    intros W G H. apply elements_same; [exact (proj1 W)|]. intros a I.
    apply (g_frame _ _ _ _ G); [exact (wf_addr A s a W I)|exact (H a I)].
  Qed.
  Lemma elements_length A s : wf A s -> length (elements A s) = sl_len s.
  Proof.
    intros [L C]. unfold elements. rewrite firstn_length.
    destruct (Nat.eq_dec (sl_cap s) 0) as [E|E]; [lia|]. destruct C as [_ C]; lia.
  Qed.

  Lemma set_nth_length i (x : X) l : length (set_nth i x l) = length l.
  Proof. revert i. induction l as [|y l IH]; intros [|i]; cbn; auto. Qed.
  Lemma firstn_set_nth i (x : X) l : i < length l -> firstn (S i) (set_nth i x l) = firstn i l ++ [x].
  Proof.
    revert i. induction l as [|y l IH]; intros [|i] H; cbn [length] in H; try lia; [reflexivity|].
    cbn [set_nth]. rewrite firstn_cons. cbn [firstn app]. f_equal. apply IH. lia.
  Qed.

  Lemma make_ok A n cells s A' : make A n cells = (s, A') -> n <= length cells ->
    elements A' s = firstn n cells /\ wf A' s.
  Proof.
    intros E L. injection E as <- <-. split.
    - unfold elements. cbn [sl_len sl_arr ar_at]. rewrite Nat.eqb_refl. reflexivity.
    - split; [exact L|]. cbn [sl_cap sl_arr ar_next ar_at]. intros _. rewrite Nat.eqb_refl. lia.
  Qed.
  Lemma make_grows A n cells s A' own : make A n cells = (s, A') -> grows A A' own (addrs s).
  Proof.
    intros E. injection E as <- <-. split; cbn [ar_next ar_at].
    - lia.
    - intros a La _. destruct (Nat.eqb_spec a (ar_next A)); [lia|reflexivity].
    - intros a La. destruct (Nat.eqb_spec a (ar_next A)); [lia|reflexivity].
    - intros a I. apply addrs_in in I. destruct I as [_ ->]. cbn [sl_arr]. right. lia.
    - intros _. apply addrs_nodup.
  Qed.

  Lemma put_grows A s l : (0 < sl_cap s -> length l = length (ar_at A (sl_arr s))) ->
    (sl_cap s = 0 -> l = ar_at A (sl_arr s)) -> grows A (put A (sl_arr s) l) (addrs s) (addrs s).
  Proof.
    intros L Z. split; cbn [put ar_next ar_at]; auto.
    - intros a _ N. destruct (Nat.eqb_spec a (sl_arr s)) as [->|]; [|reflexivity].
      destruct (Nat.eq_dec (sl_cap s) 0) as [E|E]; [exact (Z E)|].
      exfalso. apply N. apply addrs_in. split; [lia|reflexivity].
    - intros a _. destruct (Nat.eqb_spec a (sl_arr s)) as [->|]; [|reflexivity].
      destruct (Nat.eq_dec (sl_cap s) 0) as [E|E]; [rewrite (Z E); reflexivity|apply L; lia].
  Qed.

  Lemma append_ok zero grow A s x s' A' : wf A s -> append zero grow A s x = (s', A') ->
    elements A' s' = elements A s ++ [x] /\ wf A' s' /\ grows A A' (addrs s) (addrs s').
  Proof.
    intros W. unfold append. destruct (Nat.ltb_spec (sl_len s) (sl_cap s)) as [L|L]; intros E.
    - injection E as <- <-. destruct W as [_ C]. destruct C as [N C]; [lia|].
      assert (G : grows A (put A (sl_arr s) (set_nth (sl_len s) x (ar_at A (sl_arr s)))) (addrs s) (addrs s)).
      { apply put_grows; [intros _; apply set_nth_length|intros Z; lia]. }
      split; [|split; [|exact G]].
      + unfold elements. cbn [cut sl_len sl_arr put ar_at]. rewrite Nat.eqb_refl.
        apply firstn_set_nth. lia.
      + apply (wf_grows A _ (addrs s) (addrs s)); [|exact G].
        split; cbn [cut sl_len sl_cap sl_arr]; [lia|intros _; split; assumption].
    - assert (H : S (sl_len s) <= length (elements A s ++ x :: repeat zero (grow (S (sl_len s))))).
      { rewrite app_length, (elements_length A s W). cbn [length]. lia. }
      destruct (make_ok _ _ _ _ _ E H) as (Ee & We).
      split; [|split; [exact We|exact (make_grows _ _ _ _ _ _ E)]].
      rewrite Ee. pose proof (elements_length A s W) as Le.
      rewrite firstn_app, Le. rewrite (firstn_all2 (n := S (sl_len s))) by lia.
      replace (S (sl_len s) - sl_len s) with 1 by lia. reflexivity.
  Qed.

  Lemma fill_ok zero grow (x : D X) n : forall s A t s' A' t',
    wf A s -> fill zero grow x n s A t = ((s', A'), t') ->
    t' = snd (dec_loop x n t) /\ elements A' s' = elements A s ++ fst (dec_loop x n t) /\
    wf A' s' /\ grows A A' (addrs s) (addrs s').
  Proof.
    induction n as [|n IH]; intros s A t s' A' t' W E.
    - injection E as <- <- <-. cbn [dec_loop ret fst snd]. rewrite app_nil_r.
      split; [reflexivity|]. split; [reflexivity|]. split; [exact W|apply grows_refl].
    - cbn [fill] in E. unfold bindD in E. destruct (x t) as [v t1] eqn:Ex.
      destruct (append zero grow A s v) as [s1 A1] eqn:Ea.
      destruct (append_ok _ _ _ _ _ _ _ W Ea) as (E1 & W1 & G1).
      destruct (IH _ _ _ _ _ _ W1 E) as (-> & E2 & W2 & G2).
      cbn [dec_loop]. unfold bindD. rewrite Ex. destruct (dec_loop x n t1) as [l t2]. cbn [fst snd ret] in *.
      split; [reflexivity|]. split; [rewrite E2, E1, <- app_assoc; reflexivity|].
      split; [exact W2|exact (grows_trans _ _ _ _ _ _ G1 G2)].
  Qed.

  Lemma overwrite_ok A s l : wf A s -> length l <= sl_cap s ->
    grows A (overwrite A s l) (addrs s) (addrs s) /\
    (length l = sl_len s -> elements (overwrite A s l) s = l).
  Proof.
    intros [Ls C] L. split.
    - apply put_grows.
      + intros P. destruct (C P) as [_ C']. rewrite app_length, skipn_length. lia.
      + intros Z. assert (l = []) as -> by (destruct l; [reflexivity|cbn in L; lia]). reflexivity.
    - intros E. unfold elements, overwrite. cbn [put ar_at]. rewrite Nat.eqb_refl.
      rewrite <- E. rewrite firstn_app, Nat.sub_diag, firstn_O, app_nil_r, firstn_all. reflexivity.
  Qed.
End A.
