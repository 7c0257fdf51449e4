(** What an iterator showed stays as it is until the iterator decodes again. *)
From Coq Require Import Ascii String Arith NArith ZArith Bool Lia Permutation List.
From Verif.Base Require Import Bytes.
From Verif.Proof Require Import MsgpackLibProof IterMemArrays IterMemNext IterMemWorld.
From Verif.Model Require Import AggType Policy Transformation ProtoWire MsgpackLib Msgpack IterMem.
From Verif.Spec Require Import IterMemSpec.
Import ListNotations.
Open Scope nat_scope.

(** ** Large batches *)
Lemma out_disjoint w s a : inv w -> In s (w_out w) -> In a (addrs s) ->
  ~ In a (flat_map tbuf (w_iters w)) /\ ~ In a (flat_map addrs (h_free (w_mem w))).
Proof.
  intros I Is J. pose proof (iv_floats _ I) as N. unfold floats_of in N. rewrite app_assoc in N. apply nodup_app in N.
  destruct N as (_ & _ & D).
  assert (Jo : In a (flat_map addrs (w_out w))) by (apply in_flat_map; exists s; split; assumption).
  split; intros K; apply (D a); try exact Jo; apply in_or_app; [left|right]; exact K.
Qed.
Lemma batch_disjoint w s t a : inv w -> In s (w_out w) -> In t (w_out w) -> s <> t -> In a (addrs s) -> ~ In a (addrs t).
Proof.
  intros I Is It N Ja Jb. apply In_nth_error in Is. apply In_nth_error in It. destruct Is as [x Ex], It as [y Ey].
  assert (Nxy : x <> y) by (intros ->; congruence).
  refine (flat_disjoint addrs _ x y s t a Ex Ey Nxy _ Ja Jb).
  pose proof (iv_floats _ I) as H. unfold floats_of in H. apply nodup_app in H. destruct H as (_ & H & _). apply nodup_app in H. tauto.
Qed.

Lemma moves_batch w i m' it it' out' s : inv w -> moves w i m' it it' out' -> In s (w_out w) ->
  elements (h_floats m') s = elements (h_floats (w_mem w)) s.
Proof.
  intros I M Is. destruct (mv_floats _ _ _ _ _ _ M) as (extra & G & _).
  refine (elements_grows _ _ _ _ _ (proj1 (Forall_forall _ _) (iv_out _ I) s Is) G _).
  intros a J K. destruct (out_disjoint w s a I Is J) as [A B]. apply in_app_or in K. destruct K as [K|K]; [|exact (B K)].
  apply A. exact (in_flat tbuf _ _ _ _ (mv_at _ _ _ _ _ _ M) K).
Qed.

Lemma step_batch w a w' s : inv w -> step w a w' -> keeps_batch s a -> In s (w_out w) ->
  In s (w_out w') /\ elements (h_floats (w_mem w')) s = elements (h_floats (w_mem w)) s.
Proof.
  intros I S (K1 & K2) Is. pose proof (proj1 (Forall_forall _ _) (iv_out _ I) s Is) as Ws.
  destruct S as [w d ignore large it m E|w i it grow pick ok it' m E En|w i it d E|w i it E|w a t b E|w i it m E Hw|w t A E R];
    cbn [w_out w_mem].
  - split; [exact Is|]. unfold mem_new in E.
    destruct (make (h_floats (w_mem w)) 0 (repeat 0%Z 16)) as [x A] eqn:Em. injection E as <- <-. cbn [h_floats].
    exact (elements_grows _ _ _ _ _ Ws (make_grows _ _ _ _ _ [] Em) (fun a _ J => J)).
  - split; [destruct (took it it'); [right|]; exact Is|].
    exact (moves_batch _ _ _ _ _ _ _ I (next_moves _ _ _ _ _ _ _ _ I E En) Is).
  - split; [exact Is|reflexivity].
  - split; [exact Is|reflexivity].
  - split; [|reflexivity]. rewrite E in Is. apply in_app_or in Is. apply in_or_app.
    destruct Is as [Is|[Is|Is]]; [left; exact Is|subst t; exfalso; apply K1; reflexivity|right; exact Is].
  - split; [exact Is|]. exact (moves_batch _ _ _ _ _ _ _ I (write_moves _ _ _ _ I E Hw) Is).
  - split; [exact Is|]. cbn [h_floats].
    refine (elements_grows _ _ _ _ _ Ws (rewritten_grows _ _ _ _ R (incl_refl _)) _).
    intros a J. refine (batch_disjoint w s t a I Is E _ J). intros ->. apply K2. reflexivity.
Qed.

Lemma steps_batch w l w' s : steps w l w' -> inv w -> Forall (keeps_batch s) l -> In s (w_out w) ->
  In s (w_out w') /\ elements (h_floats (w_mem w')) s = elements (h_floats (w_mem w)) s.
Proof.
  induction 1 as [w|w a w1 l w2 S T IH]; intros I K Is; [split; [exact Is|reflexivity]|].
  inversion K as [|? ? Ka Kl]; subst. destruct (step_batch _ _ _ _ I S Ka Is) as [I1 E1].
  destruct (IH (inv_step _ _ _ I S) Kl I1) as [I2 E2]. split; [exact I2|congruence].
Qed.

(** ** Everything else *)
Definition others (w : world) (i : nat) (f : iter -> list nat) (a : nat) : Prop :=
  forall j it, nth_error (w_iters w) j = Some it -> j <> i -> ~ In a (f it).

Record shield (w : world) (i : nat) (I F Q S : list nat) : Prop := {
  sh_ids : forall a, In a I -> a < ar_next (h_ids (w_mem w)) /\ others w i own_ids a;
  sh_floats : forall a, In a F -> a < ar_next (h_floats (w_mem w)) /\ others w i tbuf a /\
                ~ In a (flat_map addrs (h_free (w_mem w)) ++ flat_map addrs (w_out w));
  sh_policies : forall a, In a Q -> a < ar_next (h_policies (w_mem w)) /\ others w i own_policies a;
  sh_staged : forall a, In a S -> a < ar_next (h_staged (w_mem w)) /\ others w i own_staged a }.

Record untouched (m m' : memory) (I F Q S : list nat) : Prop := {
  un_ids : forall a, In a I -> ar_at (h_ids m') a = ar_at (h_ids m) a;
  un_floats : forall a, In a F -> ar_at (h_floats m') a = ar_at (h_floats m) a;
  un_policies : forall a, In a Q -> ar_at (h_policies m') a = ar_at (h_policies m) a;
  un_staged : forall a, In a S -> ar_at (h_staged m') a = ar_at (h_staged m) a }.

Lemma untouched_refl m I F Q S : untouched m m I F Q S.
Proof. split; reflexivity. Qed.
Lemma untouched_trans m1 m2 m3 I F Q S : untouched m1 m2 I F Q S -> untouched m2 m3 I F Q S -> untouched m1 m3 I F Q S.
Proof.
  intros [A B C D] [A' B' C' D']. split; intros a J.
  - rewrite (A' a J). exact (A a J).
  - rewrite (B' a J). exact (B a J).
  - rewrite (C' a J). exact (C a J).
  - rewrite (D' a J). exact (D a J).
Qed.

(** The i-th itself moves without touching memory. *)
Lemma shield_self w i it' I F Q S : shield w i I F Q S -> shield (mk_world (w_mem w) (set_nth i it' (w_iters w)) (w_out w)) i I F Q S.
Proof.
  intros [A B C D].
  assert (O : forall f a, others w i f a -> others (mk_world (w_mem w) (set_nth i it' (w_iters w)) (w_out w)) i f a).
  { intros f a H j x E N. cbn [w_iters] in E. rewrite nth_set_other in E by congruence. exact (H j x E N). }
  split; cbn [w_mem w_out]; intros a J.
  - destruct (A a J). split; auto.
  - destruct (B a J) as (? & ? & ?). split; [assumption|]. split; auto.
  - destruct (C a J). split; auto.
  - destruct (D a J). split; auto.
Qed.

Lemma shield_moves w i j m' it it' out' I F Q S : j <> i -> moves w j m' it it' out' -> shield w i I F Q S ->
  shield (mk_world m' (set_nth j it' (w_iters w)) out') i I F Q S /\ untouched (w_mem w) m' I F Q S.
Proof.
  intros Nj [E GI (extra & GF & EO) GP GS _ _ _] [A B C D].
  assert (O : forall f X (Ar Ar' : arrays X) own own' a, incl (f it) own -> incl (f it') own' -> grows Ar Ar' own own' ->
    a < ar_next Ar -> ~ In a own -> others w i f a ->
    others (mk_world m' (set_nth j it' (w_iters w)) out') i f a).
  { intros f X Ar Ar' own own' a I1 I2 G L No H k x Ek Nk J. cbn [w_iters] in Ek.
    destruct (Nat.eq_dec j k) as [<-|Njk].
    - rewrite (nth_set_same _ _ _ _ E) in Ek. injection Ek as <-.
      destruct (g_own _ _ _ _ G a (I2 a J)) as [K|K]; [exact (No K)|lia].
    - rewrite nth_set_other in Ek by exact Njk. exact (H k x Ek Nk J). }
  split.
  - split; cbn [w_mem w_out]; intros a J.
    + destruct (A a J) as [L H]. split; [pose proof (g_next _ _ _ _ GI); lia|].
      exact (O own_ids _ _ _ _ _ a (incl_refl _) (incl_refl _) GI L (H j it E Nj) H).
    + destruct (B a J) as (L & H & NF). split; [pose proof (g_next _ _ _ _ GF); lia|].
      assert (No : ~ In a (tbuf it ++ flat_map addrs (h_free (w_mem w)))).
      { intros K. apply in_app_or in K. destruct K as [K|K]; [exact (H j it E Nj K)|]. apply NF. apply in_or_app. left. exact K. }
      split.
      * refine (O tbuf _ _ _ _ _ a _ _ GF L No H); intros b Jb; apply in_or_app; left; exact Jb.
      * intros K. rewrite EO in K. apply in_app_or in K.
        assert (Ex : forall b, In b (flat_map addrs (h_free m')) \/ In b extra -> In b (tbuf it' ++ flat_map addrs (h_free m') ++ extra)).
        { intros b [X|X]; apply in_or_app; right; apply in_or_app; [left|right]; exact X. }
        assert (Z : In a (flat_map addrs (h_free m')) \/ In a extra -> False).
        { intros X. destruct (g_own _ _ _ _ GF a (Ex a X)) as [Y|Y]; [exact (No Y)|lia]. }
        destruct K as [K|K]; [exact (Z (or_introl K))|]. apply in_app_or in K. destruct K as [K|K]; [exact (Z (or_intror K))|].
        apply NF. apply in_or_app. right. exact K.
    + destruct (C a J) as [L H]. split; [pose proof (g_next _ _ _ _ GP); lia|].
      exact (O own_policies _ _ _ _ _ a (incl_refl _) (incl_refl _) GP L (H j it E Nj) H).
    + destruct (D a J) as [L H]. split; [pose proof (g_next _ _ _ _ GS); lia|].
      exact (O own_staged _ _ _ _ _ a (incl_refl _) (incl_refl _) GS L (H j it E Nj) H).
  - split; intros a J.
    + destruct (A a J) as [L H]. exact (g_frame _ _ _ _ GI a L (H j it E Nj)).
    + destruct (B a J) as (L & H & NF). apply (g_frame _ _ _ _ GF a L).
      intros K. apply in_app_or in K. destruct K as [K|K]; [exact (H j it E Nj K)|]. apply NF. apply in_or_app. left. exact K.
    + destruct (C a J) as [L H]. exact (g_frame _ _ _ _ GP a L (H j it E Nj)).
    + destruct (D a J) as [L H]. exact (g_frame _ _ _ _ GS a L (H j it E Nj)).
Qed.

Lemma step_shield w a w' i I F Q S : inv w -> step w a w' -> leaves_alone i a -> shield w i I F Q S ->
  shield w' i I F Q S /\ untouched (w_mem w) (w_mem w') I F Q S.
Proof.
  intros Iv St La Sh.
  destruct St as [w d ignore large it m E|w j it grow pick ok it' m E En|w j it d E|w j it E|w a s b E|w j it m E Hw|w s A E R];
    cbn [leaves_alone] in La.
  - unfold mem_new in E. destruct (make (h_floats (w_mem w)) 0 (repeat 0%Z 16)) as [x A] eqn:Em. injection E as <- <-.
    pose proof (make_grows _ _ _ _ _ [] Em) as G.
    match goal with |- shield (mk_world ?m (_ ++ [?it]) _) _ _ _ _ _ /\ _ => set (m1 := m); set (it1 := it) end.
    assert (O : forall f a, others w i f a -> ~ In a (f it1) -> others (mk_world m1 (w_iters w ++ [it1]) (w_out w)) i f a).
    { intros f a H N j y Ey Nj. cbn [w_iters] in Ey. destruct (Nat.lt_ge_cases j (length (w_iters w))) as [L|L].
      - rewrite nth_error_app1 in Ey by exact L. exact (H j y Ey Nj).
      - rewrite nth_error_app2 in Ey by exact L. destruct (j - length (w_iters w)) as [|k]; [|destruct k; discriminate Ey].
        injection Ey as <-. exact N. }
    destruct Sh as [SA SB SC SD]. split.
    + split; cbn [w_mem w_out m1 h_ids h_floats h_policies h_staged h_free]; intros a J.
      * destruct (SA a J) as [L H]. split; [exact L|]. apply (O own_ids a H). intros [].
      * destruct (SB a J) as (L & H & NF). split; [pose proof (g_next _ _ _ _ G); lia|]. split; [|exact NF].
        apply (O tbuf a H). intros K. destruct (g_own _ _ _ _ G a K) as [[]|K']. lia.
      * destruct (SC a J) as [L H]. split; [exact L|]. apply (O own_policies a H). intros [].
      * destruct (SD a J) as [L H]. split; [exact L|]. apply (O own_staged a H). intros [].
    + split; cbn [w_mem m1 h_ids h_floats h_policies h_staged]; intros a J; try reflexivity.
      apply (g_frame _ _ _ _ G a); [exact (proj1 (SB a J))|intros []].
  - exact (shield_moves _ _ _ _ _ _ _ _ _ _ _ La (next_moves _ _ _ _ _ _ _ _ Iv E En) Sh).
  - destruct (Nat.eq_dec j i) as [->|N].
    + split; [exact (shield_self _ _ _ _ _ _ _ Sh)|apply untouched_refl].
    + exact (shield_moves _ _ _ _ _ _ _ _ _ _ _ N (reset_moves _ _ _ d Iv E) Sh).
  - destruct (Nat.eq_dec j i) as [->|N].
    + split; [exact (shield_self _ _ _ _ _ _ _ Sh)|apply untouched_refl].
    + exact (shield_moves _ _ _ _ _ _ _ _ _ _ _ N (close_moves _ _ _ Iv E) Sh).
  - split; [|split; reflexivity]. destruct Sh as [SA SB SC SD].
    split; cbn [w_mem w_out pool_put h_ids h_floats h_policies h_staged h_free]; try assumption.
    intros x J. destruct (SB x J) as (L & H & NF). split; [exact L|]. split; [exact H|].
    intros K. apply NF. rewrite E. cbn [flat_map] in K. rewrite addrs_cut in K. rewrite flat_app in *. cbn [flat_map].
    rewrite !in_app_iff in *. tauto.
  - pose proof (shield_moves _ _ _ _ _ _ _ _ _ _ _ La (write_moves _ _ _ _ Iv E Hw) Sh) as H.
    rewrite (set_nth_self _ _ _ E) in H. exact H.
  - destruct Sh as [SA SB SC SD]. destruct R as (R1 & R2 & R3). split.
    + split; cbn [w_mem w_out h_ids h_floats h_policies h_staged h_free]; try assumption.
      intros x J. rewrite R1. exact (SB x J).
    + split; cbn [w_mem h_ids h_floats h_policies h_staged]; try reflexivity.
      intros x J. apply R3. intros K. destruct (SB x J) as (_ & _ & NF). apply NF. apply in_or_app. right.
      apply in_flat_map. exists s. split; assumption.
Qed.

Lemma steps_shield w l w' i I F Q S : steps w l w' -> inv w -> Forall (leaves_alone i) l -> shield w i I F Q S ->
  shield w' i I F Q S /\ untouched (w_mem w) (w_mem w') I F Q S.
Proof.
  induction 1 as [w|w a w1 l w2 St T IH]; intros Iv K Sh; [split; [exact Sh|apply untouched_refl]|].
  inversion K as [|? ? Ka Kl]; subst. destruct (step_shield _ _ _ _ _ _ _ _ Iv St Ka Sh) as [S1 U1].
  destruct (IH (inv_step _ _ _ Iv St) Kl S1) as [S2 U2]. split; [exact S2|exact (untouched_trans _ _ _ _ _ _ _ U1 U2)].
Qed.

(** What an iterator shows is shielded. *)
Definition shown_floats (it : iter) : list nat := if i_pooled it then [] else addrs (i_timer it).
Definition shown_policies (m : memory) (it : iter) : list nat :=
  flat_map (fun c => addrs (ce_policies c)) (elements (h_staged m) (i_policies it)).

Lemma inv_shield w i it : inv w -> nth_error (w_iters w) i = Some it ->
  shield w i (addrs (i_id it)) (shown_floats it) (shown_policies (w_mem w) it) (addrs (i_policies it)).
Proof.
  intros I E. pose proof (proj1 (Forall_forall _ _) (iv_fine _ I) it (nth_error_In _ _ E)) as [A B C D F G H J K L M].
  assert (O : forall f a, NoDup (flat_map f (w_iters w)) -> In a (f it) -> others w i f a).
  { intros f a N Ja j x Ex Nj Jx. exact (flat_disjoint f _ j i x it a Ex E Nj N Jx Ja). }
  split; intros a Ja.
  - split; [exact (wf_addr _ _ _ B Ja)|exact (O own_ids a (iv_ids _ I) (C a Ja))].
  - unfold shown_floats in Ja. destruct (i_pooled it) eqn:Ep; [destruct Ja|].
    pose proof (G eq_refl a Ja) as Jt.
    pose proof (iv_floats _ I) as N. unfold floats_of in N. apply nodup_app in N. destruct N as (N1 & _ & N2).
    split; [exact (wf_addr _ _ _ F Ja)|]. split; [exact (O tbuf a N1 Jt)|].
    exact (N2 a (in_flat tbuf _ _ _ _ E Jt)).
  - unfold shown_policies in Ja. apply in_flat_map in Ja. destruct Ja as (c & Jc & Ja). destruct (M c Jc) as [Wc Ic].
    split; [exact (wf_addr _ _ _ Wc Ja)|exact (O own_policies a (iv_policies _ I) (Ic a Ja))].
  - split; [exact (wf_addr _ _ _ K Ja)|]. destruct (L a Ja) as [<-|Jo].
    + intros j x Ex _ Jx. apply (iv_not0 _ I). exact (in_flat own_staged _ _ _ _ Ex Jx).
    + exact (O own_staged a (iv_staged _ I) Jo).
Qed.

Lemma untouched_seen w i it m' : inv w -> nth_error (w_iters w) i = Some it ->
  untouched (w_mem w) m' (addrs (i_id it)) (shown_floats it) (shown_policies (w_mem w) it) (addrs (i_policies it)) ->
  elements (h_ids m') (i_id it) = elements (h_ids (w_mem w)) (i_id it) /\
  (i_pooled it = false -> elements (h_floats m') (i_timer it) = elements (h_floats (w_mem w)) (i_timer it)) /\
  policies_seen m' (i_policies it) = policies_seen (w_mem w) (i_policies it).
Proof.
  intros I E [UI UF UP US]. pose proof (proj1 (Forall_forall _ _) (iv_fine _ I) it (nth_error_In _ _ E)) as [A B C D F G H J K L M].
  split; [exact (elements_same _ _ _ (proj1 B) UI)|]. split.
  - intros Ep. unfold shown_floats in UF. rewrite Ep in UF. exact (elements_same _ _ _ (proj1 F) UF).
  - unfold policies_seen. rewrite (elements_same _ _ _ (proj1 K) US). apply map_ext_in. intros c Jc.
    unfold staged_seen. f_equal. apply elements_same; [exact (proj1 (proj1 (M c Jc)))|].
    intros a Ja. apply UP. unfold shown_policies. apply in_flat_map. exists c. split; assumption.
Qed.

Lemma kept w l w' i it : inv w -> nth_error (w_iters w) i = Some it -> steps w l w' -> Forall (leaves_alone i) l ->
  (i_pooled it = true -> In (i_timer it) (w_out w) /\ Forall (keeps_batch (i_timer it)) l) ->
  metric_seen (w_mem w') it = metric_seen (w_mem w) it /\
  policies_seen (w_mem w') (i_policies it) = policies_seen (w_mem w) (i_policies it).
Proof.
  intros I E St La Kb. destruct (steps_shield _ _ _ _ _ _ _ _ St I La (inv_shield _ _ _ I E)) as [_ U].
  destruct (untouched_seen _ _ _ _ I E U) as (V1 & V2 & V3). split; [|exact V3].
  unfold metric_seen. rewrite V1. destruct (i_pooled it).
  - destruct (Kb eq_refl) as [Ko Kl]. rewrite (proj2 (steps_batch _ _ _ _ St I Kl Ko)). reflexivity.
  - rewrite (V2 eq_refl). reflexivity.
Qed.

(** ** Runs *)
(** Equal but for the timer values, which [Next] throws away. *)
Definition similar (x y : mit) : Prop :=
  x_st x = x_st y /\ x_ignore x = x_ignore y /\ x_closed x = x_closed y /\ x_policies x = x_policies y /\
  mu_type (x_metric x) = mu_type (x_metric y) /\ mu_id (x_metric x) = mu_id (x_metric y) /\
  mu_counter (x_metric x) = mu_counter (x_metric y) /\ mu_gauge (x_metric x) = mu_gauge (x_metric y).

Lemma similar_refl x : similar x x.
Proof. repeat split. Qed.
Lemma similar_trans x y z : similar x y -> similar y z -> similar x z.
Proof.
  intros (A & B & C & D & E & F & G & H) (A' & B' & C' & D' & E' & F' & G' & H'). repeat split; congruence.
Qed.

Lemma mnext_similar x y : similar x y -> fst (mnext x) = fst (mnext y) /\ similar (snd (mnext x)) (snd (mnext y)) /\
  (fst (mnext x) = true -> snd (mnext x) = snd (mnext y)).
Proof.
  intros S. pose proof S as (A & B & C & D & E & F & G & H). unfold mnext. rewrite A.
  cbn [next_loop]. rewrite A, B, C, D, E, F, G, H.
  destruct (d_err (x_st y)) as [e|]; [cbn [fst snd]; split; [reflexivity|]; split; [exact S|discriminate]|].
  destruct (x_closed y); [cbn [fst snd]; split; [reflexivity|]; split; [exact S|discriminate]|].
  split; [reflexivity|]. split; [apply similar_refl|reflexivity].
Qed.

Lemma alone_similar n : forall x y, similar x y -> alone n x = alone n y.
Proof.
  induction n as [|n IH]; intros x y S; [reflexivity|]. cbn [alone].
  destruct (mnext_similar x y S) as (A & B & C).
  destruct (mnext x) as [ok x'], (mnext y) as [ok' y']. cbn [fst snd] in *. subst ok'.
  f_equal; [|exact (IH _ _ B)]. destruct ok; [rewrite (C eq_refl)|]; reflexivity.
Qed.

Lemma step_similar w a w' i it : inv w -> nth_error (w_iters w) i = Some it -> step w a w' -> only_read i a -> leaves_alone i a ->
  nth_error (w_iters w') i = Some it /\ similar (seen (w_mem w') it) (seen (w_mem w) it).
Proof.
  intros I E St Ro La.
  destruct (step_shield _ _ _ _ _ _ _ _ I St La (inv_shield _ _ _ I E)) as [_ U].
  destruct (untouched_seen _ _ _ _ I E U) as (V1 & _ & V3).
  split; [|unfold seen, metric_seen; repeat split; cbn [x_st x_ignore x_closed x_policies x_metric mu_type mu_id mu_counter mu_gauge]; assumption].
  destruct St as [w d ignore large it0 m E0|w j it0 grow pick ok it' m E0 En|w j it0 d E0|w j it0 E0|w a s b E0|w j it0 m E0 Hw|w s A E0 R];
    cbn [w_iters only_read leaves_alone] in *; try exact E.
  - rewrite nth_error_app1; [exact E|]. apply nth_error_Some. congruence.
  - rewrite nth_set_other by exact La. exact E.
  - rewrite nth_set_other by exact Ro. exact E.
  - rewrite nth_set_other by exact Ro. exact E.
Qed.

Lemma run_alone w l w' i : steps w l w' -> inv w -> forall it, nth_error (w_iters w) i = Some it -> Forall (only_read i) l ->
  outcomes i l = alone (length (outcomes i l)) (seen (w_mem w) it).
Proof.
  induction 1 as [w|w a w1 l w2 St T IH]; intros I it E Ro; [reflexivity|].
  inversion Ro as [|? ? Ra Rl]; subst. pose proof (inv_step _ _ _ I St) as I1.
  assert (Other : leaves_alone i a -> outcomes i (a :: l) = outcomes i l ->
    outcomes i (a :: l) = alone (length (outcomes i (a :: l))) (seen (w_mem w) it)).
  { intros La Eo. destruct (step_similar _ _ _ _ _ I E St Ra La) as [E1 S1]. rewrite Eo.
    rewrite (IH I1 it E1 Rl) at 1. exact (alone_similar _ _ _ S1). }
  destruct a as [|j ok shown|j|j|s|j|s]; try (apply Other; [exact Logic.I|reflexivity]).
  - destruct (Nat.eq_dec j i) as [->|N].
    + cbn [outcomes]. rewrite Nat.eqb_refl. cbn [length alone].
      inversion St as [|w0 i0 it0 grow pick ok0 it' m E0 En| | | | |]; subst.
      rewrite E in E0. injection E0 as <-.
      destruct (mem_next_ok grow pick it (w_mem w) (inv_good _ _ _ I E)) as (ok1 & it1 & m1 & E1 & V1 & _).
      rewrite En in E1. injection E1 as <- <- <-. rewrite <- V1.
      f_equal. refine (IH I1 it' _ Rl). cbn [w_iters]. exact (nth_set_same _ _ _ _ E).
    + apply Other; [exact N|]. cbn [outcomes]. destruct (Nat.eqb_spec j i); [contradiction|reflexivity].
  - cbn [only_read] in Ra. apply Other; [exact Ra|reflexivity].
Qed.
