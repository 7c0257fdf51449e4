(** [Next] in memory shows what [Next] without memory computes, and writes only to memory of the iterator's own. *)
From Coq Require Import Ascii String Arith NArith ZArith Bool Lia List.
From Verif.Base Require Import Bytes.
From Verif.Proof Require Import MsgpackLibProof IterMemArrays.
From Verif.Model Require Import AggType Policy Transformation ProtoWire MsgpackLib Msgpack IterMem.
From Verif.Spec Require Import IterMemSpec.
Import ListNotations.
Open Scope nat_scope.

Definition own_ids (it : iter) : list nat := addrs (i_id_buf it).
Definition own_floats (m : memory) (it : iter) : list nat :=
  addrs (i_timer_buf it) ++ flat_map addrs (h_free m) ++ (if i_pooled it then addrs (i_timer it) else []).
Definition own_policies (it : iter) : list nat := flat_map addrs (i_cached it).
Definition own_staged (it : iter) : list nat := addrs (i_cached_list it).

Record good_metric (m : memory) (it : iter) : Prop := {
  gm_buf : wf (h_ids m) (i_id_buf it);
  gm_id : wf (h_ids m) (i_id it);
  gm_id_in : incl (addrs (i_id it)) (own_ids it);
  gm_tbuf : wf (h_floats m) (i_timer_buf it);
  gm_timer : wf (h_floats m) (i_timer it);
  gm_timer_in : i_pooled it = false -> incl (addrs (i_timer it)) (addrs (i_timer_buf it));
  gm_free : Forall (wf (h_floats m)) (h_free m);
  gm_nodup : NoDup (own_floats m it) }.

Definition cells_in (m : memory) (s : slice) (l : list slice) : Prop :=
  forall c, In c (elements (h_staged m) s) ->
    wf (h_policies m) (ce_policies c) /\ incl (addrs (ce_policies c)) (flat_map addrs l).

Record good_policies (m : memory) (it : iter) : Prop := {
  gp_cached : Forall (wf (h_policies m)) (i_cached it);
  gp_nodup : NoDup (own_policies it);
  gp_list : wf (h_staged m) (i_cached_list it);
  gp_not0 : ~ In 0 (own_staged it);
  gp_policies : wf (h_staged m) (i_policies it);
  gp_policies_in : incl (addrs (i_policies it)) (0 :: own_staged it);
  gp_cells : cells_in m (i_policies it) (i_cached it);
  gp_default : ar_at (h_staged m) 0 = [default_cell];
  gp_next : 0 < ar_next (h_staged m) }.

(** Options and flags. *)
Definition same_kind (it it' : iter) : Prop :=
  i_ignore it' = i_ignore it /\ i_closed it' = i_closed it /\ i_large it' = i_large it.
Definition same_policies (m m' : memory) (it it' : iter) : Prop :=
  h_policies m' = h_policies m /\ h_staged m' = h_staged m /\ i_policies it' = i_policies it /\
  i_cached it' = i_cached it /\ i_cached_list it' = i_cached_list it.
Definition same_floats (m m' : memory) (it it' : iter) : Prop :=
  h_floats m' = h_floats m /\ h_free m' = h_free m /\ i_timer it' = i_timer it /\ i_pooled it' = i_pooled it /\
  i_timer_buf it' = i_timer_buf it.
Definition same_metric (m m' : memory) (it it' : iter) : Prop :=
  h_ids m' = h_ids m /\ i_type it' = i_type it /\ i_id it' = i_id it /\ i_id_buf it' = i_id_buf it /\
  i_counter it' = i_counter it /\ i_gauge it' = i_gauge it /\ same_floats m m' it it'.

Record metric_step (m m' : memory) (it it' : iter) : Prop := {
  ms_kind : same_kind it it';
  ms_policies : same_policies m m' it it';
  ms_ids : grows (h_ids m) (h_ids m') (own_ids it) (own_ids it');
  ms_floats : grows (h_floats m) (h_floats m') (own_floats m it) (own_floats m' it');
  ms_good : good_metric m it -> good_metric m' it' }.

Lemma metric_step_trans m1 m2 m3 a b c : metric_step m1 m2 a b -> metric_step m2 m3 b c -> metric_step m1 m3 a c.
Proof.
  intros [K P I F G] [K' P' I' F' G']. split.
  - destruct K as (A & B & C), K' as (A' & B' & C'). repeat split; congruence.
  - destruct P as (A & B & C & D & E), P' as (A' & B' & C' & D' & E'). repeat split; congruence.
  - exact (grows_trans _ _ _ _ _ _ I I').
  - exact (grows_trans _ _ _ _ _ _ F F').
  - auto.
Qed.
Lemma metric_step_refl m it : metric_step m m it it.
Proof.
  split; [repeat split|repeat split|apply grows_refl|apply grows_refl|auto].
Qed.
Lemma metric_step_st m it s : metric_step m m it (with_st it s).
Proof.
  split; [repeat split|repeat split|apply grows_refl|apply grows_refl|].
  intros [A B C D E F G H]. split; assumption.
Qed.

Lemma run_lift {A C} (d : D A) (f : A -> P C) it m :
  seq (lift d) f it m = f (fst (d (i_st it))) (with_st it (snd (d (i_st it)))) m.
Proof. unfold seq, lift. destruct (d (i_st it)) as [a s]. reflexivity. Qed.
Lemma run_assign {C} (g : iter -> iter) (f : unit -> P C) it m : seq (assign g) f it m = f tt (g it) m.
Proof. reflexivity. Qed.

Lemma bytes_len_range s n t : dec_bytes_len s = (n, t) -> (n = -1 \/ 0 <= n)%Z.
Proof.
  unfold dec_bytes_len, prim. destruct (d_err s); [intros E; injection E as <- _; right; lia|].
  destruct (read_bytes_len (d_in s)) as [[v r]|e] eqn:R; intros E; injection E as <- _; [|right; lia].
  unfold read_bytes_len in R. destruct (d_in s) as [|b d]; [discriminate|].
  assert (U : forall k d v r, read_uint k d = inl (v, r) -> (0 <= v)%Z).
  { intros k d0 v0 r0 H. unfold read_uint in H. destruct (take k d0) as [[x y]|]; [|discriminate].
    injection H as <- _. apply get_be_range. }
  destruct (Z.eqb_spec (bz b) 192); [injection R as <- _; left; reflexivity|].
  destruct ((160 <=? bz b)%Z && (bz b <? 192)%Z) eqn:E1.
  { apply andb_prop in E1. destruct E1 as [E1 _]. apply Z.leb_le in E1. injection R as <- _. right. lia. }
  destruct ((bz b =? 196)%Z || (bz b =? 217)%Z); [right; exact (U _ _ _ _ R)|].
  destruct ((bz b =? 197)%Z || (bz b =? 218)%Z); [right; exact (U _ _ _ _ R)|].
  destruct ((bz b =? 198)%Z || (bz b =? 219)%Z); [right; exact (U _ _ _ _ R)|discriminate].
Qed.

(** ** The ID *)
Lemma mem_id_ok type it m : good_metric m it ->
  exists it' m', mem_id type it m = Some (tt, it', m') /\ i_type it' = type /\
    (elements (h_ids m') (i_id it'), i_st it') = dec_id (i_st it) /\
    i_counter it' = i_counter it /\ i_gauge it' = i_gauge it /\ same_floats m m' it it' /\ metric_step m m' it it'.
Proof.
  intros G. unfold mem_id. rewrite run_lift.
  destruct (dec_bytes_len (i_st it)) as [n s] eqn:En. cbn [fst snd].
  unfold dec_id, bindD. rewrite En. rewrite run_lift. unfold get_err. cbn [fst snd i_st with_st].
  destruct (d_err s) as [e|] eqn:Ee.
  - eexists. eexists. split; [reflexivity|]. split; [reflexivity|]. split; [reflexivity|].
    split; [reflexivity|]. split; [reflexivity|]. split; [repeat split|].
    split; [repeat split|repeat split|apply grows_refl|apply grows_refl|].
    intros _. destruct G as [A B C D E F H I]. split; try assumption.
    + apply wf_nil.
    + intros a [].
  - destruct (Z.eqb_spec n (-1)) as [->|N1].
    + eexists. eexists. split; [reflexivity|]. split; [reflexivity|]. split; [reflexivity|].
      split; [reflexivity|]. split; [reflexivity|]. split; [repeat split|].
      split; [repeat split|repeat split|apply grows_refl|apply grows_refl|].
      intros _. destruct G as [A B C D E F H I]. split; try assumption.
      * apply wf_cut; [exact A|lia].
      * apply wf_cut; [exact A|lia].
      * intros a J. exact J.
    + destruct (bytes_len_range _ _ _ En) as [N|N]; [contradiction|].
      destruct (Z.ltb_spec n 0) as [N'|_]; [lia|].
      cbv zeta. cbn [with_st i_id_buf i_st].
      set (k := Z.to_nat n).
      set (mk := if sl_cap (i_id_buf it) <? k then make (h_ids m) k (repeat zero k) else (cut k (i_id_buf it), h_ids m)).
      assert (R : exists buf A, mk = (buf, A) /\ sl_len buf = k /\ wf A buf /\
                  grows (h_ids m) A (own_ids it) (addrs buf)).
      { unfold mk. destruct (Nat.ltb_spec (sl_cap (i_id_buf it)) k) as [L|L].
        - destruct (make (h_ids m) k (repeat zero k)) as [buf A] eqn:E. exists buf, A. split; [reflexivity|].
          pose proof (make_ok _ _ _ _ _ E) as [_ W]; [rewrite repeat_length; lia|].
          split; [injection E as <- _; reflexivity|]. split; [exact W|exact (make_grows _ _ _ _ _ _ E)].
        - exists (cut k (i_id_buf it)), (h_ids m). split; [reflexivity|]. split; [reflexivity|].
          split; [apply wf_cut; [exact (gm_buf _ _ G)|lia]|apply grows_refl]. }
      destruct R as (buf & A & -> & Lb & W & Gr).
      destruct (overwrite_ok A buf (firstn k (d_in s)) W) as [O1 O2].
      { rewrite firstn_length. destruct W as [W _]. lia. }
      assert (Gf : grows (h_ids m) (overwrite A buf (firstn k (d_in s))) (own_ids it) (addrs buf))
        by exact (grows_trans _ _ _ _ _ _ Gr O1).
      assert (Wf : wf (overwrite A buf (firstn k (d_in s))) buf) by exact (wf_grows _ _ _ _ _ W O1).
      unfold prim. rewrite Ee. unfold take. unfold zlen. fold k.
      destruct (Z.leb_spec n (Z.of_nat (length (d_in s)))) as [Lt|Lt].
      * eexists. eexists. split; [reflexivity|]. split; [reflexivity|].
        cbn [with_id with_st i_id i_st i_counter i_gauge h_ids]. split.
        { f_equal. apply O2. rewrite firstn_length, Lb. unfold k. lia. }
        split; [reflexivity|]. split; [reflexivity|]. split; [repeat split|].
        split; [repeat split|repeat split|exact Gf|apply grows_refl|].
        intros _. destruct G as [A1 B1 C1 D1 E1 F1 H1 I1]. split; try assumption.
        intros a J. exact J.
      * assert (Hd : forall T (x y : T), match d_in s with [] => x | _ => y end = (if d_in s then x else y))
          by (intros; destruct (d_in s); reflexivity).
        destruct (d_in s) as [|b0 d0] eqn:Ed;
        (eexists; eexists; split; [reflexivity|]; split; [reflexivity|];
         cbn [with_id with_st i_id i_st i_counter i_gauge h_ids];
         split; [reflexivity|]; split; [reflexivity|]; split; [reflexivity|]; split; [repeat split|];
         split; [repeat split|repeat split|exact Gf|apply grows_refl|];
         intros _; destruct G as [A1 B1 C1 D1 E1 F1 H1 I1]; split; try assumption;
         [apply wf_nil|intros a []]).
Qed.

(** ** The values of a batch timer *)
Lemma flat_app {A C} (f : A -> list C) l l' : flat_map f (l ++ l') = flat_map f l ++ flat_map f l'.
Proof. induction l as [|x l IH]; [reflexivity|]. cbn [app flat_map]. rewrite IH, app_assoc. reflexivity. Qed.

Lemma nodup_app {A} (l r : list A) : NoDup (l ++ r) <-> NoDup l /\ NoDup r /\ forall a, In a l -> In a r -> False.
Proof.
  induction l as [|x l IH]; cbn [app].
  - split; [intros H; split; [constructor|]; split; [exact H|intros a []]|tauto].
  - split.
    + intros H. inversion H; subst. apply IH in H3. destruct H3 as (L & R & D).
      split; [constructor; [intros I; apply H2; apply in_or_app; left; exact I|exact L]|].
      split; [exact R|]. intros a [->|I] J; [apply H2; apply in_or_app; right; exact J|exact (D a I J)].
    + intros (L & R & D). inversion L; subst. constructor.
      * intros I. apply in_app_or in I. destruct I as [I|I]; [exact (H1 I)|exact (D x (or_introl eq_refl) I)].
      * apply IH. split; [exact H2|]. split; [exact R|]. intros a I J. exact (D a (or_intror I) J).
Qed.

Lemma fill_room {X} (zero : X) grow (x : D X) n : forall s A t s' A' t',
  sl_len s + n <= sl_cap s -> fill zero grow x n s A t = ((s', A'), t') -> addrs s' = addrs s.
Proof.
  induction n as [|n IH]; intros s A t s' A' t' L E.
  - injection E as <- <- <-. reflexivity.
  - cbn [fill] in E. unfold bindD in E. destruct (x t) as [v t1]. unfold append in E.
    destruct (Nat.ltb_spec (sl_len s) (sl_cap s)) as [_|N]; [|lia].
    apply IH in E; [rewrite E; apply addrs_cut|cbn [cut sl_len sl_cap]; lia].
Qed.

Lemma mem_values_ok grow pick it m : good_metric m it ->
  exists it' m', mem_values grow pick it m = Some (tt, it', m') /\
    (elements (h_floats m') (i_timer it'), i_st it') = (do n <- dec_array_len; dec_list dec_float64 n) (i_st it) /\
    i_type it' = i_type it /\ i_id it' = i_id it /\ i_counter it' = i_counter it /\ i_gauge it' = i_gauge it /\
    h_ids m' = h_ids m /\ metric_step m m' it it'.
Proof.
  intros G. unfold mem_values. rewrite run_lift.
  unfold bindD. destruct (dec_array_len (i_st it)) as [n s] eqn:En. cbn [fst snd].
  cbn [with_st i_timer_buf i_st i_large].
  set (choice := if (n <=? Z.of_nat (sl_cap (i_timer_buf it)))%Z then _ else _).
  assert (R : exists s0 pooled buf m0, choice = (s0, pooled, buf, m0) /\
    sl_len s0 = 0 /\ wf (h_floats m0) s0 /\ wf (h_floats m0) buf /\
    h_ids m0 = h_ids m /\ h_policies m0 = h_policies m /\ h_staged m0 = h_staged m /\
    Forall (wf (h_floats m0)) (h_free m0) /\
    (pooled = false -> addrs s0 = addrs buf /\ Z.to_nat n <= sl_cap s0) /\
    grows (h_floats m) (h_floats m0) (own_floats m it)
      (addrs s0 ++ flat_map addrs (h_free m0) ++ (if pooled then addrs buf else []))).
  { unfold choice. destruct G as [A B C Dg E F Hf I].
    assert (I' : NoDup (addrs (i_timer_buf it) ++ flat_map addrs (h_free m))).
    { unfold own_floats in I. rewrite app_assoc in I. apply nodup_app in I. tauto. }
    assert (Sub : grows (h_floats m) (h_floats m) (own_floats m it) (addrs (i_timer_buf it) ++ flat_map addrs (h_free m))).
    { split; auto. intros a J. left. unfold own_floats. rewrite app_assoc. apply in_or_app. left. exact J. }
    assert (Lf : forall a, In a (flat_map addrs (h_free m)) -> a < ar_next (h_floats m)).
    { intros a J. apply in_flat_map in J. destruct J as (x & Jx & J).
      exact (wf_addr _ _ _ (proj1 (Forall_forall _ _) Hf x Jx) J). }
    assert (NF : NoDup (flat_map addrs (h_free m))) by (apply nodup_app in I'; tauto).
    destruct (Z.leb_spec n (Z.of_nat (sl_cap (i_timer_buf it)))) as [L|L].
    - eexists. eexists. eexists. eexists. split; [reflexivity|]. split; [reflexivity|].
      split; [apply wf_cut; [exact Dg|lia]|]. split; [apply wf_cut; [exact Dg|lia]|].
      split; [reflexivity|]. split; [reflexivity|]. split; [reflexivity|]. split; [exact Hf|].
      split; [intros _; split; [reflexivity|cbn [cut sl_cap]; lia]|].
      rewrite app_nil_r. exact Sub.
    - destruct (Z.leb_spec n (i_large it)) as [L'|L'].
      + destruct (make (h_floats m) 0 _) as [s0 A0] eqn:E0.
        eexists. eexists. eexists. eexists. split; [reflexivity|].
        pose proof (make_ok _ _ _ _ _ E0 (Nat.le_0_l _)) as [_ W0].
        split; [injection E0 as <- _; reflexivity|]. split; [exact W0|]. split; [exact W0|].
        split; [reflexivity|]. split; [reflexivity|]. split; [reflexivity|]. cbn [h_floats h_free].
        pose proof (make_grows _ _ _ _ _ [] E0) as G0.
        split.
        { apply Forall_forall. intros x J. exact (wf_grows _ _ _ _ _ (proj1 (Forall_forall _ _) Hf x J) G0). }
        split.
        { intros _. split; [reflexivity|]. injection E0 as <- _. cbn [sl_cap]. rewrite repeat_length. lia. }
        rewrite app_nil_r.
        pose proof (grows_more _ _ _ _ (flat_map addrs (h_free m)) G0 Lf NF) as G1. cbn [app] in G1.
        refine (grows_trans _ _ _ _ _ _ _ G1).
        split; auto. intros a J. left. unfold own_floats. apply in_or_app. right. apply in_or_app. left. exact J.
      + unfold pool_get.
        destruct (match pick with Some k => nth_error (h_free m) k | None => None end) as [x|] eqn:Ex.
        * destruct pick as [k|]; [|discriminate].
          eexists. eexists. eexists. eexists. split; [reflexivity|]. split; [reflexivity|]. cbn [h_floats h_free h_ids h_policies h_staged].
          destruct (nth_error_split _ _ Ex) as (f1 & f2 & Ef & Lk).
          assert (Wx : wf (h_floats m) x).
          { apply (proj1 (Forall_forall _ _) Hf). rewrite Ef. apply in_or_app. right. left. reflexivity. }
          assert (Er : firstn k (h_free m) ++ skipn (S k) (h_free m) = f1 ++ f2).
          { rewrite Ef. subst k. rewrite firstn_app, Nat.sub_diag, firstn_all, firstn_O, app_nil_r.
            replace (S (length f1)) with (length f1 + 1) by lia.
            rewrite skipn_app. rewrite (skipn_all2 (n := length f1 + 1)) by lia.
            replace (length f1 + 1 - length f1) with 1 by lia. reflexivity. }
          rewrite Er. split; [apply wf_cut; [exact Wx|lia]|]. split; [exact Dg|].
          split; [reflexivity|]. split; [reflexivity|]. split; [reflexivity|].
          split.
          { apply Forall_forall. intros y J. apply (proj1 (Forall_forall _ _) Hf). rewrite Ef.
            apply in_app_or in J. apply in_or_app. destruct J as [J|J]; [left; exact J|right; right; exact J]. }
          split; [discriminate|]. rewrite addrs_cut.
          rewrite Ef, flat_app in I', Sub. cbn [flat_map] in I', Sub. rewrite flat_app.
          split; auto.
          -- intros a J. apply (g_own _ _ _ _ Sub). repeat (apply in_app_or in J; destruct J as [J|J]);
               repeat (apply in_or_app); try (left; exact J).
             ++ right. apply in_or_app. right. apply in_or_app. left. exact J.
             ++ right. apply in_or_app. left. exact J.
             ++ right. apply in_or_app. right. apply in_or_app. right. exact J.
          -- intros _. clear - I'.
             apply nodup_app in I'. destruct I' as (N1 & N2 & D1).
             apply nodup_app in N2. destruct N2 as (N2 & N3 & D2).
             apply nodup_app in N3. destruct N3 as (N3 & N4 & D3).
             apply nodup_app. split; [exact N3|]. split.
             ++ apply nodup_app. split; [apply nodup_app; split; [exact N2|]; split; [exact N4|]|].
                ** intros a Ja Jb. apply (D2 a Ja). apply in_or_app. right. exact Jb.
                ** split; [exact N1|]. intros a Ja Jb. apply (D1 a Jb). apply in_app_or in Ja. apply in_or_app.
                   destruct Ja as [Ja|Ja]; [left; exact Ja|right; apply in_or_app; right; exact Ja].
             ++ intros a Ja Jb. apply in_app_or in Jb. destruct Jb as [Jb|Jb].
                ** apply in_app_or in Jb. destruct Jb as [Jb|Jb].
                   --- apply (D2 a Jb). apply in_or_app. left. exact Ja.
                   --- exact (D3 a Ja Jb).
                ** apply (D1 a Jb). apply in_or_app. right. apply in_or_app. left. exact Ja.
        * assert (Em : (match pick with Some k => (fun _ => let '(s1, A1) := make (h_floats m) 0 (repeat 0%Z (Z.to_nat n)) in
                    (s1, mk_memory (h_ids m) A1 (h_policies m) (h_staged m) (h_free m))) k
                   | None => let '(s1, A1) := make (h_floats m) 0 (repeat 0%Z (Z.to_nat n)) in
                    (s1, mk_memory (h_ids m) A1 (h_policies m) (h_staged m) (h_free m)) end)
                   = let '(s1, A1) := make (h_floats m) 0 (repeat 0%Z (Z.to_nat n)) in
                    (s1, mk_memory (h_ids m) A1 (h_policies m) (h_staged m) (h_free m))) by (destruct pick; reflexivity).
          destruct (make (h_floats m) 0 (repeat 0%Z (Z.to_nat n))) as [s0 A0] eqn:E0. clear Em.
          eexists. eexists. eexists. eexists. split; [reflexivity|].
          pose proof (make_ok _ _ _ _ _ E0 (Nat.le_0_l _)) as [_ W0].
          pose proof (make_grows _ _ _ _ _ [] E0) as G0.
          split; [injection E0 as <- _; reflexivity|]. cbn [h_floats h_free h_ids h_policies h_staged].
          split; [exact W0|]. split; [exact (wf_grows _ _ _ _ _ Dg G0)|].
          split; [reflexivity|]. split; [reflexivity|]. split; [reflexivity|].
          split.
          { apply Forall_forall. intros y J. exact (wf_grows _ _ _ _ _ (proj1 (Forall_forall _ _) Hf y J) G0). }
          split; [discriminate|].
          assert (I2 : NoDup (flat_map addrs (h_free m) ++ addrs (i_timer_buf it))).
          { apply nodup_app in I'. destruct I' as (X & Y & Z0). apply nodup_app. split; [exact Y|]. split; [exact X|].
            intros a Ja Jb. exact (Z0 a Jb Ja). }
          assert (L2 : forall a, In a (flat_map addrs (h_free m) ++ addrs (i_timer_buf it)) -> a < ar_next (h_floats m)).
          { intros a J. apply in_app_or in J. destruct J as [J|J]; [exact (Lf a J)|exact (wf_addr _ _ _ Dg J)]. }
          pose proof (grows_more _ _ _ _ _ G0 L2 I2) as G1. cbn [app] in G1.
          refine (grows_trans _ _ _ _ _ _ _ G1).
          split; auto. intros a J. left. unfold own_floats. apply in_app_or in J. apply in_or_app.
          destruct J as [J|J]; [right; apply in_or_app; left; exact J|left; exact J]. }
  destruct R as (s0 & pooled & buf & m0 & Ec & L0 & W0 & Wb & Ei & Ep & Es & Wf & Eb & Gr). rewrite Ec. clear choice Ec.
  destruct (fill 0%Z grow dec_float64 (Z.to_nat n) s0 (h_floats m0) s) as [[s1 A1] t1] eqn:Ef.
  destruct (fill_ok _ _ _ _ _ _ _ _ _ _ W0 Ef) as (-> & E1 & W1 & G1).
  eexists. eexists. split; [reflexivity|]. cbn [with_timer with_st i_timer i_st i_type i_id i_counter i_gauge h_floats h_ids].
  split.
  { unfold dec_list. rewrite E1. unfold elements at 1. rewrite L0. cbn [firstn app].
    destruct (dec_loop dec_float64 (Z.to_nat n) s); reflexivity. }
  split; [reflexivity|]. split; [reflexivity|]. split; [reflexivity|]. split; [reflexivity|]. split; [exact Ei|].
  assert (ND0 : NoDup (addrs s0 ++ flat_map addrs (h_free m0) ++ (if pooled then addrs buf else []))).
  { apply (g_nodup _ _ _ _ Gr). exact (gm_nodup _ _ G). }
  assert (Lr : forall a, In a (flat_map addrs (h_free m0) ++ (if pooled then addrs buf else [])) -> a < ar_next (h_floats m0)).
  { intros a J. apply in_app_or in J. destruct J as [J|J].
    - apply in_flat_map in J. destruct J as (x & Jx & J).
      exact (wf_addr _ _ _ (proj1 (Forall_forall _ _) Wf x Jx) J).
    - destruct pooled; [exact (wf_addr _ _ _ Wb J)|destruct J]. }
  pose proof (grows_more _ _ _ _ _ G1 Lr ND0) as G2.
  pose proof (grows_trans _ _ _ _ _ _ Gr G2) as G3.
  assert (Wb1 : wf A1 buf) by exact (wf_grows _ _ _ _ _ Wb G1).
  assert (Wf1 : Forall (wf A1) (h_free m0)).
  { apply Forall_forall. intros y J. exact (wf_grows _ _ _ _ _ (proj1 (Forall_forall _ _) Wf y J) G1). }
  (* without the pool the slice stays within the buffer *)
  assert (Fin : grows (h_floats m) A1 (own_floats m it)
                  (addrs buf ++ flat_map addrs (h_free m0) ++ (if pooled then addrs s1 else [])) /\
                (pooled = false -> incl (addrs s1) (addrs buf))).
  { destruct pooled.
    - split; [|discriminate]. refine (grows_trans _ _ _ _ _ _ G3 _). split; auto.
      + intros a J. left. apply in_app_or in J. apply in_or_app. destruct J as [J|J].
        * right. apply in_or_app. right. exact J.
        * apply in_app_or in J. destruct J as [J|J]; [right; apply in_or_app; left; exact J|left; exact J].
      + intros N. apply nodup_app in N. destruct N as (N1 & N2 & D1). apply nodup_app in N2. destruct N2 as (N2 & N3 & D2).
        apply nodup_app. split; [exact N3|]. split.
        * apply nodup_app. split; [exact N2|]. split; [exact N1|]. intros a Ja Jb. apply (D1 a Jb).
          apply in_or_app. left. exact Ja.
        * intros a Ja Jb. apply in_app_or in Jb. destruct Jb as [Jb|Jb]; [exact (D2 a Jb Ja)|].
          apply (D1 a Jb). apply in_or_app. right. exact Ja.
    - destruct (Eb eq_refl) as [Ea Er].
      assert (Er' : sl_len s0 + Z.to_nat n <= sl_cap s0) by (rewrite L0; exact Er).
      pose proof (fill_room _ _ _ _ _ _ _ _ _ _ Er' Ef) as Ea'.
      split; [|intros _ a J; rewrite <- Ea, <- Ea'; exact J]. rewrite <- Ea, <- Ea'. exact G3. }
  destruct Fin as [Gf In1].
  split.
  - repeat split.
  - repeat split; assumption.
  - unfold own_ids. cbn [with_timer with_st i_id_buf h_ids]. rewrite Ei. apply grows_refl.
  - exact Gf.
  - intros _. destruct G as [A B C Dg E F Hf I].
    split; cbn [with_timer with_st i_id_buf i_id i_timer_buf i_timer i_pooled h_ids h_floats h_free]; try assumption.
    + rewrite Ei. exact A.
    + rewrite Ei. exact B.
    + exact (g_nodup _ _ _ _ Gf I).
Qed.

(** ** The metric *)
Definition metric_ok (p : P unit) (d : munion -> D munion) : Prop := forall it m, good_metric m it ->
  exists it' m', p it m = Some (tt, it', m') /\
    (metric_seen m' it', i_st it') = d (metric_seen m it) (i_st it) /\ metric_step m m' it it'.

Lemma metric_seen_st m it s : metric_seen m (with_st it s) = metric_seen m it.
Proof. reflexivity. Qed.
Lemma good_metric_st m it s : good_metric m it -> good_metric m (with_st it s).
Proof. exact (ms_good _ _ _ _ (metric_step_st m it s)). Qed.

Lemma seq_some {A C} (x : P A) (f : A -> P C) it m a it' m' : x it m = Some (a, it', m') -> seq x f it m = f a it' m'.
Proof. intros E. unfold seq. rewrite E. reflexivity. Qed.
Lemma lift_eq {A} (d : D A) it m : lift d it m = Some (fst (d (i_st it)), with_st it (snd (d (i_st it))), m).
Proof. unfold lift. destruct (d (i_st it)). reflexivity. Qed.

Lemma metric_step_counter m it v : metric_step m m it (with_counter it v).
Proof.
  split; [repeat split|repeat split|apply grows_refl|apply grows_refl|].
  intros [A B C D E F G H]. split; assumption.
Qed.
Lemma metric_step_gauge m it v : metric_step m m it (with_gauge it v).
Proof.
  split; [repeat split|repeat split|apply grows_refl|apply grows_refl|].
  intros [A B C D E F G H]. split; assumption.
Qed.

Lemma mem_counter_ok : metric_ok mem_counter dec_counter.
Proof.
  intros it m G. unfold mem_counter. rewrite run_lift.
  unfold dec_counter, bindD, ret. destruct (check_fields counter_type (i_st it)) as [[extra|] s] eqn:Ec; cbn [fst snd].
  2:{ eexists. eexists. split; [reflexivity|]. split; [reflexivity|apply metric_step_st]. }
  destruct (mem_id_ok 1 _ _ (good_metric_st m it s G)) as (it1 & m1 & E1 & T1 & V1 & C1 & G1 & F1 & S1).
  rewrite (seq_some _ _ _ _ _ _ _ E1). rewrite run_lift. rewrite run_assign. rewrite lift_eq.
  cbn [with_st i_st] in V1. rewrite <- V1. cbn [i_st with_counter with_st].
  destruct (dec_varint64 (i_st it1)) as [v s2] eqn:Ev. cbn [fst snd].
  destruct (dec_skip extra s2) as [u s3] eqn:Es. cbn [fst snd].
  eexists. eexists. split; [destruct u; reflexivity|]. split.
  - f_equal. unfold metric_seen. cbn [with_counter with_st i_type i_id i_counter i_timer i_gauge mu_timer mu_gauge].
    destruct F1 as (F1 & F2 & F3 & F4 & F5). rewrite F1, F3, T1, G1. reflexivity.
  - refine (metric_step_trans _ _ _ _ _ _ (metric_step_st m it s) _).
    refine (metric_step_trans _ _ _ _ _ _ S1 _).
    refine (metric_step_trans _ _ _ _ _ _ (metric_step_st _ _ s2) _).
    refine (metric_step_trans _ _ _ _ _ _ (metric_step_counter _ _ v) _).
    apply metric_step_st.
Qed.

Lemma mem_gauge_ok : metric_ok mem_gauge dec_gauge.
Proof.
  intros it m G. unfold mem_gauge. rewrite run_lift.
  unfold dec_gauge, bindD, ret. destruct (check_fields gauge_type (i_st it)) as [[extra|] s] eqn:Ec; cbn [fst snd].
  2:{ eexists. eexists. split; [reflexivity|]. split; [reflexivity|apply metric_step_st]. }
  destruct (mem_id_ok 3 _ _ (good_metric_st m it s G)) as (it1 & m1 & E1 & T1 & V1 & C1 & G1 & F1 & S1).
  rewrite (seq_some _ _ _ _ _ _ _ E1). rewrite run_lift. rewrite run_assign. rewrite lift_eq.
  cbn [with_st i_st] in V1. rewrite <- V1. cbn [i_st with_gauge with_st].
  destruct (dec_float64 (i_st it1)) as [v s2] eqn:Ev. cbn [fst snd].
  destruct (dec_skip extra s2) as [u s3] eqn:Es. cbn [fst snd].
  eexists. eexists. split; [destruct u; reflexivity|]. split.
  - f_equal. unfold metric_seen. cbn [with_gauge with_st i_type i_id i_counter i_timer i_gauge mu_timer mu_counter].
    destruct F1 as (F1 & F2 & F3 & F4 & F5). rewrite F1, F3, T1, C1. reflexivity.
  - refine (metric_step_trans _ _ _ _ _ _ (metric_step_st m it s) _).
    refine (metric_step_trans _ _ _ _ _ _ S1 _).
    refine (metric_step_trans _ _ _ _ _ _ (metric_step_st _ _ s2) _).
    refine (metric_step_trans _ _ _ _ _ _ (metric_step_gauge _ _ v) _).
    apply metric_step_st.
Qed.

Lemma mem_timer_ok grow pick : metric_ok (mem_timer grow pick) dec_timer.
Proof.
  intros it m G. unfold mem_timer. rewrite run_lift.
  unfold dec_timer, bindD, ret. destruct (check_fields timer_type (i_st it)) as [[extra|] s] eqn:Ec; cbn [fst snd].
  2:{ eexists. eexists. split; [reflexivity|]. split; [reflexivity|apply metric_step_st]. }
  destruct (mem_id_ok 2 _ _ (good_metric_st m it s G)) as (it1 & m1 & E1 & T1 & V1 & C1 & G1 & F1 & S1).
  rewrite (seq_some _ _ _ _ _ _ _ E1).
  pose proof (ms_good _ _ _ _ S1 (good_metric_st m it s G)) as Gd1.
  destruct (mem_values_ok grow pick _ _ Gd1) as (it2 & m2 & E2 & V2 & T2 & I2 & C2 & G2 & H2 & S2).
  rewrite (seq_some _ _ _ _ _ _ _ E2). rewrite lift_eq.
  cbn [with_st i_st] in V1. rewrite <- V1. unfold bindD in V2.
  destruct (dec_array_len (i_st it1)) as [n s1]. rewrite <- V2.
  destruct (dec_skip extra (i_st it2)) as [u s3] eqn:Es. cbn [fst snd].
  eexists. eexists. split; [destruct u; reflexivity|]. split.
  - f_equal. unfold metric_seen. cbn [with_st i_type i_id i_counter i_timer i_gauge mu_counter mu_gauge].
    rewrite T2, T1, I2, H2, C2, C1, G2, G1. reflexivity.
  - refine (metric_step_trans _ _ _ _ _ _ (metric_step_st m it s) _).
    refine (metric_step_trans _ _ _ _ _ _ S1 _).
    refine (metric_step_trans _ _ _ _ _ _ S2 _). apply metric_step_st.
Qed.

Lemma mem_body_ok grow pick t : metric_ok (mem_body grow pick t) (fun u => dec_body t u).
Proof.
  unfold mem_body, dec_body.
  destruct ((t =? counter_type)%Z || (t =? counter_pl_type)%Z); [exact mem_counter_ok|].
  destruct ((t =? timer_type)%Z || (t =? timer_pl_type)%Z); [apply mem_timer_ok|exact mem_gauge_ok].
Qed.

(** ** The policies *)
Lemma grows_mid {X} (A A' : arrays X) l own own' r : grows A A' own own' ->
  (forall a, In a (l ++ r) -> a < ar_next A) -> NoDup (l ++ own ++ r) -> grows A A' (l ++ own ++ r) (l ++ own' ++ r).
Proof.
  intros [N F L O D] R ND.
  assert (Own : forall a, In a (l ++ own' ++ r) -> In a (l ++ own ++ r) \/ ar_next A <= a < ar_next A').
  { intros a J. apply in_app_or in J. destruct J as [J|J]; [left; apply in_or_app; left; exact J|].
    apply in_app_or in J. destruct J as [J|J].
    - destruct (O a J) as [K|K]; [left; apply in_or_app; right; apply in_or_app; left; exact K|right; exact K].
    - left. apply in_or_app. right. apply in_or_app. right. exact J. }
  split; auto.
  - intros a La Na. apply F; [exact La|]. intros I. apply Na. apply in_or_app. right. apply in_or_app. left. exact I.
  - intros _. apply nodup_app in ND. destruct ND as (N1 & N2 & D1). apply nodup_app in N2. destruct N2 as (N2 & N3 & D2).
    assert (Dis : forall a, In a own' -> In a (l ++ r) -> False).
    { intros a J K. destruct (O a J) as [J'|J'].
      - apply in_app_or in K. destruct K as [K|K].
        + apply (D1 a K). apply in_or_app. left. exact J'.
        + exact (D2 a J' K).
      - specialize (R a K). lia. }
    apply nodup_app. split; [exact N1|]. split.
    + apply nodup_app. split; [exact (D N2)|]. split; [exact N3|]. intros a J K. apply (Dis a J). apply in_or_app. right. exact K.
    + intros a J K. apply in_app_or in K. destruct K as [K|K].
      * apply (Dis a K). apply in_or_app. left. exact J.
      * apply (D1 a J). apply in_or_app. right. exact K.
Qed.

Lemma set_nth_split {X} i (x y : X) : forall l, nth_error l i = Some y -> set_nth i x l = firstn i l ++ x :: skipn (S i) l.
Proof.
  induction i as [|i IH]; intros [|z l] E; try discriminate E.
  - reflexivity.
  - cbn [set_nth firstn app]. rewrite (IH l E). reflexivity.
Qed.
Lemma nth_split {X} i (y : X) : forall l, nth_error l i = Some y -> l = firstn i l ++ y :: skipn (S i) l.
Proof.
  induction i as [|i IH]; intros [|z l] E; try discriminate E.
  - injection E as <-. reflexivity.
  - cbn [firstn app]. f_equal. exact (IH l E).
Qed.
Lemma firstn_split {X} i (x y : X) l : nth_error l i = Some y -> firstn (S i) (set_nth i x l) = firstn i l ++ [x].
Proof. intros E. apply firstn_set_nth. apply nth_error_Some. congruence. Qed.
Lemma firstn_split' {X} i (x y : X) l : nth_error l i = Some y -> firstn i (set_nth i x l) = firstn i l.
Proof.
  intros E. rewrite (set_nth_split i x y l E).
  assert (L : i < length l) by (apply nth_error_Some; congruence).
  rewrite firstn_app. rewrite firstn_firstn, Nat.min_id. rewrite firstn_length.
  replace (i - Nat.min i (length l)) with 0 by lia. apply app_nil_r.
Qed.
Lemma firstn_nth {X} i (y : X) l : nth_error l i = Some y -> firstn (S i) l = firstn i l ++ [y].
Proof.
  revert l. induction i as [|i IH]; intros [|z l] E; try discriminate E.
  - injection E as <-. reflexivity.
  - rewrite firstn_cons. rewrite (IH l E). reflexivity.
Qed.

Definition policies_same (m m' : memory) (it it' : iter) : Prop := same_kind it it' /\ same_metric m m' it it'.

Lemma policies_same_refl m it s : policies_same m m it (with_st it s).
Proof. repeat split. Qed.
Lemma policies_same_trans m1 m2 m3 a b c : policies_same m1 m2 a b -> policies_same m2 m3 b c -> policies_same m1 m3 a c.
Proof.
  intros ((A1 & A2 & A3) & B1 & B2 & B3 & B4 & B5 & B6 & C1 & C2 & C3 & C4 & C5)
         ((A1' & A2' & A3') & B1' & B2' & B3' & B4' & B5' & B6' & C1' & C2' & C3' & C4' & C5').
  repeat split; congruence.
Qed.

Lemma mem_staged_ok grow idx it m old :
  nth_error (i_cached it) idx = Some old -> wf (h_policies m) old ->
  exists c s it' m', mem_staged grow idx it m = Some (c, it', m') /\
    (staged_seen m' c, i_st it') = dec_staged (i_st it) /\
    i_cached it' = set_nth idx s (i_cached it) /\ wf (h_policies m') s /\
    grows (h_policies m) (h_policies m') (addrs old) (addrs s) /\
    wf (h_policies m') (ce_policies c) /\ incl (addrs (ce_policies c)) (addrs s) /\
    h_staged m' = h_staged m /\ i_cached_list it' = i_cached_list it /\ i_policies it' = i_policies it /\
    policies_same m m' it it'.
Proof.
  intros En W. unfold mem_staged. rewrite run_lift.
  unfold dec_staged, bindD, ret. destruct (check_fields staged_type (i_st it)) as [[extra|] s] eqn:Ec; cbn [fst snd].
  2:{ exists default_cell, old. eexists. eexists. split; [reflexivity|]. split; [reflexivity|].
      split. { cbn [with_st i_cached]. rewrite (set_nth_split idx old old _ En). apply nth_split. exact En. }
      split; [exact W|]. split; [apply grows_refl|]. split; [apply wf_nil|]. split; [intros a []|].
      repeat split. }
  rewrite run_lift. cbn [with_st i_st]. destruct (dec_varint64 s) as [c s1] eqn:E1. cbn [fst snd].
  rewrite run_lift. cbn [with_st i_st]. destruct (dec_bool s1) as [b s2] eqn:E2. cbn [fst snd].
  rewrite run_lift. cbn [with_st i_st]. destruct (dec_array_len s2) as [n s3] eqn:E3. cbn [fst snd].
  unfold seq at 1. cbn [with_st i_st i_cached i_policies i_cached_list]. rewrite En.
  set (ch := if (Z.of_nat (sl_cap old) <? n)%Z then _ else _).
  assert (R : exists x A, ch = (x, A) /\ sl_len x = 0 /\ wf A x /\ grows (h_policies m) A (addrs old) (addrs x)).
  { unfold ch. destruct (Z.ltb_spec (Z.of_nat (sl_cap old)) n) as [L|L].
    - destruct (make (h_policies m) 0 (repeat default_policy (Z.to_nat n))) as [x A] eqn:E. exists x, A.
      split; [reflexivity|]. split; [injection E as <- _; reflexivity|].
      split; [exact (proj2 (make_ok _ _ _ _ _ E (Nat.le_0_l _)))|exact (make_grows _ _ _ _ _ _ E)].
    - exists (cut 0 old), (h_policies m). split; [reflexivity|]. split; [reflexivity|].
      split; [apply wf_cut; [exact W|lia]|apply grows_refl]. }
  destruct R as (x & A & -> & L0 & Wx & Gx).
  destruct (fill default_policy grow dec_policy (Z.to_nat n) x A s3) as [[x1 A1] t1] eqn:Ef.
  destruct (fill_ok _ _ _ _ _ _ _ _ _ _ Wx Ef) as (-> & Ee & W1 & G1).
  rewrite run_lift. cbn [with_policies with_st i_st]. unfold done.
  unfold dec_list. destruct (dec_loop dec_policy (Z.to_nat n) s3) as [ps s4] eqn:El. cbn [fst snd] in *.
  destruct (dec_skip extra s4) as [u s5] eqn:Es. cbn [fst snd].
  eexists. exists x1. eexists. eexists. split; [reflexivity|]. split.
  - unfold staged_seen. cbn [ce_cutover ce_tomb ce_policies h_policies with_st i_st]. rewrite Ee.
    unfold elements at 1. rewrite L0. reflexivity.
  - split; [reflexivity|]. split; [exact W1|]. split; [exact (grows_trans _ _ _ _ _ _ Gx G1)|].
    split; [exact W1|]. split; [intros a J; exact J|]. repeat split.
Qed.

Record loop_inv (idx : nat) (m : memory) (it : iter) : Prop := {
  li_cached : Forall (wf (h_policies m)) (i_cached it);
  li_nodup : NoDup (own_policies it);
  li_list : wf (h_staged m) (i_cached_list it);
  li_not0 : ~ In 0 (own_staged it);
  li_cells : cells_in m (i_cached_list it) (firstn idx (i_cached it));
  li_default : ar_at (h_staged m) 0 = [default_cell];
  li_next : 0 < ar_next (h_staged m) }.

Lemma staged_seen_grows m m' own own' c : wf (h_policies m) (ce_policies c) -> grows (h_policies m) (h_policies m') own own' ->
  (forall a, In a (addrs (ce_policies c)) -> ~ In a own) -> staged_seen m' c = staged_seen m c.
Proof. intros W G N. unfold staged_seen. f_equal. exact (elements_grows _ _ _ _ _ W G N). Qed.

Lemma mem_staged_loop_ok grow n : forall idx it m, loop_inv idx m it -> idx + n <= length (i_cached it) ->
  exists it' m', mem_staged_loop grow idx n it m = Some (tt, it', m') /\
    i_st it' = snd (dec_loop dec_staged n (i_st it)) /\
    policies_seen m' (i_cached_list it') = policies_seen m (i_cached_list it) ++ fst (dec_loop dec_staged n (i_st it)) /\
    loop_inv (idx + n) m' it' /\
    grows (h_policies m) (h_policies m') (own_policies it) (own_policies it') /\
    grows (h_staged m) (h_staged m') (own_staged it) (own_staged it') /\ policies_same m m' it it'.
Proof.
  induction n as [|n IH]; intros idx it m I L.
  - exists it, m. split; [reflexivity|]. split; [reflexivity|]. cbn [dec_loop ret fst]. rewrite app_nil_r, Nat.add_0_r.
    split; [reflexivity|]. split; [exact I|]. split; [apply grows_refl|]. split; [apply grows_refl|repeat split].
  - cbn [mem_staged_loop].
    destruct (nth_error (i_cached it) idx) as [old|] eqn:En; [|apply nth_error_None in En; lia].
    pose proof (nth_error_In _ _ En) as Io.
    destruct (mem_staged_ok grow idx it m old En (proj1 (Forall_forall _ _) (li_cached _ _ _ I) old Io))
      as (c & s & it1 & m1 & E1 & V1 & C1 & W1 & G1 & Wc & Sc & Hs & Cl & Pl & S1).
    rewrite (seq_some _ _ _ _ _ _ _ E1). unfold seq at 1.
    destruct (append default_cell grow (h_staged m1) (i_cached_list it1) c) as [cl A] eqn:Ea.
    assert (Wl : wf (h_staged m1) (i_cached_list it1)) by (rewrite Hs, Cl; exact (li_list _ _ _ I)).
    destruct (append_ok _ _ _ _ _ _ _ Wl Ea) as (Ee & Wcl & Gs).
    set (it2 := with_policies it1 (i_policies it1) (i_cached it1) cl).
    set (m2 := mk_memory (h_ids m1) (h_floats m1) (h_policies m1) A (h_free m1)).
    pose proof (nth_split _ _ _ En) as Sp. pose proof (set_nth_split _ s _ _ En) as Sp'.
    assert (Op : own_policies it = flat_map addrs (firstn idx (i_cached it)) ++ addrs old ++ flat_map addrs (skipn (S idx) (i_cached it))).
    { unfold own_policies. rewrite Sp at 1. rewrite flat_app. reflexivity. }
    assert (Op' : own_policies it1 = flat_map addrs (firstn idx (i_cached it)) ++ addrs s ++ flat_map addrs (skipn (S idx) (i_cached it))).
    { unfold own_policies. rewrite C1, Sp'. rewrite flat_app. reflexivity. }
    assert (Lr : forall a, In a (flat_map addrs (firstn idx (i_cached it)) ++ flat_map addrs (skipn (S idx) (i_cached it))) -> a < ar_next (h_policies m)).
    { intros a J. rewrite <- flat_app in J. apply in_flat_map in J. destruct J as (x & Jx & J).
      refine (wf_addr _ _ _ (proj1 (Forall_forall _ _) (li_cached _ _ _ I) x _) J).
      rewrite Sp. apply in_app_or in Jx. apply in_or_app. destruct Jx as [Jx|Jx]; [left; exact Jx|right; right; exact Jx]. }
    pose proof (li_nodup _ _ _ I) as ND. rewrite Op in ND.
    pose proof (grows_mid _ _ _ _ _ _ G1 Lr ND) as Gp. rewrite <- Op, <- Op' in Gp.
    assert (Dis : forall a, In a (flat_map addrs (firstn idx (i_cached it))) -> ~ In a (addrs old)).
    { intros a J K. apply nodup_app in ND. apply (proj2 (proj2 ND) a J). apply in_or_app. left. exact K. }
    assert (I2 : loop_inv (S idx) m2 it2).
    { split; cbn [m2 it2 with_policies h_policies h_staged i_cached i_cached_list own_policies own_staged].
      - rewrite C1, Sp'. apply Forall_app.
        assert (Fw : forall l, (forall x, In x l -> In x (i_cached it)) -> Forall (wf (h_policies m1)) l).
        { intros l Hl. apply Forall_forall. intros x J.
          exact (wf_grows _ _ _ _ _ (proj1 (Forall_forall _ _) (li_cached _ _ _ I) x (Hl x J)) G1). }
        split; [apply Fw|constructor; [exact W1|apply Fw]].
        + intros x J. rewrite Sp. apply in_or_app. left. exact J.
        + intros x J. rewrite Sp. apply in_or_app. right. right. exact J.
      - exact (g_nodup _ _ _ _ Gp (li_nodup _ _ _ I)).
      - exact Wcl.
      - intros J. destruct (g_own _ _ _ _ Gs 0 J) as [K|K].
        + apply (li_not0 _ _ _ I). unfold own_staged. rewrite <- Cl. exact K.
        + rewrite Hs in K. pose proof (li_next _ _ _ I). lia.
      - intros x J. change (In x (elements A cl)) in J. rewrite Ee in J. change (i_cached it2) with (i_cached it1). rewrite C1. rewrite (firstn_split _ _ _ _ En). rewrite flat_app. cbn [flat_map]. rewrite app_nil_r.
        apply in_app_or in J. destruct J as [J|[<-|[]]].
        + rewrite Hs, Cl in J. destruct (li_cells _ _ _ I x J) as [Wx Ix].
          split; [exact (wf_grows _ _ _ _ _ Wx G1)|]. intros a K. apply in_or_app. left. exact (Ix a K).
        + split; [exact Wc|]. intros a K. apply in_or_app. right. exact (Sc a K).
      - rewrite (g_frame _ _ _ _ Gs 0); [rewrite Hs; exact (li_default _ _ _ I)|rewrite Hs; exact (li_next _ _ _ I)|].
        intros J. apply (li_not0 _ _ _ I). unfold own_staged. rewrite <- Cl. exact J.
      - pose proof (g_next _ _ _ _ Gs) as K. rewrite Hs in K. pose proof (li_next _ _ _ I). lia. }
    destruct (IH (S idx) it2 m2 I2) as (it' & m' & E' & S' & V' & I' & Gp' & Gs' & P').
    { cbn [it2 with_policies i_cached]. rewrite C1, set_nth_length. lia. }
    exists it', m'. split; [exact E'|].
    cbn [dec_loop]. unfold bindD, ret. rewrite <- V1.
    change (i_st it2) with (i_st it1) in S', V'.
    destruct (dec_loop dec_staged n (i_st it1)) as [l t] eqn:El. cbn [fst snd] in *.
    split; [exact S'|]. split.
    { rewrite V'. change (policies_seen m2 (i_cached_list it2)) with (map (staged_seen m2) (elements A cl)). rewrite Ee.
      rewrite map_app. cbn [map]. rewrite <- app_assoc. cbn [app].
      replace (staged_seen m2 c) with (staged_seen m1 c) by reflexivity. f_equal.
      rewrite Hs, Cl. apply map_ext_in. intros x J. destruct (li_cells _ _ _ I x J) as [Wx Ix].
      apply (staged_seen_grows m m2 _ _ x Wx G1). intros a K. exact (Dis a (Ix a K)). }
    replace (idx + S n) with (S idx + n) by lia. split; [exact I'|]. split; [|split].
    + exact (grows_trans _ _ _ _ _ _ Gp Gp').
    + refine (grows_trans _ _ _ _ _ _ _ Gs'). rewrite <- Hs. unfold own_staged. rewrite <- Cl. exact Gs.
    + refine (policies_same_trans _ _ _ _ _ _ S1 _). refine (policies_same_trans _ _ _ _ _ _ _ P').
      repeat split.
Qed.

Lemma mem_room_ok k it m : good_policies m it ->
  exists it' m', mem_room k it m = Some (tt, it', m') /\ loop_inv 0 m' it' /\ (Z.to_nat k <= length (i_cached it')) /\
    policies_seen m' (i_cached_list it') = [] /\ i_st it' = i_st it /\
    grows (h_policies m) (h_policies m') (own_policies it) (own_policies it') /\
    grows (h_staged m) (h_staged m') (own_staged it) (own_staged it') /\ policies_same m m' it it'.
Proof.
  intros [A B C D E F G H I]. unfold mem_room.
  set (ch := if (Z.of_nat (sl_cap (i_cached_list it)) <? k)%Z then _ else _).
  assert (R : exists cl S, ch = (cl, S) /\ sl_len cl = 0 /\ wf S cl /\ grows (h_staged m) S (own_staged it) (addrs cl)).
  { unfold ch. destruct (Z.ltb_spec (Z.of_nat (sl_cap (i_cached_list it))) k) as [L|L].
    - destruct (make (h_staged m) 0 (repeat default_cell (Z.to_nat k))) as [cl S] eqn:Em. exists cl, S.
      split; [reflexivity|]. split; [injection Em as <- _; reflexivity|].
      split; [exact (proj2 (make_ok _ _ _ _ _ Em (Nat.le_0_l _)))|exact (make_grows _ _ _ _ _ _ Em)].
    - eexists. eexists. split; [reflexivity|]. split; [reflexivity|].
      destruct (overwrite_ok (h_staged m) (i_cached_list it) (repeat default_cell (sl_len (i_cached_list it))) C) as [O _].
      { rewrite repeat_length. exact (proj1 C). }
      split; [|exact O]. apply wf_cut; [exact (wf_grows _ _ _ _ _ C O)|lia]. }
  destruct R as (cl & S & -> & L0 & W & Gr).
  eexists. eexists. split; [reflexivity|].
  assert (Gp : grows (h_policies m) (h_policies m) (own_policies it)
    (flat_map addrs (if (Z.of_nat (length (i_cached it)) <? k)%Z then repeat nil_slice (Z.to_nat k) else i_cached it))
    /\ Forall (wf (h_policies m)) (if (Z.of_nat (length (i_cached it)) <? k)%Z then repeat nil_slice (Z.to_nat k) else i_cached it)
    /\ Z.to_nat k <= length (if (Z.of_nat (length (i_cached it)) <? k)%Z then repeat nil_slice (Z.to_nat k) else i_cached it)).
  { destruct (Z.ltb_spec (Z.of_nat (length (i_cached it))) k) as [L|L].
    - assert (Z0 : flat_map addrs (repeat nil_slice (Z.to_nat k)) = []) by (induction (Z.to_nat k); [reflexivity|assumption]).
      rewrite Z0, repeat_length. split; [|split; [|lia]].
      + split; auto; [intros a []|intros _; constructor].
      + apply Forall_forall. intros x J. apply repeat_spec in J. subst x. apply wf_nil.
    - split; [apply grows_refl|]. split; [exact A|lia]. }
  destruct Gp as (Gp & Wp & Lp).
  split; [split; cbn [with_policies h_policies h_staged i_cached i_cached_list own_policies own_staged]|].
  - exact Wp.
  - exact (g_nodup _ _ _ _ Gp B).
  - exact W.
  - intros J. destruct (g_own _ _ _ _ Gr 0 J) as [K|K]; [exact (D K)|lia].
  - intros c J. unfold elements in J. rewrite L0 in J. destruct J.
  - rewrite (g_frame _ _ _ _ Gr 0 I D). exact H.
  - pose proof (g_next _ _ _ _ Gr). lia.
  - split; [exact Lp|]. split.
    { unfold policies_seen, elements. cbn [with_policies i_cached_list]. rewrite L0. reflexivity. }
    split; [reflexivity|]. split; [exact Gp|]. split; [exact Gr|repeat split].
Qed.

Record policy_step (m m' : memory) (it it' : iter) : Prop := {
  ps_same : policies_same m m' it it';
  ps_policies : grows (h_policies m) (h_policies m') (own_policies it) (own_policies it');
  ps_staged : grows (h_staged m) (h_staged m') (own_staged it) (own_staged it');
  ps_good : good_policies m it -> good_policies m' it' }.

Lemma policy_step_trans m1 m2 m3 a b c : policy_step m1 m2 a b -> policy_step m2 m3 b c -> policy_step m1 m3 a c.
Proof.
  intros [K P S G] [K' P' S' G']. split.
  - exact (policies_same_trans _ _ _ _ _ _ K K').
  - exact (grows_trans _ _ _ _ _ _ P P').
  - exact (grows_trans _ _ _ _ _ _ S S').
  - auto.
Qed.
Lemma policy_step_st m it s : policy_step m m it (with_st it s).
Proof.
  split; [repeat split|apply grows_refl|apply grows_refl|].
  intros [A B C D E F G H I]. split; assumption.
Qed.

Lemma default_seen m : ar_at (h_staged m) 0 = [default_cell] -> policies_seen m default_list = default_policies_list.
Proof. intros H. unfold policies_seen, elements, default_list. cbn [sl_len sl_arr]. rewrite H. reflexivity. Qed.

Lemma mem_policies_list_ok grow it m : good_policies m it ->
  exists it' m', mem_policies_list grow it m = Some (tt, it', m') /\
    (policies_seen m' (i_policies it'), i_st it') = dec_policies_list (policies_seen m (i_policies it)) (i_st it) /\
    policy_step m m' it it'.
Proof.
  intros G. unfold mem_policies_list. rewrite run_lift.
  unfold dec_policies_list, bindD, ret. destruct (dec_array_len (i_st it)) as [n s1] eqn:E1. cbn [fst snd].
  rewrite run_lift. cbn [with_st i_st]. destruct (dec_type s1) as [t s2] eqn:E2. cbn [fst snd].
  rewrite run_lift. cbn [with_st i_st]. destruct (check_expected t n s2) as [[extra|] s3] eqn:E3; cbn [fst snd].
  2:{ eexists. eexists. split; [reflexivity|]. split; [reflexivity|].
      refine (policy_step_trans _ _ _ _ _ _ (policy_step_st m it s1) _).
      refine (policy_step_trans _ _ _ _ _ _ (policy_step_st _ _ s2) _). apply policy_step_st. }
  set (it3 := with_st (with_st (with_st it s1) s2) s3).
  assert (S3 : policy_step m m it it3).
  { refine (policy_step_trans _ _ _ _ _ _ (policy_step_st m it s1) _).
    refine (policy_step_trans _ _ _ _ _ _ (policy_step_st _ _ s2) _). apply policy_step_st. }
  pose proof (ps_good _ _ _ _ S3 G) as G3.
  destruct (t =? default_pl_type)%Z.
  - rewrite run_assign, lift_eq. cbn [it3 with_policies with_st i_st].
    destruct (dec_skip extra s3) as [u s4]. cbn [fst snd].
    eexists. eexists. split; [destruct u; reflexivity|]. split.
    { cbn [with_st with_policies i_policies i_st]. rewrite (default_seen m (gp_default _ _ G)). reflexivity. }
    refine (policy_step_trans _ _ _ _ _ _ S3 _).
    match goal with |- policy_step _ _ ?a (with_st ?b _) => refine (policy_step_trans _ _ _ _ _ _ (_ : policy_step m m a b) (policy_step_st _ _ _)) end.
    split; [repeat split|apply grows_refl|apply grows_refl|].
    intros [A B C D E F H I J]. split; try assumption; cbn [with_policies i_policies].
    + split; [cbn; lia|]. intros _. cbn [default_list sl_arr sl_cap]. rewrite I. cbn [length]. lia.
    + intros a [<-|[]]. left. reflexivity.
    + intros c Jc. unfold elements, default_list in Jc. cbn [sl_len sl_arr] in Jc. rewrite I in Jc.
      destruct Jc as [<-|[]]. split; [apply wf_nil|intros a []].
  - destruct (t =? custom_pl_type)%Z.
    + rewrite run_lift. cbn [it3 with_st i_st]. destruct (dec_array_len s3) as [k s4] eqn:E4. cbn [fst snd].
      set (it4 := with_st _ s4).
      assert (S4 : policy_step m m it it4) by exact (policy_step_trans _ _ _ _ _ _ S3 (policy_step_st _ _ _)).
      pose proof (ps_good _ _ _ _ S4 G) as G4.
      destruct (mem_room_ok k it4 m G4) as (it5 & m5 & E5 & I5 & L5 & V5 & T5 & Gp5 & Gs5 & P5).
      rewrite (seq_some _ _ _ _ _ _ _ E5).
      destruct (mem_staged_loop_ok grow (Z.to_nat k) 0 it5 m5 I5 L5) as (it6 & m6 & E6 & T6 & V6 & I6 & Gp6 & Gs6 & P6).
      rewrite (seq_some _ _ _ _ _ _ _ E6). rewrite run_assign, lift_eq.
      cbn [with_policies i_st]. rewrite T5 in T6, V6. change (i_st it4) with s4 in T6, V6.
      unfold dec_list. destruct (dec_loop dec_staged (Z.to_nat k) s4) as [l s6]. cbn [fst snd] in T6, V6. rewrite T6.
      destruct (dec_skip extra s6) as [u s7]. cbn [fst snd].
      eexists. eexists. split; [destruct u; reflexivity|]. split.
      { cbn [with_st with_policies i_policies i_st]. rewrite V6, V5. reflexivity. }
      refine (policy_step_trans _ _ _ _ _ _ S4 _).
      split.
      * refine (policies_same_trans _ _ _ _ _ _ P5 _). refine (policies_same_trans _ _ _ _ _ _ P6 _). repeat split.
      * exact (grows_trans _ _ _ _ _ _ Gp5 Gp6).
      * exact (grows_trans _ _ _ _ _ _ Gs5 Gs6).
      * intros _. destruct I6 as [A B C D E F H]. split; try assumption; cbn [with_st with_policies i_policies i_cached i_cached_list].
        -- intros a J. right. exact J.
        -- intros c J. destruct (E c J) as [X Y]. split; [exact X|]. intros a K. specialize (Y a K).
           rewrite <- (firstn_skipn (0 + Z.to_nat k) (i_cached it6)), flat_app. apply in_or_app. left. exact Y.
    + rewrite run_lift, lift_eq. cbn [it3 with_st i_st]. unfold set_err. cbn [fst snd].
      match goal with |- context [dec_skip extra ?x] => destruct (dec_skip extra x) as [u s4] end. cbn [fst snd].
      eexists. eexists. split; [destruct u; reflexivity|]. split; [reflexivity|].
      refine (policy_step_trans _ _ _ _ _ _ S3 _).
      refine (policy_step_trans _ _ _ _ _ _ (policy_step_st _ _ _) (policy_step_st _ _ _)).
Qed.

(** ** The whole message *)
Definition good (m : memory) (it : iter) : Prop := good_metric m it /\ good_policies m it.

Record iter_step (m m' : memory) (it it' : iter) : Prop := {
  is_kind : same_kind it it';
  is_ids : grows (h_ids m) (h_ids m') (own_ids it) (own_ids it');
  is_floats : grows (h_floats m) (h_floats m') (own_floats m it) (own_floats m' it');
  is_policies : grows (h_policies m) (h_policies m') (own_policies it) (own_policies it');
  is_staged : grows (h_staged m) (h_staged m') (own_staged it) (own_staged it');
  is_good : good m it -> good m' it' }.

Lemma iter_step_trans m1 m2 m3 a b c : iter_step m1 m2 a b -> iter_step m2 m3 b c -> iter_step m1 m3 a c.
Proof.
  intros [K I F P S G] [K' I' F' P' S' G']. split.
  - destruct K as (A & B & C), K' as (A' & B' & C'). repeat split; congruence.
  - exact (grows_trans _ _ _ _ _ _ I I').
  - exact (grows_trans _ _ _ _ _ _ F F').
  - exact (grows_trans _ _ _ _ _ _ P P').
  - exact (grows_trans _ _ _ _ _ _ S S').
  - auto.
Qed.

Lemma metric_iter_step m m' it it' : metric_step m m' it it' -> iter_step m m' it it'.
Proof.
  intros [K (A & B & C & D & E) I F G]. split; auto.
  - unfold own_policies. rewrite A, D. apply grows_refl.
  - unfold own_staged. rewrite B, E. apply grows_refl.
  - intros [Gm [P1 P2 P3 P4 P5 P6 P7 P8 P9]]. split; [exact (G Gm)|].
    split; unfold own_policies, own_staged, cells_in in *; rewrite ?A, ?B, ?C, ?D, ?E; assumption.
Qed.
Lemma policy_iter_step m m' it it' : policy_step m m' it it' -> iter_step m m' it it'.
Proof.
  intros [(K & A1 & A2 & A3 & A4 & A5 & A6 & B1 & B2 & B3 & B4 & B5) P S G]. split; auto.
  - unfold own_ids. rewrite A1, A4. apply grows_refl.
  - unfold own_floats. rewrite B1, B2, B3, B4, B5. apply grows_refl.
  - intros [[M1 M2 M3 M4 M5 M6 M7 M8] Gp]. split; [|exact (G Gp)].
    split; unfold own_ids, own_floats in *; rewrite ?A1, ?A3, ?A4, ?B1, ?B2, ?B3, ?B4, ?B5; assumption.
Qed.
Lemma iter_step_st m it s : iter_step m m it (with_st it s).
Proof. apply metric_iter_step, metric_step_st. Qed.

Definition shows (m : memory) (it : iter) : (munion * list staged_policies) * st :=
  ((metric_seen m it, policies_seen m (i_policies it)), i_st it).
Definition full_ok (p : P unit) (d : munion -> list staged_policies -> D (munion * list staged_policies)) : Prop :=
  forall it m, good m it -> exists it' m', p it m = Some (tt, it', m') /\
    shows m' it' = d (metric_seen m it) (policies_seen m (i_policies it)) (i_st it) /\ iter_step m m' it it'.

Lemma metric_full m m' it it' : metric_step m m' it it' -> policies_seen m' (i_policies it') = policies_seen m (i_policies it).
Proof. intros [_ (A & B & C & _) _ _ _]. unfold policies_seen, staged_seen. rewrite A, B, C. reflexivity. Qed.
Lemma policy_full m m' it it' : policy_step m m' it it' -> metric_seen m' it' = metric_seen m it.
Proof.
  intros [(_ & A1 & A2 & A3 & A4 & A5 & A6 & B1 & B2 & B3 & B4 & B5) _ _ _]. unfold metric_seen. congruence.
Qed.

Lemma mem_plain_ok grow pick t : full_ok (mem_body grow pick t) (dec_plain t).
Proof.
  intros it m [G Gp]. destruct (mem_body_ok grow pick t it m G) as (it' & m' & E & V & S).
  exists it', m'. split; [exact E|]. split; [|exact (metric_iter_step _ _ _ _ S)].
  unfold dec_plain, bindD, ret, shows. rewrite <- V. rewrite (metric_full _ _ _ _ S). reflexivity.
Qed.

Lemma mem_with_policies_ok grow pick t : full_ok (mem_with_policies grow pick t) (dec_with_policies t).
Proof.
  intros it m G. unfold mem_with_policies. rewrite run_lift.
  unfold dec_with_policies, bindD, ret. destruct (check_fields t (i_st it)) as [[extra|] s] eqn:Ec; cbn [fst snd].
  2:{ eexists. eexists. split; [reflexivity|]. split; [reflexivity|apply iter_step_st]. }
  pose proof (is_good _ _ _ _ (iter_step_st m it s) G) as G1.
  destruct (mem_body_ok grow pick t _ m (proj1 G1)) as (it2 & m2 & E2 & V2 & S2).
  rewrite (seq_some _ _ _ _ _ _ _ E2). cbn [with_st i_st] in V2. rewrite metric_seen_st in V2. rewrite <- V2.
  pose proof (is_good _ _ _ _ (metric_iter_step _ _ _ _ S2) G1) as G2.
  destruct (mem_policies_list_ok grow it2 m2 (proj2 G2)) as (it3 & m3 & E3 & V3 & S3).
  rewrite (seq_some _ _ _ _ _ _ _ E3). rewrite lift_eq.
  pose proof (metric_full _ _ _ _ S2) as V2'. cbn [with_st i_policies] in V2'. rewrite V2' in V3. rewrite <- V3.
  destruct (dec_skip extra (i_st it3)) as [u s4]. cbn [fst snd].
  eexists. eexists. split; [destruct u; reflexivity|]. split.
  - unfold shows. cbn [with_st i_policies i_st]. rewrite metric_seen_st. rewrite (policy_full _ _ _ _ S3). reflexivity.
  - refine (iter_step_trans _ _ _ _ _ _ (iter_step_st m it s) _).
    refine (iter_step_trans _ _ _ _ _ _ (metric_iter_step _ _ _ _ S2) _).
    exact (iter_step_trans _ _ _ _ _ _ (policy_iter_step _ _ _ _ S3) (iter_step_st _ _ _)).
Qed.

Lemma mem_object_ok grow pick : full_ok (mem_object grow pick) dec_object.
Proof.
  intros it m G. unfold mem_object. rewrite run_lift.
  unfold dec_object, bindD, ret. destruct (check_fields root_type (i_st it)) as [[extra|] s] eqn:Ec; cbn [fst snd].
  2:{ eexists. eexists. split; [reflexivity|]. split; [reflexivity|apply iter_step_st]. }
  rewrite run_lift. cbn [with_st i_st]. destruct (dec_type s) as [t s2] eqn:E2. cbn [fst snd].
  rewrite run_lift. cbn [with_st i_st]. unfold get_err. cbn [fst snd].
  set (it3 := with_st _ s2).
  assert (S3 : iter_step m m it it3).
  { refine (iter_step_trans _ _ _ _ _ _ (iter_step_st m it s) _).
    refine (iter_step_trans _ _ _ _ _ _ (iter_step_st _ _ s2) _). apply iter_step_st. }
  pose proof (is_good _ _ _ _ S3 G) as G3.
  assert (Fin : forall p d, full_ok p d -> exists it' m', (run _ <- p; lift (dec_skip extra)) it3 m = Some (tt, it', m') /\
    shows m' it' = (let '(r, s') := d (metric_seen m it) (policies_seen m (i_policies it)) s2 in
                    let '(_, s'') := dec_skip extra s' in (r, s'')) /\ iter_step m m' it it').
  { intros p d H. destruct (H it3 m G3) as (it4 & m4 & E4 & V4 & S4).
    rewrite (seq_some _ _ _ _ _ _ _ E4). rewrite lift_eq. unfold it3 in V4. cbn [with_st i_st i_policies] in V4.
    rewrite metric_seen_st in V4. repeat rewrite metric_seen_st in V4. rewrite <- V4. unfold shows at 2.
    destruct (dec_skip extra (i_st it4)) as [u s5]. cbn [fst snd].
    eexists. eexists. split; [destruct u; reflexivity|]. split; [reflexivity|].
    refine (iter_step_trans _ _ _ _ _ _ S3 _). exact (iter_step_trans _ _ _ _ _ _ S4 (iter_step_st _ _ _)). }
  destruct (d_err s2) as [e|] eqn:Ee.
  { eexists. eexists. split; [reflexivity|]. split; [reflexivity|exact S3]. }
  destruct ((t =? counter_type)%Z || (t =? timer_type)%Z || (t =? gauge_type)%Z); [exact (Fin _ _ (mem_plain_ok grow pick t))|].
  destruct ((t =? counter_pl_type)%Z || (t =? timer_pl_type)%Z || (t =? gauge_pl_type)%Z); [exact (Fin _ _ (mem_with_policies_ok grow pick t))|].
  rewrite run_lift, lift_eq. unfold set_err. cbn [it3 with_st i_st fst snd].
  match goal with |- context [dec_skip extra ?x] => destruct (dec_skip extra x) as [u s4] end. cbn [fst snd].
  eexists. eexists. split; [destruct u; reflexivity|]. split; [reflexivity|].
  refine (iter_step_trans _ _ _ _ _ _ S3 _). exact (iter_step_trans _ _ _ _ _ _ (iter_step_st _ _ _) (iter_step_st _ _ _)).
Qed.

(** ** Next *)

(** The iterator when [Next] starts to decode. *)
Definition emptied (it : iter) : iter := with_timer it nil_slice false (i_timer_buf it).

Lemma good_emptied m it : good m it -> good m (emptied it).
Proof.
  intros [[A B C D E F G H] [A' B' C' D' E' F' G' H' I']]. split.
  - split; try assumption.
    + apply wf_nil.
    + intros _ a [].
    + unfold own_floats, emptied. cbn [with_timer i_timer_buf i_pooled]. rewrite app_nil_r.
      unfold own_floats in H. rewrite app_assoc in H. apply nodup_app in H. tauto.
  - split; assumption.
Qed.

Lemma seen_emptied m it : metric_seen m (emptied it) =
  mk_mu (mu_type (metric_seen m it)) (mu_id (metric_seen m it)) (mu_counter (metric_seen m it)) [] (mu_gauge (metric_seen m it)).
Proof. reflexivity. Qed.

(** [Next] decodes at all. *)
Definition runs (it : iter) : bool := match d_err (i_st it) with None => negb (i_closed it) | Some _ => false end.

Lemma mem_next_loop_ok grow pick fuel : forall it m, good m (emptied it) -> exists ok it' m',
  mem_next_loop grow pick fuel it m = Some (ok, it', m') /\ (ok, seen m' it') = next_loop fuel (seen m it) /\
  ((fuel <> 0 -> runs it = true -> iter_step m m' (emptied it) it') /\
   (fuel = 0 \/ runs it = false -> m' = m /\ it' = it)).
Proof.
  induction fuel as [|fuel IH]; intros it m G.
  - exists false, it, m. unfold seen. cbn [mem_next_loop next_loop x_st x_closed].
    destruct (d_err (i_st it)), (i_closed it); (split; [reflexivity|]); (split; [reflexivity|]);
      (split; [intros N; exfalso; apply N; reflexivity|intros _; split; reflexivity]).
  - cbn [mem_next_loop next_loop]. unfold runs.
    change (x_st (seen m it)) with (i_st it). change (x_closed (seen m it)) with (i_closed it).
    change (x_ignore (seen m it)) with (i_ignore it). change (x_metric (seen m it)) with (metric_seen m it).
    change (x_policies (seen m it)) with (policies_seen m (i_policies it)).
    destruct (d_err (i_st it)) as [e|] eqn:Ee.
    { exists false, it, m. split; [reflexivity|]. split; [reflexivity|]. split; [discriminate|]. intros _. split; reflexivity. }
    destruct (i_closed it) eqn:Ec.
    { exists false, it, m. split; [reflexivity|]. split; [reflexivity|]. split; [discriminate|]. intros _. split; reflexivity. }
    rewrite run_assign. fold (emptied it). rename G into G0.
    rewrite run_lift. cbn [emptied with_timer i_st].
    destruct (dec_varint64 (i_st it)) as [version s] eqn:Ev. cbn [fst snd].
    rewrite run_lift. unfold get_err. cbn [with_st i_st fst snd].
    set (it1 := with_st _ s). rewrite <- (seen_emptied m it).
    assert (S1 : iter_step m m (emptied it) it1).
    { refine (iter_step_trans _ _ _ _ _ _ (iter_step_st m _ s) _). apply iter_step_st. }
    pose proof (is_good _ _ _ _ S1 G0) as G1.
    destruct (d_err s) as [e|] eqn:Es.
    { exists false, it1, m. split; [reflexivity|]. split.
      - unfold seen. cbn [it1 with_st emptied with_timer i_closed]. rewrite Ec. reflexivity.
      - split; [intros _ _; exact S1|]. intros [H|H]; [discriminate H|discriminate H]. }
    destruct (unaggregated_version <? version)%Z.
    + destruct (i_ignore it) eqn:Ei.
      * rewrite run_lift. cbn [it1 with_st i_st]. destruct (dec_array_len s) as [n s2] eqn:En. cbn [fst snd].
        rewrite run_lift. cbn [with_st i_st]. destruct (dec_skip n s2) as [u s3] eqn:Ek. cbn [fst snd].
        set (it2 := with_st _ s3).
        assert (S2 : iter_step m m (emptied it) it2).
        { refine (iter_step_trans _ _ _ _ _ _ S1 _).
          exact (iter_step_trans _ _ _ _ _ _ (iter_step_st _ _ s2) (iter_step_st _ _ s3)). }
        destruct (IH it2 m (good_emptied _ _ (is_good _ _ _ _ S2 G0))) as (ok & it' & m' & E' & V' & R' & N').
        exists ok, it', m'. split; [exact E'|]. split.
        { rewrite V'. f_equal. unfold seen.
          change (i_closed it2) with (i_closed it). change (i_ignore it2) with (i_ignore it). rewrite Ec, Ei. reflexivity. }
        split; [|intros [H|H]; discriminate H].
        intros _ _. destruct fuel as [|fuel]; [destruct (N' (or_introl eq_refl)) as [-> ->]; exact S2|].
        destruct (runs it2) eqn:Er.
        -- refine (iter_step_trans _ _ _ _ _ _ S2 _). exact (R' (Nat.neq_succ_0 _) eq_refl).
        -- destruct (N' (or_intror eq_refl)) as [-> ->]. exact S2.
      * rewrite run_lift. unfold set_err, done. cbn [it1 with_st i_st fst snd].
        eexists. eexists. eexists. split; [reflexivity|]. split.
        { apply f_equal. unfold seen. f_equal; [exact Ei|exact Ec]. }
        split; [|intros [H|H]; discriminate H].
        intros _ _. refine (iter_step_trans _ _ _ _ _ _ S1 _). apply iter_step_st.
    + destruct (mem_object_ok grow pick it1 m G1) as (it2 & m2 & E2 & V2 & S2).
      rewrite (seq_some _ _ _ _ _ _ _ E2). rewrite run_lift. unfold get_err, done. cbn [fst snd].
      unfold shows in V2. change (metric_seen m it1) with (metric_seen m (emptied it)) in V2.
      change (i_policies it1) with (i_policies it) in V2. change (i_st it1) with s in V2.
      rewrite <- V2.
      eexists. eexists. eexists. split; [reflexivity|]. split.
      { destruct (is_kind _ _ _ _ S2) as (K1 & K2 & _). f_equal. unfold seen. f_equal; [exact K1|].
        transitivity (i_closed it1); [exact K2|exact Ec]. }
      split; [|intros [H|H]; discriminate H].
      intros _ _. refine (iter_step_trans _ _ _ _ _ _ S1 _). exact (iter_step_trans _ _ _ _ _ _ S2 (iter_step_st _ _ _)).
Qed.

Lemma mem_next_ok grow pick it m : good m (emptied it) -> exists ok it' m',
  mem_next grow pick it m = Some (ok, it', m') /\ (ok, seen m' it') = mnext (seen m it) /\
  (if runs it then iter_step m m' (emptied it) it' else m' = m /\ it' = it).
Proof.
  intros G. unfold mem_next, mnext.
  destruct (mem_next_loop_ok grow pick (S (length (d_in (i_st it)))) it m G) as (ok & it' & m' & E & V & R & N).
  exists ok, it', m'. split; [exact E|]. split; [exact V|].
  destruct (runs it); [exact (R (Nat.neq_succ_0 _) eq_refl)|exact (N (or_intror eq_refl))].
Qed.
