(** Proofs for C72: the iterators accept nothing but the format. *)
From Verif.Proof Require Import ProtoWireProof MsgpackLibProof MsgpackProof MsgpackLocal MsgpackIterProof MsgpackAggProof MsgpackAccept.
From Coq Require Import Ascii String NArith ZArith Bool Arith Lia List.
From Verif.Base Require Import Bytes.
From Verif.Model Require Import AggType Policy Transformation ProtoWire MsgpackLib Msgpack.
From Verif.Spec Require Import ProtoStreamSpec MsgpackSpec MsgpackAcceptSpec.
Import ListNotations.
Open Scope Z_scope.

(** * Unaggregated streams *)

Lemma mnext_more_ok it r : ready it r -> more (x_ignore it) (fun b => exists mm, message_as mm b) r ->
  exists it', mnext it = (true, it').
Proof.
  intros Rd (ns & b & r' & -> & N & G & [m o] & M). revert it Rd G. induction N as [|n ns N Ns IH]; intros it Rd G.
  - destruct (mnext_message (m, o) b r' it M Rd) as (it' & E & _). exists it'. exact E.
  - destruct (x_ignore it) eqn:X; [|discriminate (G eq_refl)]. cbn [concat] in Rd. rewrite <- app_assoc in Rd.
    destruct (mnext_newer_skip n _ it N X Rd) as (it' & E & Rd' & X' & _). rewrite E. apply IH; [exact Rd'|congruence].
Qed.

Lemma stream_newers ns l b : Forall newer ns -> stream_as l b -> stream_as l (concat ns ++ b).
Proof.
  induction 1 as [|n ns N Ns IH]; intros S; [exact S|]. cbn [concat]. rewrite <- app_assoc. apply stream_newer; auto.
Qed.

Lemma mdecoded_accepts it seen e : mdecoded it seen e -> forall d, ready it d ->
  exists l b r, d = b ++ r /\ stream_as l b /\ Forall2 agrees seen l /\
    (x_ignore it = false -> exists bs, b = concat bs /\ Forall2 message_as l bs) /\
    ~ more (x_ignore it) (fun b => exists mm, message_as mm b) r.
Proof.
  induction 1 as [it it' e E Ee|it it' m l e E Sh D IH]; intros d Rd.
  - exists [], [], d. split; [reflexivity|]. split; [constructor|]. split; [constructor|].
    split; [intros _; exists []; split; [reflexivity|constructor]|]. intros M.
    destruct (mnext_more_ok it d Rd M) as (it2 & E2). congruence.
  - destruct (mnext_accepts _ it it' (le_n _) E) as (_ & Rd' & G & ns & b & x & o & Ed & N & Gn & M & Sx & P).
    rewrite Sh in Sx. injection Sx as <-. destruct (IH _ Rd') as (l2 & b2 & r2 & E2 & S2 & A2 & F2 & M2).
    destruct Rd as [Rs _]. rewrite Rs in Ed. cbn [d_in] in Ed. subst d. rewrite E2.
    exists ((m, o) :: l2), (concat ns ++ b ++ b2), r2. rewrite G in F2, M2.
    split; [rewrite <- !app_assoc; reflexivity|]. split; [apply stream_newers; [exact N|]; apply stream_message; assumption|].
    split; [constructor; [split; [reflexivity|]; cbn [snd]; intros q ->; exact P|exact A2]|]. split; [|exact M2].
    intros X. rewrite (Gn X). destruct (F2 X) as (bs & -> & F). exists (b :: bs). split; [reflexivity|]. constructor; assumption.
Qed.

(** At most one message starts a given input. *)
Lemma message_unique mm mm' b b' r r' : message_as mm b -> message_as mm' b' -> b ++ r = b' ++ r' -> mm = mm' /\ b = b'.
Proof.
  intros M M' E.
  assert (forall pl, match snd mm with None => pl | Some l => l end = match snd mm' with None => pl | Some l => l end /\
    fst mm = fst mm' /\ r = r') as K.
  { intros pl. set (it := mk_mit (mk_st (b ++ r) None) false false (x_metric (new_mit [] false)) pl).
    destruct (mnext_message mm b r it M (conj eq_refl eq_refl)) as (i1 & E1 & [R1 _] & _ & S1 & P1).
    assert (ready it (b' ++ r')) as Rd by (unfold it; rewrite E; split; reflexivity).
    destruct (mnext_message mm' b' r' it M' Rd) as (i2 & E2 & [R2 _] & _ & S2 & P2).
    rewrite E1 in E2. injection E2 as <-. rewrite P1 in P2. rewrite S1 in S2. rewrite R1 in R2.
    split; [exact P2|]. split; congruence. }
  destruct (K []) as (_ & F & <-). split; [|exact (app_inv_tail _ _ _ E)].
  destruct mm as [m o], mm' as [m' o']. cbn [fst snd] in *. subst m'. f_equal.
  set (x := {| stp_cutover := 0; stp_tombstoned := false; stp_policies := [] |}) in *.
  assert (forall l : list staged_policies, l <> x :: l) as Ne by (induction l as [|a l IH]; [discriminate|injection; congruence]).
  destruct o as [l|], o' as [l'|]; [f_equal; exact (proj1 (K []))| | |reflexivity]; exfalso.
  - exact (Ne l (proj1 (K (x :: l)))).
  - exact (Ne l' (eq_sym (proj1 (K (x :: l'))))).
Qed.

(** * Aggregated streams *)

Lemma acc_raw t old : accepts (dec_raw t old) (fun r b => t = 5 \/ t = 22 -> exists d x y, fst (fst r) = new_raw d /\
  bytes_as d x /\ sp_as (snd (fst r)) y /\
  (t = 5 /\ snd r = 0 /\ object 2 (x ++ y) b \/ t = 22 /\ exists a, int_as (snd r) a /\ object 3 (x ++ y ++ a) b)).
Proof.
  unfold dec_raw. eapply acc_mono.
  - eapply acc_object; [|apply acc_ret]. intros z. eapply acc_bind; [exact acc_bytes|]. intros d.
    eapply acc_bind; [exact acc_sp|]. intros sp. apply acc_if; [apply acc_end|].
    eapply acc_bind; [exact acc_int|]. intros v. apply acc_end.
  - cbv beta. intros r b (e & h & ? & -> & H & d & x & ? & -> & D & sp & y & ? & -> & S & Q) Ht.
    destruct Ht as [-> | ->].
    + change (5 =? raw_sp_type) with true in Q. cbv iota in Q. destruct Q as [-> V]. exists d, x, y. split; [reflexivity|].
      split; [exact D|]. split; [exact S|]. left. split; [reflexivity|]. split; [reflexivity|]. is_object 2 e H V.
    + change (22 =? raw_sp_type) with false in Q. cbv iota in Q. destruct Q as (v & a & ? & -> & I & -> & V). exists d, x, y.
      split; [reflexivity|]. split; [exact D|]. split; [exact S|]. right. split; [reflexivity|]. exists a.
      split; [exact I|]. is_object 3 e H V.
Qed.
Lemma acc_agg_object old : accepts (dec_agg_object old) (fun r b => exists d, fst (fst r) = new_raw d /\
  forall v w, v <= 1 -> int_as v w -> carrier_as (mk_carrier d (snd (fst r)) (snd r)) (w ++ b)).
Proof.
  unfold dec_agg_object. eapply acc_mono.
  - eapply acc_object; [|apply acc_ret]. intros z. eapply acc_bind; [exact acc_type|]. intros t.
    eapply acc_err; [|intros; apply acc_ret]. apply acc_if.
    + eapply acc_bind; [apply acc_raw|intros r; apply acc_end].
    + eapply acc_fail. apply acc_end.
  - cbv beta. intros r b (e & h & ? & -> & H & t & tb & ? & -> & (T & _) & Q).
    destruct ((t =? raw_sp_type) || (t =? raw_sp_time_type)) eqn:T1; [|contradiction].
    rewrite !orb_true_iff, !Z.eqb_eq in T1. destruct Q as (r' & rb & xr & -> & K & -> & V).
    destruct (K T1) as (d & x & y & Er & D & S & Q). exists d. split; [exact Er|]. intros v w Hv W.
    destruct Q as [(-> & -> & O)|(-> & a & I & O)].
    + apply (carrier_without _ v w tb d x y rb); [exact Hv|exact W|exact T|exact D|exact S|exact O|]. is_object 2 e H V.
    + apply (carrier_with _ _ v w tb d x y a rb); [exact Hv|exact W|exact T|exact D|exact S|exact I|exact O|]. is_object 2 e H V.
Qed.

Lemma anext_accepts : forall n it it', (left_in (g_st it) <= n)%nat -> anext it = (true, it') ->
  d_err (g_st it) = None /\ aready it' (d_in (g_st it')) /\ g_ignore it' = g_ignore it /\
  exists ns b d, d_in (g_st it) = concat ns ++ b ++ d_in (g_st it') /\ Forall newer ns /\ (g_ignore it = false -> ns = []) /\
    carrier_as (mk_carrier d (g_sp it') (g_at it')) b /\ g_metric it' = new_raw d.
Proof.
  induction n as [n IH] using lt_wf_ind. intros it it' L E. rewrite anext_eq in E. unfold anext_body in E.
  destruct (d_err (g_st it)) eqn:Ee; [discriminate E|]. split; [reflexivity|]. destruct (g_closed it) eqn:C; [discriminate E|].
  destruct (dec_varint64 (g_st it)) as [v s] eqn:Ev. destruct (d_err s) eqn:Es; [discriminate E|].
  destruct (acc_int _ _ _ Ev Es) as (_ & w & Ew & W). pose proof (varint_shrinks _ _ _ Ev Ee Es) as Sh.
  destruct (Z.ltb_spec aggregated_version v).
  - destruct (g_ignore it) eqn:G; [|discriminate E].
    destruct (dec_array_len s) as [k s1] eqn:Ek. destruct (dec_skip k s1) as [u s2] eqn:Esk.
    assert (E2 : d_err s2 = None).
    { rewrite anext_eq in E. unfold anext_body in E. cbn [g_st] in E. destruct (d_err s2); [discriminate E|reflexivity]. }
    destruct (acc_skip k _ _ _ Esk E2) as (E1 & x & Ex & K & X). destruct (acc_array _ _ _ Ek E1) as (_ & a & Ea & A).
    assert (L2 : (left_in s2 < left_in (g_st it))%nat).
    { unfold left_in in *. rewrite Ea, Ex, !app_length in Sh. lia. }
    destruct (IH (left_in s2) ltac:(lia) (mk_ait s2 true false (g_metric it) (g_sp it) (g_at it)) it' ltac:(cbn [g_st]; lia) E)
      as (_ & R & G' & ns & b & d & Eb & N & _ & M & S).
    cbn [g_st g_ignore] in *. split; [exact R|]. split; [exact G'|].
    exists ((w ++ a ++ x) :: ns), b, d. split; [rewrite Ew, Ea, Ex, Eb; cbn [concat]; rewrite <- !app_assoc; reflexivity|].
    split; [|split; [discriminate|auto]]. constructor; [|exact N].
    exists v, (Z.to_nat k), w, a, x. split; [exact H|]. split; [exact W|]. rewrite Z2Nat.id by exact K.
    split; [|auto]. destruct A as [[A _]|[_ A]]; [lia|exact A].
  - destruct (dec_agg_object (g_metric it, g_sp it, g_at it) s) as [[[m sp] u] s1] eqn:Eo. injection E as Er <-.
    cbn [g_st g_ignore g_metric g_sp g_at] in *.
    destruct (d_err s1) eqn:E1; [discriminate Er|].
    destruct (acc_agg_object _ _ _ _ Eo E1) as (_ & b & Eb & d & S & M). cbn [fst snd] in *.
    split; [split; [destruct s1; cbn in *; congruence|reflexivity]|]. split; [reflexivity|].
    exists [], (w ++ b), d. split; [rewrite Ew, Eb; cbn [concat app]; apply app_assoc|].
    split; [constructor|]. split; [reflexivity|]. split; [exact (M v w H W)|exact S].
Qed.

Lemma y_carrier c b : carrier_as c b -> exists v w b', b = w ++ b' /\ v <= 1 /\ int_as v w /\
  forall old, yields (dec_agg_object old) (new_raw (c_data c), c_sp c, c_at c) b'.
Proof.
  intros [sp ver w r d x y z b' V W R X Y Oz Ob|sp at_nanos ver w r d x y a z b' V W R X Y A Oz Ob];
    exists ver, w, b'; (split; [reflexivity|]); (split; [exact V|]); (split; [exact W|]);
    intros old; cbn [c_data c_sp c_at]; unfold dec_agg_object.
  - refine (y_object 1 2 (r ++ z) b' _ _ Ob eq_refl _). intros extra e Ve. rewrite <- app_assoc.
    apply y_bind with 5; [apply y_type; [exact R|reflexivity]|]. apply y_then with None; [apply y_err|].
    change ((5 =? raw_sp_type) || (5 =? raw_sp_time_type)) with true. cbv iota.
    apply y_bind with (new_raw d, sp, 0).
    + unfold dec_raw. refine (y_object 5 2 (x ++ y) z _ _ Oz eq_refl _). intros extra' e' Ve'. rewrite <- app_assoc.
      apply y_bind with d; [exact (y_bytes d x X)|]. apply y_bind with sp; [exact (y_sp sp y Y)|].
      change (5 =? raw_sp_type) with true. cbv iota. apply y_last with tt; [exact (y_skip extra' e' Ve')|]. apply y_ret.
    + apply y_last with tt; [exact (y_skip extra e Ve)|]. apply y_ret.
  - refine (y_object 1 2 (r ++ z) b' _ _ Ob eq_refl _). intros extra e Ve. rewrite <- app_assoc.
    apply y_bind with 22; [apply y_type; [exact R|reflexivity]|]. apply y_then with None; [apply y_err|].
    change ((22 =? raw_sp_type) || (22 =? raw_sp_time_type)) with true. cbv iota.
    apply y_bind with (new_raw d, sp, at_nanos).
    + unfold dec_raw. refine (y_object 22 3 (x ++ y ++ a) z _ _ Oz eq_refl _). intros extra' e' Ve'. rewrite <- !app_assoc.
      apply y_bind with d; [exact (y_bytes d x X)|]. apply y_bind with sp; [exact (y_sp sp y Y)|].
      change (22 =? raw_sp_type) with false. cbv iota. apply y_bind with at_nanos; [exact (y_int _ a A)|].
      apply y_last with tt; [exact (y_skip extra' e' Ve')|]. apply y_ret.
    + apply y_last with tt; [exact (y_skip extra e Ve)|]. apply y_ret.
Qed.

Lemma anext_carrier c b r it : carrier_as c b -> aready it (b ++ r) ->
  exists it', anext it = (true, it') /\ aready it' r /\ g_ignore it' = g_ignore it /\
    g_metric it' = new_raw (c_data c) /\ g_sp it' = c_sp c /\ g_at it' = c_at c.
Proof.
  intros M [S C]. destruct (y_carrier c b M) as (v & w & b' & -> & V & W & K).
  rewrite anext_eq. unfold anext_body. rewrite S, C.
  cbn [d_err]. rewrite <- app_assoc, (y_int v w W). cbn [d_err]. change aggregated_version with 1.
  rewrite (proj2 (Z.ltb_ge _ _)) by lia. rewrite K. eexists. split; [reflexivity|]. split; [split; reflexivity|].
  split; [reflexivity|]. split; [|split]; reflexivity.
Qed.

Lemma anext_more_ok it r : aready it r -> more (g_ignore it) (fun b => exists c, carrier_as c b) r ->
  exists it', anext it = (true, it').
Proof.
  intros Rd (ns & b & r' & -> & N & G & c & M). revert it Rd G. induction N as [|n ns N Ns IH]; intros it Rd G.
  - destruct (anext_carrier c b r' it M Rd) as (it' & E & _). exists it'. exact E.
  - destruct (g_ignore it) eqn:X; [|discriminate (G eq_refl)]. cbn [concat] in Rd. rewrite <- app_assoc in Rd.
    destruct (anext_newer_skip n _ it N X Rd) as (it' & E & Rd' & X'). rewrite E. apply IH; [exact Rd'|congruence].
Qed.

Lemma carriers_newers ns l b : Forall newer ns -> carriers_as l b -> carriers_as l (concat ns ++ b).
Proof.
  induction 1 as [|n ns N Ns IH]; intros S; [exact S|]. cbn [concat]. rewrite <- app_assoc. apply carriers_newer; auto.
Qed.

Lemma received_accepts it l e : received it l e -> forall d, aready it d ->
  exists b r, d = b ++ r /\ carriers_as l b /\
    (g_ignore it = false -> exists bs, b = concat bs /\ Forall2 carrier_as l bs) /\
    ~ more (g_ignore it) (fun b => exists c, carrier_as c b) r.
Proof.
  induction 1 as [it it' e E Ee|it it' m l e E Sh D IH]; intros d Rd.
  - exists [], d. split; [reflexivity|]. split; [constructor|].
    split; [intros _; exists []; split; [reflexivity|constructor]|]. intros M.
    destruct (anext_more_ok it d Rd M) as (it2 & E2). congruence.
  - destruct (anext_accepts _ it it' (le_n _) E) as (_ & Rd' & G & ns & b & d' & Ed & N & Gn & M & Sx).
    rewrite Sx in Sh. cbn in Sh. injection Sh as ->. destruct (IH _ Rd') as (b2 & r2 & E2 & S2 & F2 & M2).
    destruct Rd as [Rs _]. rewrite Rs in Ed. cbn [d_in] in Ed. subst d. rewrite E2.
    exists (concat ns ++ b ++ b2), r2. rewrite G in F2, M2.
    split; [rewrite <- !app_assoc; reflexivity|]. split; [apply carriers_newers; [exact N|]; apply carriers_message; assumption|].
    split; [|exact M2].
    intros X. rewrite (Gn X). destruct (F2 X) as (bs & -> & F). exists (b :: bs). split; [reflexivity|]. constructor; assumption.
Qed.

Lemma carrier_unique c c' b b' r r' : carrier_as c b -> carrier_as c' b' -> b ++ r = b' ++ r' -> c = c' /\ b = b'.
Proof.
  intros M M' E. set (it := new_ait (b ++ r) false).
  destruct (anext_carrier c b r it M (conj eq_refl eq_refl)) as (i1 & E1 & [R1 _] & _ & A1 & B1 & C1).
  assert (aready it (b' ++ r')) as Rd by (unfold it; rewrite E; split; reflexivity).
  destruct (anext_carrier c' b' r' it M' Rd) as (i2 & E2 & [R2 _] & _ & A2 & B2 & C2).
  rewrite E1 in E2. injection E2 as <-. rewrite A1 in A2. rewrite R1 in R2. injection R2 as <-.
  split; [|exact (app_inv_tail _ _ _ E)]. apply (f_equal w_data) in A2. cbn in A2.
  destruct c as [x1 x2 x3], c' as [y1 y2 y3]; cbn [c_data c_sp c_at] in *; congruence.
Qed.

Lemma received_total n : forall it, (left_in (g_st it) <= n)%nat -> d_err (g_st it) = None -> g_closed it = false ->
  exists l e, received it l e.
Proof.
  induction n as [n IH] using lt_wf_ind. intros it L Ee C. pose proof (anext_any _ it (le_n _) Ee C) as K.
  destruct (anext it) as [[|] it'] eqn:E.
  - destruct K as (b & Eb & Nb & Rd & _). destruct (anext_accepts _ it it' (le_n _) E) as (_ & _ & _ & _ & _ & d & _ & _ & _ & _ & Sx).
    assert (left_in (g_st it') < left_in (g_st it))%nat as Lt.
    { unfold left_in. rewrite Eb, app_length. destruct b; [contradiction|cbn [length]; lia]. }
    destruct Rd as [Rs Rc]. destruct (IH (left_in (g_st it')) ltac:(lia) it' (le_n _)) as (l & e & D); [rewrite Rs; reflexivity|exact Rc|].
    exists (mk_carrier d (g_sp it') (g_at it') :: l), e. apply (received_more it it'); [exact E|rewrite Sx; reflexivity|exact D].
  - destruct K as (e & Ke). exists [], e. exact (received_stop it it' e E Ke).
Qed.

(** * The raw metric *)

Lemma raw_id_inv d : d_err (w_st (raw_decode_id (new_raw d))) = None ->
  exists ver extra w h x id rest, ver <= 1 /\ int_as ver w /\ array_as (3 + Z.of_nat extra) h /\ bytes_as id x /\
    d = w ++ h ++ x ++ rest /\ raw_decode_id (new_raw d) = mk_raw d (mk_st rest None) id 0 0 true false false.
Proof.
  unfold raw_decode_id. cbv zeta. cbn [new_raw w_st w_id_decoded d_err w_data w_id w_time w_value w_time_decoded w_value_decoded].
  destruct (dec_varint64 (mk_st d None)) as [ver s] eqn:Ev. destruct (d_err s) eqn:Es; [cbn [w_st]; congruence|].
  destruct (acc_int _ _ _ Ev Es) as (_ & w & Ew & W). cbn [d_in] in Ew.
  change metric_version with 1. destruct (Z.ltb_spec 1 ver); [discriminate|].
  destruct (check_fields metric_obj_type s) as [ok s1] eqn:Ec.
  destruct ok as [z|].
  2:{ cbn [w_st]. intros E1. destruct (acc_fields _ _ _ _ Ec E1) as (_ & h & _ & e & K & _). discriminate K. }
  destruct (dec_bytes_len s1) as [n s2] eqn:En. destruct (d_err s2) eqn:E2; [cbn [w_st]; congruence|].
  destruct (acc_prim 0 read_bytes_len _ read_bytes_len_inv _ _ _ En E2) as (E1 & h2 & Eh & Q).
  destruct (acc_fields _ _ _ _ Ec E1) as (_ & h & Ex & e & K & A). injection K as ->.
  destruct s2 as [i2 e2]. cbn [d_in d_err] in *. subst e2.
  destruct Q as [[-> ->]|[N Q]].
  - change (-1 =? -1) with true. cbv iota. intros _. exists ver, e, w, h, [code 192], [], i2.
    split; [exact H|]. split; [exact W|]. split; [exact A|]. split; [constructor|].
    split; [rewrite Ew, Ex, Eh; rewrite <- ?app_assoc; reflexivity|reflexivity].
  - rewrite (proj2 (Z.eqb_neq n (-1))) by lia. unfold raw_read_bytes. cbn [d_in d_err].
    assert (zlen d - zlen i2 = zlen (w ++ h ++ h2)) as Es2 by (unfold zlen; rewrite Ew, Ex, Eh, !app_length; lia).
    rewrite Es2. destruct (n <? 0) eqn:C1; [discriminate|]. destruct (zlen (w ++ h ++ h2) <? 0) eqn:C2; [discriminate|].
    destruct (Z.ltb_spec (zlen d) (zlen (w ++ h ++ h2) + n)); [discriminate|]. cbn [orb d_err]. intros _.
    assert (d = (w ++ h ++ h2) ++ i2) as Ed by (rewrite Ew, Ex, Eh, <- !app_assoc; reflexivity).
    assert (n <= zlen i2) as Ln by lia.
    exists ver, e, w, h, (h2 ++ firstn (Z.to_nat n) i2), (firstn (Z.to_nat n) i2), (skipn (Z.to_nat n) i2).
    split; [exact H|]. split; [exact W|]. split; [exact A|].
    split; [apply Q; unfold zlen in *; rewrite firstn_length; lia|].
    split; [rewrite Ed at 1; rewrite <- !app_assoc, firstn_skipn; reflexivity|].
    rewrite Ed at 2. rewrite skip_known. reflexivity.
Qed.

Lemma raw_time_err w : d_err (w_st (raw_decode_time w)) = None -> d_err (w_st w) = None.
Proof. unfold raw_decode_time. destruct (d_err (w_st w)) eqn:E; [congruence|reflexivity]. Qed.
Lemma raw_value_err w : d_err (w_st (raw_decode_value w)) = None -> d_err (w_st w) = None.
Proof. unfold raw_decode_value. destruct (d_err (w_st w)) eqn:E; [congruence|reflexivity]. Qed.

Lemma raw_accepts d id t v : fst (access GetMetric (new_raw d)) = AMetric id t v -> starts_with_metric id t v d.
Proof.
  cbn [access fst]. unfold answer_of. destruct (d_err (w_st (raw_decode_value _))) eqn:E3; [discriminate|]. intros A.
  pose proof (raw_value_err _ E3) as E2. pose proof (raw_time_err _ E2) as E1.
  destruct (raw_id_inv d E1) as (ver & extra & w & h & x & id' & rest & V & W & H & X & Ed & Ei). rewrite Ei in A, E2, E3.
  unfold raw_decode_time in A, E2, E3. cbn [w_st d_err w_time_decoded] in A, E2, E3.
  destruct (dec_varint64 (mk_st rest None)) as [t' s] eqn:Et. destruct (d_err s) eqn:Es; [cbn [w_st] in E2; congruence|].
  destruct (acc_int _ _ _ Et Es) as (_ & y & Ey & Y). cbn [d_in] in Ey.
  unfold raw_decode_value in A, E3. cbn [w_st d_err w_value_decoded] in A, E3. rewrite Es in A, E3.
  destruct (dec_float64 s) as [v' s'] eqn:Ev. destruct (d_err s') eqn:Es'; [cbn [w_st] in E3; congruence|].
  destruct (acc_float _ _ _ Ev Es') as (_ & z & Ez & Z). cbn [w_id w_time w_value] in A. injection A as <- <- <-.
  exists ver, extra, w, h, x, y, z, (d_in s'). rewrite Ed, Ey, Ez. auto 10.
Qed.

Lemma adecoded_received it l e : adecoded it l e -> g_closed it = false -> exists cs, received it cs e /\
  Forall2 (fun am c => starts_with_metric (am_id am) (am_time am) (am_value am) (c_data c) /\ am_sp am = c_sp c /\ am_at am = c_at c) l cs.
Proof.
  intros D. induction D as [it it' e E Ee|it it' id t v l e E A D IH]; intros C.
  - exists []. split; [exact (received_stop it it' e E Ee)|constructor].
  - destruct (anext_accepts _ it it' (le_n _) E) as (_ & [_ Rc] & _ & _ & _ & d & _ & _ & _ & _ & Sx).
    destruct (IH Rc) as (cs & R & F). exists (mk_carrier d (g_sp it') (g_at it') :: cs).
    split; [apply (received_more it it'); [exact E|rewrite Sx; reflexivity|exact R]|]. constructor; [|exact F].
    cbn [am_id am_time am_value am_sp am_at c_data c_sp c_at]. rewrite Sx in A. split; [exact (raw_accepts _ _ _ _ A)|auto].
Qed.
