(** The msgpack iterators: what [Next] does, over whole streams. *)
From Coq Require Import Ascii String Arith NArith ZArith Bool Lia List.
From Verif.Base Require Import Bytes.
From Verif.Proof Require Import ProtoWireProof MsgpackLibProof MsgpackProof MsgpackLocal.
From Verif.Model Require Import AggType Policy Transformation ProtoWire MsgpackLib Msgpack.
From Verif.Spec Require Import MetadataSpec ProtoStreamSpec MsgpackSpec.
Import ListNotations.
Open Scope Z_scope.

Definition left_in (s : st) : nat := length (d_in s).

Lemma prim_shrinks {A} (z : A) read : local0 read -> forall s, (left_in (snd (prim z read s)) <= left_in s)%nat.
Proof.
  intros L [d [e|]]; [apply le_n|]. unfold prim, left_in. cbn [d_err d_in]. destruct (read d) as [[a r]|e] eqn:E; [|apply le_n].
  cbn [snd d_in]. destruct (L d a r E) as (x & -> & _). rewrite app_length. lia.
Qed.
Lemma skip_shrinks n s : (left_in (snd (dec_skip n s)) <= left_in s)%nat.
Proof.
  destruct s as [d [e|]]; [apply le_n|]. unfold dec_skip, left_in. cbn [d_err d_in]. destruct (n <? 0); [apply le_n|].
  destruct (skip_values n d) as [r|e] eqn:E; [|apply le_n]. cbn [snd d_in].
  destruct (skip_values_local (length d) d n r (le_n _) E) as (x & -> & _). rewrite app_length. lia.
Qed.
Lemma varint_shrinks s v s' : dec_varint64 s = (v, s') -> d_err s = None -> d_err s' = None -> (left_in s' < left_in s)%nat.
Proof.
  destruct s as [d e]. cbn [d_err]. intros E -> N. unfold dec_varint64, prim in E. cbn [d_err d_in] in E.
  destruct (read_int d) as [[a r]|e'] eqn:Er; apply pair_equal_spec in E as [<- <-]; [|discriminate N].
  destruct (l1_int d a r Er) as (x & Nx & -> & _). unfold left_in. cbn [d_in]. rewrite app_length.
  destruct x; [congruence|cbn [length]; lia].
Qed.

(** * The unaggregated iterator *)

Definition emptied (m : munion) : munion := mk_mu (mu_type m) (mu_id m) (mu_counter m) [] (mu_gauge m).

Definition next_body (rec : mit -> bool * mit) (it : mit) : bool * mit :=
  match d_err (x_st it), x_closed it with
  | None, false =>
      let m := emptied (x_metric it) in
      let '(version, s) := dec_varint64 (x_st it) in
      match d_err s with
      | Some _ => (false, mk_mit s (x_ignore it) false m (x_policies it))
      | None =>
          if unaggregated_version <? version then
            if x_ignore it then
              let '(n, s) := dec_array_len s in
              let '(_, s) := dec_skip n s in
              rec (mk_mit s true false m (x_policies it))
            else (false, mk_mit (mk_st (d_in s) (Some Malformed)) false false m (x_policies it))
          else
            let '((m, pl), s) := dec_object m (x_policies it) s in
            (match d_err s with None => true | Some _ => false end, mk_mit s (x_ignore it) false m pl)
      end
  | _, _ => (false, it)
  end.

Lemma next_loop_body f it : next_loop (S f) it = next_body (next_loop f) it.
Proof. cbn [next_loop]. unfold next_body, emptied. destruct (d_err (x_st it)); [reflexivity|]. destruct (x_closed it); reflexivity. Qed.

Lemma next_loop_fuel f1 : forall f2 it, (left_in (x_st it) < f1)%nat -> (left_in (x_st it) < f2)%nat ->
  next_loop f1 it = next_loop f2 it.
Proof.
  induction f1 as [|f1 IH]; intros f2 it L1 L2; [lia|]. destruct f2 as [|f2]; [lia|]. rewrite !next_loop_body.
  unfold next_body. destruct (d_err (x_st it)) eqn:Ee; [reflexivity|]. destruct (x_closed it); [reflexivity|]. cbv zeta.
  destruct (dec_varint64 (x_st it)) as [v s] eqn:Ev. destruct (d_err s) eqn:Es; [reflexivity|].
  destruct (_ <? v); [|reflexivity]. destruct (x_ignore it); [|reflexivity].
  destruct (dec_array_len s) as [n s1] eqn:En. destruct (dec_skip n s1) as [u s2] eqn:Ek.
  pose proof (varint_shrinks _ v s Ev Ee Es).
  pose proof (prim_shrinks 0 read_array_len (l10 _ l1_array) s) as H1. fold dec_array_len in H1. rewrite En in H1.
  pose proof (skip_shrinks n s1) as H2. rewrite Ek in H2. cbn [snd] in *. apply IH; cbn [x_st]; lia.
Qed.

Lemma mnext_eq it : mnext it = next_body mnext it.
Proof.
  unfold mnext at 1. rewrite next_loop_body. unfold next_body.
  destruct (d_err (x_st it)) eqn:Ee; [reflexivity|]. destruct (x_closed it); [reflexivity|]. cbv zeta.
  destruct (dec_varint64 (x_st it)) as [v s] eqn:Ev. destruct (d_err s) eqn:Es; [reflexivity|].
  destruct (_ <? v); [|reflexivity]. destruct (x_ignore it); [|reflexivity].
  destruct (dec_array_len s) as [n s1] eqn:En. destruct (dec_skip n s1) as [u s2] eqn:Ek.
  pose proof (varint_shrinks _ v s Ev Ee Es).
  pose proof (prim_shrinks 0 read_array_len (l10 _ l1_array) s) as H1. fold dec_array_len in H1. rewrite En in H1.
  pose proof (skip_shrinks n s1) as H2. rewrite Ek in H2. cbn [snd] in *. unfold mnext. apply next_loop_fuel; cbn [x_st];
    unfold left_in in *; lia.
Qed.

(** An iterator about to read [d]. *)
Definition ready (it : mit) (d : bytes) : Prop := x_st it = mk_st d None /\ x_closed it = false.

Lemma mnext_message mm b r it : message_as mm b -> ready it (b ++ r) ->
  exists it', mnext it = (true, it') /\ ready it' r /\ x_ignore it' = x_ignore it /\
    shown (x_metric it') = Some (fst mm) /\
    x_policies it' = match snd mm with None => x_policies it | Some l => l end.
Proof.
  intros M [S C]. destruct (y_message mm b M) as (v & w & b' & -> & V & W & K).
  destruct (K (emptied (x_metric it)) (x_policies it)) as (u & pl & Sh & Pl & Y). rewrite mnext_eq. unfold next_body. rewrite S, C.
  cbn [d_err]. rewrite <- app_assoc, (y_int v w W). cbn [d_err]. change unaggregated_version with 1.
  rewrite (proj2 (Z.ltb_ge _ _)) by lia. rewrite Y. eexists. split; [reflexivity|]. split; [split; reflexivity|].
  split; [reflexivity|]. split; [exact Sh|]. cbn [x_policies]. destruct (snd mm); exact Pl.
Qed.

Lemma mnext_newer_skip b r it : newer b -> x_ignore it = true -> ready it (b ++ r) ->
  exists it', mnext it = mnext it' /\ ready it' r /\ x_ignore it' = true /\ x_policies it' = x_policies it.
Proof.
  intros (v & n & w & a & x & V & W & A & X & ->) G [S C]. eexists.
  rewrite mnext_eq at 1. unfold next_body. rewrite S, C. cbn [d_err]. rewrite <- !app_assoc, (y_int v w W). cbn [d_err].
  change unaggregated_version with 1. rewrite (proj2 (Z.ltb_lt _ _)) by lia. rewrite G.
  rewrite (y_array (Z.of_nat n) a A), (y_skip n x X). split; [reflexivity|]. repeat split.
Qed.

Lemma mnext_newer_reject b r it : newer b -> x_ignore it = false -> ready it (b ++ r) ->
  exists it', mnext it = (false, it') /\ d_err (x_st it') = Some Malformed.
Proof.
  intros (v & n & w & a & x & V & W & A & X & ->) G [S C]. eexists.
  rewrite mnext_eq. unfold next_body. rewrite S, C. cbn [d_err]. rewrite <- !app_assoc, (y_int v w W). cbn [d_err].
  change unaggregated_version with 1. rewrite (proj2 (Z.ltb_lt _ _)) by lia. rewrite G. split; reflexivity.
Qed.

Lemma mnext_end it : ready it [] -> exists it', mnext it = (false, it') /\ d_err (x_st it') = Some EndOfInput.
Proof. intros [S C]. rewrite mnext_eq. unfold next_body. rewrite S, C. eexists. split; reflexivity. Qed.

Lemma mnext_stream l b : stream_as l b -> forall it, x_ignore it = true -> ready it b ->
  match l with
  | [] => exists it', mnext it = (false, it') /\ d_err (x_st it') = Some EndOfInput
  | mm :: l => exists it' r, mnext it = (true, it') /\ ready it' r /\ stream_as l r /\ x_ignore it' = true /\
      shown (x_metric it') = Some (fst mm) /\
      x_policies it' = match snd mm with None => x_policies it | Some p => p end
  end.
Proof.
  induction 1 as [|mm l b r M R _|l b r N R IH]; intros it G Rd.
  - exact (mnext_end it Rd).
  - destruct (mnext_message mm b r it M Rd) as (it' & E & Rd' & G' & Sh & P). exists it', r.
    rewrite G in G'. repeat (split; [assumption|]). exact P.
  - destruct (mnext_newer_skip b r it N G Rd) as (it' & E & Rd' & G' & P). specialize (IH it' G' Rd'). rewrite E.
    destruct l as [|mm l]; [exact IH|]. rewrite P in IH. exact IH.
Qed.

(** What the policies are while the messages [l] go by, from [pl]. *)
Fixpoint with_lists (pl : list staged_policies) (l : list metric_message) : list (sample * list staged_policies) :=
  match l with
  | [] => []
  | (m, o) :: l => let pl := match o with None => pl | Some p => p end in (m, pl) :: with_lists pl l
  end.
Lemma with_lists_agree l : forall pl, Forall2 agrees (with_lists pl l) l.
Proof.
  induction l as [|[m o] l IH]; intros pl; [constructor|]. cbn [with_lists]. constructor; [|apply IH].
  split; [reflexivity|]. intros p E. cbn [snd] in *. subst o. reflexivity.
Qed.

Lemma decode_stream l : forall b it, stream_as l b -> x_ignore it = true -> ready it b ->
  mdecoded it (with_lists (x_policies it) l) EndOfInput.
Proof.
  induction l as [|[m o] l IH]; intros b it St G Rd; pose proof (mnext_stream _ b St it G Rd) as H; cbn [fst snd] in H.
  - destruct H as (it' & E & Ee). exact (mdecoded_stop it it' EndOfInput E Ee).
  - destruct H as (it' & r & E & Rd' & St' & G' & Sh & P). cbn [with_lists]. cbv zeta. rewrite <- P.
    apply mdecoded_more; [exact E|exact Sh|]. exact (IH r it' St' G' Rd').
Qed.

Lemma decode_messages l bs : Forall2 message_as l bs -> forall r e,
  forall it, (forall it' pl, x_ignore it' = x_ignore it -> ready it' r -> x_policies it' = pl -> mdecoded it' [] e) ->
  ready it (concat bs ++ r) -> mdecoded it (with_lists (x_policies it) l) e.
Proof.
  induction 1 as [|[m o] b l bs M F IH]; intros r e it End Rd.
  - exact (End it (x_policies it) eq_refl Rd eq_refl).
  - cbn [concat] in Rd. rewrite <- app_assoc in Rd.
    destruct (mnext_message (m, o) b _ it M Rd) as (it' & E & Rd' & G & Sh & P). cbn [fst snd] in *.
    cbn [with_lists]. cbv zeta. rewrite <- P. apply mdecoded_more; [exact E|exact Sh|].
    apply (IH r e it'); [|exact Rd']. intros it2 pl G2. apply End. congruence.
Qed.

Lemma mdecoded_functional it l e : mdecoded it l e -> forall l' e', mdecoded it l' e' -> l' = l /\ e' = e.
Proof.
  induction 1 as [it it' e E Ee|it it' m l e E Sh D IH]; intros l' e' D'.
  - destruct D' as [jt jt' f F Ff|jt jt' n l' f F Sf D']; [|congruence].
    assert (it' = jt') as <- by congruence. split; [reflexivity|congruence].
  - destruct D' as [jt jt' f F Ff|jt jt' n l' f F Sf D']; [congruence|].
    assert (it' = jt') as <- by congruence. destruct (IH l' f D') as [-> ->]. split; [|reflexivity]. congruence.
Qed.

(** ** Any input *)

Lemma local_yields {A} (x : D A) P : local x P -> forall d a s, x (mk_st d None) = (a, s) -> d_err s = None ->
  exists b, d = b ++ d_in s /\ P a /\ forall r, x (mk_st (b ++ r) None) = (a, mk_st r None).
Proof. intros L d a s E N. destruct (L d a s E N) as (p & b & Eb & Y). exists b. repeat split; assumption. Qed.

Lemma mnext_any : forall n it, (left_in (x_st it) <= n)%nat -> d_err (x_st it) = None -> x_closed it = false ->
  match mnext it with
  | (false, it') => exists e, d_err (x_st it') = Some e
  | (true, it') => exists b m, d_in (x_st it) = b ++ d_in (x_st it') /\ b <> [] /\ ready it' (d_in (x_st it')) /\
      x_ignore it' = x_ignore it /\ shown (x_metric it') = Some m /\
      exists o, x_policies it' = match o with None => x_policies it | Some p => p end /\
      forall it2 r, x_ignore it2 = x_ignore it -> ready it2 (b ++ r) ->
        exists it2', mnext it2 = (true, it2') /\ ready it2' r /\ shown (x_metric it2') = Some m /\
          x_policies it2' = match o with None => x_policies it2 | Some p => p end
  end.
Proof.
  induction n as [n IH] using lt_wf_ind. intros it L Ee C. rewrite (mnext_eq it). unfold next_body. rewrite Ee, C. cbv zeta.
  destruct (x_st it) as [d e] eqn:St. cbn [d_err] in Ee. subst e.
  destruct (dec_varint64 (mk_st d None)) as [v s] eqn:Ev. destruct (d_err s) as [e|] eqn:Es; [exists e; exact Es|].
  pose proof (varint_shrinks _ v s Ev eq_refl Es) as Sh1.
  destruct (local_yields _ _ l_varint d v s Ev Es) as (w & Ed & _ & Yv).
  assert (w <> []) as Nw by (intros ->; cbn [app] in Ed; unfold left_in in Sh1; cbn [d_in] in Sh1; rewrite <- Ed in Sh1; lia).
  destruct s as [d1 e1]. cbn [d_err d_in] in *. subst e1.
  destruct (unaggregated_version <? v) eqn:Vv.
  - destruct (x_ignore it) eqn:G; [|eexists; reflexivity].
    destruct (dec_array_len (mk_st d1 None)) as [k s1] eqn:En. destruct (dec_skip k s1) as [u s2] eqn:Ek.
    pose proof (prim_shrinks 0 read_array_len (l10 _ l1_array) (mk_st d1 None)) as H1. fold dec_array_len in H1. rewrite En in H1.
    pose proof (skip_shrinks k s1) as H2. rewrite Ek in H2. cbn [snd] in *.
    destruct (d_err s2) as [e|] eqn:E2.
    { rewrite mnext_eq. unfold next_body. cbn [x_st]. rewrite E2. cbn [x_st]. exists e. exact E2. }
    set (jt := mk_mit s2 true false (emptied (x_metric it)) (x_policies it)).
    specialize (IH (left_in s2) ltac:(lia) jt (le_n _) E2 eq_refl).
    destruct s1 as [d2 e2]. assert (e2 = None) as ->.
    { destruct e2 as [e|]; [|reflexivity]. exfalso. apply (s_skip k (mk_st d2 (Some e))); [discriminate|]. rewrite Ek. exact E2. }
    destruct (local_yields _ _ l_darray d1 k (mk_st d2 None) En eq_refl) as (a & Ed1 & _ & Ya).
    destruct (local_yields _ _ (l_skip k) d2 u s2 Ek E2) as (x & Ed2 & _ & Yx). cbn [d_in] in *.
    destruct (mnext jt) as [[|] jt']; [|exact IH].
    destruct IH as (b & m & Eb & Nb & Rd & Gi & Sm & o & Po & All). cbn [x_st x_ignore x_policies jt] in *.
    exists (w ++ a ++ x ++ b), m. split; [subst; rewrite Eb, <- !app_assoc; reflexivity|].
    split; [destruct w; [congruence|discriminate]|]. split; [exact Rd|]. split; [congruence|]. split; [exact Sm|].
    exists o. split; [exact Po|]. intros it2 r G2 [S2 C2].
    destruct (All (mk_mit (mk_st (b ++ r) None) true false (emptied (x_metric it2)) (x_policies it2)) r eq_refl
      (conj eq_refl eq_refl)) as (it2' & E2' & R2 & Sh2 & P2).
    exists it2'. split; [|split; [exact R2|split; [exact Sh2|exact P2]]].
    rewrite mnext_eq. unfold next_body. rewrite S2, C2. cbn [d_err]. cbv zeta. rewrite <- !app_assoc, Yv. cbn [d_err].
    rewrite Vv, G2, Ya, Yx. exact E2'.
  - pose proof (ra_object (emptied (x_metric it), x_policies it) (mk_st d1 None)) as Ra. cbn [fst snd] in Ra.
    destruct (core_object (mk_st d1 None)) as [h s1] eqn:Ec. cbn [fst snd] in Ra. rewrite Ra.
    destruct (h (emptied (x_metric it), x_policies it)) as [m1 pl1] eqn:Eh.
    destruct (d_err s1) as [e|] eqn:E1; [exists e; exact E1|].
    destruct (local_yields _ _ l_object d1 h s1 Ec E1) as (b & Ed1 & (m & Hm & Hp) & Yo). cbn [x_st].
    assert (exists o, forall i, snd (h i) = match o with None => snd i | Some p => p end) as [o Ho].
    { destruct Hp as [Hp|[l Hp]]; [exists None|exists (Some l)]; exact Hp. }
    exists (w ++ b), m. split; [subst; rewrite <- app_assoc; reflexivity|].
    split; [destruct w; [congruence|discriminate]|]. split; [split; [destruct s1 as [d2 e2]; cbn [d_err d_in] in *; subst e2; reflexivity|reflexivity]|].
    split; [reflexivity|]. cbn [x_metric x_policies].
    split; [rewrite <- (Hm (emptied (x_metric it), x_policies it)), Eh; reflexivity|].
    exists o. split; [pose proof (Ho (emptied (x_metric it), x_policies it)) as K; rewrite Eh in K; exact K|].
    intros it2 r G2 [S2 C2]. rewrite mnext_eq. unfold next_body. rewrite S2, C2. cbn [d_err]. cbv zeta.
    rewrite <- app_assoc, Yv. cbn [d_err]. rewrite Vv.
    pose proof (ra_object (emptied (x_metric it2), x_policies it2) (mk_st (b ++ r) None)) as Ra2. cbn [fst snd] in Ra2.
    rewrite Yo in Ra2. cbn [fst snd] in Ra2. rewrite Ra2.
    destruct (h (emptied (x_metric it2), x_policies it2)) as [m2 pl2] eqn:Eh2. cbn [d_err].
    eexists. split; [reflexivity|]. split; [split; reflexivity|]. cbn [x_metric x_policies].
    split; [rewrite <- (Hm (emptied (x_metric it2), x_policies it2)), Eh2; reflexivity|].
    pose proof (Ho (emptied (x_metric it2), x_policies it2)) as K. rewrite Eh2 in K. exact K.
Qed.

Lemma mdecoded_total : forall n it, (left_in (x_st it) <= n)%nat -> d_err (x_st it) = None -> x_closed it = false ->
  exists l e, mdecoded it l e.
Proof.
  induction n as [n IH] using lt_wf_ind. intros it L Ee C. pose proof (mnext_any n it L Ee C) as H.
  destruct (mnext it) as [[|] it'] eqn:E.
  - destruct H as (b & m & Eb & Nb & [St Cl] & _ & Sh & _). 
    destruct (IH (left_in (x_st it'))) with (it := it') as (l & e & D).
    + unfold left_in in *. rewrite Eb, app_length in L. destruct b; [congruence|]. cbn [length] in L. lia.
    + apply le_n.
    + rewrite St. reflexivity.
    + exact Cl.
    + exists ((m, x_policies it') :: l), e. exact (mdecoded_more it it' m l e E Sh D).
  - destruct H as [e He]. exists [], e. exact (mdecoded_stop it it' e E He).
Qed.

(** A stream cut short shows only messages it holds whole. *)
Lemma decode_cut l : forall b p q it, stream_as l b -> b = p ++ q -> x_ignore it = true -> ready it p ->
  forall seen e, mdecoded it seen e -> exists l1 l2, l = l1 ++ l2 /\ seen = with_lists (x_policies it) l1.
Proof.
  induction l as [|[m o] l IH]; intros b p q it St Eb G Rd seen e D; destruct D as [it it1 e E Ee|it it1 m1 seen e E Sh D].
  - exists [], []. split; reflexivity.
  - exfalso. pose proof (mnext_any _ it (le_n _)) as K. destruct Rd as [Sx Cx]. rewrite Sx in K. specialize (K eq_refl Cx).
    rewrite E in K. destruct K as (b0 & m0 & E0 & N0 & _ & _ & _ & o & _ & All). cbn [d_in] in E0. subst p b.
    set (jt := mk_mit (mk_st ((b0 ++ d_in (x_st it1)) ++ q) None) true false (x_metric it) (x_policies it)).
    pose proof (mnext_stream [] _ St jt eq_refl (conj eq_refl eq_refl)) as (jt' & F & _).
    destruct (All jt (d_in (x_st it1) ++ q)) as (jt2 & F2 & _); [symmetry; exact G| |].
    { split; [cbn [jt x_st]; rewrite <- app_assoc; reflexivity|reflexivity]. }
    congruence.
  - exists [], ((m, o) :: l). split; reflexivity.
  - pose proof (mnext_any _ it (le_n _)) as K. destruct Rd as [Sx Cx]. rewrite Sx in K. specialize (K eq_refl Cx).
    rewrite E in K. destruct K as (b0 & m0 & E0 & N0 & Rd1 & G1 & Sh1 & o1 & Po & All). cbn [d_in] in E0. subst p b.
    set (jt := mk_mit (mk_st ((b0 ++ d_in (x_st it1)) ++ q) None) true false (x_metric it) (x_policies it)).
    pose proof (mnext_stream _ _ St jt eq_refl (conj eq_refl eq_refl)) as (jt' & r & F & Rj & Str & Gj & Shj & Pj).
    destruct (All jt (d_in (x_st it1) ++ q)) as (jt2 & F2 & Rj2 & Shj2 & Pj2); [symmetry; exact G| |].
    { split; [cbn [jt x_st]; rewrite <- app_assoc; reflexivity|reflexivity]. }
    assert (jt2 = jt') as -> by congruence. cbn [fst snd] in *.
    assert (r = d_in (x_st it1) ++ q) as -> by (destruct Rj as [A _], Rj2 as [A2 _]; congruence).
    assert (m1 = m) as -> by congruence.
    destruct (IH _ (d_in (x_st it1)) q it1 Str eq_refl (eq_trans G1 G) Rd1 seen e D) as (l1 & l2 & -> & ->).
    exists ((m, o) :: l1), l2. split; [reflexivity|]. cbn [with_lists]. cbv zeta.
    assert (x_policies it1 = match o with None => x_policies it | Some p => p end) as P1.
    { rewrite Po. cbn [x_policies jt] in Pj, Pj2. congruence. }
    rewrite <- P1. reflexivity.
Qed.
