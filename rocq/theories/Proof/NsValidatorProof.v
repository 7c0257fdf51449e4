(** Proofs about the validator of namespaces. *)
From Coq Require Import Ascii String Arith NArith ZArith Bool Lia List.
From Verif.Base Require Import Bytes BytesFacts.
From Verif.Model Require Import NsValidator.
From Verif.Spec Require Import NsValidatorSpec.
Import ListNotations.

Definition boot (w : worker) : bool :=
  match w with
  | Selecting b | Notified b | Got b _ | Updating b _ => b
  | Gone => false
  end.

Definition known (dflt : list bytes) (vals : list kv_value) (l : list bytes) : Prop :=
  l = dflt \/ In (Strings l) vals.

Definition fresh (dflt : list bytes) (s : vstate) : Prop :=
  match vs_worker s with
  | Selecting _ => forall l, strings_of dflt (vs_value s) = Some l -> vs_valid s = l
  | Notified _ => True
  | Got _ v => v = vs_value s
  | Updating _ l => forall l', strings_of dflt (vs_value s) = Some l' -> l = l'
  | Gone => True
  end.

Record vinv (dflt : list bytes) (v0 : kv_value) (tr : list vaction) (s : vstate) : Prop := {
  i_done : vs_done s = if vs_closed s then 1 else 0;
  i_lock_w : vs_lock s = Some ByWorker <-> exists b l, vs_worker s = Updating b l;
  i_lock_c : forall i, vs_lock s = Some (ByCloser i) <-> nth_error (vs_closers s) i = Some Holding;
  i_boot : boot (vs_worker s) = true -> vs_closers s = [];
  i_closed : vs_closed s = true -> In Waiting (vs_closers s) \/ (vs_worker s = Gone /\ vs_closers s <> []);
  i_gone : vs_worker s = Gone -> vs_closed s = true;
  i_after : forall c, In c (vs_closers s) -> c = Waiting \/ c = Returned -> vs_closed s = true;
  i_called : vs_closers s <> [] -> In CallClose tr;
  i_value : vs_value s = latest v0 tr;
  i_valid : known dflt (values v0 tr) (vs_valid s);
  i_got : forall b v, vs_worker s = Got b v -> In v (values v0 tr);
  i_upd : forall b l, vs_worker s = Updating b l -> known dflt (values v0 tr) l;
  i_fresh : vs_pending s = false -> fresh dflt s }.

Lemma new_inv : forall dflt v, vinv dflt v [] (new_validator dflt v).
Proof.
  intros dflt v. unfold new_validator. constructor; cbn.
  - reflexivity.
  - split; [discriminate | intros [b [l H]]; discriminate].
  - intros i. destruct i; split; discriminate.
  - reflexivity.
  - discriminate.
  - discriminate.
  - intros c [].
  - congruence.
  - reflexivity.
  - left; reflexivity.
  - discriminate.
  - discriminate.
  - intros H. destruct v; try discriminate. cbn. intros l Hl. congruence.
Qed.

Lemma values_app : forall v0 tr a, values v0 (tr ++ [a]) = values v0 tr ++ match a with Write v => [v] | _ => [] end.
Proof. intros. unfold values. rewrite flat_map_app. cbn [flat_map]. rewrite app_nil_r. reflexivity. Qed.

Lemma known_app : forall dflt vals more l, known dflt vals l -> known dflt (vals ++ more) l.
Proof. intros dflt vals more l [H | H]; [left; exact H | right; apply in_or_app; left; exact H]. Qed.

Lemma latest_write : forall v0 tr v, latest v0 (tr ++ [Write v]) = v.
Proof. intros. unfold latest. rewrite values_app. apply last_last. Qed.

Lemma latest_same : forall v0 tr a, (forall v, a <> Write v) -> values v0 (tr ++ [a]) = values v0 tr.
Proof. intros v0 tr a H. rewrite values_app. destruct a; try apply app_nil_r. exfalso; apply (H v); reflexivity. Qed.

Lemma latest_in : forall v0 tr, In (latest v0 tr) (values v0 tr).
Proof.
  intros. unfold latest. unfold values.
  destruct (exists_last (l := v0 :: flat_map (fun a => match a with Write v => [v] | _ => [] end) tr) ltac:(discriminate))
    as [l' [x E]].
  rewrite E. rewrite last_last. apply in_or_app. right. left. reflexivity.
Qed.

Lemma nth_set_nth_same : forall A (l : list A) i x y, nth_error l i = Some y -> nth_error (set_nth i x l) i = Some x.
Proof. induction l as [|z l IH]; intros [|i] x y H; try discriminate; cbn in *; [reflexivity | exact (IH i x y H)]. Qed.

Lemma nth_set_nth_other : forall A (l : list A) i j x, i <> j -> nth_error (set_nth i x l) j = nth_error l j.
Proof.
  induction l as [|z l IH]; intros [|i] [|j] x H; cbn; try reflexivity; try congruence. apply IH. congruence.
Qed.

Lemma set_nth_length : forall A (l : list A) i x, length (set_nth i x l) = length l.
Proof. induction l as [|z l IH]; intros [|i] x; cbn; try reflexivity. now rewrite IH. Qed.

Lemma in_set_nth : forall A (l : list A) i x y, In y (set_nth i x l) -> y = x \/ In y l.
Proof.
  induction l as [|z l IH]; intros [|i] x y H; cbn in *; try tauto.
  - destruct H as [H | H]; [left; congruence | tauto].
  - destruct H as [H | H]; [tauto |]. destruct (IH i x y H); tauto.
Qed.

Lemma set_nth_nil : forall A (l : list A) i x, set_nth i x l = [] -> l = [].
Proof. destruct l as [|z l]; intros [|i] x H; cbn in H; congruence. Qed.

Lemma in_set_nth_keep : forall A (l : list A) i x y z, nth_error l i = Some z -> z <> y -> In y l -> In y (set_nth i x l).
Proof.
  induction l as [|w l IH]; intros [|i] x y z Hn Hz Hin; cbn in *; try discriminate.
  - injection Hn as Hn. subst. destruct Hin; [congruence | right; assumption].
  - destruct Hin as [H | H]; [left; exact H | right; exact (IH i x y z Hn Hz H)].
Qed.

(** A step that leaves lock, calls and closing alone and moves the worker between places where it has no lock. *)
Ltac by_worker E I :=
  destruct I as [Id Iw Ic Ib Icl Ig Ia Ica Iv Ivd Igo Iup If];
  constructor; cbn [vs_value vs_pending vs_worker vs_closed vs_done vs_valid vs_lock vs_closers with_worker] in *;
  rewrite ?E in *; cbn [boot] in *.

Lemma lock_not_worker : forall dflt v0 tr s, vinv dflt v0 tr s ->
  (forall b l, vs_worker s <> Updating b l) -> vs_lock s <> Some ByWorker.
Proof. intros dflt v0 tr s I H Hl. apply (i_lock_w _ _ _ _ I) in Hl. destruct Hl as [b [l Hl]]. exact (H b l Hl). Qed.

Lemma inv_close : forall dflt v0 tr s i c s', vinv dflt v0 tr s -> nth_error (vs_closers s) i = Some c ->
  close_step s i c = Some s' -> vinv dflt v0 (tr ++ [StepClose i]) s'.
Proof.
  intros dflt v0 tr s i c s' I Hn Hs.
  assert (HV : values v0 (tr ++ [StepClose i]) = values v0 tr) by (apply latest_same; discriminate).
  assert (HL : latest v0 (tr ++ [StepClose i]) = latest v0 tr) by (unfold latest; rewrite HV; reflexivity).
  assert (Hin : In c (vs_closers s)) by (eapply nth_error_In; exact Hn).
  assert (Hne : vs_closers s <> []) by (intros E; rewrite E in Hin; exact Hin).
  assert (Hset : forall x, set_nth i x (vs_closers s) <> []) by (intros x E; exact (Hne (set_nth_nil _ _ _ _ E))).
  destruct I as [Id Iw Ic Ib Icl Ig Ia Ica Iv Ivd Igo Iup If].
  assert (Hcall : In CallClose (tr ++ [StepClose i])) by (apply in_or_app; left; exact (Ica Hne)).
  assert (Hnb : boot (vs_worker s) = true -> False) by (intros Hb; exact (Hne (Ib Hb))).
  unfold close_step in Hs. destruct c.
  - (* Called *)
    destruct (vs_lock s) as [h|] eqn:EL; [discriminate|]. injection Hs as Hs. subst s'.
    constructor; cbn [vs_value vs_pending vs_worker vs_closed vs_done vs_valid vs_lock vs_closers]; rewrite ?HV, ?HL; try assumption.
    + split; [discriminate|]. intros H. apply Iw in H. discriminate.
    + intros j. destruct (Nat.eq_dec i j) as [E | N].
      * subst j. rewrite (nth_set_nth_same _ _ _ Holding _ Hn). tauto.
      * rewrite nth_set_nth_other by exact N. split; [congruence|]. intros H. apply Ic in H. discriminate.
    + intros Hb. destruct (Hnb Hb).
    + intros Hc. destruct (Icl Hc) as [H | [H1 H2]].
      * left. apply (in_set_nth_keep _ _ _ _ _ Called Hn); [discriminate | exact H].
      * right. split; [exact H1 | apply Hset].
    + intros c' Hc' Hcase. apply in_set_nth in Hc'. destruct Hc' as [E | Hc']; [subst c'; destruct Hcase; discriminate |].
      exact (Ia c' Hc' Hcase).
    + intros _. exact Hcall.
  - (* Holding *)
    assert (EL : vs_lock s = Some (ByCloser i)) by (apply Ic; exact Hn).
    assert (Hothers : forall j, nth_error (vs_closers s) j = Some Holding -> j = i).
    { intros j Hj. apply Ic in Hj. congruence. }
    assert (Hlw : None = Some ByWorker <-> exists b l, vs_worker s = Updating b l).
    { split; [discriminate|]. intros H. apply Iw in H. congruence. }
    assert (Hlc : forall x, x <> Holding -> forall j, (None : option holder) = Some (ByCloser j) <-> nth_error (set_nth i x (vs_closers s)) j = Some Holding).
    { intros x Hx j. split; [discriminate|]. intros H. exfalso. destruct (Nat.eq_dec i j) as [E | N].
      - subst j. rewrite (nth_set_nth_same _ _ _ x _ Hn) in H. congruence.
      - rewrite nth_set_nth_other in H by exact N. apply N. symmetry. exact (Hothers j H). }
    destruct (vs_closed s) eqn:EC; injection Hs as Hs; subst s';
      constructor; cbn [vs_value vs_pending vs_worker vs_closed vs_done vs_valid vs_lock vs_closers]; rewrite ?HV, ?HL; try assumption;
      try (exact Hlw); try (apply Hlc; discriminate); try (intros _; exact Hcall); try reflexivity;
      try (intros Hb; destruct (Hnb Hb)); try (intros; reflexivity).
    + intros _. destruct (Icl eq_refl) as [H | [H1 H2]].
      * left. apply (in_set_nth_keep _ _ _ _ _ Holding Hn); [discriminate | exact H].
      * right. split; [exact H1 | apply Hset].
    + rewrite Id. reflexivity.
    + intros _. left. eapply nth_error_In. apply (nth_set_nth_same _ _ _ Waiting _ Hn).
  - (* Waiting *)
    assert (EC : vs_closed s = true) by (apply (Ia Waiting Hin); left; reflexivity).
    destruct (vs_worker s) eqn:EW; try discriminate. injection Hs as Hs. subst s'.
    constructor; cbn [vs_value vs_pending vs_worker vs_closed vs_done vs_valid vs_lock vs_closers]; rewrite ?HV, ?HL, ?EW; try assumption.
    + intros j. destruct (Nat.eq_dec i j) as [E | N].
      * subst j. rewrite (nth_set_nth_same _ _ _ Returned _ Hn). split; [|discriminate]. intros H. apply Ic in H. congruence.
      * rewrite nth_set_nth_other by exact N. apply Ic.
    + discriminate.
    + intros _. right. split; [reflexivity | apply Hset].
    + intros c' Hc' Hcase. exact EC.
    + intros _. exact Hcall.
    + intros _. exact I.
  - discriminate.
Qed.

Lemma inv_step : forall dflt v0 tr s a s' o, vinv dflt v0 tr s -> vstep dflt s a = Some (s', o) ->
  vinv dflt v0 (tr ++ [a]) s'.
Proof.
  intros dflt v0 tr s a s' o I Hs.
  assert (HC : vs_closers s <> [] -> In CallClose (tr ++ [a])) by (intros H; apply in_or_app; left; exact (i_called _ _ _ _ I H)).
  destruct a as [v| | | | | | |ns| |i].
  - (* Write *)
    cbn in Hs. injection Hs as Hs Ho. subst s'.
    destruct I as [Id Iw Ic Ib Icl Ig Ia Ica Iv Ivd Igo Iup If].
    constructor; cbn [vs_value vs_pending vs_worker vs_closed vs_done vs_valid vs_lock vs_closers]; try assumption.
    + symmetry. apply latest_write.
    + rewrite values_app. apply known_app. exact Ivd.
    + intros b v' H. rewrite values_app. apply in_or_app. left. exact (Igo b v' H).
    + intros b l H. rewrite values_app. apply known_app. exact (Iup b l H).
    + discriminate.
  - (* Receive *)
    assert (HV : values v0 (tr ++ [Receive]) = values v0 tr) by (apply latest_same; discriminate).
    assert (HL : latest v0 (tr ++ [Receive]) = latest v0 tr) by (unfold latest; rewrite HV; reflexivity).
    cbn in Hs. destruct (vs_worker s) as [b|b|b v|b l|] eqn:E; try discriminate.
    destruct (vs_pending s) eqn:Ep; [|discriminate]. injection Hs as Hs Ho. subst s'.
    by_worker E I; rewrite ?HV, ?HL; try assumption; try discriminate.
    + split; [intros H; apply Iw in H; destruct H as [b' [l H]]; discriminate | intros [b' [l H]]; discriminate].
    + intros Hc. destruct (Icl Hc) as [H | [H _]]; [left; exact H | discriminate].
    + intros _. exact I.
  - (* Timeout *)
    assert (HV : values v0 (tr ++ [Timeout]) = values v0 tr) by (apply latest_same; discriminate).
    assert (HL : latest v0 (tr ++ [Timeout]) = latest v0 tr) by (unfold latest; rewrite HV; reflexivity).
    cbn in Hs. destruct (vs_worker s) as [[|]|b|b v|b l|] eqn:E; try discriminate.
    injection Hs as Hs Ho. subst s'.
    by_worker E I; rewrite ?HV, ?HL; try assumption; try discriminate.
    + split; [intros H; apply Iw in H; destruct H as [b' [l H]]; discriminate | intros [b' [l H]]; discriminate].
    + intros Hc. destruct (Icl Hc) as [H | [H _]]; [left; exact H | discriminate].
    + unfold fresh in *. cbn. rewrite E in If. exact If.
  - (* Quit *)
    assert (HV : values v0 (tr ++ [Quit]) = values v0 tr) by (apply latest_same; discriminate).
    assert (HL : latest v0 (tr ++ [Quit]) = latest v0 tr) by (unfold latest; rewrite HV; reflexivity).
    cbn [vstep] in Hs. destruct (vs_worker s) as [[|]|b|b v|b l|] eqn:E; try discriminate.
    destruct (Nat.ltb 0 (vs_done s)) eqn:Ed; [|discriminate].
    assert (EC : vs_closed s = true).
    { rewrite (i_done _ _ _ _ I) in Ed. destruct (vs_closed s); [reflexivity | discriminate]. }
    injection Hs as Hs Ho. subst s'.
    by_worker E I; rewrite ?HV, ?HL; try assumption; try discriminate.
    + split; [intros H; apply Iw in H; destruct H as [b' [l H]]; discriminate | intros [b' [l H]]; discriminate].
    + intros Hc. destruct (Icl Hc) as [H | [H _]]; [left; exact H | discriminate].
    + intros _. exact EC.
    + intros _. exact I.
  - (* Read *)
    assert (HV : values v0 (tr ++ [Read]) = values v0 tr) by (apply latest_same; discriminate).
    assert (HL : latest v0 (tr ++ [Read]) = latest v0 tr) by (unfold latest; rewrite HV; reflexivity).
    cbn in Hs. destruct (vs_worker s) as [b|b|b v|b l|] eqn:E; try discriminate.
    injection Hs as Hs Ho. subst s'.
    by_worker E I; rewrite ?HV, ?HL; try assumption; try discriminate.
    + split; [intros H; apply Iw in H; destruct H as [b' [l H]]; discriminate | intros [b' [l H]]; discriminate].
    + intros Hc. destruct (Icl Hc) as [H | [H _]]; [left; exact H | discriminate].
    + intros b' v' H. injection H as H1 H2. subst. rewrite Iv. apply latest_in.
    + intros _. reflexivity.
  - (* Process *)
    assert (HV : values v0 (tr ++ [Process]) = values v0 tr) by (apply latest_same; discriminate).
    assert (HL : latest v0 (tr ++ [Process]) = latest v0 tr) by (unfold latest; rewrite HV; reflexivity).
    cbn [vstep] in Hs. destruct (vs_worker s) as [b|b|b v|b l|] eqn:E; try discriminate.
    destruct (strings_of dflt v) as [l|] eqn:El.
    + destruct (vs_lock s) as [h|] eqn:ELo; [discriminate|]. injection Hs as Hs Ho. subst s'.
      by_worker E I; rewrite ?HV, ?HL; try assumption; try discriminate.
      * split; [intros _; exists b, l; reflexivity | reflexivity].
      * intros i. split; [discriminate|]. intros H. apply Ic in H. congruence.
      * intros Hc. destruct (Icl Hc) as [H | [H _]]; [left; exact H | discriminate].
      * intros b' l' H. injection H as H1 H2. subst b' l'. pose proof (Igo b v eq_refl) as Hv.
        destruct v; cbn in El; try discriminate; injection El as El; subst; [left; reflexivity | right; exact Hv].
      * intros Hp. specialize (If Hp). unfold fresh in *. rewrite E in If. cbn. intros l' Hl'. subst v. congruence.
    + injection Hs as Hs Ho. subst s'.
      by_worker E I; rewrite ?HV, ?HL; try assumption; try discriminate.
      * split; [intros H; apply Iw in H; destruct H as [b' [l H]]; discriminate | intros [b' [l H]]; discriminate].
      * intros Hc. destruct (Icl Hc) as [H | [H _]]; [left; exact H | discriminate].
      * intros Hp. specialize (If Hp). unfold fresh in *. rewrite E in If. cbn. intros l' Hl'. subst v. congruence.
  - (* Store *)
    assert (HV : values v0 (tr ++ [Store]) = values v0 tr) by (apply latest_same; discriminate).
    assert (HL : latest v0 (tr ++ [Store]) = latest v0 tr) by (unfold latest; rewrite HV; reflexivity).
    cbn in Hs. destruct (vs_worker s) as [b|b|b v|b l|] eqn:E; try discriminate.
    injection Hs as Hs Ho. subst s'.
    assert (ELo : vs_lock s = Some ByWorker) by (apply (i_lock_w _ _ _ _ I); exists b, l; exact E).
    by_worker E I; rewrite ?HV, ?HL; try assumption; try discriminate.
    + split; [discriminate | intros [b' [l' H]]; discriminate].
    + intros i. split; [discriminate|]. intros H. apply Ic in H. congruence.
    + intros Hc. destruct (Icl Hc) as [H | [H _]]; [left; exact H | discriminate].
    + exact (Iup b l eq_refl).
    + intros Hp. specialize (If Hp). unfold fresh in *. rewrite E in If. cbn. exact If.
  - (* Validate *)
    assert (HV : values v0 (tr ++ [Validate ns]) = values v0 tr) by (apply latest_same; discriminate).
    assert (HL : latest v0 (tr ++ [Validate ns]) = latest v0 tr) by (unfold latest; rewrite HV; reflexivity).
    assert (Hs' : s' = s).
    { cbn in Hs. destruct (vs_lock s); [discriminate|]. destruct (vs_worker s) as [[|]|[|]|[|] v|[|] l|]; congruence. }
    subst s'. destruct I as [Id Iw Ic Ib Icl Ig Ia Ica Iv Ivd Igo Iup If].
    constructor; rewrite ?HV, ?HL; assumption.
  - (* CallClose *)
    assert (HV : values v0 (tr ++ [CallClose]) = values v0 tr) by (apply latest_same; discriminate).
    assert (HL : latest v0 (tr ++ [CallClose]) = latest v0 tr) by (unfold latest; rewrite HV; reflexivity).
    assert (Hs' : boot (vs_worker s) = false /\
      s' = mk_vs (vs_value s) (vs_pending s) (vs_worker s) (vs_closed s) (vs_done s) (vs_valid s) (vs_lock s) (vs_closers s ++ [Called])).
    { cbn in Hs. destruct (vs_worker s) as [[|]|[|]|[|] v|[|] l|]; try discriminate; injection Hs as Hs Ho; split; try reflexivity; congruence. }
    destruct Hs' as [Hb Hs']. subst s'.
    destruct I as [Id Iw Ic Ib Icl Ig Ia Ica Iv Ivd Igo Iup If].
    constructor; cbn [vs_value vs_pending vs_worker vs_closed vs_done vs_valid vs_lock vs_closers]; rewrite ?HV, ?HL; try assumption.
    + intros i. rewrite Ic. split; intros H.
      * rewrite nth_error_app1; [exact H|]. apply nth_error_Some. congruence.
      * destruct (Nat.lt_ge_cases i (length (vs_closers s))) as [Hlt | Hge].
        -- rewrite nth_error_app1 in H by exact Hlt. exact H.
        -- rewrite nth_error_app2 in H by exact Hge. destruct (i - length (vs_closers s)) as [|k]; cbn in H; [discriminate | destruct k; discriminate].
    + intros H. congruence.
    + intros Hc. destruct (Icl Hc) as [H | [H1 H2]]; [left; apply in_or_app; left; exact H | right; split; [exact H1|]].
      destruct (vs_closers s); discriminate.
    + intros c Hc Hcase. apply in_app_or in Hc. destruct Hc as [Hc | [Hc | []]]; [exact (Ia c Hc Hcase)|].
      subst c. destruct Hcase; discriminate.
    + intros _. apply in_or_app. right. left. reflexivity.
  - (* StepClose *)
    cbn in Hs. destruct (nth_error (vs_closers s) i) as [c|] eqn:En; [|discriminate].
    destruct (close_step s i c) as [s1|] eqn:Ec; [|discriminate]. cbn in Hs. injection Hs as Hs Ho. subst s1.
    exact (inv_close dflt v0 tr s i c s' I En Ec).
Qed.

Lemma inv_run : forall dflt v0 tr2 tr s s' h, vinv dflt v0 tr s -> vrun dflt s tr2 = Some (s', h) -> vinv dflt v0 (tr ++ tr2) s'.
Proof.
  intros dflt v0. induction tr2 as [|a tr2 IH]; intros tr s s' h I Hr; cbn in Hr.
  - injection Hr as Hr _. subst s'. rewrite app_nil_r. exact I.
  - destruct (vstep dflt s a) as [[s1 o]|] eqn:Es; [|discriminate].
    destruct (vrun dflt s1 tr2) as [[s2 h2]|] eqn:Er; [|discriminate]. injection Hr as Hr _. subst s2.
    replace (tr ++ a :: tr2) with ((tr ++ [a]) ++ tr2) by (rewrite <- app_assoc; reflexivity).
    exact (IH (tr ++ [a]) s1 s' h2 (inv_step dflt v0 tr s a s1 o I Es) Er).
Qed.

Lemma inv_reach : forall dflt v0 tr s h, vrun dflt (new_validator dflt v0) tr = Some (s, h) -> vinv dflt v0 tr s.
Proof. intros dflt v0 tr s h H. exact (inv_run dflt v0 tr [] _ s h (new_inv dflt v0) H). Qed.

Lemma validate_step : forall dflt s ns s' o, vstep dflt s (Validate ns) = Some (s', o) -> s' = s /\ o = Some (validate s ns).
Proof.
  intros dflt s ns s' o H. cbn in H. destruct (vs_lock s); [discriminate|].
  destruct (vs_worker s) as [[|]|[|]|[|] v|[|] l|]; try discriminate; injection H as H1 H2; subst; split; reflexivity.
Qed.

Lemma in_existsb : forall (ns : bytes) l, existsb (beqb ns) l = true <-> In ns l.
Proof.
  intros ns l. rewrite existsb_exists. split.
  - intros [x [H1 H2]]. apply beqb_eq in H2. subst x. exact H1.
  - intros H. exists ns. split; [exact H | apply beqb_eq; reflexivity].
Qed.

Lemma closed_step : forall dflt s a s' o, vstep dflt s a = Some (s', o) -> vs_closed s = true -> vs_closed s' = true.
Proof.
  intros dflt s a s' o H Hc. destruct a as [v| | | | | | |ns| |i]; cbn in H.
  1: injection H as H _; subst; exact Hc.
  all: repeat match type of H with
       | Some _ = Some _ => injection H as H _; subst s'; exact Hc
       | None = Some _ => discriminate
       | context [match ?x with _ => _ end] => destruct x eqn:?
       end.
  unfold close_step in H.
  repeat match type of H with
       | option_map _ (Some _) = Some _ => cbn in H; injection H as H _; subst s'; try exact Hc; try reflexivity
       | option_map _ None = Some _ => discriminate
       | context [match ?x with _ => _ end] => destruct x eqn:?
       end.
Qed.

Lemma closed_run : forall dflt tr s s' h, vrun dflt s tr = Some (s', h) -> vs_closed s = true -> vs_closed s' = true.
Proof.
  intros dflt. induction tr as [|a tr IH]; intros s s' h H Hc; cbn in H; [congruence|].
  destruct (vstep dflt s a) as [[s1 o]|] eqn:Es; [|discriminate].
  destruct (vrun dflt s1 tr) as [[s2 h2]|] eqn:Er; [|discriminate]. injection H as H _. subst s2.
  exact (IH s1 s' h2 Er (closed_step dflt s a s1 o Es Hc)).
Qed.

(** How many steps the program can take by itself. *)
Definition wm (w : worker) : nat :=
  match w with
  | Selecting b => if b then 2 else 1
  | Notified _ => 4
  | Got _ _ => 3
  | Updating _ _ => 2
  | Gone => 0
  end.
Definition cm (c : closer) : nat := match c with Called => 3 | Holding => 2 | Waiting => 1 | Returned => 0 end.
Definition vmeasure (s : vstate) : nat :=
  (if vs_pending s then 4 else 0) + wm (vs_worker s) + list_sum (map cm (vs_closers s)).

Lemma sum_set_nth : forall l i c c', nth_error l i = Some c -> cm c' < cm c ->
  list_sum (map cm (set_nth i c' l)) < list_sum (map cm l).
Proof.
  induction l as [|x l IH]; intros [|i] c c' Hn Hlt; try discriminate; cbn in *.
  - injection Hn as Hn. subst x. lia.
  - specialize (IH i c c' Hn Hlt). unfold list_sum in IH. lia.
Qed.

Lemma close_measure : forall s i c s', nth_error (vs_closers s) i = Some c -> close_step s i c = Some s' ->
  vmeasure s' < vmeasure s.
Proof.
  intros s i c s' Hn Hs.
  assert (K : exists c', cm c' < cm c /\ vs_pending s' = vs_pending s /\ vs_worker s' = vs_worker s /\
                         vs_closers s' = set_nth i c' (vs_closers s)).
  { unfold close_step in Hs. destruct c.
    - destruct (vs_lock s); [discriminate|]. injection Hs as Hs. subst s'. exists Holding. cbn. repeat split; lia.
    - destruct (vs_closed s); injection Hs as Hs; subst s'; [exists Returned | exists Waiting]; cbn; repeat split; lia.
    - destruct (vs_worker s) eqn:E; try discriminate. injection Hs as Hs. subst s'. exists Returned. cbn. repeat split; try lia.
    - discriminate. }
  destruct K as [c' [H1 [H2 [H3 H4]]]]. unfold vmeasure. rewrite H2, H3, H4.
  pose proof (sum_set_nth (vs_closers s) i c c' Hn H1). lia.
Qed.

Lemma own_measure : forall dflt s a s' o, own_step a -> vstep dflt s a = Some (s', o) -> vmeasure s' < vmeasure s.
Proof.
  intros dflt s a s' o Ho H. destruct a as [v| | | | | | |ns| |i]; cbn [own_step] in Ho; try contradiction; cbn [vstep] in H.
  - destruct (vs_worker s) as [b|b|b v|b l|] eqn:E; try discriminate. destruct (vs_pending s) eqn:Ep; [|discriminate].
    injection H as H _. subst s'. unfold vmeasure. rewrite E, Ep. cbn [vs_pending vs_worker vs_closers wm]. destruct b; lia.
  - destruct (vs_worker s) as [[|]|b|b v|b l|] eqn:E; try discriminate.
    injection H as H _. subst s'. unfold vmeasure. rewrite E. cbn [vs_pending vs_worker vs_closers wm with_worker]. lia.
  - destruct (vs_worker s) as [[|]|b|b v|b l|] eqn:E; try discriminate. destruct (Nat.ltb 0 (vs_done s)); [|discriminate].
    injection H as H _. subst s'. unfold vmeasure. rewrite E. cbn [vs_pending vs_worker vs_closers wm with_worker]. lia.
  - destruct (vs_worker s) as [b|b|b v|b l|] eqn:E; try discriminate.
    injection H as H _. subst s'. unfold vmeasure. rewrite E. cbn [vs_pending vs_worker vs_closers wm with_worker]. lia.
  - destruct (vs_worker s) as [b|b|b v|b l|] eqn:E; try discriminate.
    destruct (strings_of dflt v) as [l|]; [destruct (vs_lock s); [discriminate|]|];
      injection H as H _; subst s'; unfold vmeasure; rewrite E; cbn [vs_pending vs_worker vs_closers wm with_worker]; lia.
  - destruct (vs_worker s) as [b|b|b v|b l|] eqn:E; try discriminate.
    injection H as H _. subst s'. unfold vmeasure. rewrite E. cbn [vs_pending vs_worker vs_closers wm with_worker]. lia.
  - destruct (nth_error (vs_closers s) i) as [c|] eqn:En; [|discriminate].
    destruct (close_step s i c) as [s1|] eqn:Ec; [|discriminate]. cbn in H. injection H as H _. subst s1.
    exact (close_measure s i c s' En Ec).
Qed.

Lemma own_run : forall dflt tr s s' h, Forall own_step tr -> vrun dflt s tr = Some (s', h) -> length tr + vmeasure s' <= vmeasure s.
Proof.
  intros dflt. induction tr as [|a tr IH]; intros s s' h Ho H; cbn in H.
  - injection H as H _. subst s'. cbn. lia.
  - destruct (vstep dflt s a) as [[s1 o]|] eqn:Es; [|discriminate].
    destruct (vrun dflt s1 tr) as [[s2 h2]|] eqn:Er; [|discriminate]. injection H as H _. subst s2.
    inversion Ho as [|x l Ha Ht]; subst. pose proof (IH s1 s' h2 Ht Er). pose proof (own_measure dflt s a s1 o Ha Es).
    cbn [length]. lia.
Qed.

Lemma rest_shape : forall dflt v0 tr s, vinv dflt v0 tr s -> at_rest dflt s ->
  vs_lock s = None /\ (forall i c, nth_error (vs_closers s) i = Some c -> c = Returned) /\
  ((vs_worker s = Gone /\ vs_closers s <> []) \/
   (vs_worker s = Selecting false /\ vs_pending s = false /\ vs_closed s = false /\ vs_closers s = [])).
Proof.
  intros dflt v0 tr s I Hr.
  assert (HL : vs_lock s = None).
  { destruct (vs_lock s) as [[|i]|] eqn:EL; [| |reflexivity]; exfalso.
    - apply (i_lock_w _ _ _ _ I) in EL. destruct EL as [b [l EL]]. specialize (Hr Store Logic.I). cbn in Hr. rewrite EL in Hr. discriminate.
    - apply (i_lock_c _ _ _ _ I) in EL. specialize (Hr (StepClose i) Logic.I). cbn in Hr. rewrite EL in Hr. cbn in Hr.
      destruct (vs_closed s); discriminate. }
  assert (HW : vs_worker s = Gone \/ (vs_worker s = Selecting false /\ vs_pending s = false /\ vs_closed s = false)).
  { destruct (vs_worker s) as [b|b|b v|b l|] eqn:E.
    - right. pose proof (Hr Receive Logic.I) as H1. pose proof (Hr Timeout Logic.I) as H2. pose proof (Hr Quit Logic.I) as H3.
      cbn [vstep] in H1, H2, H3. rewrite E in H1, H2, H3.
      destruct b; [discriminate|]. destruct (vs_pending s); [discriminate|].
      rewrite (i_done _ _ _ _ I) in H3. destruct (vs_closed s); [discriminate|]. repeat split.
    - specialize (Hr Read Logic.I). cbn in Hr. rewrite E in Hr. discriminate.
    - specialize (Hr Process Logic.I). cbn [vstep] in Hr. rewrite E in Hr. rewrite HL in Hr. destruct (strings_of dflt v); discriminate.
    - specialize (Hr Store Logic.I). cbn [vstep] in Hr. rewrite E in Hr. discriminate.
    - left. reflexivity. }
  assert (HC : forall i c, nth_error (vs_closers s) i = Some c -> c = Returned).
  { intros i c Hn. pose proof (Hr (StepClose i) Logic.I) as H. cbn in H. rewrite Hn in H. unfold close_step in H.
    destruct c; [rewrite HL in H; discriminate | destruct (vs_closed s); discriminate | | reflexivity].
    destruct HW as [HW | [_ [_ HW]]]; [rewrite HW in H; discriminate|].
    apply nth_error_In in Hn. pose proof (i_after _ _ _ _ I Waiting Hn (or_introl eq_refl)). congruence. }
  repeat split; [exact HL | exact HC |].
  destruct HW as [HW | [H1 [H2 H3]]].
  - left. split; [exact HW|]. destruct (i_closed _ _ _ _ I (i_gone _ _ _ _ I HW)) as [H | [_ H]]; [|exact H].
    intros E. rewrite E in H. exact H.
  - right. repeat split; try assumption. destruct (vs_closers s) as [|c l] eqn:EC; [reflexivity|exfalso].
    pose proof (HC 0 c eq_refl) as Hc. subst c.
    pose proof (i_after _ _ _ _ I Returned) as Ha. rewrite EC in Ha. specialize (Ha (or_introl eq_refl) (or_intror eq_refl)). congruence.
Qed.

(** After the goroutine has ended. *)
Lemma gone_step : forall dflt s a s' o, vs_worker s = Gone -> vstep dflt s a = Some (s', o) ->
  vs_worker s' = Gone /\ vs_valid s' = vs_valid s /\
  match a with Receive | Timeout | Quit | Read | Process | Store => False | _ => True end.
Proof.
  intros dflt s a s' o E H. destruct a as [v| | | | | | |ns| |i]; cbn [vstep] in H; try rewrite E in H; try discriminate.
  - injection H as H _. subst s'. cbn. repeat split; exact E.
  - destruct (vs_lock s); [discriminate|]. injection H as H _. rewrite <- H. repeat split; exact E.
  - injection H as H _. rewrite <- H. cbn. repeat split; exact E.
  - destruct (nth_error (vs_closers s) i) as [c|] eqn:En; [|discriminate]. unfold close_step in H. rewrite E in H.
    destruct c; [destruct (vs_lock s) | destruct (vs_closed s) | |]; cbn in H; try discriminate; injection H as H _; subst s'; cbn; repeat split; try exact E.
Qed.

Lemma gone_run : forall dflt tr s s' h, vs_worker s = Gone -> vrun dflt s tr = Some (s', h) ->
  vs_worker s' = Gone /\ vs_valid s' = vs_valid s /\
  Forall (fun a => match a with Receive | Timeout | Quit | Read | Process | Store => False | _ => True end) tr.
Proof.
  intros dflt. induction tr as [|a tr IH]; intros s s' h E H; cbn in H.
  - injection H as H _. subst s'. repeat split; [exact E | constructor].
  - destruct (vstep dflt s a) as [[s1 o]|] eqn:Es; [|discriminate].
    destruct (vrun dflt s1 tr) as [[s2 h2]|] eqn:Er; [|discriminate]. injection H as H _. subst s2.
    destruct (gone_step dflt s a s1 o E Es) as [H1 [H2 H3]]. destruct (IH s1 s' h2 H1 Er) as [K1 [K2 K3]].
    repeat split; [exact K1 | congruence | constructor; assumption].
Qed.

(** While the key holds something unreadable. *)
Definition stuck (dflt : list bytes) (l : list bytes) (s : vstate) : Prop :=
  vs_value s = Unreadable /\ vs_valid s = l /\
  match vs_worker s with
  | Selecting _ | Notified _ | Gone => True
  | Got _ v => v = Unreadable
  | Updating _ _ => False
  end.

Lemma stuck_step : forall dflt l s a s' o, stuck dflt l s -> (forall v, a = Write v -> v = Unreadable) ->
  vstep dflt s a = Some (s', o) -> stuck dflt l s'.
Proof.
  intros dflt l s a s' o [S1 [S2 S3]] Ha H. destruct a as [v| | | | | | |ns| |i]; cbn [vstep] in H.
  - injection H as H _. subst s'. unfold stuck. cbn. rewrite (Ha v eq_refl). repeat split; assumption.
  - destruct (vs_worker s) as [b|b|b v|b l'|] eqn:E; try discriminate. destruct (vs_pending s); [|discriminate].
    injection H as H _. subst s'. unfold stuck. cbn. repeat split; assumption.
  - destruct (vs_worker s) as [[|]|b|b v|b l'|] eqn:E; try discriminate.
    injection H as H _. subst s'. unfold stuck. cbn. repeat split; assumption.
  - destruct (vs_worker s) as [[|]|b|b v|b l'|] eqn:E; try discriminate. destruct (Nat.ltb 0 (vs_done s)); [|discriminate].
    injection H as H _. subst s'. unfold stuck. cbn. repeat split; assumption.
  - destruct (vs_worker s) as [b|b|b v|b l'|] eqn:E; try discriminate.
    injection H as H _. subst s'. unfold stuck. cbn. repeat split; assumption.
  - destruct (vs_worker s) as [b|b|b v|b l'|] eqn:E; try discriminate. subst v. cbn in H.
    injection H as H _. subst s'. unfold stuck. cbn. repeat split; assumption.
  - destruct (vs_worker s) as [b|b|b v|b l'|] eqn:E; try discriminate. contradiction.
  - apply (validate_step dflt s ns s' o) in H. destruct H as [H _]. subst s'. repeat split; assumption.
  - assert (K : vs_value s' = vs_value s /\ vs_valid s' = vs_valid s /\ vs_worker s' = vs_worker s).
    { destruct (vs_worker s) as [[|]|[|]|[|] v|[|] l'|] eqn:E; try discriminate; injection H as H _; subst s'; cbn; repeat split. }
    destruct K as [K1 [K2 K3]]. unfold stuck. rewrite K1, K2, K3. repeat split; assumption.
  - destruct (nth_error (vs_closers s) i) as [c|] eqn:En; [|discriminate].
    destruct (close_step s i c) as [s1|] eqn:Ec; [|discriminate]. cbn in H. injection H as H _. subst s1.
    assert (K : vs_value s' = vs_value s /\ vs_valid s' = vs_valid s /\ vs_worker s' = vs_worker s).
    { unfold close_step in Ec. destruct c; [destruct (vs_lock s) | destruct (vs_closed s) | destruct (vs_worker s) eqn:E |]; try discriminate;
        injection Ec as Ec; subst s'; cbn; repeat split. }
    destruct K as [K1 [K2 K3]]. unfold stuck. rewrite K1, K2, K3. repeat split; assumption.
Qed.

Lemma stuck_run : forall dflt l tr s s' h, stuck dflt l s -> Forall (fun a => forall v, a = Write v -> v = Unreadable) tr ->
  vrun dflt s tr = Some (s', h) -> stuck dflt l s'.
Proof.
  intros dflt l. induction tr as [|a tr IH]; intros s s' h S Ho H; cbn in H; [congruence|].
  destruct (vstep dflt s a) as [[s1 o]|] eqn:Es; [|discriminate].
  destruct (vrun dflt s1 tr) as [[s2 h2]|] eqn:Er; [|discriminate]. injection H as H _. subst s2.
  inversion Ho as [|x y Ha Ht]; subst. exact (IH s1 s' h2 (stuck_step dflt l s a s1 o S Ha Es) Ht Er).
Qed.
