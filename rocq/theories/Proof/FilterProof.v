From Coq Require Import Ascii String Arith NArith Bool Lia Permutation Sorting.Sorted List.
From Verif.Base Require Import Bytes BytesFacts.
From Verif.Model Require Import Filter MetricID.
From Verif.Spec Require Import FilterSpec.
Import ListNotations.

(** ** Chains *)

Definition expand (f : chain_filter) : list item :=
  match f with
  | CEqual p => map Lit p
  | CAny => [AnyChar]
  | CRange n rs => [InRanges n rs]
  | CSet n cs => [OneOf n cs]
  | CAlts ws => [Alternatives ws]
  end.

Lemma items_lang_app s t u w : items_lang s u -> items_lang t w -> items_lang (s ++ t) (u ++ w).
Proof.
  induction 1; simpl; auto. intros; rewrite <- app_assoc; constructor; auto.
Qed.

Lemma items_lang_app_inv s t v :
  items_lang (s ++ t) v -> exists u w, v = u ++ w /\ items_lang s u /\ items_lang t w.
Proof.
  revert v; induction s as [|i s IH]; simpl; intros v H.
  - exists [], v; repeat split; auto; constructor.
  - inversion H; subst. apply IH in H4 as (u' & w' & -> & H1 & H3).
    exists (u ++ u'), w'; rewrite app_assoc; repeat split; auto. now constructor.
Qed.

Lemma items_lang_single i v : items_lang [i] v <-> item_lang i v.
Proof.
  split.
  - intros H; inversion H; subst. inversion H4; subst. now rewrite app_nil_r.
  - intros H; rewrite <- (app_nil_r v); constructor; auto; constructor.
Qed.

Lemma items_lang_lits p v : items_lang (map Lit p) v <-> v = p.
Proof.
  revert v; induction p as [|c p IH]; simpl; intros v; split; intros H.
  - inversion H; auto.
  - subst; constructor.
  - inversion H; subst. inversion H2; subst. apply IH in H4; subst; auto.
  - subst. change (c :: p) with ([c] ++ p); constructor; [constructor|now apply IH].
Qed.

Lemma unsnoc_some v r c : unsnoc v = Some (r, c) <-> v = r ++ [c].
Proof.
  unfold unsnoc; split.
  - destruct (rev v) eqn:E; [discriminate|]. intros [= <- <-].
    rewrite <- (rev_involutive v), E; auto.
  - intros ->; rewrite rev_app_distr; simpl; now rewrite rev_involutive.
Qed.

Lemma one_char_some b v r c :
  one_char b v = Some (r, c) <-> v = if b then r ++ [c] else c :: r.
Proof.
  unfold one_char; destruct b; [apply unsnoc_some|].
  destruct v; split; try discriminate; intros [= <- <-]; auto.
Qed.

Lemma cut_some b v p r : cut b v p = Some r <-> v = if b then r ++ p else p ++ r.
Proof.
  unfold cut; destruct b.
  - destruct (has_suffix v p) eqn:E.
    + apply has_suffix_spec in E as (l & ->).
      rewrite app_length. replace (length l + length p - length p) with (length l) by lia.
      rewrite firstn_app, Nat.sub_diag, firstn_all, firstn_O, app_nil_r.
      split; [now intros [= ->]|]. intros H; apply app_inv_tail in H; now subst.
    + split; [discriminate|]. intros ->.
      assert (has_suffix (r ++ p) p = true) by (apply has_suffix_spec; eauto). congruence.
  - destruct (has_prefix v p) eqn:E.
    + apply has_prefix_spec in E as (l & ->).
      rewrite skipn_app, Nat.sub_diag, skipn_all, skipn_O; simpl.
      split; [now intros [= ->]|]. intros H; apply app_inv_head in H; now subst.
    + split; [discriminate|]. intros ->.
      assert (has_prefix (p ++ r) p = true) by (apply has_prefix_spec; eauto). congruence.
Qed.

Lemma first_alt_some b v ps r :
  first_alt b v ps = Some r -> exists p, In p ps /\ v = if b then r ++ p else p ++ r.
Proof.
  induction ps as [|p ps IH]; simpl; [discriminate|].
  destruct (cut b v p) eqn:E.
  - intros [= <-]; apply cut_some in E; eauto.
  - intros H; destruct (IH H) as (q & Hq & ->); eauto.
Qed.

Lemma app_prefix_cases (u w r s : bytes) : u ++ r = w ++ s -> prefix_of u w \/ prefix_of w u.
Proof.
  revert w; induction u as [|a u IH]; intros w H.
  - left; exists w; auto.
  - destruct w as [|c w]; [right; exists (a :: u); auto|].
    injection H as -> H. destruct (IH _ H) as [(x & ->)|(x & ->)]; [left|right]; exists x; auto.
Qed.

Lemma app_suffix_cases (u w r s : bytes) : r ++ u = s ++ w -> suffix_of u w \/ suffix_of w u.
Proof.
  intros H. apply (f_equal (@rev ascii)) in H. rewrite !rev_app_distr in H.
  apply app_prefix_cases in H as [(x & H)|(x & H)]; [left|right];
    exists (rev x); apply (f_equal (@rev ascii)) in H;
    rewrite rev_app_distr, !rev_involutive in H; auto.
Qed.

Lemma first_alt_complete b v ws p r :
  unambiguous_item b (Alternatives ws) ->
  In p ws -> v = (if b then r ++ p else p ++ r) -> first_alt b v ws = Some r.
Proof.
  intros [_ Hun] Hin Hv.
  assert (Hsub : forall q, In q ws -> forall r', v = (if b then r' ++ q else q ++ r') -> r' = r).
  { intros q Hq r' Hv'. rewrite Hv in Hv'. destruct b.
    - destruct (app_suffix_cases _ _ _ _ Hv') as [S|S].
      + rewrite (Hun p q Hin Hq S) in Hv'. now apply app_inv_tail in Hv'.
      + rewrite (Hun q p Hq Hin S) in Hv'. now apply app_inv_tail in Hv'.
    - destruct (app_prefix_cases _ _ _ _ Hv') as [S|S].
      + rewrite (Hun p q Hin Hq S) in Hv'. now apply app_inv_head in Hv'.
      + rewrite (Hun q p Hq Hin S) in Hv'. now apply app_inv_head in Hv'. }
  clear Hun. induction ws as [|q ws IH]; [destruct Hin|].
  simpl. destruct (cut b v q) eqn:E.
  - apply cut_some in E. f_equal; apply (Hsub q); simpl; auto.
  - destruct Hin as [->|Hin].
    + assert (cut b v p = Some r) by (now apply cut_some). congruence.
    + apply IH; auto. intros; eapply Hsub; simpl; eauto.
Qed.

Lemma existsb_in_range c rs : existsb (in_range c) rs = true <-> in_some_range c rs.
Proof.
  rewrite existsb_exists. unfold in_some_range, in_range.
  split; intros (r & Hr & H); exists r; split; auto.
  - apply andb_true_iff in H as [H1 H2]. apply N.leb_le in H1, H2; auto.
  - apply andb_true_iff; rewrite !N.leb_le; auto.
Qed.

Lemma existsb_eqb c p : existsb (Ascii.eqb c) p = true <-> In c p.
Proof.
  rewrite existsb_exists; split.
  - intros (x & Hx & H). apply Ascii.eqb_eq in H; now subst.
  - intros H; exists c; split; auto. apply Ascii.eqb_refl.
Qed.

Definition joined (b : bool) (rest u : bytes) : bytes := if b then rest ++ u else u ++ rest.

Lemma xorb_item n P (q : bool) : (q = true <-> P) ->
  xorb n q = true <-> (if n then ~ P else P).
Proof. destruct n, q; simpl; intuition congruence. Qed.

Lemma chain_sound b f v r :
  chain_matches b f v = Some r ->
  exists u, v = joined b r u /\ items_lang (expand f) u.
Proof.
  destruct f as [p| |n rs|n cs|ws]; cbn [chain_matches expand]; intros H.
  - apply cut_some in H. exists p; split; auto. now apply items_lang_lits.
  - destruct (one_char b v) as [[r' c]|] eqn:E; [|discriminate]. injection H as <-.
    apply one_char_some in E. exists [c]; split; [destruct b; auto|].
    apply items_lang_single; constructor.
  - destruct (one_char b v) as [[r' c]|] eqn:E; [|discriminate].
    destruct (xorb n (existsb (in_range c) rs)) eqn:X; [|discriminate]. injection H as <-.
    apply one_char_some in E. exists [c]; split; [destruct b; auto|].
    apply (proj1 (xorb_item n _ _ (existsb_in_range c rs))) in X.
    apply items_lang_single; destruct n; now constructor.
  - destruct (one_char b v) as [[r' c]|] eqn:E; [|discriminate].
    destruct (xorb n (existsb (Ascii.eqb c) cs)) eqn:X; [|discriminate]. injection H as <-.
    apply one_char_some in E. exists [c]; split; [destruct b; auto|].
    apply (proj1 (xorb_item n _ _ (existsb_eqb c cs))) in X.
    apply items_lang_single; destruct n; now constructor.
  - destruct v as [|a v]; [discriminate|].
    apply first_alt_some in H as (p & Hp & H). exists p; split; auto.
    apply items_lang_single; now constructor.
Qed.

Lemma chain_complete b f u r :
  Forall (unambiguous_item b) (expand f) ->
  items_lang (expand f) u -> chain_matches b f (joined b r u) = Some r.
Proof.
  unfold joined.
  destruct f as [p| |n rs|n cs|ws]; cbn [chain_matches expand]; intros Hun H.
  - apply items_lang_lits in H; subst. now apply cut_some.
  - apply items_lang_single in H; inversion H; subst.
    assert (E : one_char b (if b then r ++ [c] else [c] ++ r) = Some (r, c))
      by (apply one_char_some; destruct b; auto).
    now rewrite E.
  - apply items_lang_single in H.
    assert (exists c, u = [c] /\ (if n then ~ in_some_range c rs else in_some_range c rs)) as (c & -> & X).
    { destruct n; inversion H; subst; eauto. }
    assert (E : one_char b (if b then r ++ [c] else [c] ++ r) = Some (r, c))
      by (apply one_char_some; destruct b; auto).
    rewrite E. apply (xorb_item n _ _ (existsb_in_range c rs)) in X. now rewrite X.
  - apply items_lang_single in H.
    assert (exists c, u = [c] /\ (if n then ~ In c cs else In c cs)) as (c & -> & X).
    { destruct n; inversion H; subst; eauto. }
    assert (E : one_char b (if b then r ++ [c] else [c] ++ r) = Some (r, c))
      by (apply one_char_some; destruct b; auto).
    rewrite E. apply (xorb_item n _ _ (existsb_eqb c cs)) in X. now rewrite X.
  - apply items_lang_single in H; inversion H; subst.
    apply Forall_inv in Hun. assert (Hne : u <> []) by (intros ->; now apply (proj1 Hun)).
    assert (E : first_alt b (if b then r ++ u else u ++ r) ws = Some r)
      by (eapply first_alt_complete; eauto).
    assert (E2 : (if b then r ++ u else u ++ r) <> [])
      by (intros E2; destruct b; apply app_eq_nil in E2; destruct E2; congruence).
    destruct b; [destruct (r ++ u)|destruct (u ++ r)]; [congruence|exact E|congruence|exact E].
Qed.

Definition items_of (fs : list chain_filter) : list item := flat_map expand fs.

Lemma run_forward_sound fs v r :
  run_chain false fs v = Some r -> exists u, v = u ++ r /\ items_lang (items_of fs) u.
Proof.
  revert v; induction fs as [|f fs IH]; simpl; intros v H.
  - injection H as <-; exists []; split; auto; constructor.
  - destruct (chain_matches false f v) as [v'|] eqn:E; [|discriminate].
    apply chain_sound in E as (u1 & -> & H1). apply IH in H as (u2 & -> & H2).
    exists (u1 ++ u2); unfold joined; rewrite app_assoc; split; auto. now apply items_lang_app.
Qed.

Lemma run_forward_complete fs u r :
  Forall (unambiguous_item false) (items_of fs) ->
  items_lang (items_of fs) u -> run_chain false fs (u ++ r) = Some r.
Proof.
  revert u; induction fs as [|f fs IH]; simpl; intros u Hun H.
  - inversion H; auto.
  - apply items_lang_app_inv in H as (u1 & u2 & -> & H1 & H2).
    apply Forall_app in Hun as [Hu1 Hu2].
    rewrite <- app_assoc. change (u1 ++ u2 ++ r) with (joined false (u2 ++ r) u1).
    rewrite chain_complete by auto. now apply IH.
Qed.

Lemma items_of_app fs gs : items_of (fs ++ gs) = items_of fs ++ items_of gs.
Proof. apply flat_map_app. Qed.

Lemma run_backward_sound fs v r :
  run_chain true (rev fs) v = Some r -> exists u, v = r ++ u /\ items_lang (items_of fs) u.
Proof.
  revert v; induction fs as [|f fs IH] using rev_ind; simpl; intros v H.
  - injection H as <-; exists []; rewrite app_nil_r; split; auto; constructor.
  - rewrite rev_app_distr in H; simpl in H.
    destruct (chain_matches true f v) as [v'|] eqn:E; [|discriminate].
    apply chain_sound in E as (u1 & -> & H1). apply IH in H as (u2 & -> & H2).
    exists (u2 ++ u1); unfold joined; rewrite app_assoc; split; auto.
    rewrite items_of_app. apply items_lang_app; auto. simpl; now rewrite app_nil_r.
Qed.

Lemma run_backward_complete fs u r :
  Forall (unambiguous_item true) (items_of fs) ->
  items_lang (items_of fs) u -> run_chain true (rev fs) (r ++ u) = Some r.
Proof.
  revert u; induction fs as [|f fs IH] using rev_ind; simpl; intros u Hun H.
  - inversion H; now rewrite app_nil_r.
  - rewrite rev_app_distr; simpl. rewrite items_of_app in H, Hun. simpl in H, Hun.
    rewrite app_nil_r in H, Hun.
    apply items_lang_app_inv in H as (u1 & u2 & -> & H1 & H2).
    apply Forall_app in Hun as [Hu1 Hu2].
    rewrite app_assoc. change ((r ++ u1) ++ u2) with (joined true (r ++ u1) u2).
    rewrite chain_complete by auto. now apply IH.
Qed.

(** What a chain filter denotes. *)
Definition chain_lang (seg : chain_segment) (b : bool) (s : list item) (v : bytes) : Prop :=
  exists u r, v = joined b r u /\ items_lang s u /\ (seg = Middle -> r = []).

Lemma multi_chain_sound fs seg b v :
  fs <> [] -> multi_chain_matches fs seg b v = true -> chain_lang seg b (items_of fs) v.
Proof.
  intros Hne H. unfold multi_chain_matches in H.
  destruct fs as [|f fs]; [congruence|]. set (l := f :: fs) in *.
  destruct (run_chain b (if b then rev l else l) v) as [r|] eqn:E; [|discriminate].
  assert (exists u, v = joined b r u /\ items_lang (items_of l) u) as (u & -> & Hu).
  { destruct b; [now apply run_backward_sound|now apply run_forward_sound]. }
  exists u, r; repeat split; auto. intros ->; destruct r; [auto|discriminate].
Qed.

Lemma multi_chain_complete fs seg b v :
  Forall (unambiguous_item b) (items_of fs) ->
  chain_lang seg b (items_of fs) v -> multi_chain_matches fs seg b v = true.
Proof.
  intros Hun (u & r & -> & Hu & Hr). unfold multi_chain_matches.
  destruct fs as [|f fs]; auto. set (l := f :: fs) in *.
  assert (E : run_chain b (if b then rev l else l) (joined b r u) = Some r).
  { destruct b; [now apply run_backward_complete|now apply run_forward_complete]. }
  rewrite E. destruct seg; auto. now rewrite Hr.
Qed.

(** ** The compiler of wildcard-free patterns *)

Lemma show_items_app s t : show_items (s ++ t) = show_items s ++ show_items t.
Proof. apply flat_map_app. Qed.

Lemma triples_sound p rs :
  range_triples p = Some rs ->
  flat_map (fun r => [fst r; "-"%char; snd r]) rs = p /\
  Forall (fun r => (N_of_ascii (fst r) <= N_of_ascii (snd r))%N) rs.
Proof.
  remember (length p) as k eqn:Hk. assert (Hle : length p <= k) by lia. clear Hk.
  revert p rs Hle; induction k as [|k IH]; intros p rs Hle H.
  - destruct p; [|simpl in Hle; lia]. injection H as <-; auto.
  - destruct p as [|a [|d [|z p]]]; try discriminate.
    + injection H as <-; auto.
    + simpl in H. destruct (Ascii.eqb_spec d range_char) as [->|]; [|discriminate].
      destruct (N.leb_spec (N_of_ascii a) (N_of_ascii z)); [|discriminate]. simpl in H.
      destruct (range_triples p) as [rs'|] eqn:E; [|discriminate]. injection H as <-.
      apply IH in E as [<- Hf]; [|simpl in Hle; lia]. simpl; auto.
Qed.

Lemma triples_complete rs :
  Forall (fun r => (N_of_ascii (fst r) <= N_of_ascii (snd r))%N) rs ->
  range_triples (flat_map (fun r => [fst r; "-"%char; snd r]) rs) = Some rs.
Proof.
  induction 1 as [|[a z] rs H Hf IH]; auto. simpl in *.
  apply N.leb_le in H. rewrite H. change ((a, z) :: rs) with ([(a, z)] ++ rs). now rewrite IH.
Qed.

Lemma in_triples c (rs : list (ascii * ascii)) :
  c <> "-"%char ->
  In c (flat_map (fun r => [fst r; "-"%char; snd r]) rs) <-> exists r, In r rs /\ (fst r = c \/ snd r = c).
Proof.
  intros Hc. rewrite in_flat_map; split; intros (r & Hr & H); exists r; split; auto; simpl in *; intuition congruence.
Qed.

Lemma single_range_sound p f :
  new_single_range p = Some f -> ~ In "]"%char p -> ~ In "*"%char p ->
  exists i, expand f = [i] /\ item_wf i /\ show_item i = "["%char :: p ++ ["]"%char].
Proof.
  destruct p as [|c p']; [discriminate|]. unfold new_single_range; cbv zeta.
  intros H Hb Hs. set (neg := Ascii.eqb c negation_char) in *.
  set (body := if neg then p' else c :: p') in *.
  assert (Hshow : "["%char :: (c :: p') ++ ["]"%char]
                  = "["%char :: (if neg then ["!"%char] else []) ++ body ++ ["]"%char]).
  { subst neg body. destruct (Ascii.eqb_spec c negation_char) as [->|]; reflexivity. }
  assert (Hbb : ~ In "]"%char body /\ ~ In "*"%char body).
  { subst body; destruct neg; simpl in *; tauto. }
  assert (Hneg : neg = false -> exists c' r, body = c' :: r /\ c' <> "!"%char).
  { intros E; subst body; rewrite E; exists c, p'; split; auto.
    subst neg; now apply ascii_eqb_neq in E. }
  clearbody neg body. rewrite Hshow.
  assert (Hset : forall g, Some (CSet neg body) = Some g ->
             (forall x y z, body = x :: y :: z -> y <> "-"%char) ->
             exists i, expand g = [i] /\ item_wf i /\
               show_item i = "["%char :: (if neg then ["!"%char] else []) ++ body ++ ["]"%char]).
  { intros g [= <-] Hx. exists (OneOf neg body); simpl; repeat split; try tauto; auto. }
  destruct body as [|x [|y z]].
  - apply Hset; auto; discriminate.
  - apply Hset; auto; discriminate.
  - destruct (Ascii.eqb_spec y range_char) as [->|Hy].
    + destruct (range_triples (x :: range_char :: z)) as [rs|] eqn:E; [|discriminate].
      injection H as <-. apply triples_sound in E as [E Hf].
      exists (InRanges neg rs). split; [reflexivity|]. split; [|cbn [show_item]; now rewrite E].
      cbn [item_wf]. split; [intros ->; discriminate|]. split.
      * rewrite Forall_forall in *. intros r Hr. rewrite <- E in Hbb.
        rewrite !in_triples in Hbb by discriminate.
        assert (forall c0, ~ (exists r0, In r0 rs /\ (fst r0 = c0 \/ snd r0 = c0)) ->
                  c0 <> fst r /\ c0 <> snd r) as Hx.
        { intros c0 Hn; split; intros ->; apply Hn; exists r; auto. }
        destruct Hbb as [B1 B2]. apply Hx in B1, B2. specialize (Hf r Hr).
        simpl; split; [|split]; auto; intuition.
      * intros Hn r rs' ->. destruct (Hneg Hn) as (c' & rr & Hc' & Hne).
        injection E as E _. injection Hc' as Hc' _. congruence.
    + apply Hset; auto. intros x' y' z' [= <- <- <-]; auto.
Qed.

Lemma single_range_complete i p :
  item_wf i -> show_item i = "["%char :: p ++ ["]"%char] ->
  (match i with OneOf _ _ | InRanges _ _ => True | _ => False end) ->
  ~ In "]"%char p /\ exists f, new_single_range p = Some f /\ expand f = [i].
Proof.
  destruct i as [c| |neg cs|neg rs|ws]; intros Hwf Hshow Hk; try contradiction; cbn [show_item item_wf] in *.
  - injection Hshow as Hp. rewrite app_assoc in Hp. apply app_inv_tail in Hp. subst p.
    destruct Hwf as (Hb & Hs & Hneg & Hdash). split.
    + destruct neg; simpl; auto. intuition; discriminate.
    + exists (CSet neg cs); split; auto. unfold new_single_range.
      destruct neg; simpl.
      * destruct cs as [|x [|y z]]; auto.
        destruct (Ascii.eqb_spec y range_char); auto. exfalso. now apply (Hdash x y z).
      * destruct (Hneg eq_refl) as (c & r & -> & Hc).
        apply ascii_eqb_neq in Hc. change "!"%char with negation_char in Hc. rewrite Hc. destruct r as [|y z]; auto.
        destruct (Ascii.eqb_spec y range_char); auto. exfalso. now apply (Hdash c y z).
  - injection Hshow as Hp. rewrite app_assoc in Hp. apply app_inv_tail in Hp. subst p.
    destruct Hwf as (Hne & Hf & Hneg).
    assert (Hbr : ~ In "]"%char (flat_map (fun r => [fst r; "-"%char; snd r]) rs)).
    { rewrite in_triples by discriminate. intros (r & Hr & H).
      rewrite Forall_forall in Hf. specialize (Hf r Hr). simpl in Hf. intuition. }
    split.
    + destruct neg; simpl; auto. intuition; discriminate.
    + exists (CRange neg rs); split; auto.
      assert (Ht : range_triples (flat_map (fun r => [fst r; "-"%char; snd r]) rs) = Some rs).
      { apply triples_complete. eapply Forall_impl; [|exact Hf]. intros r (_ & _ & H); exact H. }
      destruct rs as [|[a z] rs]; [congruence|].
      unfold new_single_range. destruct neg.
      * cbn [app]. cbv zeta. change (Ascii.eqb "!" negation_char) with true. cbv iota.
        cbn [flat_map app fst snd] in *. rewrite Ht. now rewrite Ascii.eqb_refl.
      * assert (Ha : Ascii.eqb a negation_char = false).
        { apply ascii_eqb_neq. exact (Hneg eq_refl (a, z) rs eq_refl). }
        cbn [flat_map app fst snd] in *. rewrite Ha, Ht. now rewrite Ascii.eqb_refl.
Qed.

Definition eq_items (eq : option bytes) : list item :=
  match eq with None => [] | Some p => map Lit p end.

Lemma items_of_flush eq : items_of (flush eq) = eq_items eq.
Proof. destruct eq; simpl; auto. now rewrite app_nil_r. Qed.

Lemma skipn_suffix_nostar n (s : bytes) c : ~ In c s -> ~ In c (skipn n s).
Proof. intros H Hin; apply H. rewrite <- (firstn_skipn n s); apply in_or_app; auto. Qed.

Lemma firstn_nostar n (s : bytes) c : ~ In c s -> ~ In c (firstn n s).
Proof. intros H Hin; apply H. rewrite <- (firstn_skipn n s); apply in_or_app; auto. Qed.

Lemma range_loop_sound fuel p eq fs :
  range_loop fuel p eq = Some fs -> ~ In "*"%char p ->
  (exists s, Forall item_wf s /\ show_items s = p /\ items_of fs = eq_items eq ++ s) /\
  (p <> [] \/ eq <> None -> fs <> []).
Proof.
  revert p eq fs; induction fuel as [|fuel IH]; intros p eq fs H Hs.
  - destruct p; [|discriminate]. injection H as <-. split.
    + exists []; rewrite app_nil_r; repeat split; auto. apply items_of_flush.
    + destruct eq; simpl; [discriminate|]. intuition.
  - destruct p as [|c rest].
    { injection H as <-. split.
      + exists []; rewrite app_nil_r; repeat split; auto. apply items_of_flush.
      + destruct eq; simpl; [discriminate|]. intuition. }
    cbn [range_loop] in H.
    assert (Hsr : ~ In "*"%char rest) by (simpl in Hs; tauto).
    destruct (Ascii.eqb_spec c single_range_start) as [->|Hc1].
    { destruct (index_byte single_range_end rest) as [e|] eqn:Ei; [|discriminate].
      apply index_byte_some in Ei as (Hn & Hrest & _).
      destruct (new_single_range (firstn e rest)) as [f|] eqn:Ef; [|discriminate].
      destruct (range_loop fuel (skipn (S e) rest) None) as [fs'|] eqn:El; [|discriminate].
      injection H as <-.
      apply IH in El as [(s & Hwf & Hshow & Hit) _]; [|now apply skipn_suffix_nostar].
      apply single_range_sound in Ef as (i & He & Hwi & Hsi); auto; [|now apply firstn_nostar].
      split; [|destruct eq; discriminate].
      exists (i :: s); split; [now constructor|]. split.
      - change (show_items (i :: s)) with (show_item i ++ show_items s).
        rewrite Hsi, Hshow. cbn [app]. rewrite <- app_assoc. f_equal. symmetry; exact Hrest.
      - rewrite items_of_app, items_of_flush.
        change (items_of (f :: fs')) with (expand f ++ items_of fs'). rewrite He, Hit; auto. }
    destruct (Ascii.eqb_spec c multi_range_start) as [->|Hc2].
    { destruct (index_byte multi_range_end rest) as [e|] eqn:Ei; [|discriminate].
      apply index_byte_some in Ei as (Hn & Hrest & _).
      destruct (new_multi_char_sequence (firstn e rest)) as [f|] eqn:Ef; [|discriminate].
      destruct (range_loop fuel (skipn (S e) rest) None) as [fs'|] eqn:El; [|discriminate].
      injection H as <-.
      apply IH in El as [(s & Hwf & Hshow & Hit) _]; [|now apply skipn_suffix_nostar].
      assert (Hst : ~ In "*"%char (firstn e rest)) by now apply firstn_nostar.
      set (q := firstn e rest) in *.
      assert (Hf : f = CAlts (split_on multi_range_split q) /\ q <> []).
      { destruct q; [discriminate|]. injection Ef as <-; split; [auto|discriminate]. }
      destruct Hf as [-> Hq].
      split; [|destruct eq; discriminate].
      exists (Alternatives (split_on multi_range_split q) :: s); split.
      - constructor; auto. cbn [item_wf]. split; [apply split_on_nonempty|]. split.
        + intros E. apply Hq. rewrite <- (join_split multi_range_split q), E; auto.
        + pose proof (split_on_pieces multi_range_split q) as Hp.
          rewrite Forall_forall in *. intros w Hw. split; [now apply Hp|].
          assert (Hin : forall c, In c w -> In c q).
          { intros c Hc. rewrite <- (join_split multi_range_split q).
            clear -Hw Hc. induction (split_on multi_range_split q) as [|x l IH]; [destruct Hw|].
            destruct l as [|y l]; simpl in *; [destruct Hw as [->|[]]; auto|].
            apply in_or_app. destruct Hw as [->|Hw]; auto. right; right. apply IH; auto. }
          split; intros Hc; apply Hin in Hc; auto.
      - split.
        + change (show_items (?i :: s)) with (show_item i ++ show_items s).
          cbn [show_item]. change ","%char with multi_range_split.
          rewrite join_split, Hshow. cbn [app]. rewrite <- app_assoc. f_equal. symmetry; exact Hrest.
        + rewrite items_of_app, items_of_flush.
          change (items_of (?f :: fs')) with (expand f ++ items_of fs'). rewrite Hit; auto. }
    destruct (Ascii.eqb_spec c single_any_char) as [->|Hc3].
    { destruct (range_loop fuel rest None) as [fs'|] eqn:El; [|discriminate]. injection H as <-.
      apply IH in El as [(s & Hwf & Hshow & Hit) _]; auto.
      split; [|destruct eq; discriminate].
      exists (AnyChar :: s); split; [constructor; simpl; auto|]. split.
      - change (show_items (?i :: s)) with (show_item i ++ show_items s). now rewrite Hshow.
      - rewrite items_of_app, items_of_flush.
        change (items_of (?f :: fs')) with (expand f ++ items_of fs'). now rewrite Hit. }
    apply IH in H as [(s & Hwf & Hshow & Hit) Hne]; auto.
    split; [|intros _; apply Hne; right; discriminate].
    exists (Lit c :: s); split.
    + constructor; auto. simpl. simpl in Hs. intuition.
    + split.
      * change (show_items (?i :: s)) with (show_item i ++ show_items s). now rewrite Hshow.
      * rewrite Hit. destruct eq as [p|]; simpl; auto. now rewrite map_app, <- app_assoc.
Qed.

Lemma range_loop_complete s : forall fuel eq,
  Forall item_wf s -> length (show_items s) <= fuel ->
  exists fs, range_loop fuel (show_items s) eq = Some fs /\ items_of fs = eq_items eq ++ s.
Proof.
  induction s as [|i s IH]; intros fuel eq Hwf Hfuel.
  - exists (flush eq). rewrite items_of_flush, app_nil_r. destruct fuel; auto.
  - inversion Hwf as [|? ? Hi Hs]; subst.
    change (show_items (i :: s)) with (show_item i ++ show_items s) in *.
    rewrite app_length in Hfuel.
    destruct i as [c| |neg cs|neg rs|ws].
    + cbn [show_item app length] in *. destruct fuel as [|fuel]; [lia|]. cbn [range_loop].
      simpl in Hi.
      assert (c <> single_range_start /\ c <> multi_range_start /\ c <> single_any_char) as (H1 & H2 & H3).
      { unfold single_range_start, multi_range_start, single_any_char; intuition. }
      apply ascii_eqb_neq in H1, H2, H3. rewrite H1, H2, H3.
      destruct (IH fuel (Some match eq with None => [c] | Some p => p ++ [c] end)) as (fs & -> & Hit); auto; [lia|].
      exists fs; split; auto. rewrite Hit. destruct eq; simpl; auto. now rewrite map_app, <- app_assoc.
    + cbn [show_item app length] in *. destruct fuel as [|fuel]; [lia|]. cbn [range_loop].
      change (Ascii.eqb "?" single_range_start) with false.
      change (Ascii.eqb "?" multi_range_start) with false.
      change (Ascii.eqb "?" single_any_char) with true. cbv iota.
      destruct (IH fuel None) as (fs & -> & Hit); auto; [lia|].
      eexists; split; [reflexivity|]. rewrite items_of_app, items_of_flush.
      change (items_of (?f :: fs)) with (expand f ++ items_of fs). now rewrite Hit.
    + pose proof (single_range_complete (OneOf neg cs) ((if neg then ["!"%char] else []) ++ cs) Hi) as Hc.
      destruct Hc as (Hb & f & Hf & He); [cbn [show_item]; now rewrite app_assoc|exact I|].
      set (p := (if neg then ["!"%char] else []) ++ cs) in *.
      assert (Hsh : show_item (OneOf neg cs) = "["%char :: p ++ ["]"%char])
        by (subst p; cbn [show_item]; now rewrite app_assoc).
      rewrite Hsh in *. cbn [app length] in *. rewrite <- app_assoc; cbn [app].
      destruct fuel as [|fuel]; [lia|]. cbn [range_loop].
      change (Ascii.eqb "[" single_range_start) with true. cbv iota.
      change "]"%char with single_range_end in Hb |- *.
      rewrite index_byte_app by auto.
      rewrite firstn_app, Nat.sub_diag, firstn_all, firstn_O, app_nil_r, Hf.
      rewrite skipn_app, skipn_all2 by lia.
      replace (S (length p) - length p) with 1 by lia. cbn [skipn app].
      rewrite app_length in Hfuel; simpl in Hfuel.
      destruct (IH fuel None) as (fs & -> & Hit); auto; [lia|].
      eexists; split; [reflexivity|]. rewrite items_of_app, items_of_flush.
      change (items_of (?f :: fs)) with (expand f ++ items_of fs). now rewrite Hit, He.
    + pose proof (single_range_complete (InRanges neg rs)
         ((if neg then ["!"%char] else []) ++ flat_map (fun r => [fst r; "-"%char; snd r]) rs) Hi) as Hc.
      destruct Hc as (Hb & f & Hf & He); [cbn [show_item]; now rewrite app_assoc|exact I|].
      set (p := (if neg then ["!"%char] else []) ++ flat_map (fun r => [fst r; "-"%char; snd r]) rs) in *.
      assert (Hsh : show_item (InRanges neg rs) = "["%char :: p ++ ["]"%char])
        by (subst p; cbn [show_item]; now rewrite app_assoc).
      rewrite Hsh in *. cbn [app length] in *. rewrite <- app_assoc; cbn [app].
      destruct fuel as [|fuel]; [lia|]. cbn [range_loop].
      change (Ascii.eqb "[" single_range_start) with true. cbv iota.
      change "]"%char with single_range_end in Hb |- *.
      rewrite index_byte_app by auto.
      rewrite firstn_app, Nat.sub_diag, firstn_all, firstn_O, app_nil_r, Hf.
      rewrite skipn_app, skipn_all2 by lia.
      replace (S (length p) - length p) with 1 by lia. cbn [skipn app].
      rewrite app_length in Hfuel; simpl in Hfuel.
      destruct (IH fuel None) as (fs & -> & Hit); auto; [lia|].
      eexists; split; [reflexivity|]. rewrite items_of_app, items_of_flush.
      change (items_of (?f :: fs)) with (expand f ++ items_of fs). now rewrite Hit, He.
    + destruct Hi as (Hne & Hne2 & Hw).
      set (p := join_with ","%char ws) in *.
      assert (Hsp : split_on ","%char p = ws).
      { apply split_join; auto. eapply Forall_impl; [|exact Hw]. intros w H; apply H. }
      assert (Hp : p <> []).
      { intros E. rewrite E in Hsp; simpl in Hsp; congruence. }
      assert (Hb : ~ In "}"%char p).
      { subst p. clear -Hw. induction ws as [|w ws IH]; simpl; auto.
        inversion Hw; subst. destruct ws as [|w' ws]; [tauto|].
        rewrite in_app_iff. simpl. intros [?|[?|?]]; [tauto|discriminate|]. now apply IH. }
      change (show_item (Alternatives ws)) with ("{"%char :: p ++ ["}"%char]) in *.
      cbn [app length] in *. rewrite <- app_assoc; cbn [app].
      destruct fuel as [|fuel]; [lia|]. cbn [range_loop].
      change (Ascii.eqb "{" single_range_start) with false.
      change (Ascii.eqb "{" multi_range_start) with true. cbv iota.
      change "}"%char with multi_range_end in Hb |- *.
      rewrite index_byte_app by auto.
      rewrite firstn_app, Nat.sub_diag, firstn_all, firstn_O, app_nil_r.
      rewrite skipn_app, skipn_all2 by lia.
      replace (S (length p) - length p) with 1 by lia. cbn [skipn app].
      rewrite app_length in Hfuel; simpl in Hfuel.
      assert (Hf : new_multi_char_sequence p = Some (CAlts ws)).
      { unfold new_multi_char_sequence. change multi_range_split with ","%char. rewrite Hsp.
        destruct p; congruence. }
      rewrite Hf.
      destruct (IH fuel None) as (fs & -> & Hit); auto; [lia|].
      eexists; split; [reflexivity|]. rewrite items_of_app, items_of_flush.
      change (items_of (?f :: fs)) with (expand f ++ items_of fs). now rewrite Hit.
Qed.

Lemma show_item_nonempty i : show_item i <> [].
Proof. destruct i; discriminate. Qed.

Lemma show_items_nonempty s : s <> [] -> show_items s <> [].
Proof.
  destruct s as [|i s]; [congruence|]. intros _ H.
  change (show_items (i :: s)) with (show_item i ++ show_items s) in H.
  apply app_eq_nil in H as [H _]. now apply show_item_nonempty in H.
Qed.

Lemma show_item_nostar i : item_wf i -> ~ In "*"%char (show_item i).
Proof.
  destruct i as [c| |neg cs|neg rs|ws]; cbn [item_wf show_item].
  - simpl; intuition.
  - simpl; intros _ [?|[]]; discriminate.
  - intros (_ & H & _). simpl. rewrite !in_app_iff. simpl.
    destruct neg; simpl; intuition discriminate.
  - intros (_ & H & _). simpl. rewrite !in_app_iff. rewrite in_triples by discriminate.
    intros [?|[?|[(r & Hr & Hx)|?]]]; [discriminate| | |].
    + destruct neg; simpl in *; intuition discriminate.
    + rewrite Forall_forall in H. specialize (H r Hr). simpl in H. intuition.
    + simpl in *; intuition discriminate.
  - intros (_ & _ & H). simpl. rewrite in_app_iff. intros [?|[Hx|[?|[]]]]; try discriminate.
    induction ws as [|w ws IH]; simpl in Hx; auto.
    inversion H; subst. destruct ws as [|w' ws]; [tauto|].
    rewrite in_app_iff in Hx. destruct Hx as [?|[?|?]]; [tauto|discriminate|]. now apply IH.
Qed.

Lemma show_items_nostar s : Forall item_wf s -> ~ In "*"%char (show_items s).
Proof.
  intros H Hin. apply in_flat_map in Hin as (i & Hi & Hc). rewrite Forall_forall in H.
  eapply show_item_nostar; eauto.
Qed.

Lemma new_range_sound p b seg f :
  new_range_filter p b seg = Some f -> ~ In "*"%char p -> p <> [] ->
  exists s, items_wf s /\ show_items s = p.
Proof.
  unfold new_range_filter. destruct (range_loop (length p) p None) as [fs|] eqn:E; [|discriminate].
  intros _ Hs Hp. apply range_loop_sound in E as [(s & Hwf & Hsh & _) _]; auto.
  exists s; split; auto. split; auto. intros ->. apply Hp; auto.
Qed.

Lemma new_range_complete s b seg :
  items_wf s ->
  exists f, new_range_filter (show_items s) b seg = Some f /\
    (forall v, matches f v = true -> chain_lang seg b s v) /\
    (Forall (unambiguous_item b) s -> forall v, chain_lang seg b s v -> matches f v = true).
Proof.
  intros [Hne Hwf]. destruct (range_loop_complete s (length (show_items s)) None Hwf) as (fs & E & Hit); auto.
  unfold new_range_filter; rewrite E. eexists; split; [reflexivity|]. simpl in Hit.
  assert (Hfs : fs <> []). { intros ->. simpl in Hit; congruence. }
  cbn [matches]. rewrite <- Hit. split.
  - intros v Hm. now apply multi_chain_sound.
  - intros Hun v Hv. now apply multi_chain_complete.
Qed.

(** ** The compiler of patterns with wildcards *)

Lemma chain_exact s v : chain_lang Middle false s v <-> glob_lang (Exact s) v.
Proof.
  split.
  - intros (u & r & -> & H & Hr). rewrite Hr by auto. unfold joined; rewrite app_nil_r. now constructor.
  - inversion 1; subst. exists v, []. unfold joined; rewrite app_nil_r; auto.
Qed.

Lemma chain_starts s v : chain_lang Start false s v <-> glob_lang (StartsWith s) v.
Proof.
  split.
  - intros (u & r & -> & H & _). now constructor.
  - inversion 1; subst. exists u, r. repeat split; auto. discriminate.
Qed.

Lemma chain_ends s v : chain_lang End true s v <-> glob_lang (EndsWith s) v.
Proof.
  split.
  - intros (u & r & -> & H & _). now constructor.
  - inversion 1; subst. exists u, l. repeat split; auto. discriminate.
Qed.

Lemma index_byte_none' c s : ~ In c s -> index_byte c s = None.
Proof. apply index_byte_none. Qed.

Lemma last_index w (p : bytes) :
  index_byte wildcard_char p = Some w -> w = length p - 1 ->
  p = firstn (length p - 1) p ++ [wildcard_char] /\ ~ In wildcard_char (firstn (length p - 1) p).
Proof.
  intros H Hw. apply index_byte_some in H as (Hn & Hp & Hl). subst w. split; auto.
  rewrite Hp at 1. rewrite (skipn_all2 p) by lia. auto.
Qed.

Lemma new_wildcard_sound p f :
  new_wildcard_filter p = Some f -> p <> [] -> exists g, glob_wf g /\ show_glob g = p.
Proof.
  intros H Hp. unfold new_wildcard_filter in H.
  destruct (index_byte wildcard_char p) as [w|] eqn:Ei.
  - destruct (Nat.eqb_spec (length p) 1) as [Hl|Hl].
    { exists Everything; split; [exact I|]. apply index_byte_some in Ei as (_ & Hpp & Hlt).
      assert (w = 0) by lia; subst. destruct p as [|c [|d p]]; try discriminate.
      simpl in *. injection Hpp as ->; auto. }
    destruct (Nat.eqb_spec w (length p - 1)) as [Hw|Hw].
    { destruct (last_index w p Ei Hw) as [Hpp Hn].
      apply new_range_sound in H as (s & Hwf & Hsh); auto.
      - exists (StartsWith s); split; auto. simpl. rewrite Hsh. auto.
      - destruct p as [|c [|d p]]; try discriminate; simpl in *; congruence. }
    apply index_byte_some in Ei as (Hn & Hpp & Hlt).
    replace (w + 1) with (S w) in H by lia.
    destruct (index_byte wildcard_char (skipn (S w) p)) as [w2|] eqn:Ei2.
    + destruct (Nat.eqb_spec w 0) as [->|]; [|discriminate].
      destruct (Nat.eqb_spec w2 (length p - 2)) as [->|]; [|discriminate].
      destruct (Nat.ltb_spec 2 (length p)); [|discriminate]. cbn [andb] in H.
      unfold new_contains_filter in H.
      set (q := firstn (length p - 2) (skipn 1 p)) in *.
      destruct (existsb _ q) eqn:Ex; [discriminate|].
      apply index_byte_some in Ei2 as (Hn2 & Hp2 & Hlt2).
      assert (Hl1 : length (skipn 1 p) = length p - 1) by (rewrite skipn_length; lia).
      exists (Containing q). split.
      * split.
        { intros E. apply (f_equal (@length ascii)) in E. subst q. rewrite firstn_length, Hl1 in E.
          cbn [length] in E. lia. }
        rewrite Forall_forall. intros c Hc Hin.
        simpl in Hin. destruct Hin as [<-|Hin]; [now apply Hn2|].
        apply not_true_iff_false in Ex. apply Ex. rewrite existsb_exists. exists c; split; auto.
        destruct Hin as [<-|[<-|[<-|[]]]]; reflexivity.
      * cbn [show_glob]. rewrite Hpp. cbn [firstn app]. unfold wildcard_char. f_equal.
        rewrite Hp2. fold q. rewrite skipn_all2 by lia. auto.
    + apply index_byte_none in Ei2.
      destruct (Nat.eqb_spec w 0) as [->|Hw0].
      * apply new_range_sound in H as (s & Hwf & Hsh); auto.
        -- exists (EndsWith s); split; auto. simpl. rewrite Hsh. now rewrite Hpp.
        -- intros E. apply (f_equal (@length ascii)) in E. rewrite skipn_length in E; simpl length in E. lia.
      * destruct (new_range_filter (firstn w p) false Start) as [f1|] eqn:E1; [|discriminate].
        destruct (new_range_filter (skipn (S w) p) true End) as [f2|] eqn:E2; [|discriminate].
        apply new_range_sound in E1 as (s & Hws & Hss); auto.
        2:{ intros E. apply (f_equal (@length ascii)) in E. rewrite firstn_length in E; simpl length in E; lia. }
        apply new_range_sound in E2 as (t & Hwt & Hst); auto.
        2:{ intros E. apply (f_equal (@length ascii)) in E. rewrite skipn_length in E; simpl length in E; lia. }
        exists (Around s t); split; [split; auto|]. simpl. rewrite Hss, Hst. auto.
  - apply index_byte_none in Ei. apply new_range_sound in H as (s & Hwf & Hsh); auto.
    exists (Exact s); auto.
Qed.

Lemma new_wildcard_complete g :
  glob_wf g ->
  exists f, new_wildcard_filter (show_glob g) = Some f /\
    (forall v, matches f v = true -> glob_lang_overlap g v) /\
    (unambiguous_glob g -> forall v, glob_lang_overlap g v -> matches f v = true).
Proof.
  destruct g as [s| |s|s|s t|w]; cbn [glob_wf show_glob glob_lang_overlap unambiguous_glob]; intros Hwf.
  - pose proof (show_items_nostar s (proj2 Hwf)) as Hs.
    unfold new_wildcard_filter. rewrite index_byte_none' by exact Hs.
    destruct (new_range_complete s false Middle Hwf) as (f & -> & H1 & H2).
    exists f; split; auto. split; intros; [apply chain_exact; auto|apply H2; auto; now apply chain_exact].
  - exists FAllow; split; auto. split; intros; [constructor|auto].
  - pose proof (show_items_nostar s (proj2 Hwf)) as Hs.
    assert (Hne : length (show_items s) <> 0).
    { destruct (show_items s) eqn:E; simpl; [|lia]. now apply show_items_nonempty in E; [|apply Hwf]. }
    unfold new_wildcard_filter. change "*"%char with wildcard_char. rewrite index_byte_app by exact Hs.
    rewrite app_length; simpl length.
    destruct (Nat.eqb_spec (length (show_items s) + 1) 1); [lia|].
    replace (length (show_items s) + 1 - 1) with (length (show_items s)) by lia.
    rewrite Nat.eqb_refl, firstn_app, Nat.sub_diag, firstn_all, firstn_O, app_nil_r.
    destruct (new_range_complete s false Start Hwf) as (f & -> & H1 & H2).
    exists f; split; auto. split; intros; [apply chain_starts; auto|apply H2; auto; now apply chain_starts].
  - pose proof (show_items_nostar s (proj2 Hwf)) as Hs.
    assert (Hne : length (show_items s) <> 0).
    { destruct (show_items s) eqn:E; simpl; [|lia]. now apply show_items_nonempty in E; [|apply Hwf]. }
    unfold new_wildcard_filter. cbn [index_byte]. change (Ascii.eqb "*" wildcard_char) with true. cbv iota.
    simpl length. destruct (Nat.eqb_spec (S (length (show_items s))) 1); [lia|].
    destruct (Nat.eqb_spec 0 (S (length (show_items s)) - 1)); [lia|].
    cbn [Nat.add skipn]. rewrite index_byte_none' by exact Hs. rewrite Nat.eqb_refl.
    destruct (new_range_complete s true End Hwf) as (f & -> & H1 & H2).
    exists f; split; auto. split; intros; [apply chain_ends; auto|apply H2; auto; now apply chain_ends].
  - destruct Hwf as [Hws Hwt].
    pose proof (show_items_nostar s (proj2 Hws)) as Hs.
    pose proof (show_items_nostar t (proj2 Hwt)) as Ht.
    assert (Hne : length (show_items s) <> 0).
    { destruct (show_items s) eqn:E; simpl; [|lia]. now apply show_items_nonempty in E; [|apply Hws]. }
    assert (Hne' : length (show_items t) <> 0).
    { destruct (show_items t) eqn:E; simpl; [|lia]. now apply show_items_nonempty in E; [|apply Hwt]. }
    unfold new_wildcard_filter. change "*"%char with wildcard_char. rewrite index_byte_app by exact Hs.
    rewrite app_length; simpl length.
    destruct (Nat.eqb_spec (length (show_items s) + S (length (show_items t))) 1); [lia|].
    destruct (Nat.eqb_spec (length (show_items s)) (length (show_items s) + S (length (show_items t)) - 1)); [lia|].
    rewrite skipn_app, skipn_all2 by lia.
    replace (length (show_items s) + 1 - length (show_items s)) with 1 by lia. cbn [skipn app].
    rewrite index_byte_none' by exact Ht.
    destruct (Nat.eqb_spec (length (show_items s)) 0); [lia|].
    rewrite firstn_app, Nat.sub_diag, firstn_all, firstn_O, app_nil_r.
    destruct (new_range_complete s false Start Hws) as (f & -> & H1 & H2).
    destruct (new_range_complete t true End Hwt) as (f' & -> & H1' & H2').
    eexists; split; [reflexivity|]. cbn [matches map multi_loop]. split.
    + intros v Hm. destruct (matches f v) eqn:E; [|discriminate].
      destruct (matches f' v) eqn:E'; [|discriminate].
      apply H1 in E as (u & r & -> & Hu & _). apply H1' in E' as (u' & r' & E' & Hu' & _).
      split; [exists u, r; auto|exists r', u'; auto].
    + intros [Un1 Un2] v [(u & r & Hv & Hu) (l & w & Hv' & Hw)].
      rewrite H2; auto. rewrite H2'; auto.
      * exists w, l; repeat split; auto; discriminate.
      * exists u, r; repeat split; auto; discriminate.
  - destruct Hwf as [Hne Hw].
    assert (Hs : ~ In wildcard_char w).
    { intros Hin. rewrite Forall_forall in Hw. apply (Hw _ Hin). now left. }
    unfold new_wildcard_filter. cbn [index_byte]. change (Ascii.eqb "*" wildcard_char) with true. cbv iota.
    simpl length. rewrite app_length; simpl length.
    assert (length w <> 0) by (destruct w; simpl; congruence).
    destruct (Nat.eqb_spec (S (length w + 1)) 1); [lia|].
    destruct (Nat.eqb_spec 0 (S (length w + 1) - 1)); [lia|].
    cbn [Nat.add skipn]. change "*"%char with wildcard_char. rewrite index_byte_app by exact Hs.
    replace (S (length w + 1) - 2) with (length w) by lia.
    rewrite Nat.eqb_refl. rewrite Nat.eqb_refl.
    destruct (Nat.ltb_spec 2 (S (length w + 1))); [|lia]. cbn [andb].
    rewrite firstn_app, Nat.sub_diag, firstn_all, firstn_O, app_nil_r.
    unfold new_contains_filter.
    destruct (existsb _ w) eqn:Ex.
    { rewrite existsb_exists in Ex. destruct Ex as (c & Hc & Hx). rewrite Forall_forall in Hw.
      exfalso. apply (Hw c Hc). rewrite !orb_true_iff in Hx.
      destruct Hx as [[Hx|Hx]|Hx]; apply Ascii.eqb_eq in Hx; subst; simpl; auto. }
    eexists; split; [reflexivity|]. cbn [matches]. split; intros.
    + apply contains_sub_spec in H1 as (l & r & ->). constructor.
    + inversion H2; subst. apply contains_sub_spec; eauto.
Qed.

Lemma new_filter_sound p f :
  new_filter p = Some f -> exists g, pattern_wf g /\ show g = p.
Proof.
  destruct p as [|c p]; cbn [new_filter].
  - intros _; exists Empty; split; simpl; auto.
  - destruct (Ascii.eqb_spec c negation_char) as [->|Hc].
    + destruct p as [|d p]; [discriminate|].
      destruct (new_wildcard_filter (d :: p)) as [f'|] eqn:E; [|discriminate]. intros _.
      apply new_wildcard_sound in E as (g & Hg & Hs); [|discriminate].
      exists (Negated g); split; auto. simpl. now rewrite Hs.
    + intros E. apply new_wildcard_sound in E as (g & Hg & Hs); [|discriminate].
      exists (Plain g); split; auto. split; auto. intros r Hr. rewrite Hs in Hr. now injection Hr.
Qed.

Lemma show_glob_nonempty g : glob_wf g -> show_glob g <> [].
Proof.
  destruct g as [s| |s|s|s t|w]; cbn [glob_wf show_glob]; intros H; try discriminate.
  - apply show_items_nonempty, H.
  - destruct (show_items s); discriminate.
  - destruct (show_items s); discriminate.
Qed.

Lemma new_filter_complete p :
  pattern_wf p ->
  exists f, new_filter (show p) = Some f /\
    ((exists g, p = Negated g) -> unambiguous p -> forall v, matches f v = true <-> pattern_lang_overlap p v) /\
    ((forall g, p <> Negated g) -> forall v, matches f v = true -> pattern_lang_overlap p v) /\
    ((exists g, p = Negated g) -> forall v, pattern_lang_overlap p v -> matches f v = true) /\
    (unambiguous p -> forall v, matches f v = true <-> pattern_lang_overlap p v).
Proof.
  destruct p as [|g|g]; cbn [pattern_wf show pattern_lang_overlap unambiguous]; intros Hwf.
  - exists (FEqual []); split; auto. cbn [matches].
    assert (H : forall v, beqb [] v = true <-> v = []).
    { intros v; rewrite beqb_eq; split; auto. }
    split; [intros (g & ?); discriminate|]. split; [intros _ v; apply H|].
    split; [intros (g & ?); discriminate|]. intros _; apply H.
  - destruct Hwf as [Hwf Hbang].
    destruct (new_wildcard_complete g Hwf) as (f & E & H1 & H2).
    exists f. split.
    + destruct (show_glob g) as [|c q] eqn:Eg; [now apply show_glob_nonempty in Eg|].
      cbn [new_filter]. destruct (Ascii.eqb_spec c negation_char) as [->|]; auto.
      exfalso; now apply (Hbang q).
    + split; [intros (g' & ?); discriminate|]. split; [intros _; apply H1|].
      split; [intros (g' & ?); discriminate|]. intros Hun v; split; auto.
  - destruct (new_wildcard_complete g Hwf) as (f & E & H1 & H2).
    exists (FNot f). split.
    + cbn [new_filter]. change (Ascii.eqb "!" negation_char) with true. cbv iota.
      destruct (show_glob g) as [|c q] eqn:Eg; [now apply show_glob_nonempty in Eg|]. now rewrite E.
    + assert (Hnot : unambiguous_glob g -> forall v, matches (FNot f) v = true <-> ~ glob_lang_overlap g v).
      { intros Hun v; cbn [matches]. rewrite negb_true_iff, <- not_true_iff_false.
        split; intros Hn Hx; apply Hn; auto. }
      split; [intros _; apply Hnot|]. split; [intros Hx; now destruct (Hx g)|].
      split; [|apply Hnot]. intros _ v Hn. cbn [matches]. rewrite negb_true_iff, <- not_true_iff_false.
      intros Hx; apply Hn; auto.
Qed.

Lemma list_max_in (l : list nat) x : In x l -> x <= list_max l.
Proof.
  intros H. pose proof (proj1 (list_max_le l (list_max l)) (le_n _)) as Hf.
  rewrite Forall_forall in Hf. auto.
Qed.

Lemma item_width_bound i w : item_lang i w -> length w <= item_width i.
Proof.
  destruct 1; simpl; auto. apply list_max_in. apply in_map_iff; eauto.
Qed.

Lemma items_width_bound s w : items_lang s w -> length w <= items_width s.
Proof.
  induction 1; simpl; auto. rewrite app_length. apply item_width_bound in H.
  unfold items_width in *; simpl; lia.
Qed.

Lemma glob_overlap_lang g v :
  (match g with Around s t => items_width s + items_width t <= length v | _ => True end) ->
  glob_lang_overlap g v <-> glob_lang g v.
Proof.
  destruct g as [s| |s|s|s t|w]; cbn [glob_lang_overlap]; try tauto.
  intros Hlen; split.
  - intros [(u & r & Hv & Hu) (l & w & Hv' & Hw)].
    pose proof (items_width_bound _ _ Hu). pose proof (items_width_bound _ _ Hw).
    assert (Hl : length u <= length l).
    { assert (length v = length l + length w) by (rewrite Hv', app_length; auto). lia. }
    assert (exists m, l = u ++ m) as (m & ->).
    { rewrite Hv in Hv'. clear -Hv' Hl. revert l Hv' Hl; induction u as [|a u IH]; intros l H Hl.
      - exists l; auto.
      - destruct l as [|c l]; [simpl in Hl; lia|]. injection H as -> H.
        simpl in Hl. destruct (IH l H) as (m & ->); [lia|]. exists m; auto. }
    subst v. rewrite Hv', <- app_assoc. now constructor.
  - inversion 1; subst. split; [exists u, (m ++ w); auto|exists (u ++ m), w; rewrite <- app_assoc; auto].
Qed.

Lemma pattern_overlap_lang p v : long_enough p v -> pattern_lang_overlap p v <-> pattern_lang p v.
Proof.
  destruct p as [|g|g]; simpl; intros H; try tauto.
  - apply glob_overlap_lang; destruct g; auto.
  - rewrite glob_overlap_lang; [tauto|destruct g; auto].
Qed.
