(** Proofs for C88. *)
From Coq Require Import Ascii Arith Bool Lia List.
From Verif.Base Require Import Bytes.
From Verif.Model Require Import EncPool.
From Verif.Spec Require Import EncPoolSpec.
Import ListNotations.

Lemma put_same {A} (f : nat -> A) i x : put f i x i = x.
Proof. unfold put. now rewrite Nat.eqb_refl. Qed.
Lemma put_other {A} (f : nat -> A) i x j : j <> i -> put f i x j = f j.
Proof. intros N. unfold put. destruct (Nat.eqb_spec j i); [contradiction|reflexivity]. Qed.

Record inv (max : nat) (w : world) (b : books) : Prop := {
  i_array : forall e, e < w_encoders w -> e_array (w_encoder w e) < w_arrays w;
  i_apart : forall e f, e < w_encoders w -> f < w_encoders w -> e <> f -> e_array (w_encoder w e) <> e_array (w_encoder w f);
  i_len : forall e, e < w_encoders w -> e_len (w_encoder w e) <= length (w_array w (e_array (w_encoder w e)));
  i_mine : forall e c, In (e, c) (mine b) -> e < w_encoders w /\ ~ In e (w_pool w) /\ ~ In e (returned b);
  i_nodup : NoDup (map fst (mine b));
  i_bytes : forall e c, In (e, Some c) (mine b) -> shows w (e_array (w_encoder w e)) (e_len (w_encoder w e)) = c;
  i_pool : forall e, In e (w_pool w) ->
    e < w_encoders w /\ length (w_array w (e_array (w_encoder w e))) <= max;
  i_pool_nodup : NoDup (w_pool w);
  i_returned : forall e, In e (returned b) -> e < w_encoders w /\ e_closed (w_encoder w e) = true }.

Lemma entry_in b e c : entry b e = Some c -> In (e, c) (mine b).
Proof.
  unfold entry. destruct (find _ (mine b)) as [[f d]|] eqn:F; [|discriminate]. intros E. injection E as <-.
  apply find_some in F as (I & Z). cbn [fst] in Z. apply Nat.eqb_eq in Z. now subst.
Qed.
Lemma in_entry b e c : NoDup (map fst (mine b)) -> In (e, c) (mine b) -> entry b e = Some c.
Proof.
  unfold entry. induction (mine b) as [|[f d] l IH]; intros N I; [destruct I|]. cbn [find fst map] in *.
  inversion N as [|y r Nf N']; subst. destruct (Nat.eqb_spec f e) as [->|Ne].
  - destruct I as [I|I]; [congruence|]. exfalso. apply Nf. now apply (in_map fst) in I.
  - destruct I as [I|I]; [congruence|]. now apply IH.
Qed.
Lemma in_others b e x : In x (others b e) <-> In x (mine b) /\ fst x <> e.
Proof. unfold others. rewrite filter_In, negb_true_iff, Nat.eqb_neq. reflexivity. Qed.
Lemma others_nodup b e : NoDup (map fst (mine b)) -> NoDup (map fst (others b e)).
Proof.
  unfold others. induction (mine b) as [|x l IH]; intros N; [constructor|]. inversion N as [|y r Nf N']; subst. cbn [filter].
  destruct (negb _); [|now apply IH]. cbn [map]. constructor; [|now apply IH]. intros Z. apply Nf.
  apply in_map_iff in Z as (y & <- & Y). apply filter_In in Y as (Y & _). now apply in_map.
Qed.
Lemma others_fresh b e : ~ In e (map fst (others b e)).
Proof. intros Z. apply in_map_iff in Z as (x & E & X). apply in_others in X as (_ & N). contradiction. Qed.

Lemma in_drop_nth {A} i (l : list A) x : In x (drop_nth i l) -> In x l.
Proof.
  unfold drop_nth. intros H. apply in_app_or in H as [H|H].
  - rewrite <- (firstn_skipn i l). apply in_or_app. now left.
  - rewrite <- (firstn_skipn (S i) l). apply in_or_app. now right.
Qed.
Lemma drop_nth_nodup {A} i (l : list A) x : nth_error l i = Some x -> NoDup l -> NoDup (drop_nth i l) /\ ~ In x (drop_nth i l).
Proof.
  intros E N. apply nth_error_split in E as (l1 & l2 & -> & <-). unfold drop_nth.
  rewrite firstn_app, Nat.sub_diag, firstn_all. cbn [firstn]. rewrite app_nil_r.
  replace (skipn (S (length l1)) (l1 ++ x :: l2)) with l2.
  - split; [now apply NoDup_remove_1 in N|now apply NoDup_remove_2 in N].
  - rewrite skipn_app, skipn_all2 by lia. replace (S (length l1) - length l1) with 1 by lia. reflexivity.
Qed.

Lemma inv_empty max : inv max empty_world no_books.
Proof. constructor; cbn; try (intros; lia); try (intros e c []); try (intros e []); constructor. Qed.

Lemma inv_new max w b size pooled : inv max w b ->
  inv max (fst (new_encoder w size pooled)) (mk_books ((w_encoders w, Some []) :: mine b) (returned b)).
Proof.
  intros I. unfold new_encoder. cbn [fst].
  assert (P : forall e, e < w_encoders w -> put (w_encoder w) (w_encoders w) (mk_encoder (w_arrays w) 0 false pooled) e = w_encoder w e) by (intros e L; apply put_other; lia).
  assert (Q : forall e, e < w_encoders w -> put (w_array w) (w_arrays w) (repeat Ascii.zero size) (e_array (w_encoder w e)) = w_array w (e_array (w_encoder w e))).
  { intros e L. apply put_other. pose proof (i_array _ _ _ I e L). lia. }
  constructor; cbn [w_array w_arrays w_encoder w_encoders w_pool mine returned].
  - intros e L. destruct (Nat.eq_dec e (w_encoders w)) as [->|Ne]; [rewrite put_same; cbn [e_array]; lia|].
    rewrite P by lia. pose proof (i_array _ _ _ I e ltac:(lia)). lia.
  - intros e f Le Lf Ne. destruct (Nat.eq_dec e (w_encoders w)) as [->|Ee]; destruct (Nat.eq_dec f (w_encoders w)) as [->|Ef]; try lia.
    + rewrite put_same, P by lia. cbn [e_array]. pose proof (i_array _ _ _ I f ltac:(lia)). lia.
    + rewrite put_same, P by lia. cbn [e_array]. pose proof (i_array _ _ _ I e ltac:(lia)). lia.
    + rewrite !P by lia. apply (i_apart _ _ _ I); lia.
  - intros e L. destruct (Nat.eq_dec e (w_encoders w)) as [->|Ne]; [rewrite put_same; cbn [e_array e_len]; lia|].
    rewrite P, Q by lia. apply (i_len _ _ _ I). lia.
  - intros e c [E|H].
    + injection E as <- <-. split; [lia|]. split.
      * intros Z. pose proof (proj1 (i_pool _ _ _ I _ Z)). lia.
      * intros Z. pose proof (proj1 (i_returned _ _ _ I _ Z)). lia.
    + destruct (i_mine _ _ _ I e c H) as (L & R). split; [lia|exact R].
  - cbn [map fst]. constructor; [|apply (i_nodup _ _ _ I)]. intros Z. apply in_map_iff in Z as ([e c] & E & H). cbn [fst] in E. subst e.
    pose proof (proj1 (i_mine _ _ _ I _ _ H)). lia.
  - intros e c [E|H].
    + injection E as <- <-. rewrite put_same. reflexivity.
    + pose proof (proj1 (i_mine _ _ _ I _ _ H)) as L. unfold shows. cbn [w_array]. rewrite P, Q by lia. now apply (i_bytes _ _ _ I).
  - intros e H. destruct (i_pool _ _ _ I e H) as (L & M). rewrite P, Q by lia. split; [lia|exact M].
  - apply (i_pool_nodup _ _ _ I).
  - intros e H. destruct (i_returned _ _ _ I e H) as (L & C). rewrite P by lia. split; [lia|exact C].
Qed.

(** A weaker note of the contents is as good. *)
Lemma inv_forget max w b e c r : inv max w (mk_books ((e, Some c) :: b) r) -> inv max w (mk_books ((e, None) :: b) r).
Proof.
  intros I. constructor; try apply I; cbn [mine returned].
  - intros f d [E|H]; [injection E as <- <-; apply (i_mine _ _ _ I e (Some c)); now left|apply (i_mine _ _ _ I f d); now right].
  - intros f d [E|H]; [discriminate E|]. apply (i_bytes _ _ _ I). now right.
Qed.
Lemma filter_none e (l : list nat) : ~ In e l -> filter (fun x => negb (Nat.eqb x e)) l = l.
Proof.
  induction l as [|x l IH]; intros N; [reflexivity|]. cbn [filter]. destruct (Nat.eqb_spec x e) as [->|Ne].
  - exfalso. apply N. now left.
  - cbn [negb]. rewrite IH; [reflexivity|]. intros Z. apply N. now right.
Qed.

Lemma inv_get max w b i size : inv max w b ->
  exists e, snd (get_encoder w i size) = AnEncoder e /\
  inv max (fst (get_encoder w i size)) (mk_books ((e, None) :: mine b) (filter (fun x => negb (Nat.eqb x e)) (returned b))) /\
  ~ In e (map fst (mine b)).
Proof.
  intros I. unfold get_encoder. destruct (nth_error (w_pool w) i) as [e|] eqn:E.
  - exists e. split; [reflexivity|]. cbn [fst]. pose proof (nth_error_In _ _ E) as H. destruct (i_pool _ _ _ I e H) as (L & M).
    destruct (drop_nth_nodup i (w_pool w) e E (i_pool_nodup _ _ _ I)) as (N1 & N2).
    assert (F : ~ In e (map fst (mine b))).
    { intros Z. apply in_map_iff in Z as ([f c] & Ef & Hf). cbn [fst] in Ef. subst f. now destruct (i_mine _ _ _ I _ _ Hf) as (_ & Z & _). }
    split; [|exact F]. constructor; cbn [w_array w_arrays w_encoder w_encoders w_pool mine returned]; try apply I.
    + intros f c [Z|Z].
      * injection Z as <- <-. split; [exact L|]. split; [exact N2|]. intros Y. apply filter_In in Y as (_ & Y). now rewrite Nat.eqb_refl in Y.
      * destruct (i_mine _ _ _ I f c Z) as (L' & P & R). split; [exact L'|]. split.
        -- intros Y. now apply P, (in_drop_nth i).
        -- intros Y. apply filter_In in Y as (Y & _). contradiction.
    + cbn [map fst]. constructor; [exact F|apply (i_nodup _ _ _ I)].
    + intros f c [Z|Z]; [discriminate Z|]. now apply (i_bytes _ _ _ I).
    + intros f Z. apply (i_pool _ _ _ I). now apply (in_drop_nth i).
    + exact N1.
    + intros f Z. apply filter_In in Z as (Z & _). now apply (i_returned _ _ _ I).
  - exists (w_encoders w). split; [reflexivity|].
    assert (F : ~ In (w_encoders w) (map fst (mine b))).
    { intros Z. apply in_map_iff in Z as ([f c] & Ef & Hf). cbn [fst] in Ef. subst f. pose proof (proj1 (i_mine _ _ _ I _ _ Hf)). lia. }
    split; [|exact F]. rewrite filter_none.
    + apply (inv_forget _ _ _ _ []). now apply inv_new.
    + intros Z. pose proof (proj1 (i_returned _ _ _ I _ Z)). lia.
Qed.

(** A change of an encoder that a user has. *)
Lemma inv_use max w b e c x a n c' arr :
  inv max w b -> entry b e = Some c ->
  (* the array and the encoder that are written *)
  (a = e_array (w_encoder w e) /\ n = w_arrays w \/ a = w_arrays w /\ n = S (w_arrays w)) ->
  e_array x = a -> e_len x <= length arr -> (forall d, c' = Some d -> firstn (e_len x) arr = d) ->
  inv max (mk_world (put (w_array w) a arr) n (put (w_encoder w) e x) (w_encoders w) (w_pool w))
    (mk_books ((e, c') :: others b e) (returned b)).
Proof.
  intros I E A Xa Xl Xc. pose proof (entry_in _ _ _ E) as H. destruct (i_mine _ _ _ I e c H) as (L & NP & NR).
  assert (Le : forall f, f < w_encoders w -> e_array (w_encoder w f) < n) by (intros f F; pose proof (i_array _ _ _ I f F); lia).
  assert (An : a < n) by (pose proof (i_array _ _ _ I e L); lia).
  assert (O : forall f, f < w_encoders w -> f <> e -> e_array (w_encoder w f) <> a).
  { intros f F Ne. destruct A as [(-> & _)|(-> & _)]; [now apply (i_apart _ _ _ I)|]. pose proof (i_array _ _ _ I f F). lia. }
  constructor; cbn [w_array w_arrays w_encoder w_encoders w_pool mine returned].
  - intros f F. destruct (Nat.eq_dec f e) as [->|Ne]; [rewrite put_same, Xa; exact An|rewrite put_other by exact Ne; now apply Le].
  - intros f g F G Ne. destruct (Nat.eq_dec f e) as [->|Nf]; destruct (Nat.eq_dec g e) as [->|Ng]; try contradiction.
    + rewrite put_same, put_other, Xa by exact Ng. apply not_eq_sym. now apply O.
    + rewrite put_same, put_other, Xa by exact Nf. now apply O.
    + rewrite !put_other by assumption. now apply (i_apart _ _ _ I).
  - intros f F. destruct (Nat.eq_dec f e) as [->|Ne].
    + rewrite put_same, Xa, put_same. exact Xl.
    + rewrite (put_other (w_encoder w)), put_other by (try exact Ne; now apply O). now apply (i_len _ _ _ I).
  - intros f d [Z|Z]; [injection Z as <- <-; now split|]. apply in_others in Z as (Z & _). now apply (i_mine _ _ _ I f d).
  - cbn [map fst]. constructor; [apply others_fresh|apply others_nodup, (i_nodup _ _ _ I)].
  - intros f d [Z|Z].
    + injection Z as <- Ed. rewrite put_same, Xa. unfold shows. cbn [w_array]. rewrite put_same. now apply Xc.
    + apply in_others in Z as (Z & Ne). cbn [fst] in Ne. pose proof (proj1 (i_mine _ _ _ I _ _ Z)) as F.
      unfold shows. cbn [w_array]. rewrite (put_other (w_encoder w)), put_other by (try exact Ne; now apply O). now apply (i_bytes _ _ _ I).
  - intros f Z. destruct (i_pool _ _ _ I f Z) as (F & M). assert (Ne : f <> e) by (intros ->; contradiction).
    rewrite (put_other (w_encoder w)), put_other by (try exact Ne; now apply O). now split.
  - apply (i_pool_nodup _ _ _ I).
  - intros f Z. destruct (i_returned _ _ _ I f Z) as (F & C). assert (Ne : f <> e) by (intros ->; contradiction).
    rewrite put_other by exact Ne. now split.
Qed.

Lemma put_id_array (w : world) a arr : forall i, put (w_array w) a arr i = if Nat.eqb i a then arr else w_array w i.
Proof. reflexivity. Qed.

(** Only what the memory holds matters, not how it is written down. *)
Lemma inv_ext max w w' b : (forall i, w_array w' i = w_array w i) -> w_arrays w' = w_arrays w -> (forall e, w_encoder w' e = w_encoder w e) ->
  w_encoders w' = w_encoders w -> w_pool w' = w_pool w -> inv max w b -> inv max w' b.
Proof.
  intros A N E M P I. constructor.
  - intros e. rewrite E, N, M. apply (i_array _ _ _ I).
  - intros e f. rewrite !E, M. apply (i_apart _ _ _ I).
  - intros e. rewrite !E, A, M. apply (i_len _ _ _ I).
  - intros e c. rewrite M, P. apply (i_mine _ _ _ I).
  - apply (i_nodup _ _ _ I).
  - intros e c H. unfold shows. rewrite E, A. now apply (i_bytes _ _ _ I).
  - intros e. rewrite P, E, A, M. apply (i_pool _ _ _ I).
  - rewrite P. apply (i_pool_nodup _ _ _ I).
  - intros e. rewrite E, M. apply (i_returned _ _ _ I).
Qed.

Lemma inv_reset max w b e c : inv max w b -> entry b e = Some c ->
  inv max (fst (reset_encoder w e)) (mk_books ((e, Some []) :: others b e) (returned b)).
Proof.
  intros I E. unfold reset_encoder. cbn [fst].
  eapply inv_ext; [| | | | |apply (inv_use max w b e c (mk_encoder (e_array (w_encoder w e)) 0 false (e_pooled (w_encoder w e)))
     (e_array (w_encoder w e)) (w_arrays w) (Some []) (w_array w (e_array (w_encoder w e))) I E)]; try reflexivity.
  - intros i. cbn [w_array]. unfold put. destruct (Nat.eqb_spec i (e_array (w_encoder w e))) as [->|Ne]; reflexivity.
  - left. now split.
  - cbn [e_len]. lia.
  - intros d Z. injection Z as <-. reflexivity.
Qed.

Lemma inv_write max w b e c p room : inv max w b -> entry b e = Some c ->
  inv max (fst (write_encoder w e p room)) (mk_books ((e, match c with Some c => Some (c ++ p) | None => None end) :: others b e) (returned b)).
Proof.
  intros I E. unfold write_encoder. cbv zeta.
  pose proof (entry_in _ _ _ E) as H. pose proof (proj1 (i_mine _ _ _ I _ _ H)) as L. pose proof (i_len _ _ _ I e L) as Len.
  set (x := w_encoder w e) in *. set (old := w_array w (e_array x)) in *.
  assert (Fl : length (firstn (e_len x) old) = e_len x) by (rewrite firstn_length; lia).
  assert (Fc : forall d tl, match c with Some c => Some (c ++ p) | None => None end = Some d ->
     firstn (e_len x + length p) (firstn (e_len x) old ++ p ++ tl) = d).
  { intros d tl Z. destruct c as [c|]; [|discriminate Z]. injection Z as <-.
    pose proof (i_bytes _ _ _ I e c H) as Sh. unfold shows in Sh. fold x in Sh. fold old in Sh. rewrite Sh in *.
    rewrite <- Fl, app_assoc, <- app_length, firstn_app, Nat.sub_diag, firstn_all. cbn [firstn]. apply app_nil_r. }
  destruct (Nat.leb_spec (e_len x + length p) (length old)) as [Le|Gt]; cbn [fst].
  - apply (inv_use max w b e c); try assumption.
    + left. now split.
    + reflexivity.
    + cbn [e_len]. rewrite !app_length, Fl, skipn_length. lia.
    + cbn [e_len]. intros d. apply Fc.
  - apply (inv_use max w b e c); try assumption.
    + right. now split.
    + reflexivity.
    + cbn [e_len]. rewrite !app_length, Fl. lia.
    + cbn [e_len]. intros d. apply Fc.
Qed.

Lemma in_put_pool max w e keep f : In f (put_pool max w e keep) ->
  In f (w_pool w) \/ (f = e /\ length (w_array w (e_array (w_encoder w e))) <= max).
Proof.
  unfold put_pool. intros Z. destruct (Nat.ltb_spec max (length (w_array w (e_array (w_encoder w e))))) as [G|G]; [now left|].
  destruct keep; [|now left]. apply in_app_or in Z as [Z|[<-|[]]]; [now left|right]. now split.
Qed.
Lemma put_pool_nodup max w e keep : NoDup (w_pool w) -> ~ In e (w_pool w) -> NoDup (put_pool max w e keep).
Proof.
  unfold put_pool. intros ND NP. destruct (_ <? _); [exact ND|].
  destruct keep; [|exact ND]. apply NoDup_rev in ND. rewrite <- (rev_involutive (w_pool w ++ [e])). apply NoDup_rev.
  rewrite rev_app_distr. cbn [rev app]. constructor; [|exact ND]. now rewrite <- in_rev.
Qed.

Lemma inv_give max w b e c keep : inv max w b -> entry b e = Some c ->
  inv max (mk_world (w_array w) (w_arrays w) (w_encoder w) (w_encoders w) (put_pool max w e keep)) (mk_books (others b e) (returned b)).
Proof.
  intros I E. destruct (i_mine _ _ _ I e c (entry_in _ _ _ E)) as (L & NP & NR).
  constructor; cbn [w_array w_arrays w_encoder w_encoders w_pool mine returned]; try apply I.
  - intros f d Z. apply in_others in Z as (Z & Ne). cbn [fst] in Ne. destruct (i_mine _ _ _ I f d Z) as (A & B & C).
    split; [exact A|]. split; [|exact C]. intros Y. destruct (in_put_pool _ _ _ _ _ Y) as [Y'|(Y' & _)]; contradiction.
  - apply others_nodup, (i_nodup _ _ _ I).
  - intros f d Z. apply in_others in Z as (Z & _). now apply (i_bytes _ _ _ I).
  - intros f Z. destruct (in_put_pool _ _ _ _ _ Z) as [Y|(-> & Y)]; [now apply (i_pool _ _ _ I)|now split].
  - apply put_pool_nodup; [apply (i_pool_nodup _ _ _ I)|exact NP].
Qed.

Lemma inv_close max w b e keep : inv max w b -> (exists c, entry b e = Some c) \/ In e (returned b) ->
  inv max (fst (close_encoder max w e keep)) (mk_books (others b e) (e :: returned b)).
Proof.
  intros I H. unfold close_encoder. cbv zeta.
  assert (L : e < w_encoders w /\ (e_closed (w_encoder w e) = false -> ~ In e (w_pool w) /\ ~ In e (returned b))).
  { destruct H as [(c & E)|R].
    - destruct (i_mine _ _ _ I e c (entry_in _ _ _ E)) as (A & B & C). now split.
    - destruct (i_returned _ _ _ I e R) as (A & B). split; [exact A|]. congruence. }
  destruct L as (L & N).
  assert (M : forall f c, In (f, c) (others b e) -> f < w_encoders w /\ ~ In f (w_pool w) /\ ~ In f (e :: returned b)).
  { intros f c Z. apply in_others in Z as (Z & Ne). cbn [fst] in Ne. destruct (i_mine _ _ _ I f c Z) as (A & B & C).
    split; [exact A|]. split; [exact B|]. intros [Y|Y]; [now apply Ne|contradiction]. }
  destruct (e_closed (w_encoder w e)) eqn:Cl; cbn [fst].
  - constructor; try apply I; cbn [mine returned].
    + exact M.
    + apply others_nodup, (i_nodup _ _ _ I).
    + intros f c Z. apply in_others in Z as (Z & _). now apply (i_bytes _ _ _ I).
    + intros f [<-|Z]; [now split|now apply (i_returned _ _ _ I)].
  - destruct (N eq_refl) as (NP & NR).
    set (x := mk_encoder (e_array (w_encoder w e)) (e_len (w_encoder w e)) true (e_pooled (w_encoder w e))).
    assert (Ea : forall f, e_array (put (w_encoder w) e x f) = e_array (w_encoder w f)).
    { intros f. unfold put. destruct (Nat.eqb_spec f e) as [->|Ne]; reflexivity. }
    assert (El : forall f, e_len (put (w_encoder w) e x f) = e_len (w_encoder w f)).
    { intros f. unfold put. destruct (Nat.eqb_spec f e) as [->|Ne]; reflexivity. }
    assert (Ec : forall f, e_closed (w_encoder w f) = true \/ f = e -> e_closed (put (w_encoder w) e x f) = true).
    { intros f [C| ->]; [|now rewrite put_same]. unfold put. destruct (Nat.eqb f e); [reflexivity|exact C]. }
    set (pl := if e_pooled (w_encoder w e) then put_pool max w e keep else w_pool w).
    assert (P : forall f, In f pl -> In f (w_pool w) \/ (f = e /\ length (w_array w (e_array (w_encoder w e))) <= max)).
    { intros f Z. unfold pl in Z. destruct (e_pooled _); [|now left]. now apply (in_put_pool max w e keep). }
    assert (PN : NoDup pl).
    { unfold pl. pose proof (i_pool_nodup _ _ _ I) as ND. destruct (e_pooled _); [|exact ND]. now apply put_pool_nodup. }
    constructor; cbn [w_array w_arrays w_encoder w_encoders w_pool mine returned].
    + intros f F. rewrite Ea. now apply (i_array _ _ _ I).
    + intros f g F G Ne. rewrite !Ea. now apply (i_apart _ _ _ I).
    + intros f F. rewrite Ea, El. now apply (i_len _ _ _ I).
    + intros f c Z. destruct (M f c Z) as (A & B & C). split; [exact A|]. split; [|exact C].
      intros Y. destruct (P f Y) as [Y'|(-> & _)]; [contradiction|]. apply C. now left.
    + apply others_nodup, (i_nodup _ _ _ I).
    + intros f c Z. apply in_others in Z as (Z & _). unfold shows. cbn [w_array]. rewrite Ea, El. now apply (i_bytes _ _ _ I).
    + intros f Z. rewrite Ea. destruct (P f Z) as [Z'|(-> & Le)].
      * exact (i_pool _ _ _ I f Z').
      * now split.
    + exact PN.
    + intros f [<-|Z].
      * split; [exact L|]. apply Ec. now right.
      * destruct (i_returned _ _ _ I f Z) as (F & C). split; [exact F|]. apply Ec. now left.
Qed.

Lemma inv_step max w b o w' a : inv max w b -> allowed b o -> step max w o = (w', a) -> inv max w' (note b o a).
Proof.
  intros I Al E. destruct o as [size pooled|i size|e|e p room|e|e keep|e keep]; cbn [step allowed note] in *.
  - unfold new_encoder in E. injection E as <- <-. apply (inv_new max w b size pooled I).
  - destruct (inv_get max w b i size I) as (e & Ee & J & _). rewrite E in Ee, J. cbn [fst snd] in Ee, J. rewrite Ee. exact J.
  - destruct Al as (c & Ec). pose proof (inv_reset max w b e c I Ec) as J. rewrite E in J. exact J.
  - destruct Al as (c & Ec). pose proof (inv_write max w b e c p room I Ec) as J. rewrite E in J. rewrite Ec. exact J.
  - injection E as <- <-. exact I.
  - pose proof (inv_close max w b e keep I Al) as J. rewrite E in J. exact J.
  - destruct Al as (c & Ec). injection E as <- <-. now apply (inv_give max w b e c).
Qed.

Lemma inv_does max w b os w' b' : does max w b os w' b' -> inv max w b -> inv max w' b'.
Proof.
  induction 1 as [|w b o w1 a os w2 b2 Al E _ IH]; intros I; [exact I|]. apply IH. now apply (inv_step max w b o w1 a).
Qed.
Lemma inv_history max os w b : history max os w b -> inv max w b.
Proof. intros H. apply (inv_does max _ _ os w b H). apply inv_empty. Qed.

(** * Slices stay *)
Record stays (w : world) (b : books) (e a n : nat) (c : bytes) : Prop := {
  s_shows : shows w a n = c;
  s_array : a < w_arrays w;
  s_mine : exists d, In (e, d) (mine b);
  s_others : forall f, f < w_encoders w -> f <> e -> e_array (w_encoder w f) <> a;
  s_own : e_array (w_encoder w e) = a -> n <= e_len (w_encoder w e) }.

Lemma stays_step max w b o w' r e a n c : inv max w b -> allowed b o -> step max w o = (w', r) -> ends e o = false ->
  stays w b e a n c -> stays w' (note b o r) e a n c.
Proof.
  intros I Al E En [Sh Sa (d & Sm) So Sw]. pose proof (proj1 (i_mine _ _ _ I _ _ Sm)) as Le.
  assert (New : forall size pooled m r, new_encoder w size pooled = (w', r) -> (exists d, In (e, d) m) -> stays w' (mk_books m (returned b)) e a n c).
  { clear E. intros size pooled m r0 E Hm. unfold new_encoder in E. injection E as <- <-. constructor; cbn [w_array w_arrays w_encoder w_encoders mine]; try exact Hm.
    - unfold shows. cbn [w_array]. rewrite put_other by lia. exact Sh.
    - lia.
    - intros f F Ne. destruct (Nat.eq_dec f (w_encoders w)) as [->|Nf]; [rewrite put_same; cbn [e_array]; lia|].
      rewrite put_other by exact Nf. apply So; [lia|exact Ne].
    - rewrite put_other by lia. exact Sw. }
  destruct o as [size pooled|i size|f|f p room|f|f keep|f keep]; cbn [step allowed note ends] in *.
  - pose proof E as E'. unfold new_encoder in E'. injection E' as _ <-. apply (New size pooled _ _ E). exists d. now right.
  - destruct (inv_get max w b i size I) as (g & Eg & _ & _). rewrite E in Eg. cbn [snd] in Eg. subst r.
    unfold get_encoder in E. destruct (nth_error (w_pool w) i) as [h|] eqn:Eh.
    + injection E as <- <-. constructor; cbn [w_array w_arrays w_encoder w_encoders mine]; try assumption. exists d. now right.
    + destruct (New size true ((g, None) :: mine b) _ E ltac:(exists d; now right)) as [X1 X2 X3 X4 X5]. now constructor.
  - apply Nat.eqb_neq in En. unfold reset_encoder in E. injection E as <- <-.
    constructor; cbn [w_array w_arrays w_encoder w_encoders mine]; try assumption.
    + exists d. right. apply in_others. cbn [fst]. now split; [|apply not_eq_sym].
    + intros g G Ne. destruct (Nat.eq_dec g f) as [->|Nf]; [rewrite put_same; cbn [e_array]; now apply So|rewrite put_other by exact Nf; now apply So].
    + rewrite put_other by (now apply not_eq_sym). exact Sw.
  - destruct Al as (cf & Ef). pose proof (proj1 (i_mine _ _ _ I _ _ (entry_in _ _ _ Ef))) as Lf.
    assert (Hm : forall y, exists d, In (e, d) ((f, y) :: others b f)).
    { intros y. destruct (Nat.eq_dec f e) as [->|Ne]; [exists y; now left|]. exists d. right. apply in_others. cbn [fst]. now split; [|apply not_eq_sym]. }
    unfold write_encoder in E. cbv zeta in E. pose proof (i_len _ _ _ I f Lf) as Len.
    destruct (Nat.leb_spec (e_len (w_encoder w f) + length p) (length (w_array w (e_array (w_encoder w f))))) as [Fit|Gt];
      injection E as <- <-; constructor; cbn [w_array w_arrays w_encoder w_encoders mine]; try apply Hm; try assumption.
    + unfold shows. cbn [w_array]. destruct (Nat.eq_dec a (e_array (w_encoder w f))) as [Ea|Na]; [|rewrite put_other by exact Na; exact Sh].
      assert (f = e) as -> by (destruct (Nat.eq_dec f e) as [Z|Z]; [exact Z|]; now destruct (So f Lf Z)).
      rewrite Ea, put_same. rewrite firstn_app, firstn_firstn. rewrite firstn_length.
      specialize (Sw (eq_sym Ea)). rewrite Nat.min_l by lia. replace (n - Nat.min (e_len (w_encoder w e)) (length (w_array w (e_array (w_encoder w e))))) with 0 by lia.
      cbn [firstn]. rewrite app_nil_r. unfold shows in Sh. now rewrite Ea in Sh.
    + intros g G Ne. destruct (Nat.eq_dec g f) as [->|Nf]; [rewrite put_same; cbn [e_array]; now apply So|rewrite put_other by exact Nf; now apply So].
    + destruct (Nat.eq_dec e f) as [->|Nf]; [rewrite put_same; cbn [e_array e_len]; intros Z; specialize (Sw Z); lia|rewrite put_other by exact Nf; exact Sw].
    + unfold shows. cbn [w_array]. rewrite put_other by lia. exact Sh.
    + lia.
    + intros g G Ne. destruct (Nat.eq_dec g f) as [->|Nf]; [rewrite put_same; cbn [e_array]; lia|rewrite put_other by exact Nf; now apply So].
    + destruct (Nat.eq_dec e f) as [->|Nf]; [rewrite put_same; cbn [e_array]; lia|rewrite put_other by exact Nf; exact Sw].
  - injection E as <- <-. constructor; try assumption. now exists d.
  - apply Nat.eqb_neq in En. assert (Hm : exists d, In (e, d) (others b f)).
    { exists d. apply in_others. cbn [fst]. now split; [|apply not_eq_sym]. }
    unfold close_encoder in E. cbv zeta in E. destruct (e_closed (w_encoder w f)); injection E as <- <-.
    + now constructor.
    + constructor; cbn [w_array w_arrays w_encoder w_encoders mine]; try assumption.
      * intros g G Ne. destruct (Nat.eq_dec g f) as [->|Nf]; [rewrite put_same; cbn [e_array]; now apply So|rewrite put_other by exact Nf; now apply So].
      * rewrite put_other by (now apply not_eq_sym). exact Sw.
  - apply Nat.eqb_neq in En. injection E as <- <-. constructor; cbn [w_array w_arrays w_encoder w_encoders mine]; try assumption.
    exists d. apply in_others. cbn [fst]. now split; [|apply not_eq_sym].
Qed.

Lemma stays_does max w b os w' b' e a n c : does max w b os w' b' -> inv max w b -> forallb (fun o => negb (ends e o)) os = true ->
  stays w b e a n c -> stays w' b' e a n c.
Proof.
  induction 1 as [|w b o w1 r os w2 b2 Al E _ IH]; intros I F S; [exact S|]. cbn [forallb] in F. apply andb_true_iff in F as (F1 & F2).
  apply negb_true_iff in F1. apply IH; [now apply (inv_step max w b o w1 r)|exact F2|]. now apply (stays_step max w b o w1 r).
Qed.

Lemma stays_look max w b e c : inv max w b -> entry b e = Some (Some c) -> stays w b e (e_array (w_encoder w e)) (e_len (w_encoder w e)) c.
Proof.
  intros I E. pose proof (entry_in _ _ _ E) as H. pose proof (proj1 (i_mine _ _ _ I _ _ H)) as L. constructor.
  - now apply (i_bytes _ _ _ I).
  - now apply (i_array _ _ _ I).
  - eauto.
  - intros f F Ne. now apply (i_apart _ _ _ I).
  - lia.
Qed.
