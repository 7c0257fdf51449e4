(** Every operation of every program has just the effect it should have. *)
From Coq Require Import Ascii String NArith ZArith Bool Arith Lia Permutation List.
From Verif.Base Require Import Bytes BytesFacts Slice SliceFacts.
From Verif.Model Require Import AggType Policy Transformation Pipeline Metadata ProtoWire Messages ProtoStream.
From Verif.Spec Require Import PolicySpec MetadataSpec ProtoStreamSpec.
From Verif.Proof Require Import ProtoWireProof MessagesProof ProtoPure ProtoFrameProof ProtoHeapProof.
Import ListNotations.
Local Open Scope Z_scope.

Definition enc_addrs (l : list encoder) : list nat := flat_map (fun e => opt_list (e_buf e)) l.
Definition buf_addrs (l : list buffer) : list nat := flat_map (fun b => opt_list (b_arr b)) l.
Definition buf_ok (h : heap) (b : buffer) : Prop :=
  0 <= b_len b <= buf_len h (b_arr b) /\ (b_closed b = true -> b_arr b = None).
Definition held_by (s : system) : list nat := enc_addrs (s_encs s) ++ buf_addrs (s_bufs s) ++ s_held s.
Definition inv (s : system) : Prop :=
  wf (held_by s) None (s_heap s) /\ Forall (enc_ok (s_heap s)) (s_encs s) /\ Forall (buf_ok (s_heap s)) (s_bufs s).

Definition obs_enc (h : heap) (e : encoder) : Z * bytes := (e_max e, enc_bytes h e).
Definition obs_buf (h : heap) (b : buffer) : option bytes := if b_closed b then None else Some (buf_bytes h b).

(** ** Lists *)

Lemma nth_split {A} (l : list A) i a : nth_error l i = Some a -> l = firstn i l ++ a :: skipn (S i) l.
Proof.
  revert i. induction l as [|x l IH]; intros [|i] E; try discriminate; cbn in E.
  - injection E as ->. reflexivity.
  - cbn [firstn skipn app]. f_equal. exact (IH i E).
Qed.

Lemma set_nth_replaced {A} (l : list A) i a b : nth_error l i = Some b -> replaced l i a (set_nth l i a).
Proof.
  intros E. assert (i < length l)%nat as L by (apply nth_error_Some; congruence). unfold set_nth.
  assert (length (firstn i l) = i) as Li by (apply firstn_length_le; lia).
  split; [|split].
  - rewrite app_length. cbn [length]. rewrite Li, skipn_length. lia.
  - rewrite nth_error_app2, Li, Nat.sub_diag by lia. reflexivity.
  - intros j Hj. rewrite (nth_split l i b E) at 3. destruct (Nat.lt_ge_cases j i) as [H|H].
    + rewrite !nth_error_app1 by lia. reflexivity.
    + rewrite !nth_error_app2, !Li by lia. destruct (j - i)%nat eqn:Ej; [lia|reflexivity].
Qed.

Lemma map_set_nth {A C} (f : A -> C) l i a : map f (set_nth l i a) = set_nth (map f l) i (f a).
Proof. unfold set_nth. rewrite map_app. cbn [map]. now rewrite firstn_map, skipn_map. Qed.

Lemma map_replaced {A C} (f g : A -> C) l i a b :
  nth_error l i = Some b -> (forall x, In x (firstn i l ++ skipn (S i) l) -> f x = g x) ->
  replaced (map g l) i (f a) (map f (set_nth l i a)).
Proof.
  intros E H.
  assert (map f (set_nth l i a) = set_nth (map g l) i (f a)) as ->.
  { rewrite map_set_nth. unfold set_nth. rewrite !firstn_map, !skipn_map. f_equal; [|f_equal];
    apply map_ext_in; intros x Hx; apply H, in_or_app; auto. }
  apply set_nth_replaced with (b := g b). now rewrite nth_error_map, E.
Qed.

Lemma replaced_self {A} (l : list A) i a : nth_error l i = Some a -> replaced l i a l.
Proof. intros E. repeat split; auto. Qed.

Lemma nth_ext_error {A} (l1 : list A) : forall l2, (forall j, nth_error l1 j = nth_error l2 j) -> l1 = l2.
Proof.
  induction l1 as [|x l1 IH]; intros [|y l2] H; [reflexivity|discriminate (H O)|discriminate (H O)|].
  pose proof (H O) as H0. cbn in H0. injection H0 as ->. f_equal. apply IH. intros j. exact (H (S j)).
Qed.
Lemma NoDup_app_iff' {A} (l1 : list A) : forall l2, NoDup (l1 ++ l2) ->
  forall a, In a l1 -> ~ In a l2.
Proof.
  induction l1 as [|x l1 IH]; intros l2 N a; [intros []|]. cbn in N. inversion N as [|? ? Nx N']; subst.
  intros [<-|Ha] H2; [apply Nx, in_or_app; auto|exact (IH l2 N' a Ha H2)].
Qed.

Lemma replaced_fun {A} (l : list A) i a l1 l2 : replaced l i a l1 -> replaced l i a l2 -> l1 = l2.
Proof.
  intros (L1 & E1 & H1) (L2 & E2 & H2). apply nth_ext_error. intros j.
  destruct (Nat.eq_dec j i) as [->|N]; [congruence|]. rewrite H1, H2; auto.
Qed.

(** ** What the rest of the world sees *)

Lemma enc_same K h h' e : same_on K h h' -> incl (opt_list (e_buf e)) K ->
  obs_enc h' e = obs_enc h e /\ (enc_ok h e -> enc_ok h' e).
Proof.
  intros S I. unfold obs_enc, enc_ok, enc_bytes, buf_len. destruct (e_buf e) as [a|]; [|auto].
  rewrite (S a) by (apply I; left; reflexivity). auto.
Qed.
Lemma buf_same K h h' b : same_on K h h' -> incl (opt_list (b_arr b)) K ->
  obs_buf h' b = obs_buf h b /\ (buf_ok h b -> buf_ok h' b).
Proof.
  intros S I. unfold obs_buf, buf_ok, buf_bytes, buf_len. destruct (b_arr b) as [a|]; [|auto].
  rewrite (S a) by (apply I; left; reflexivity). auto.
Qed.
Lemma enc_addrs_in e l : In e l -> incl (opt_list (e_buf e)) (enc_addrs l).
Proof. intros H a Ha. unfold enc_addrs. apply in_flat_map. eauto. Qed.
Lemma buf_addrs_in b l : In b l -> incl (opt_list (b_arr b)) (buf_addrs l).
Proof. intros H a Ha. unfold buf_addrs. apply in_flat_map. eauto. Qed.

Lemma encs_same h h' l : same_on (enc_addrs l) h h' ->
  map (obs_enc h') l = map (obs_enc h) l /\ (Forall (enc_ok h) l -> Forall (enc_ok h') l).
Proof.
  intros S. split.
  - apply map_ext_in. intros e He. exact (proj1 (enc_same _ h h' e S (enc_addrs_in e l He))).
  - rewrite !Forall_forall. intros F e He. exact (proj2 (enc_same _ h h' e S (enc_addrs_in e l He)) (F e He)).
Qed.
Lemma bufs_same h h' l : same_on (buf_addrs l) h h' ->
  map (obs_buf h') l = map (obs_buf h) l /\ (Forall (buf_ok h) l -> Forall (buf_ok h') l).
Proof.
  intros S. split.
  - apply map_ext_in. intros e He. exact (proj1 (buf_same _ h h' e S (buf_addrs_in e l He))).
  - rewrite !Forall_forall. intros F e He. exact (proj2 (buf_same _ h h' e S (buf_addrs_in e l He)) (F e He)).
Qed.

(** The arrays of everybody but encoder [i]. *)
Definition others (s : system) (i : nat) : list nat :=
  (enc_addrs (firstn i (s_encs s)) ++ enc_addrs (skipn (S i) (s_encs s))) ++ buf_addrs (s_bufs s) ++ s_held s.

Lemma enc_addrs_split l i e : nth_error l i = Some e ->
  Permutation (enc_addrs l) (opt_list (e_buf e) ++ enc_addrs (firstn i l) ++ enc_addrs (skipn (S i) l)).
Proof.
  intros E. rewrite (nth_split l i e E) at 1. unfold enc_addrs. rewrite flat_map_app. cbn [flat_map].
  apply Permutation_app_swap_app.
Qed.

Lemma held_split s i e : nth_error (s_encs s) i = Some e ->
  Permutation (held_by s) (opt_list (e_buf e) ++ others s i).
Proof.
  intros E. unfold held_by, others. rewrite app_assoc.
  rewrite (app_assoc (opt_list (e_buf e))). rewrite <- app_assoc. apply Permutation_app_tail. exact (enc_addrs_split _ _ _ E).
Qed.

Lemma enc_wf s i e : inv s -> nth_error (s_encs s) i = Some e ->
  wf (others s i) (e_buf e) (s_heap s) /\ enc_ok (s_heap s) e.
Proof.
  intros (W & F & _) E. split.
  - apply wf_keep. exact (wf_perm _ _ _ _ (held_split s i e E) W).
  - rewrite Forall_forall in F. apply F. exact (nth_error_In _ _ E).
Qed.

Lemma set_nth_self_addrs l i e e' : nth_error l i = Some e ->
  Permutation (enc_addrs (set_nth l i e')) (opt_list (e_buf e') ++ enc_addrs (firstn i l) ++ enc_addrs (skipn (S i) l)).
Proof.
  intros E. unfold set_nth, enc_addrs. rewrite flat_map_app. cbn [flat_map]. apply Permutation_app_swap_app.
Qed.

(** Replacing encoder [i] after a step that left everybody else's arrays alone. *)
Lemma enc_step s i e e' h' bufs' :
  inv s -> nth_error (s_encs s) i = Some e ->
  wf (others s i) (e_buf e') h' -> same_on (others s i) (s_heap s) h' -> enc_ok h' e' ->
  bufs' = s_bufs s ->
  inv (mk_sys h' (set_nth (s_encs s) i e') bufs' (s_held s)) /\
  replaced (v_encs (observe s)) i (obs_enc h' e') (map (obs_enc h') (set_nth (s_encs s) i e')) /\
  map (obs_buf h') bufs' = v_bufs (observe s).
Proof.
  intros (W & F & Fb) E W' S' O' ->.
  assert (same_on (enc_addrs (firstn i (s_encs s)) ++ enc_addrs (skipn (S i) (s_encs s))) (s_heap s) h') as Se
    by (eapply same_on_incl; [|exact S']; intros x Hx; apply in_or_app; auto).
  assert (same_on (buf_addrs (s_bufs s)) (s_heap s) h') as Sb
    by (eapply same_on_incl; [|exact S']; intros x Hx; apply in_or_app; right; apply in_or_app; auto).
  assert (forall x, In x (firstn i (s_encs s) ++ skipn (S i) (s_encs s)) ->
    obs_enc h' x = obs_enc (s_heap s) x /\ enc_ok h' x) as Ot.
  { intros x Hx.
    assert (In x (s_encs s)) as Ix.
    { rewrite (nth_split _ _ _ E). apply in_app_or in Hx as [Hx|Hx]; apply in_or_app; cbn; auto. }
    assert (incl (opt_list (e_buf x)) (enc_addrs (firstn i (s_encs s)) ++ enc_addrs (skipn (S i) (s_encs s)))) as Ic.
    { intros a Ha. apply in_app_or in Hx as [Hx|Hx]; apply in_or_app; [left|right]; exact (enc_addrs_in _ _ Hx a Ha). }
    destruct (enc_same _ _ _ x Se Ic) as [A C]. split; [exact A|]. apply C. rewrite Forall_forall in F. auto. }
  destruct (bufs_same _ _ _ Sb) as [Mb Ob].
  split; [|split; [|exact Mb]].
  - split; [|split].
    + unfold held_by. cbn [s_encs s_bufs s_held s_heap]. apply wf_keep in W'. eapply wf_perm; [|exact W'].
      unfold others. rewrite app_assoc. apply Permutation_app_tail. symmetry.
      exact (set_nth_self_addrs _ _ e e' E).
    + cbn [s_encs s_heap]. unfold set_nth. apply Forall_app. split; [|constructor; [exact O'|]].
      * apply Forall_forall. intros x Hx. apply Ot, in_or_app. auto.
      * apply Forall_forall. intros x Hx. apply Ot, in_or_app. auto.
    + exact (Ob Fb).
  - apply (map_replaced (obs_enc h') (obs_enc (s_heap s)) (s_encs s) i e' e E). intros x Hx. apply Ot, Hx.
Qed.

Lemma observe_eq s : observe s = mk_view (map (obs_enc (s_heap s)) (s_encs s)) (map (obs_buf (s_heap s)) (s_bufs s)).
Proof. reflexivity. Qed.

Lemma nth_obs s i e : nth_error (s_encs s) i = Some e ->
  nth_error (v_encs (observe s)) i = Some (e_max e, enc_bytes (s_heap s) e).
Proof. intros E. unfold observe. cbn [v_encs]. now rewrite nth_error_map, E. Qed.
Lemma nth_obs_none s i : nth_error (s_encs s) i = None -> nth_error (v_encs (observe s)) i = None.
Proof. intros E. unfold observe. cbn [v_encs]. now rewrite nth_error_map, E. Qed.
Lemma nth_obs_buf s i b : nth_error (s_bufs s) i = Some b ->
  nth_error (v_bufs (observe s)) i = Some (obs_buf (s_heap s) b).
Proof. intros E. unfold observe. cbn [v_bufs]. now rewrite nth_error_map, E. Qed.
Lemma nth_obs_buf_none s i : nth_error (s_bufs s) i = None -> nth_error (v_bufs (observe s)) i = None.
Proof. intros E. unfold observe. cbn [v_bufs]. now rewrite nth_error_map, E. Qed.

Definition buf_others (s : system) (j : nat) : list nat :=
  enc_addrs (s_encs s) ++ (buf_addrs (firstn j (s_bufs s)) ++ buf_addrs (skipn (S j) (s_bufs s))) ++ s_held s.

Lemma buf_addrs_set l j b b' : nth_error l j = Some b ->
  Permutation (buf_addrs (set_nth l j b')) (opt_list (b_arr b') ++ buf_addrs (firstn j l) ++ buf_addrs (skipn (S j) l)).
Proof.
  intros E. unfold set_nth, buf_addrs. rewrite flat_map_app. cbn [flat_map]. apply Permutation_app_swap_app.
Qed.

Lemma buf_held s j b b' : nth_error (s_bufs s) j = Some b ->
  Permutation (opt_list (b_arr b') ++ buf_others s j)
    (enc_addrs (s_encs s) ++ buf_addrs (set_nth (s_bufs s) j b') ++ s_held s).
Proof.
  intros E. unfold buf_others. rewrite (buf_addrs_set _ j b b' E).
  rewrite <- !app_assoc. rewrite Permutation_app_swap_app. reflexivity.
Qed.

Lemma set_nth_same {A} (l : list A) i a : nth_error l i = Some a -> set_nth l i a = l.
Proof. intros E. unfold set_nth. symmetry. apply nth_split, E. Qed.

Lemma buf_wf s j b : inv s -> nth_error (s_bufs s) j = Some b ->
  wf (buf_others s j) (b_arr b) (s_heap s) /\ buf_ok (s_heap s) b.
Proof.
  intros (W & _ & F) E. split.
  - apply wf_keep. eapply wf_perm; [|exact W]. unfold held_by. rewrite <- (set_nth_same _ _ _ E) at 1. symmetry.
    exact (buf_held s j b b E).
  - rewrite Forall_forall in F. apply F. exact (nth_error_In _ _ E).
Qed.

Lemma buf_step s j b b' h' :
  inv s -> nth_error (s_bufs s) j = Some b ->
  wf (buf_others s j) (b_arr b') h' -> same_on (buf_others s j) (s_heap s) h' -> buf_ok h' b' ->
  inv (mk_sys h' (s_encs s) (set_nth (s_bufs s) j b') (s_held s)) /\
  replaced (v_bufs (observe s)) j (obs_buf h' b') (map (obs_buf h') (set_nth (s_bufs s) j b')) /\
  map (obs_enc h') (s_encs s) = v_encs (observe s).
Proof.
  intros (W & Fe & F) E W' S' O'.
  assert (same_on (buf_addrs (firstn j (s_bufs s)) ++ buf_addrs (skipn (S j) (s_bufs s))) (s_heap s) h') as Sb
    by (eapply same_on_incl; [|exact S']; intros x Hx; apply in_or_app; right; apply in_or_app; auto).
  assert (same_on (enc_addrs (s_encs s)) (s_heap s) h') as Se
    by (eapply same_on_incl; [|exact S']; intros x Hx; apply in_or_app; auto).
  assert (forall x, In x (firstn j (s_bufs s) ++ skipn (S j) (s_bufs s)) ->
    obs_buf h' x = obs_buf (s_heap s) x /\ buf_ok h' x) as Ot.
  { intros x Hx.
    assert (In x (s_bufs s)) as Ix.
    { rewrite (nth_split _ _ _ E). apply in_app_or in Hx as [Hx|Hx]; apply in_or_app; cbn; auto. }
    assert (incl (opt_list (b_arr x)) (buf_addrs (firstn j (s_bufs s)) ++ buf_addrs (skipn (S j) (s_bufs s)))) as Ic.
    { intros a Ha. apply in_app_or in Hx as [Hx|Hx]; apply in_or_app; [left|right]; exact (buf_addrs_in _ _ Hx a Ha). }
    destruct (buf_same _ _ _ x Sb Ic) as [A C]. split; [exact A|]. apply C. rewrite Forall_forall in F. auto. }
  destruct (encs_same _ _ _ Se) as [Me Oe].
  split; [|split; [|exact Me]].
  - split; [|split].
    + unfold held_by. cbn [s_encs s_bufs s_held s_heap]. apply wf_keep in W'. eapply wf_perm; [|exact W'].
      exact (buf_held s j b b' E).
    + exact (Oe Fe).
    + cbn [s_bufs s_heap]. unfold set_nth. apply Forall_app. split; [|constructor; [exact O'|]].
      * apply Forall_forall. intros x Hx. apply Ot, in_or_app. auto.
      * apply Forall_forall. intros x Hx. apply Ot, in_or_app. auto.
  - apply (map_replaced (obs_buf h') (obs_buf (s_heap s)) (s_bufs s) j b' b E). intros x Hx. apply Ot, Hx.
Qed.

(** A step that only touches what nobody else holds. *)
Lemma world_step s h' encs' bufs' held' :
  inv s -> same_on (enc_addrs (s_encs s) ++ buf_addrs (s_bufs s)) (s_heap s) h' ->
  encs' = s_encs s -> bufs' = s_bufs s ->
  wf (enc_addrs encs' ++ buf_addrs bufs' ++ held') None h' ->
  inv (mk_sys h' encs' bufs' held') /\ observe (mk_sys h' encs' bufs' held') = observe s.
Proof.
  intros (W & Fe & Fb) S -> -> W'.
  assert (same_on (enc_addrs (s_encs s)) (s_heap s) h') as Se
    by (eapply same_on_incl; [|exact S]; intros x Hx; apply in_or_app; auto).
  assert (same_on (buf_addrs (s_bufs s)) (s_heap s) h') as Sb
    by (eapply same_on_incl; [|exact S]; intros x Hx; apply in_or_app; auto).
  destruct (encs_same _ _ _ Se) as [Me Oe]. destruct (bufs_same _ _ _ Sb) as [Mb Ob].
  split; [split; [exact W'|split; [exact (Oe Fe)|exact (Ob Fb)]]|].
  rewrite !observe_eq. cbn [s_heap s_encs s_bufs]. now rewrite Me, Mb.
Qed.

Lemma alone_iff u max f : max < 2 ^ 34 -> encodable u max f -> alone u max f.
Proof. intros M E. apply alone_encodable; assumption. Qed.

Lemma firstn_firstn_prefix {A} n m (x : list A) : (n <= length x)%nat -> (m <= length x)%nat ->
  firstn (length (firstn m x)) (firstn n x) = firstn (length (firstn n x)) (firstn m x).
Proof. intros H1 H2. rewrite !firstn_length, !firstn_firstn. f_equal. lia. Qed.

Lemma run_op_ok s o c s' ok :
  inv s -> op_ok o -> run_op s o c = Some (s', ok) -> inv s' /\ effect (observe s) o ok (observe s').
Proof.
  intros I Oo R. pose proof I as (W & Fe & Fb).
  destruct o as [pool init max|i d|i u|i n|i|j n|j|n|k d|k]; cbn [run_op] in R.
  - (* New *)
    destruct (new_encoder pool init max c (s_heap s)) as [e h] eqn:En. injection R as <- <-.
    destruct (new_ok _ _ _ _ _ _ _ (held_by s) W Oo En) as (W' & S' & O' & M' & B').
    assert (same_on (enc_addrs (s_encs s)) (s_heap s) h) as Se
      by (eapply same_on_incl; [|exact S']; intros x Hx; apply in_or_app; auto).
    assert (same_on (buf_addrs (s_bufs s)) (s_heap s) h) as Sb
      by (eapply same_on_incl; [|exact S']; intros x Hx; apply in_or_app; right; apply in_or_app; auto).
    destruct (encs_same _ _ _ Se) as [Me Oe]. destruct (bufs_same _ _ _ Sb) as [Mb Ob].
    split.
    + split; [|split; [|exact (Ob Fb)]].
      * apply wf_keep in W'. eapply wf_perm; [|exact W']. unfold held_by. cbn [s_encs s_bufs s_held].
        unfold enc_addrs. rewrite flat_map_app. cbn [flat_map]. rewrite app_nil_r.
        rewrite <- app_assoc. rewrite Permutation_app_swap_app. reflexivity.
      * cbn [s_encs s_heap]. apply Forall_app. split; [exact (Oe Fe)|constructor; [exact O'|constructor]].
    + rewrite !observe_eq. cbn [s_heap s_encs s_bufs]. rewrite map_app, Me, Mb. cbn [map].
      change [obs_enc h e] with [(e_max e, enc_bytes h e)]. rewrite M', B'. apply (eff_new (observe s)).
  - (* Reset *)
    destruct (nth_error (s_encs s) i) as [e|] eqn:E.
    2:{ injection R as <- <-. split; [exact I|]. eapply eff_no_encoder; [left; eauto|apply nth_obs_none, E]. }
    destruct (enc_reset d c e (s_heap s)) as [e' h'] eqn:Er. injection R as <- <-.
    destruct (enc_wf s i e I E) as [W1 O1].
    destruct (reset_ok _ _ _ _ _ _ _ W1 (proj2 O1) Er) as (W' & S' & O' & M' & B').
    destruct (enc_step s i e e' h' _ I E W' S' O' eq_refl) as (I' & Rp & Mb).
    split; [exact I'|]. rewrite (observe_eq (set_enc s i e' h')). cbn [set_enc s_heap s_encs s_bufs].
    rewrite Mb. unfold obs_enc at 1 in Rp. rewrite M', B' in Rp.
    exact (eff_reset (observe s) i d _ _ _ (nth_obs s i e E) Rp).
  - (* Encode *)
    destruct (nth_error (s_encs s) i) as [e|] eqn:E.
    2:{ injection R as <- <-. split; [exact I|]. eapply eff_no_encoder; [right; left; eauto|apply nth_obs_none, E]. }
    destruct (enc_wf s i e I E) as [W1 O1].
    destruct (enc_message_ok _ u c e (s_heap s) W1 O1)
      as [(e' & h' & f & Em & En & W' & S' & O' & M' & B')|(e' & Em & Ne & Q1 & Q2 & Q3 & Q4 & Q5)]; rewrite Em in R.
    + injection R as <- <-.
      destruct (enc_step s i e e' h' _ I E W' S' O' eq_refl) as (I' & Rp & Mb).
      split; [exact I'|]. rewrite (observe_eq (set_enc s i e' h')). cbn [set_enc s_heap s_encs s_bufs].
      rewrite Mb. unfold obs_enc at 1 in Rp. rewrite M', B' in Rp.
      apply (alone_iff u _ f (proj2 O1)) in En.
      exact (eff_encode (observe s) i u _ _ f _ (nth_obs s i e E) En Rp).
    + injection R as <- <-.
      assert (wf (others s i) (e_buf e') (s_heap s)) as W' by now rewrite Q4.
      assert (enc_ok (s_heap s) e') as O' by (unfold enc_ok in *; now rewrite Q3, Q4, Q5).
      destruct (enc_step s i e e' _ _ I E W' (same_on_refl _ _) O' eq_refl) as (I' & Rp & Mb).
      split; [exact I'|].
      assert (observe (set_enc s i e' (s_heap s)) = observe s) as ->.
      { rewrite (observe_eq (set_enc s i e' (s_heap s))). cbn [set_enc s_heap s_encs s_bufs]. rewrite Mb.
        assert (obs_enc (s_heap s) e' = obs_enc (s_heap s) e) as Eo
          by (unfold obs_enc, enc_bytes; now rewrite Q3, Q4, Q5).
        rewrite Eo in Rp. rewrite (replaced_fun _ _ _ _ _ Rp (replaced_self _ _ _ (nth_obs s i e E))). reflexivity. }
      apply (eff_encode_error (observe s) i u _ _ (nth_obs s i e E)).
      intros f Al. apply alone_encodable in Al; [exact (Ne f Al)|apply O1].
  - (* Truncate *)
    destruct (nth_error (s_encs s) i) as [e|] eqn:E.
    2:{ injection R as <- <-. split; [exact I|]. eapply eff_no_encoder; [right; right; left; eauto|apply nth_obs_none, E]. }
    destruct (enc_wf s i e I E) as [W1 O1]. destruct (enc_bytes_old _ _ O1) as [Old Len].
    unfold enc_truncate in R. destruct ((n <? 0) || (e_used e <? n)) eqn:C.
    + injection R as <- <-. apply orb_true_iff in C. rewrite !Z.ltb_lt in C.
      assert (set_enc s i e (s_heap s) = s) as ->.
      { unfold set_enc. rewrite (set_nth_same _ _ _ E). destruct s; reflexivity. }
      split; [exact I|]. apply (eff_truncate_error (observe s) i n _ _ (nth_obs s i e E)). lia.
    + injection R as <- <-. apply orb_false_iff in C. rewrite !Z.ltb_ge in C.
      assert (enc_ok (s_heap s) (with_buf e (e_buf e) n)) as O'.
      { destruct O1 as [U M]. split; [cbn [with_buf e_used e_buf]; lia|exact M]. }
      destruct (enc_step s i e (with_buf e (e_buf e) n) _ _ I E W1 (same_on_refl _ _) O' eq_refl) as (I' & Rp & Mb).
      split; [exact I'|]. rewrite (observe_eq (set_enc s i _ _)). cbn [set_enc s_heap s_encs s_bufs]. rewrite Mb.
      apply (eff_truncate (observe s) i n _ _ _ (nth_obs s i e E)); [lia|].
      replace (e_max e, firstn (Z.to_nat n) (enc_bytes (s_heap s) e))
        with (obs_enc (s_heap s) (with_buf e (e_buf e) n)); [exact Rp|].
      unfold obs_enc, enc_bytes. cbn [with_buf e_max e_buf e_used].
      destruct (e_buf e); [|now rewrite firstn_nil]. rewrite firstn_firstn. do 2 f_equal. lia.
  - (* Relinquish *)
    destruct (nth_error (s_encs s) i) as [e|] eqn:E.
    2:{ injection R as <- <-. split; [exact I|]. eapply eff_no_encoder; [right; right; right; eauto|apply nth_obs_none, E]. }
    cbn [enc_relinquish] in R. injection R as <- <-.
    destruct (enc_wf s i e I E) as [W1 O1].
    set (e' := with_buf e None 0). set (b := mk_buffer (e_buf e) (e_used e) (e_pool e) false).
    assert (forall x, obs_enc (s_heap s) x = obs_enc (s_heap s) x) as _Unused by reflexivity.
    split.
    + split; [|split].
      * unfold held_by. cbn [s_encs s_bufs s_held s_heap].
        apply wf_keep in W1. eapply wf_perm; [|exact W1].
        pose proof (set_nth_self_addrs (s_encs s) i e e' E) as Q. cbn [e' with_buf e_buf opt_list app] in Q.
        rewrite Q. unfold buf_addrs. rewrite flat_map_app. cbn [flat_map b b_arr]. rewrite app_nil_r.
        unfold others, buf_addrs.
        set (X := enc_addrs (firstn i (s_encs s)) ++ enc_addrs (skipn (S i) (s_encs s))).
        set (Y := flat_map (fun b => opt_list (b_arr b)) (s_bufs s)).
        transitivity (X ++ opt_list (e_buf e) ++ Y ++ s_held s); [apply Permutation_app_swap_app|].
        apply Permutation_app_head. rewrite <- app_assoc. apply Permutation_app_swap_app.
      * cbn [s_encs s_heap]. rewrite Forall_forall in *. intros x Hx. unfold set_nth in Hx.
        apply in_app_or in Hx. cbn [In] in Hx.
        assert (forall x, In x (firstn i (s_encs s)) \/ In x (skipn (S i) (s_encs s)) -> In x (s_encs s)) as Sub.
        { intros y Hy. rewrite (nth_split _ _ _ E). apply in_or_app. cbn. tauto. }
        destruct Hx as [Hx|[<-|Hx]]; [apply Fe, Sub; auto| |apply Fe, Sub; auto].
        split; [cbn; lia|exact (proj2 O1)].
      * cbn [s_bufs s_heap]. apply Forall_app. split; [exact Fb|]. constructor; [|constructor].
        split; [exact (proj1 O1)|discriminate].
    + rewrite !observe_eq. cbn [s_heap s_encs s_bufs]. rewrite map_app. cbn [map].
      apply (eff_relinquish (observe s) i _ _ _ (nth_obs s i e E)).
      apply (map_replaced (obs_enc (s_heap s)) (obs_enc (s_heap s)) (s_encs s) i e' e E). reflexivity.
  - (* BufTruncate *)
    destruct (nth_error (s_bufs s) j) as [b|] eqn:E.
    2:{ injection R as <- <-. split; [exact I|]. eapply eff_no_buffer; [left; eauto|apply nth_obs_buf_none, E]. }
    destruct (buf_wf s j b I E) as [W1 O1].
    unfold buf_truncate in R. destruct ((n <? 0) || (buf_len (s_heap s) (b_arr b) <? n)) eqn:C; [discriminate|].
    injection R as <- <-. apply orb_false_iff in C. rewrite !Z.ltb_ge in C. destruct O1 as [U Cl].
    set (b' := mk_buffer (b_arr b) n (b_pool b) (b_closed b)).
    assert (buf_ok (s_heap s) b') as O' by (split; [cbn; lia|exact Cl]).
    destruct (buf_step s j b b' (s_heap s) I E W1 (same_on_refl _ _) O') as (I' & Rp & Me).
    split; [exact I'|]. rewrite (observe_eq (mk_sys _ _ _ _)). cbn [s_heap s_encs s_bufs]. rewrite Me.
    unfold obs_buf at 1 in Rp. cbn [b' b_closed] in Rp.
    pose proof (nth_obs_buf s j b E) as No. unfold obs_buf in No. destruct (b_closed b) eqn:Bc.
    + rewrite (replaced_fun _ _ _ _ _ Rp (replaced_self _ _ _ No)). apply (eff_buf_truncate_closed (observe s)), No.
    + apply (eff_buf_truncate (observe s) j n _ (buf_bytes (s_heap s) b') _ No); [| |exact Rp].
      * unfold buf_bytes, buf_len, b' in *. cbn [b_arr b_len]. destruct (b_arr b); [|cbn; lia].
        unfold zlen in *. rewrite firstn_length. lia.
      * unfold buf_bytes, buf_len, b' in *. cbn [b_arr b_len]. destruct (b_arr b); [|reflexivity].
        apply firstn_firstn_prefix; unfold zlen in *; lia.
  - (* BufClose *)
    destruct (nth_error (s_bufs s) j) as [b|] eqn:E.
    2:{ injection R as <- <-. split; [exact I|]. eapply eff_no_buffer; [right; reflexivity|apply nth_obs_buf_none, E]. }
    destruct (buf_wf s j b I E) as [W1 O1]. unfold buf_close in R. destruct (b_closed b) eqn:Bc.
    + injection R as <- <-. rewrite (set_nth_same _ _ _ E).
      assert (mk_sys (s_heap s) (s_encs s) (s_bufs s) (s_held s) = s) as -> by (destruct s; reflexivity).
      split; [exact I|]. pose proof (nth_obs_buf s j b E) as No. unfold obs_buf in No. rewrite Bc in No.
      replace (observe s) with (mk_view (v_encs (observe s)) (v_bufs (observe s))) at 2 by reflexivity.
      exact (eff_buf_close (observe s) j _ _ No (replaced_self _ _ _ No)).
    + injection R as <- <-. set (b' := mk_buffer None 0 false true). set (h' := put_buf (b_pool b) (b_arr b) (s_heap s)).
      assert (wf (buf_others s j) (b_arr b') h') as W' by (cbn [b' b_arr]; apply wf_put, W1).
      assert (same_on (buf_others s j) (s_heap s) h') as S' by (intros a _; apply put_data).
      assert (buf_ok h' b') as O' by (split; [cbn; lia|reflexivity]).
      destruct (buf_step s j b b' h' I E W' S' O') as (I' & Rp & Me).
      split; [exact I'|]. rewrite (observe_eq (mk_sys _ _ _ _)). cbn [s_heap s_encs s_bufs]. rewrite Me.
      exact (eff_buf_close (observe s) j _ _ (nth_obs_buf s j b E) Rp).
  - (* OtherGet *)
    destruct (h_get n c (s_heap s)) as [a h] eqn:G. injection R as <- <-.
    destruct (h_get_ok _ _ _ _ _ _ W G) as (W' & S' & _ & _).
    destruct (world_step s h (s_encs s) (s_bufs s) (s_held s ++ [a]) I) as [I' Ob]; auto.
    + eapply same_on_incl; [|exact S']. unfold held_by. rewrite app_assoc. intros x Hx. apply in_or_app. auto.
    + apply wf_keep in W'. eapply wf_perm; [|exact W']. unfold held_by. cbn [opt_list app].
      rewrite !app_assoc. apply Permutation_cons_append.
    + split; [exact I'|]. rewrite Ob. apply eff_other. eauto.
  - (* OtherWrite *)
    destruct (nth_error (s_held s) k) as [a|] eqn:E.
    2:{ injection R as <- <-. split; [exact I|]. apply eff_other. eauto. }
    destruct (zlen (h_data (s_heap s) a) <? zlen d) eqn:C; injection R as <- <-.
    { split; [exact I|]. apply eff_other. right. left. eauto. }
    destruct (world_step s (h_write a 0 d (s_heap s)) (s_encs s) (s_bufs s) (s_held s) I) as [I' Ob]; auto.
    + apply write_same. intros Ha. destruct W as [N _]. cbn [opt_list app] in N. unfold held_by in N.
      rewrite <- !app_assoc in N. rewrite (app_assoc (enc_addrs _)) in N. apply nth_error_In in E.
      apply (NoDup_app_iff' _ _ N a Ha). apply in_or_app. auto.
    + split; [exact I'|]. rewrite Ob. apply eff_other. right. left. eauto.
  - (* OtherPut *)
    destruct (nth_error (s_held s) k) as [a|] eqn:E.
    2:{ injection R as <- <-. split; [exact I|]. apply eff_other. eauto. }
    apply (f_equal (fun o => match o with Some p => p | None => (s, false) end)) in R. cbn beta iota in R.
    apply pair_equal_spec in R as [<- <-].
    destruct (world_step s (h_put a (s_heap s)) (s_encs s) (s_bufs s)
      (firstn k (s_held s) ++ skipn (S k) (s_held s)) I) as [I' Ob]; auto.
    + intros x _. reflexivity.
    + apply (wf_put _ true (Some a)). apply wf_keep. eapply wf_perm; [|exact W].
      unfold held_by. rewrite (nth_split _ _ _ E) at 1. cbn [opt_list app]. rewrite !app_assoc.
      symmetry. apply Permutation_middle.
    + split; [exact I'|]. rewrite Ob. apply eff_other. eauto.
Qed.

Lemma inv_empty : inv empty_system.
Proof. split; [split; constructor|split; constructor]. Qed.

Lemma runs_inv s l s' : runs s l s' -> Forall (fun x => op_ok (fst (fst x))) l -> inv s -> inv s'.
Proof.
  induction 1 as [|s o c ok s' l s'' R _ IH]; intros F I; [exact I|].
  inversion F as [|? ? F1 F2]; subst. apply IH; [exact F2|]. exact (proj1 (run_op_ok _ _ _ _ _ I F1 R)).
Qed.
Lemma reachable_inv s : reachable s -> inv s.
Proof. intros (l & R & F). exact (runs_inv _ _ _ R F inv_empty). Qed.

Lemma run_op_panic s o c : inv s -> run_op s o c = None ->
  exists j n, o = BufTruncate j n /\
    forall x, nth_error (v_bufs (observe s)) j = Some (Some x) -> ~ 0 <= n <= zlen x.
Proof.
  intros I R. destruct o as [pool init max|i d|i u|i n|i|j n|j|n|k d|k]; cbn [run_op] in R.
  - destruct (new_encoder pool init max c (s_heap s)); discriminate.
  - destruct (nth_error (s_encs s) i) as [e|]; [|discriminate]. destruct (enc_reset d c e (s_heap s)); discriminate.
  - destruct (nth_error (s_encs s) i) as [e|] eqn:E; [|discriminate].
    destruct (enc_wf s i e I E) as [W1 O1].
    destruct (enc_message_ok _ u c e (s_heap s) W1 O1)
      as [(e' & h' & f & Em & _)|(e' & Em & _)]; rewrite Em in R; discriminate.
  - destruct (nth_error (s_encs s) i) as [e|]; [|discriminate]. destruct (enc_truncate n e); discriminate.
  - destruct (nth_error (s_encs s) i) as [e|]; [|discriminate]. destruct (enc_relinquish e); discriminate.
  - exists j, n. split; [reflexivity|]. intros x Ex.
    destruct (nth_error (s_bufs s) j) as [b|] eqn:E; [|discriminate].
    rewrite (nth_obs_buf s j b E) in Ex. unfold obs_buf in Ex. destruct (b_closed b); [discriminate|].
    injection Ex as <-. unfold buf_truncate in R.
    destruct ((n <? 0) || (buf_len (s_heap s) (b_arr b) <? n)) eqn:C; [|discriminate].
    apply orb_true_iff in C. rewrite !Z.ltb_lt in C. unfold buf_bytes, buf_len in *.
    destruct (b_arr b); [|cbn; lia]. unfold zlen in *. rewrite firstn_length. lia.
  - destruct (nth_error (s_bufs s) j) as [b|]; [|discriminate]. destruct (buf_close b (s_heap s)); discriminate.
  - destruct (h_get n c (s_heap s)); discriminate.
  - destruct (nth_error (s_held s) k); [|discriminate]. destruct (_ <? _); discriminate.
  - destruct (nth_error (s_held s) k); discriminate.
Qed.

(** ** Histories *)

Lemma effect_other_enc v o ok v' i x :
  effect v o ok v' -> keeps i o -> nth_error (v_encs v) i = Some x ->
  (forall u, o <> Encode i u) \/ ok = false -> nth_error (v_encs v') i = Some x.
Proof.
  intros E K N H.
  destruct E as [v pool init mx|v j d mx y encs N1 R|v j u mx y f encs N1 A R|v j u mx y N1 A|v j n mx y encs N1 A R
    |v j n mx y N1 A|v j mx y encs N1 R|v j n y z bufs N1 A C R|v j n N1|v j o bufs N1 R|v o j A N1|v o j A N1|v o ok A];
    cbn [v_encs keeps] in *; auto.
  - rewrite nth_error_app1; [exact N|]. apply nth_error_Some. congruence.
  - destruct R as (_ & _ & R). rewrite R; auto.
  - destruct H as [H|H]; [|discriminate]. destruct R as (_ & _ & R). rewrite R; [exact N|]. intros <-. exact (H u eq_refl).
  - destruct R as (_ & _ & R). rewrite R; auto.
  - destruct R as (_ & _ & R). rewrite R; auto.
Qed.

Lemma effect_encode v i u v' max x :
  effect v (Encode i u) true v' -> nth_error (v_encs v) i = Some (max, x) ->
  exists f, alone u max f /\ nth_error (v_encs v') i = Some (max, x ++ f).
Proof.
  intros E N. inversion E as [| |v0 j u0 mx y f encs N1 A R| | | | | | | | |v0 o j A N1|v0 o ok A]; subst.
  - rewrite N in N1. injection N1 as <- <-. exists f. split; [exact A|]. exact (proj1 (proj2 R)).
  - destruct A as [[? A]|[(? & ? & A)|[? A]]]; discriminate.
Qed.

Lemma history s l s' : runs s l s' -> Forall (fun x => op_ok (fst (fst x))) l -> inv s ->
  forall i max x, Forall (fun y => keeps i (fst (fst y))) l ->
  nth_error (v_encs (observe s)) i = Some (max, x) ->
  exists fs, Forall2 (fun u f => alone u max f) (sent i l) fs /\
    nth_error (v_encs (observe s')) i = Some (max, x ++ concat fs).
Proof.
  induction 1 as [s|s o c ok s' l s'' R _ IH]; intros F I i max x K N.
  - exists []. split; [constructor|]. cbn [concat]. now rewrite app_nil_r.
  - inversion F as [|? ? F1 F2]; subst. inversion K as [|? ? K1 K2]; subst. cbn [fst] in *.
    destruct (run_op_ok _ _ _ _ _ I F1 R) as [I' E].
    assert ((exists u, o = Encode i u /\ ok = true) \/ ((forall u, o <> Encode i u) \/ ok = false)) as [(u & -> & ->)|H].
    { destruct ok; [|auto]. destruct o as [| |j u| | | | | | |]; try (right; left; intros; discriminate).
      destruct (Nat.eq_dec j i) as [->|Nj]; [eauto|]. right. left. congruence. }
    + destruct (effect_encode _ _ _ _ _ _ E N) as (f & A & N').
      destruct (IH F2 I' i max (x ++ f) K2 N') as (fs & H2 & N''). exists (f :: fs). cbn [sent concat].
      rewrite Nat.eqb_refl. split; [constructor; assumption|]. now rewrite app_assoc.
    + pose proof (effect_other_enc _ _ _ _ i _ E K1 N H) as N'.
      destruct (IH F2 I' i max x K2 N') as (fs & H2 & N''). exists fs. split; [|exact N''].
      assert (sent i ((o, c, ok) :: l) = sent i l) as ->; [|exact H2].
      destruct o as [| |j u| | | | | | |]; try reflexivity. cbn [sent]. destruct ok; [|reflexivity].
      destruct (Nat.eqb_spec j i) as [->|]; [|reflexivity]. destruct H as [H|H]; [now destruct (H u)|discriminate].
Qed.

Lemma effect_other_buf v o ok v' j x :
  effect v o ok v' -> leaves j o -> nth_error (v_bufs v) j = Some x -> nth_error (v_bufs v') j = Some x.
Proof.
  intros E K N.
  destruct E as [v pool init mx|v i d mx y encs N1 R|v i u mx y f encs N1 A R|v i u mx y N1 A|v i n mx y encs N1 A R
    |v i n mx y N1 A|v i mx y encs N1 R|v i n y z bufs N1 A C R|v i n N1|v i o bufs N1 R|v o i A N1|v o i A N1|v o ok A];
    cbn [v_bufs leaves] in *; auto.
  - rewrite nth_error_app1; [exact N|]. apply nth_error_Some. congruence.
  - destruct R as (_ & _ & R). rewrite R; auto.
  - destruct R as (_ & _ & R). rewrite R; auto.
Qed.

Lemma buf_history s l s' : runs s l s' -> Forall (fun x => op_ok (fst (fst x))) l -> inv s ->
  forall j x, Forall (fun y => leaves j (fst (fst y))) l ->
  nth_error (v_bufs (observe s)) j = Some x -> nth_error (v_bufs (observe s')) j = Some x.
Proof.
  induction 1 as [s|s o c ok s' l s'' R _ IH]; intros F I j x K N; [exact N|].
  inversion F as [|? ? F1 F2]; subst. inversion K as [|? ? K1 K2]; subst. cbn [fst] in *.
  destruct (run_op_ok _ _ _ _ _ I F1 R) as [I' E].
  exact (IH F2 I' j x K2 (effect_other_buf _ _ _ _ j x E K1 N)).
Qed.

(** ** From encoders to iterators *)

Lemma alone_framed u max rmax f m : max < 2 ^ 34 -> max <= rmax -> selected u = Some m -> sendable m ->
  alone u max f -> framed rmax m f.
Proof.
  intros M L S Sm A. apply (alone_encodable u max f M) in A. destruct A as (m' & pb & S' & E & Sz & ->).
  rewrite S in S'. injection S' as <-. split; [exact Sm|]. exists pb. repeat split; auto; lia.
Qed.

Lemma alone_framed_all us max rmax ms fs : max < 2 ^ 34 -> max <= rmax ->
  Forall2 (fun u m => selected u = Some m /\ sendable m) us ms -> Forall2 (fun u f => alone u max f) us fs ->
  Forall2 (framed rmax) ms fs.
Proof.
  intros M L H. revert fs. induction H as [|u m us ms [S Sm] _ IH]; intros fs A; inversion A; subst; constructor.
  - eapply alone_framed; eauto.
  - apply IH. assumption.
Qed.

Lemma max_bound s i max x : inv s -> nth_error (v_encs (observe s)) i = Some (max, x) -> max < 2 ^ 34.
Proof.
  intros (_ & F & _) N. unfold observe in N. cbn [v_encs] in N. rewrite nth_error_map in N.
  destruct (nth_error (s_encs s) i) as [e|] eqn:E; [|discriminate]. injection N as <- <-.
  rewrite Forall_forall in F. exact (proj2 (F e (nth_error_In _ _ E))).
Qed.

Lemma alone_limit u big f : big < 2 ^ 34 -> alone u big f ->
  exists body, f = enc_varint (zigzag (zlen body)) ++ body /\
    forall max, max < 2 ^ 34 -> (alone u max f <-> zlen body <= max) /\ (zlen body > max -> forall f', ~ alone u max f').
Proof.
  intros M A. apply (alone_encodable u big f M) in A. destruct A as (m & pb & S & E & Sz & ->).
  exists (marshal mm_fields pb). split; [unfold frame; now rewrite mm_size|].
  assert (zlen (marshal mm_fields pb) = size mm_fields pb) as Z by (now rewrite mm_size). rewrite Z.
  intros max Mx. split; [rewrite (alone_encodable u max _ Mx); split|].
  - intros (m' & pb' & S' & E' & Sz' & _). assert (pb' = pb) by congruence. now subst.
  - intros L. exists m, pb. auto.
  - intros G f' A. apply (alone_encodable u max f' Mx) in A. destruct A as (m' & pb' & S' & E' & Sz' & _).
    assert (pb' = pb) by congruence. subst. lia.
Qed.

Lemma sendable_encodes u m : selected u = Some m -> sendable m ->
  exists pb, mm_of m = Some pb /\ forall max, max < 2 ^ 34 -> size mm_fields pb <= max -> alone u max (frame pb).
Proof.
  intros S Sm. destruct (message_back m Sm) as (pb & E & _). exists pb. split; [exact E|].
  intros max M L. apply alone_encodable; [exact M|]. exists m, pb. auto.
Qed.

(** ** Truncation, and running programs *)

Lemma truncate_back s i max x y c : inv s -> nth_error (v_encs (observe s)) i = Some (max, x ++ y) ->
  exists s', run_op s (Truncate i (zlen x)) c = Some (s', true) /\ nth_error (v_encs (observe s')) i = Some (max, x).
Proof.
  intros I N. pose proof N as N0. unfold observe in N. cbn [v_encs] in N. rewrite nth_error_map in N.
  destruct (nth_error (s_encs s) i) as [e|] eqn:E; [|discriminate].
  destruct (enc_wf s i e I E) as [_ O]. destruct (enc_bytes_old _ _ O) as [_ Len]. injection N as Em Eb.
  assert (exists s', run_op s (Truncate i (zlen x)) c = Some (s', true)) as [s' R].
  { cbn [run_op]. rewrite E. unfold enc_truncate. rewrite Eb, zlen_app in Len.
    pose proof (zlen_nonneg x). pose proof (zlen_nonneg y).
    rewrite (proj2 (Z.ltb_ge _ 0)) by lia. rewrite (proj2 (Z.ltb_ge _ _)) by lia. eexists; reflexivity. }
  exists s'. split; [exact R|].
  assert (op_ok (Truncate i (zlen x))) as Oo by exact Logic.I.
  destruct (run_op_ok s _ c s' true I Oo R) as [_ Ef].
  inversion Ef as [| | | |v j n mx z encs N1 A Rp| | | | | | | |v o ok A]; subst.
  - rewrite N0 in N1. injection N1 as <- <-. destruct Rp as (_ & Rp & _). refine (eq_trans Rp _). do 2 f_equal.
    unfold zlen. rewrite Nat2Z.id, firstn_app, firstn_all, Nat.sub_diag, firstn_O, app_nil_r. reflexivity.
  - destruct A as [[? A]|[(? & ? & A)|[? A]]]; discriminate.
Qed.

Fixpoint exec (s : system) (l : list (op * choice)) : option (system * list (op * choice * bool)) :=
  match l with
  | [] => Some (s, [])
  | (o, c) :: l =>
      match run_op s o c with
      | None => None
      | Some (s, ok) => match exec s l with None => None | Some (s, r) => Some (s, (o, c, ok) :: r) end
      end
  end.
Lemma exec_runs l : forall s s' r, exec s l = Some (s', r) -> runs s r s'.
Proof.
  induction l as [|[o c] l IH]; intros s s' r E; cbn [exec] in E; [injection E as <- <-; constructor|].
  destruct (run_op s o c) as [[s1 ok]|] eqn:R; [|discriminate]. destruct (exec s1 l) as [[s2 r2]|] eqn:X; [|discriminate].
  injection E as <- <-. exact (runs_cons _ _ _ _ _ _ _ R (IH _ _ _ X)).
Qed.
