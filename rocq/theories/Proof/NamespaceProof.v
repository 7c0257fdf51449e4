(** Proofs about namespaces. *)
From Coq Require Import Ascii String Arith NArith ZArith Bool Lia Permutation Sorting.Sorted List.
From Verif.Base Require Import Bytes BytesFacts.
From Verif.Proof Require Import EditProof.
From Verif.Model Require Import RuleSet Namespace.
From Verif.Spec Require Import NamespaceSpec.
Import ListNotations.
Open Scope Z_scope.

Definition only (name : bytes) (l : list namespace) (a : list namespace) (n : namespace) (b : list namespace) : Prop :=
  l = a ++ n :: b /\ ns_name n = name /\ forall n', In n' (a ++ b) -> ns_name n' <> name.

Lemma ns_find_res l name : forall i j, ns_find i l name (Some j) =
  if existsb (fun n => beqb (ns_name n) name) l then NsMultiple else NsFound j.
Proof.
  induction l as [|n l IH]; intros i j; cbn; auto. destruct (beqb (ns_name n) name); cbn; auto.
Qed.

Lemma ns_find_spec l name : forall i,
  match ns_find i l name None with
  | NsFound j => exists a n b, only name l a n b /\ j = (i + length a)%nat
  | NsNotFound => forall n, In n l -> ns_name n <> name
  | NsMultiple => exists a n b n' c, l = a ++ n :: b ++ n' :: c /\ ns_name n = name /\ ns_name n' = name
  end.
Proof.
  induction l as [|n l IH]; intros i; cbn; [intros ? []|].
  destruct (beqb (ns_name n) name) eqn:E; cbn.
  - apply beqb_eq in E. rewrite ns_find_res. destruct (existsb (fun n => beqb (ns_name n) name) l) eqn:X.
    + apply existsb_exists in X as (n' & Hin & E'). apply beqb_eq in E'. apply in_split in Hin as (b & c & ->).
      exists [], n, b, n', c. auto.
    + exists [], n, l. split; [|cbn; lia]. split; auto. split; auto. cbn. intros n' Hin E'.
      assert (existsb (fun n => beqb (ns_name n) name) l = true).
      { apply existsb_exists. exists n'. split; auto. now apply beqb_eq. } congruence.
  - assert (Hn : ns_name n <> name) by (intros Hn; apply beqb_eq in Hn; congruence).
    specialize (IH (S i)). destruct (ns_find (S i) l name None) as [j| |].
    + destruct IH as (a & m & b & (-> & E2 & Ho) & ->). exists (n :: a), m, b. split; [|cbn; lia]. split; auto. split; auto.
      intros n' [<-|Hin]; auto.
    + intros m [<-|Hin]; auto.
    + destruct IH as (a & m & b & m' & c & -> & E1 & E2). exists (n :: a), m, b, m', c. auto.
Qed.

Lemma only_unique name l a n b a' n' b' : only name l a n b -> only name l a' n' b' -> a = a' /\ n = n' /\ b = b'.
Proof.
  intros (E & En & H) (E' & En' & H'). rewrite E in E'. clear E. revert a' E' H'. induction a as [|x a IH]; intros [|x' a'] E' H'; cbn in *.
  - injection E'. auto.
  - injection E' as E1 E2. subst. exfalso. apply (H' x'); [now left|auto].
  - injection E' as E1 E2. subst. exfalso. apply (H n'); [now left|auto].
  - injection E' as E1 E2. subst. destruct (IH (fun n0 Hn => H n0 (or_intror Hn)) a') as (-> & -> & ->); auto.
Qed.

Lemma ns_find_found l name a n b : only name l a n b -> ns_find 0 l name None = NsFound (length a).
Proof.
  intros Ho. pose proof (ns_find_spec l name 0) as H. destruct (ns_find 0 l name None) as [j| |].
  - destruct H as (a' & n' & b' & Ho' & ->). destruct (only_unique _ _ _ _ _ _ _ _ Ho Ho') as (-> & _ & _). reflexivity.
  - destruct Ho as (-> & En & _). elim (H n); auto. apply in_app_iff. right. now left.
  - exfalso. destruct H as (a' & m & b' & m' & c & E & E1 & E2). destruct Ho as (El & En & H). rewrite E in El. clear E.
    revert a' El. induction a as [|x a IH]; intros [|x' a'] El; cbn in *.
    + injection El as X Y. subst. apply (H m'); auto. apply in_app_iff. right. now left.
    + injection El as X Y. subst. apply (H m); auto. apply in_app_iff. right. now left.
    + injection El as X Y. subst. apply (H x); auto.
    + injection El as X Y. subst. eapply IH; eauto.
Qed.

Lemma ns_find_not l name : (forall n, In n l -> ns_name n <> name) -> ns_find 0 l name None = NsNotFound.
Proof.
  intros Hn. pose proof (ns_find_spec l name 0) as H. destruct (ns_find 0 l name None) as [j| |]; auto.
  - destruct H as (a & n & b & (-> & En & _) & _). elim (Hn n); auto. apply in_app_iff. right. now left.
  - destruct H as (a & n & b & n' & c & -> & En & _). elim (Hn n); auto. apply in_app_iff. right. now left.
Qed.

Lemma nth_error_mid {A} (a : list A) x b : nth_error (a ++ x :: b) (length a) = Some x.
Proof. induction a; cbn; auto. Qed.

Lemma ns_tombstoned_newest n s : ns_newest n s -> ns_tombstoned n = nss_tomb s.
Proof. intros (h & E). unfold ns_tombstoned. rewrite E, last_opt_snoc. reflexivity. Qed.

(** ** Exact effect *)

Lemma add_namespace_exact x name m x' revived : add_namespace x name m = Some (x', revived) <->
  (revived = false /\ ns_created x x' name (mk_nss 1 false (um_at m) (um_by m))) \/
  (revived = true /\ exists last, nss_tomb last = true /\
     ns_appended x x' name last (mk_nss (nss_version last + 1) false (um_at m) (um_by m))).
Proof.
  unfold add_namespace, ns_created, ns_appended, ns_known. split.
  - pose proof (ns_find_spec (nsx_list x) name 0) as H. destruct (ns_find 0 (nsx_list x) name None) as [j| |]; [| |discriminate].
    + destruct H as (a & n & b & Ho & ->). pose proof Ho as (El & En & Hu). rewrite El. cbn [plus]. rewrite nth_error_mid.
      unfold ns_revive. destruct (negb (ns_tombstoned n)) eqn:T; [discriminate|]. apply negb_false_iff in T.
      destruct (last_opt (ns_snapshots n)) as [s|] eqn:L; [|discriminate]. intros E. injection E as <- <-. right. split; auto.
      pose proof L as L'. apply last_opt_some in L'. exists s. split; [unfold ns_tombstoned in T; rewrite L in T; exact T|]. split; auto.
      exists a, n, b. cbn. rewrite set_nth_split, En. repeat (split; auto).
    + intros E. injection E as <- <-. left. split; auto. split; auto. split; auto. intros (n & Hin & En). now apply (H n).
  - intros [(-> & Ev & Hk & El)|(-> & s & Ht & Ev & a & n & b & El & En & Hs & Hu & El')].
    + rewrite ns_find_not by (intros n Hin En; apply Hk; eauto). f_equal. f_equal. destruct x'; cbn in *. now subst.
    + rewrite (ns_find_found _ _ a n b) by (repeat split; auto). rewrite El, nth_error_mid. unfold ns_revive.
      rewrite (ns_tombstoned_newest _ _ Hs), Ht. cbn. destruct Hs as (h & Es). rewrite Es, last_opt_snoc. f_equal. f_equal.
      destruct x' as [v l]; cbn in *. subst v l. rewrite set_nth_split, En, Es. reflexivity.
Qed.

Lemma delete_namespace_exact x name curr m x' : delete_namespace x name curr m = Some x' <->
  exists last, nss_tomb last = false /\ ns_appended x x' name last (mk_nss (curr + 1) true (um_at m) (um_by m)).
Proof.
  unfold delete_namespace, ns_appended. split.
  - pose proof (ns_find_spec (nsx_list x) name 0) as H. destruct (ns_find 0 (nsx_list x) name None) as [j| |]; try discriminate.
    destruct H as (a & n & b & Ho & ->). pose proof Ho as (El & En & Hu). rewrite El. cbn [plus]. rewrite nth_error_mid.
    unfold ns_mark_tombstoned, ns_tombstoned. destruct (last_opt (ns_snapshots n)) as [s|] eqn:L; [|discriminate].
    destruct (nss_tomb s) eqn:T; [discriminate|]. intros E. injection E as <-. apply last_opt_some in L. exists s. split; auto. split; auto.
    exists a, n, b. cbn. rewrite set_nth_split, En. repeat (split; auto).
  - intros (s & Ht & Ev & a & n & b & El & En & Hs & Hu & El').
    rewrite (ns_find_found _ _ a n b) by (repeat split; auto). rewrite El, nth_error_mid. unfold ns_mark_tombstoned.
    rewrite (ns_tombstoned_newest _ _ Hs), Ht. f_equal. destruct x' as [v l]; cbn in *. subst v l. rewrite set_nth_split, En. reflexivity.
Qed.

(** ** Invariant *)

Lemma alternates_snoc l : forall b s t, alternates b (l ++ [s]) -> nss_tomb t = negb (nss_tomb s) -> alternates b ((l ++ [s]) ++ [t]).
Proof.
  induction l as [|x l IH]; cbn; intros b s t H E; inversion H; subst; constructor; auto.
  constructor; auto. constructor.
Qed.

Lemma ns_appended_ok x x' name last s : ns_ok x -> ns_appended x x' name last s -> nss_tomb s = negb (nss_tomb last) -> ns_ok x'.
Proof.
  intros [Hn Ha] (_ & a & n & b & El & En & (h & Hs) & Hu & El') Et. unfold ns_ok. rewrite El, El' in *. split.
  - rewrite map_app in *. cbn in *. now rewrite En in Hn.
  - intros n' Hin. apply in_app_iff in Hin as [Hin|[<-|Hin]]; [apply Ha, in_app_iff; now left| |apply Ha, in_app_iff; right; now right].
    cbn. destruct (Ha n) as [_ A]; [apply in_app_iff; right; now left|]. split; [destruct (ns_snapshots n); discriminate|].
    rewrite Hs in *. now apply alternates_snoc.
Qed.

Lemma ns_created_ok x x' name s : ns_ok x -> ns_created x x' name s -> nss_tomb s = false -> ns_ok x'.
Proof.
  intros [Hn Ha] (_ & Hk & El) Et. unfold ns_ok. rewrite El. split.
  - rewrite map_app. cbn. apply (Permutation_NoDup (l := name :: map ns_name (nsx_list x))); [apply Permutation_cons_append|].
    constructor; auto. rewrite in_map_iff. intros (n & E & Hin). apply Hk. exists n. auto.
  - intros n Hin. apply in_app_iff in Hin as [Hin|[<-|[]]]; auto. cbn. split; [discriminate|]. repeat constructor. exact Et.
Qed.

Lemma run_ns_edit_cases x e m : 
  (fst (run_ns_edit x e m) = x /\ snd (run_ns_edit x e m) = false) \/
  (snd (run_ns_edit x e m) = true /\ exists name, 
     ((exists s, nss_tomb s = false /\ ns_created x (fst (run_ns_edit x e m)) name s) \/
      (exists last s, nss_tomb s = negb (nss_tomb last) /\ ns_appended x (fst (run_ns_edit x e m)) name last s))).
Proof.
  destruct e as [name|name curr]; cbn.
  - destruct (add_namespace x name m) as [[x' r]|] eqn:E; [right|now left]. split; auto. exists name. cbn.
    apply add_namespace_exact in E as [(-> & H)|(-> & last & Ht & H)]; [left; eexists; split; [|exact H]; reflexivity|].
    right. exists last. eexists; split; [|exact H]. now rewrite Ht.
  - destruct (delete_namespace x name curr m) as [x'|] eqn:E; [right|now left]. split; auto. exists name. cbn.
    apply delete_namespace_exact in E as (last & Ht & H). right. exists last. eexists; split; [|exact H]. now rewrite Ht.
Qed.

Lemma run_ns_edit_ok x e m : ns_ok x -> ns_ok (fst (run_ns_edit x e m)).
Proof.
  intros H. destruct (run_ns_edit_cases x e m) as [[-> _]|(_ & name & [(s & Hs & Hc)|(l & s & Hs & Ha)])]; auto.
  - eapply ns_created_ok; eauto.
  - eapply ns_appended_ok; eauto.
Qed.

Lemma run_ns_edits_ok es : forall x, ns_ok x -> ns_ok (run_ns_edits x es).
Proof. unfold run_ns_edits. induction es as [|[e m] es IH]; intros x H; cbn; auto. apply IH. now apply run_ns_edit_ok. Qed.

(** ** Histories *)

Definition ns_grows (n n' : namespace) : Prop := ns_name n' = ns_name n /\ exists t, ns_snapshots n' = ns_snapshots n ++ t.
Lemma ns_grows_refl l : Forall2 ns_grows l l.
Proof. induction l; constructor; auto. split; auto. exists []. now rewrite app_nil_r. Qed.

Lemma run_ns_edit_kept x e m : ns_histories_kept x (fst (run_ns_edit x e m)).
Proof.
  destruct (run_ns_edit_cases x e m) as [[-> _]|(_ & name & [(s & Hs & (_ & _ & El))|(l & s & Hs & (_ & a & n & b & El & En & _ & _ & El'))])].
  - exists (nsx_list x), []. rewrite app_nil_r. split; auto. apply ns_grows_refl.
  - exists (nsx_list x), [mk_ns name [s]]. split; auto. apply ns_grows_refl.
  - eexists; exists []. rewrite app_nil_r. split; [exact El'|]. rewrite El. apply Forall2_app; [apply ns_grows_refl|].
    constructor; [|apply ns_grows_refl]. cbn. split; eauto.
Qed.

Lemma ns_kept_trans x y z : ns_histories_kept x y -> ns_histories_kept y z -> ns_histories_kept x z.
Proof.
  intros (k1 & n1 & E1 & F1) (k2 & n2 & E2 & F2). rewrite E1 in F2. apply Forall2_app_inv_l in F2 as (p & q & Fp & Fq & ->).
  exists p, (q ++ n2). rewrite E2, app_assoc. split; auto. clear - F1 Fp. revert p Fp.
  induction F1 as [|n n' l l' [N (t & S)] _ IH]; intros p Fp; inversion Fp as [|? n'' ? p' [N' (t' & S')] Fp']; subst; constructor; auto.
  split; [congruence|]. exists (t ++ t'). rewrite S', S. now rewrite app_assoc.
Qed.

Lemma run_ns_edits_kept es : forall x, ns_histories_kept x (run_ns_edits x es).
Proof.
  unfold run_ns_edits. induction es as [|[e m] es IH]; intros x; cbn.
  - exists (nsx_list x), []. rewrite app_nil_r. split; auto. apply ns_grows_refl.
  - eapply ns_kept_trans; [apply run_ns_edit_kept|apply IH].
Qed.

(** ** The set of live names *)

Lemma newest_unique n s s' : ns_newest n s -> ns_newest n s' -> s = s'.
Proof. intros (h & E) (h' & E'). rewrite E in E'. now apply app_inj_tail in E' as []. Qed.

Lemma ns_exists_newest n : ns_snapshots n <> [] -> exists s, ns_newest n s.
Proof. intros H. destruct (exists_last H) as (h & s & E). exists s, h. exact E. Qed.

Lemma only_of_nodup x n : NoDup (map ns_name (nsx_list x)) -> In n (nsx_list x) ->
  exists a b, nsx_list x = a ++ n :: b /\ forall n', In n' (a ++ b) -> ns_name n' <> ns_name n.
Proof.
  intros Hd Hin. apply in_split in Hin as (a & b & E). exists a, b. split; auto. rewrite E, map_app in Hd. cbn in Hd.
  apply NoDup_remove_2 in Hd. intros n' Hin' En. apply Hd. rewrite <- map_app, <- En. now apply in_map.
Qed.

Lemma ns_live_or x name : ns_ok x ->
  (~ ns_known x name) \/ (exists a n b s, only name (nsx_list x) a n b /\ ns_newest n s).
Proof.
  intros [Hn Ha]. destruct (in_dec bytes_dec name (map ns_name (nsx_list x))) as [Hin|Hnot].
  - right. apply in_map_iff in Hin as (n & En & Hin). destruct (only_of_nodup x n Hn Hin) as (a & b & El & Hu).
    destruct (ns_exists_newest n) as (s & Hs); [now apply Ha|]. exists a, n, b, s. split; auto. split; auto. split; auto.
    intros n' Hn'. rewrite <- En. now apply Hu.
  - left. intros (n & Hin & En). apply Hnot. apply in_map_iff. eauto.
Qed.

Lemma live_only x name a n b s : only name (nsx_list x) a n b -> ns_newest n s -> (ns_live x name <-> nss_tomb s = false).
Proof.
  intros (El & En & Hu) Hs. split.
  - intros (n' & s' & Hin & En' & Hs' & Ht). rewrite El in Hin. assert (n' = n).
    { apply in_app_iff in Hin as [Hin|[->|Hin]]; auto; elim (Hu n'); auto; apply in_app_iff; auto. }
    subst n'. now rewrite (newest_unique _ _ _ Hs Hs').
  - intros Ht. exists n, s. repeat split; auto. rewrite El. apply in_app_iff. right. now left.
Qed.

Lemma add_succeeds x name m : ns_ok x -> ((exists r, add_namespace x name m = Some r) <-> ~ ns_live x name).
Proof.
  intros Hok. destruct (ns_live_or x name Hok) as [Hk|(a & n & b & s & Ho & Hs)].
  - split; [intros _ (n & s & Hin & En & _); apply Hk; exists n; auto|]. intros _. eexists (_, false). apply add_namespace_exact. left.
    split; auto. split; [|split; [exact Hk|]]; [instantiate (1 := mk_nsx (nsx_version x) _)|]; reflexivity.
  - rewrite (live_only _ _ _ _ _ _ Ho Hs). destruct Ho as (El & En & Hu). split.
    + intros ([x' r] & E). apply add_namespace_exact in E as [(_ & _ & Hk & _)|(_ & l & Ht & _ & a' & n' & b' & El' & En' & Hs' & Hu' & _)].
      * elim Hk. exists n. rewrite El. split; auto. apply in_app_iff. right. now left.
      * destruct (only_unique name (nsx_list x) a n b a' n' b') as (_ & <- & _); [repeat split; auto|repeat split; auto|].
        rewrite (newest_unique _ _ _ Hs Hs'). congruence.
    + intros Ht. apply not_false_is_true in Ht. eexists (mk_nsx (nsx_version x) _, true). apply add_namespace_exact. right. split; auto.
      exists s. split; auto. split; [reflexivity|]. exists a, n, b. repeat (split; auto). 
Qed.

Lemma delete_succeeds x name curr m : ns_ok x -> ((exists x', delete_namespace x name curr m = Some x') <-> ns_live x name).
Proof.
  intros Hok. destruct (ns_live_or x name Hok) as [Hk|(a & n & b & s & Ho & Hs)].
  - split; [|intros (n & s & Hin & En & _); elim Hk; exists n; auto]. intros (x' & E).
    apply delete_namespace_exact in E as (l & Ht & _ & a & n & b & El & En & _). elim Hk. exists n. rewrite El. split; auto.
    apply in_app_iff. right. now left.
  - rewrite (live_only _ _ _ _ _ _ Ho Hs). destruct Ho as (El & En & Hu). split.
    + intros (x' & E). apply delete_namespace_exact in E as (l & Ht & _ & a' & n' & b' & El' & En' & Hs' & Hu' & _).
      destruct (only_unique name (nsx_list x) a n b a' n' b') as (_ & <- & _); [repeat split; auto|repeat split; auto|].
      now rewrite (newest_unique _ _ _ Hs Hs').
    + intros Ht. eexists (mk_nsx (nsx_version x) _). apply delete_namespace_exact. exists s. split; auto. split; [reflexivity|].
      exists a, n, b. repeat (split; auto).
Qed.

Lemma live_created x x' name s k : ns_created x x' name s -> nss_tomb s = false -> (ns_live x' k <-> k = name \/ ns_live x k).
Proof.
  intros (_ & Hk & El) Ht. unfold ns_live. rewrite El. split.
  - intros (n & s' & Hin & En & Hs & Ht'). apply in_app_iff in Hin as [Hin|[<-|[]]]; [right; exists n, s'; auto|left; auto].
  - intros [->|(n & s' & Hin & H)].
    + exists (mk_ns name [s]), s. split; [apply in_app_iff; right; now left|]. split; auto. split; auto. now exists [].
    + exists n, s'. split; auto. apply in_app_iff. now left.
Qed.

Lemma live_appended x x' name l s k : ns_appended x x' name l s ->
  (ns_live x' k <-> (k = name /\ nss_tomb s = false) \/ (k <> name /\ ns_live x k)).
Proof.
  intros (_ & a & n & b & El & En & Hs & Hu & El'). unfold ns_live. rewrite El, El'. split.
  - intros (n' & s' & Hin & En' & (h & Hs') & Ht). apply in_app_iff in Hin as [Hin|[<-|Hin]].
    + right. split; [intros ->; apply (Hu n'); auto; apply in_app_iff; auto|]. exists n', s'. repeat split; auto; [|now exists h].
      apply in_app_iff. now left.
    + cbn in *. apply app_inj_tail in Hs' as [_ ->]. left. auto.
    + right. split; [intros ->; apply (Hu n'); auto; apply in_app_iff; auto|]. exists n', s'. repeat split; auto; [|now exists h].
      apply in_app_iff. right. now right.
  - intros [[-> Ht]|[Hne (n' & s' & Hin & En' & Hs' & Ht)]].
    + exists (mk_ns name (ns_snapshots n ++ [s])), s. split; [apply in_app_iff; right; now left|]. split; auto. split; auto. now exists (ns_snapshots n).
    + exists n', s'. split; auto. apply in_app_iff in Hin as [Hin|[<-|Hin]]; apply in_app_iff; [now left|congruence|right; now right].
Qed.

Lemma set_edit_step x e m live : ns_ok x -> (forall k, live k = true <-> ns_live x k) ->
  snd (run_ns_edit x e m) = snd (set_edit live e) /\
  forall k, fst (set_edit live e) k = true <-> ns_live (fst (run_ns_edit x e m)) k.
Proof.
  intros Hok Hl. destruct e as [name|name curr]; cbn.
  - pose proof (add_succeeds x name m Hok) as Hs. destruct (add_namespace x name m) as [[x' r]|] eqn:E; cbn.
    + assert (Hn : ~ ns_live x name) by (apply Hs; eauto). split.
      { symmetry. apply negb_true_iff. destruct (live name) eqn:L; auto. apply Hl in L. contradiction. }
      intros k. apply add_namespace_exact in E as [(-> & H)|(-> & last & Ht & H)].
      * rewrite (live_created _ _ _ _ k H) by reflexivity. destruct (beqb k name) eqn:K.
        { apply beqb_eq in K. split; auto. } { rewrite Hl. split; auto. intros [->|X]; auto. rewrite beqb_refl in K. discriminate. }
      * rewrite (live_appended _ _ _ _ _ k H). cbn. destruct (beqb k name) eqn:K.
        { apply beqb_eq in K. split; auto. }
        { assert (k <> name) by (intros ->; rewrite beqb_refl in K; discriminate). rewrite Hl. split; auto. intros [[? _]|[_ ?]]; auto. contradiction. }
    + assert (Hn : live name = true).
      { destruct (live name) eqn:L; auto. destruct (proj2 Hs) as (r & X); [|discriminate]. rewrite <- Hl, L. discriminate. }
      rewrite Hn. split; auto. intros k. destruct (beqb k name) eqn:K; [|apply Hl]. apply beqb_eq in K. subst k. rewrite <- Hl. tauto.
  - pose proof (delete_succeeds x name curr m Hok) as Hs. destruct (delete_namespace x name curr m) as [x'|] eqn:E; cbn.
    + assert (Hn : live name = true) by (apply Hl, Hs; eauto). split; auto.
      intros k. apply delete_namespace_exact in E as (last & Ht & H). rewrite (live_appended _ _ _ _ _ k H). cbn. destruct (beqb k name) eqn:K.
      { apply beqb_eq in K. split; [discriminate|]. intros [[_ ?]|[? _]]; [discriminate|contradiction]. }
      { assert (k <> name) by (intros ->; rewrite beqb_refl in K; discriminate). rewrite Hl. split; auto. intros [[? _]|[_ ?]]; auto. contradiction. }
    + assert (Hn : live name = false).
      { destruct (live name) eqn:L; auto. destruct (proj2 Hs) as (r & X); [now apply Hl|discriminate]. }
      rewrite Hn. split; auto. intros k. destruct (beqb k name) eqn:K; [|apply Hl]. apply beqb_eq in K. subst k. rewrite <- Hl, Hn. tauto.
Qed.

Lemma set_edits_refine es : forall x live, ns_ok x -> (forall k, live k = true <-> ns_live x k) ->
  let '(live', oks) := set_edits live (map fst es) in
  oks = ns_results x es /\ forall k, live' k = true <-> ns_live (run_ns_edits x es) k.
Proof.
  unfold run_ns_edits. induction es as [|[e m] es IH]; intros x live Hok Hl; cbn; [auto|].
  destruct (set_edit_step x e m live Hok Hl) as [H1 H2]. pose proof (run_ns_edit_ok x e m Hok) as Hok'.
  destruct (set_edit live e) as [live1 ok1]; cbn in *. destruct (run_ns_edit x e m) as [x1 ok]; cbn in *. subst ok1.
  specialize (IH x1 live1 Hok' H2). destruct (set_edits live1 (map fst es)) as [live2 oks]. destruct IH as [-> H3]. auto.
Qed.

(** ** Protobuf *)

Definition fit_snapshot (s : ns_snapshot) : ns_snapshot := mk_nss (to_int32 (nss_version s)) (nss_tomb s) (nss_at s) (nss_by s).

Lemma namespaces_proto_trunc v x : new_namespaces v (Some (namespaces_proto x)) =
  Some (mk_nsx v (map (fun n => mk_ns (ns_name n) (map fit_snapshot (ns_snapshots n))) (nsx_list x))).
Proof.
  unfold new_namespaces, namespaces_proto.
  assert (H : map_opt new_namespace (map (fun n => Some (namespace_proto n)) (nsx_list x)) =
    Some (map (fun n => mk_ns (ns_name n) (map fit_snapshot (ns_snapshots n))) (nsx_list x))).
  { induction (nsx_list x) as [|n l IH]; cbn; auto. rewrite IH.
    assert (S : map_opt new_ns_snapshot (map (fun s => Some (ns_snapshot_proto s)) (ns_snapshots n)) = Some (map fit_snapshot (ns_snapshots n))).
    { induction (ns_snapshots n) as [|s t IHs]; cbn; auto. now rewrite IHs. }
    now rewrite S. }
  now rewrite H.
Qed.

Lemma to_int32_fix z : to_int32 z = z <-> - 2 ^ 31 <= z < 2 ^ 31.
Proof.
  split; [|apply to_int32_id]. unfold to_int32. intros H. pose proof (Z.mod_pos_bound z (2 ^ 32) ltac:(lia)).
  destruct (Z.leb_spec (2 ^ 31) (z mod 2 ^ 32)); lia.
Qed.

Lemma map_id_iff {A} (f : A -> A) l : map f l = l <-> forall x, In x l -> f x = x.
Proof.
  split.
  - induction l as [|y l IH]; cbn; intros E x Hin; [destruct Hin|]. injection E as E1 E2. destruct Hin as [<-|Hin]; auto.
  - intros H. rewrite <- (map_id l) at 2. apply map_ext_in. exact H.
Qed.

Lemma namespaces_proto_iff v x : new_namespaces v (Some (namespaces_proto x)) = Some (mk_nsx v (nsx_list x)) <-> versions_fit x.
Proof.
  rewrite namespaces_proto_trunc. unfold versions_fit. split.
  - intros E n s Hn Hs. injection E as E. pose proof (proj1 (map_id_iff _ _) E n Hn) as En. destruct n as [nm ss]; cbn in *. injection En as En.
    pose proof (proj1 (map_id_iff _ _) En s Hs) as Es. destruct s as [ver tb at_ by_]. unfold fit_snapshot in Es. cbn in *. injection Es as Es.
    now apply to_int32_fix.
  - intros H. f_equal. f_equal. apply map_id_iff. intros n Hn. destruct n as [nm ss]; cbn. f_equal. apply map_id_iff. intros s Hs.
    specialize (H (mk_ns nm ss) s Hn Hs). destruct s as [ver tb at_ by_]. unfold fit_snapshot. cbn in *. f_equal. now apply to_int32_fix.
Qed.

Lemma namespaces_clone_same x : namespaces_clone x = x.
Proof.
  destruct x as [v l]. unfold namespaces_clone. cbn. f_equal. rewrite <- (map_id l) at 2. apply map_ext. now intros [n s].
Qed.

Lemma namespaces_view_spec x v : namespaces_view x = Some v <->
  fst v = nsx_version x /\
  Forall2 (fun n w => exists s, ns_newest n s /\ w = mk_nsv (ns_name n) (nss_version s) (nss_tomb s) (nss_by s) (Z.quot (nss_at s) 1000000))
    (nsx_list x) (snd v).
Proof.
  destruct v as [ver ws]. unfold namespaces_view. cbn [fst snd].
  assert (V : forall n w, namespace_view n (Z.of_nat (length (ns_snapshots n)) - 1) = Some w <->
    exists s, ns_newest n s /\ w = mk_nsv (ns_name n) (nss_version s) (nss_tomb s) (nss_by s) (Z.quot (nss_at s) 1000000)).
  { intros n w. unfold namespace_view. destruct (ns_snapshots n) as [|s0 l0] eqn:E.
    - cbn. split; [discriminate|]. intros (s & (h & Eh) & _). rewrite E in Eh. destruct h; discriminate.
    - assert (Hne : ns_snapshots n <> []) by (rewrite E; discriminate). rewrite <- E. destruct (exists_last Hne) as (h & s & Es). rewrite Es, app_length.
      cbn [length]. replace (Z.of_nat (length h + 1) - 1) with (Z.of_nat (length h)) by lia.
      destruct (Z.ltb_spec (Z.of_nat (length h)) 0); [lia|]. destruct (Z.leb_spec (Z.of_nat (length h + 1)) (Z.of_nat (length h))); [lia|].
      cbn [orb]. rewrite Nat2Z.id, nth_error_mid. cbn. split.
      + intros X. injection X as <-. exists s. split; auto. now exists h.
      + intros (s' & (h' & Es') & ->). rewrite Es in Es'. apply app_inj_tail in Es' as [_ ->]. reflexivity. }
  destruct (map_opt _ (nsx_list x)) as [l|] eqn:E; cbn.
  - apply map_opt_some in E. split.
    + intros X. injection X as <- <-. split; auto. clear - E V. induction E; constructor; auto. now apply V.
    + intros (-> & F). f_equal. f_equal. clear - E V F. revert ws F. induction E as [|n w l ws0 H _ IH]; intros ws F; inversion F as [|? w' ? ws' Hw F']; subst; auto.
      f_equal; [|now apply IH]. apply V in Hw. congruence.
  - split; [discriminate|]. intros (_ & F). exfalso. apply map_opt_none in E as (n & Hin & En). clear - V F Hin En.
    induction F as [|n' w l ws Hw _ IH]; [destruct Hin|]. destruct Hin as [->|Hin]; [apply V in Hw; congruence|auto].
Qed.
