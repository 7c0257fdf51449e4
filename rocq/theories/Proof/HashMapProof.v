(** The generated hash maps are maps as long as deletions free no slot that
    another key was stored beyond. *)
From Coq Require Import Ascii Arith NArith ZArith Bool Lia List.
From Verif Require Import Base.Bytes Base.BytesFacts Model.HashMap Spec.HashMapSpec.
Import ListNotations.
Local Open Scope N_scope.

Lemma range_pos : hash_range <> 0.
Proof. discriminate. Qed.

Lemma mod_inj h i j : i < hash_range -> j < hash_range ->
  (h + i) mod hash_range = (h + j) mod hash_range -> i = j.
Proof.
  intros Hi Hj E. pose proof (N.div_mod (h + i) hash_range range_pos) as D1.
  pose proof (N.div_mod (h + j) hash_range range_pos) as D2. rewrite E in D1.
  set (a := (h + i) / hash_range) in *. set (b := (h + j) / hash_range) in *.
  set (r := (h + j) mod hash_range) in *. clearbody a b r.
  unfold hash_range in *. change (2 ^ 64) with 18446744073709551616 in *. lia.
Qed.

Lemma home_add0 h : h mod hash_range = (h + 0) mod hash_range.
Proof. rewrite N.add_0_r. reflexivity. Qed.

Lemma next_add h j : next_hash ((h + j) mod hash_range) = (h + (j + 1)) mod hash_range.
Proof. unfold next_hash. rewrite N.add_mod_idemp_l by exact range_pos. f_equal. lia. Qed.

(** ** The native map *)

Lemma slot_get_in {V} (m : hmap V) s e : slot_get m s = Some e -> In (s, e) m.
Proof.
  induction m as [|[s' e'] m IH]; cbn; [discriminate|].
  destruct (N.eqb_spec s' s) as [->|_]; intros H; [injection H as ->; left; reflexivity|right; auto].
Qed.

Lemma slot_get_none {V} (m : hmap V) s : slot_get m s = None -> forall e, ~ In (s, e) m.
Proof.
  induction m as [|[s' e'] m IH]; cbn; intros H e; [tauto|].
  destruct (N.eqb_spec s' s) as [->|N]; [discriminate|]. intros [X|X]; [congruence|exact (IH H e X)].
Qed.

Lemma slot_in_get {V} (m : hmap V) s e : NoDup (map fst m) -> In (s, e) m -> slot_get m s = Some e.
Proof.
  induction m as [|[s' e'] m IH]; cbn; intros ND; [tauto|]. apply NoDup_cons_iff in ND as [N1 N2].
  intros [X|X].
  - injection X as -> ->. rewrite N.eqb_refl. reflexivity.
  - destruct (N.eqb_spec s' s) as [->|N]; [|auto].
    exfalso. apply N1. apply in_map_iff. exists (s, e). split; [reflexivity|exact X].
Qed.

Lemma slot_del_in {V} (m : hmap V) s s' e : In (s', e) (slot_del m s) <-> In (s', e) m /\ s' <> s.
Proof.
  unfold slot_del. rewrite filter_In. cbn. rewrite negb_true_iff, N.eqb_neq. reflexivity.
Qed.

Lemma slot_set_in {V} (m : hmap V) s e s' e' :
  In (s', e') (slot_set m s e) <-> s' = s /\ e' = e \/ In (s', e') m /\ s' <> s.
Proof.
  unfold slot_set. cbn [In]. rewrite slot_del_in. split.
  - intros [H|H]; [injection H as -> ->; left; split; reflexivity|right; exact H].
  - intros [[-> ->]|H]; [left; reflexivity|right; exact H].
Qed.

Lemma nodup_map_filter {A B'} (f : A -> B') (p : A -> bool) l : NoDup (map f l) -> NoDup (map f (filter p l)).
Proof.
  induction l as [|x l IH]; cbn; intros H; [constructor|]. apply NoDup_cons_iff in H as [H1 H2].
  destruct (p x); cbn; [|auto]. constructor; [|auto].
  intros X. apply H1. apply in_map_iff in X as (y & E & Y). apply filter_In in Y.
  apply in_map_iff. exists y. tauto.
Qed.

Lemma nodup_in_unique {A B' C} (f : A -> B') (l : list A) (x y : A) (c : C) :
  NoDup (map f l) -> In x l -> In y l -> f x = f y -> x = y.
Proof.
  induction l as [|a l IH]; cbn; [tauto|]. intros H X Y E. apply NoDup_cons_iff in H as [H1 H2].
  destruct X as [->|X], Y as [->|Y]; auto.
  - exfalso. apply H1. rewrite E. apply in_map. exact Y.
  - exfalso. apply H1. rewrite <- E. apply in_map. exact X.
Qed.

(** ** Well-formed maps *)

Definition key_of {V} (e : N * (list ascii * V)) : bytes := fst (snd e).

Definition placed {V} (hash : bytes -> N) (m : hmap V) (s : N) (k : bytes) : Prop :=
  exists d, d < hash_range /\ s = (hash k + d) mod hash_range /\
    forall i, i < d -> exists e, In ((hash k + i) mod hash_range, e) m.

Record wf {V} (hash : bytes -> N) (m : hmap V) : Prop := mk_wf {
  wf_slots : NoDup (map fst m);
  wf_keys : NoDup (map key_of m);
  wf_placed : forall s k v, In (s, (k, v)) m -> placed hash m s k }.

Lemma wf_key_unique {V} hash (m : hmap V) s v s' v' k :
  wf hash m -> In (s, (k, v)) m -> In (s', (k, v')) m -> s = s' /\ v = v'.
Proof.
  intros W H H'. pose proof (nodup_in_unique key_of m (s, (k, v)) (s', (k, v')) tt (wf_keys _ _ W) H H' eq_refl) as E.
  injection E as -> ->. split; reflexivity.
Qed.

Lemma wf_slot_unique {V} hash (m : hmap V) s e e' :
  wf hash m -> In (s, e) m -> In (s, e') m -> e = e'.
Proof.
  intros W H H'. pose proof (nodup_in_unique fst m (s, e) (s, e') tt (wf_slots _ _ W) H H' eq_refl) as E.
  injection E as ->. reflexivity.
Qed.

(** the slots on the way are distinct entries *)
Lemma way_length {V} (m : hmap V) h n :
  N.of_nat n <= hash_range ->
  (forall i, i < N.of_nat n -> exists e, In ((h + i) mod hash_range, e) m) ->
  (n <= length m)%nat.
Proof.
  intros Hn H. rewrite <- (map_length fst m).
  rewrite <- (seq_length n 0), <- (map_length (fun i => (h + N.of_nat i) mod hash_range)).
  apply NoDup_incl_length.
  - assert (G : forall k a, (a + k <= n)%nat -> NoDup (map (fun i => (h + N.of_nat i) mod hash_range) (seq a k))).
    { induction k as [|k IH]; intros a Ha; cbn; constructor.
      - intros X. apply in_map_iff in X as (b & E & Hb). apply in_seq in Hb.
        apply mod_inj in E; lia.
      - apply IH. lia. }
    apply G. lia.
  - intros x X. apply in_map_iff in X as (i & <- & Hi). apply in_seq in Hi.
    destruct (H (N.of_nat i)) as [e He]; [lia|]. apply in_map_iff. eexists. split; [|exact He]. reflexivity.
Qed.

Lemma find_present {V} hash (m : hmap V) s k v :
  wf hash m -> In (s, (k, v)) m -> find hash m k = Some (s, Some v).
Proof.
  intros W H. destruct (wf_placed _ _ W s k v H) as (d & Hd & Es & Hi).
  unfold find. rewrite home_add0.
  assert (Len : (N.to_nat d <= length m)%nat).
  { apply (way_length m (hash k)); [lia|]. intros i L. apply Hi. lia. }
  assert (G : forall n j fuel, j + N.of_nat n = d -> (n <= fuel)%nat ->
    probe fuel m k ((hash k + j) mod hash_range) = Some (s, Some v)).
  { induction n as [|n IH]; intros j fuel E F.
    - assert (j = d) as -> by lia. rewrite <- Es. destruct fuel; cbn [probe];
        rewrite (slot_in_get _ _ _ (wf_slots _ _ W) H), beqb_refl; reflexivity.
    - destruct (Hi j) as [[k' v'] Hj]; [lia|]. destruct fuel as [|fuel]; [lia|]. cbn [probe].
      rewrite (slot_in_get _ _ _ (wf_slots _ _ W) Hj).
      destruct (beqb k' k) eqn:Eb.
      + exfalso. apply beqb_eq in Eb. subst k'.
        destruct (wf_key_unique _ _ _ _ _ _ _ W H Hj) as [E' _]. rewrite Es in E'.
        apply mod_inj in E'; lia.
      + rewrite next_add. apply IH; lia. }
  apply (G (N.to_nat d)); lia.
Qed.

Lemma find_absent {V} hash (m : hmap V) k :
  NoDup (map fst m) -> N.of_nat (length m) < hash_range -> (forall s v, ~ In (s, (k, v)) m) ->
  exists d, find hash m k = Some ((hash k + d) mod hash_range, None) /\ d < hash_range /\
    (forall e, ~ In ((hash k + d) mod hash_range, e) m) /\
    forall i, i < d -> exists e, In ((hash k + i) mod hash_range, e) m.
Proof.
  intros ND Len Ab. unfold find. rewrite home_add0.
  assert (G : forall fuel j, (N.to_nat j + fuel = length m)%nat ->
    (forall i, i < j -> exists e, In ((hash k + i) mod hash_range, e) m) ->
    exists d, probe fuel m k ((hash k + j) mod hash_range) = Some ((hash k + d) mod hash_range, None) /\
      d < hash_range /\ (forall e, ~ In ((hash k + d) mod hash_range, e) m) /\
      forall i, i < d -> exists e, In ((hash k + i) mod hash_range, e) m).
  { assert (D : forall j, (N.to_nat j <= length m)%nat -> j < hash_range) by (intros; lia).
    induction fuel as [|fuel IH]; intros j E Hj; cbn [probe].
    - destruct (slot_get m ((hash k + j) mod hash_range)) as [[k' v']|] eqn:Es.
      + exfalso. apply slot_get_in in Es.
        assert (S (length m) <= length m)%nat; [|lia].
        apply (way_length m (hash k)); [lia|].
        intros i Hi. destruct (N.lt_ge_cases i j) as [L|L]; [auto|].
        assert (i = j) as -> by lia. eexists. exact Es.
      + exists j. repeat split; [apply D; lia|exact (slot_get_none _ _ Es)|exact Hj].
    - destruct (slot_get m ((hash k + j) mod hash_range)) as [[k' v']|] eqn:Es.
      + destruct (beqb k' k) eqn:Eb.
        * exfalso. apply beqb_eq in Eb. subst k'. apply slot_get_in in Es. exact (Ab _ _ Es).
        * rewrite next_add. apply IH; [lia|].
          intros i Hi. destruct (N.lt_ge_cases i j) as [L|L]; [auto|].
          assert (i = j) as -> by lia. apply slot_get_in in Es. eexists. exact Es.
      + exists j. repeat split; [apply D; lia|exact (slot_get_none _ _ Es)|exact Hj]. }
  apply (G (length m) 0); [lia|]. intros i Hi. lia.
Qed.

(** ** The operations *)

Lemma key_in_dec {V} (m : hmap V) k :
  (exists s v, In (s, (k, v)) m) \/ (forall s v, ~ In (s, (k, v)) m).
Proof.
  induction m as [|[s [k' v]] m IH]; [right; intros s v []|].
  destruct (bytes_dec k' k) as [->|N]; [left; exists s, v; left; reflexivity|].
  destruct IH as [(s' & v' & H)|H]; [left; exists s', v'; right; exact H|].
  right. intros s' v' [X|X]; [congruence|exact (H s' v' X)].
Qed.

Lemma slot_del_length {V} (m : hmap V) s : (length (slot_del m s) <= length m)%nat.
Proof. unfold slot_del. induction m as [|x m IH]; cbn; [lia|]. destruct (negb _); cbn; lia. Qed.

Lemma set_ok {V} hash (m : hmap V) k v :
  wf hash m -> N.of_nat (length m) < hash_range ->
  exists m', hm_set hash m k v = Some m' /\ wf hash m' /\ (length m' <= S (length m))%nat /\
    forall k' v', (exists s, In (s, (k', v')) m') <->
                  k' = k /\ v' = v \/ k' <> k /\ exists s, In (s, (k', v')) m.
Proof.
  intros W Len. unfold hm_set.
  assert (MAIN : forall s,
    placed hash m s k ->
    (forall s' k' v', In (s', (k', v')) m -> s' = s <-> k' = k) ->
    let m' := slot_set m s (k, v) in
    wf hash m' /\ (length m' <= S (length m))%nat /\
    forall k' v', (exists s', In (s', (k', v')) m') <->
                  k' = k /\ v' = v \/ k' <> k /\ exists s', In (s', (k', v')) m).
  { intros s P Q m'.
    assert (Mono : forall t e, In (t, e) m -> exists e', In (t, e') m').
    { intros t e H. destruct (N.eq_dec t s) as [->|N].
      - exists (k, v). apply slot_set_in. left. split; reflexivity.
      - exists e. apply slot_set_in. right. split; assumption. }
    split; [|split].
    - constructor.
      + cbn. constructor.
        * intros X. apply in_map_iff in X as ([t e] & E & H). cbn in E. subst t.
          apply slot_del_in in H. tauto.
        * apply nodup_map_filter. apply W.
      + cbn. constructor.
        * intros X. apply in_map_iff in X as ([t [k' v']] & E & H). cbn in E. subst k'.
          apply slot_del_in in H as [H N]. apply N. apply (Q t k v' H). reflexivity.
        * apply nodup_map_filter. apply W.
      + intros t k' v' H. assert (PP : placed hash m t k').
        { apply slot_set_in in H as [[-> E]|[H _]]; [injection E as -> ->; exact P|].
          exact (wf_placed _ _ W _ _ _ H). }
        destruct PP as (d & D1 & D2 & D3). exists d. repeat split; auto.
        intros i Hi. destruct (D3 i Hi) as [e He]. eapply Mono. exact He.
    - unfold m', slot_set. cbn [length]. pose proof (slot_del_length m s). lia.
    - intros k' v'. split.
      + intros [t H]. apply slot_set_in in H as [[-> E]|[H N]].
        * injection E as -> ->. left. split; reflexivity.
        * right. split; [|exists t; exact H]. intros E. apply N. apply (Q t k' v' H). exact E.
      + intros [[-> ->]|[N [t H]]].
        * exists s. apply slot_set_in. left. split; reflexivity.
        * exists t. apply slot_set_in. right. split; [exact H|]. intros E. apply N. apply (Q t k' v' H). exact E. }
  destruct (key_in_dec m k) as [(s & v0 & H)|Ab].
  - rewrite (find_present hash m s k v0 W H). eexists. split; [reflexivity|]. apply MAIN.
    + exact (wf_placed _ _ W _ _ _ H).
    + intros s' k' v' H'. split.
      * intros ->. pose proof (wf_slot_unique _ _ _ _ _ W H H') as E. congruence.
      * intros ->. symmetry. apply (wf_key_unique _ _ _ _ _ _ _ W H H').
  - destruct (find_absent hash m k (wf_slots _ _ W) Len Ab) as (d & F & D1 & D2 & D3).
    rewrite F. eexists. split; [reflexivity|]. apply MAIN.
    + exists d. repeat split; assumption.
    + intros s' k' v' H'. split; intros ->; exfalso; [exact (D2 _ H')|exact (Ab _ _ H')].
Qed.

Lemma delete_ok {V} hash (m : hmap V) k :
  wf hash m -> N.of_nat (length m) < hash_range -> harmless hash m k ->
  exists m', hm_delete hash m k = Some m' /\ wf hash m' /\ (length m' <= length m)%nat /\
    forall k' v', (exists s, In (s, (k', v')) m') <-> k' <> k /\ exists s, In (s, (k', v')) m.
Proof.
  intros W Len HL. unfold hm_delete. destruct (key_in_dec m k) as [(s & v0 & H)|Ab].
  - rewrite (find_present hash m s k v0 W H). eexists. split; [reflexivity|]. split; [|split].
    + constructor.
      * apply nodup_map_filter. apply W.
      * apply nodup_map_filter. apply W.
      * intros t k' v' H'. apply slot_del_in in H' as [H' N].
        assert (k' <> k) as Nk.
        { intros ->. apply N. symmetry. apply (wf_key_unique _ _ _ _ _ _ _ W H H'). }
        destruct (wf_placed _ _ W _ _ _ H') as (d & D1 & D2 & D3). exists d. repeat split; auto.
        intros i Hi. destruct (D3 i Hi) as [e He]. exists e. apply slot_del_in. split; [exact He|].
        intros E. apply (HL s v0 t k' v' H H' Nk). exists d, i. repeat split; auto.
    + apply slot_del_length.
    + intros k' v'. split.
      * intros [t H']. apply slot_del_in in H' as [H' N]. split; [|exists t; exact H'].
        intros ->. apply N. symmetry. apply (wf_key_unique _ _ _ _ _ _ _ W H H').
      * intros [N [t H']]. exists t. apply slot_del_in. split; [exact H'|].
        intros ->. apply N. pose proof (wf_slot_unique _ _ _ _ _ W H H') as E. congruence.
  - destruct (find_absent hash m k (wf_slots _ _ W) Len Ab) as (d & F & _).
    rewrite F. exists m. split; [reflexivity|]. split; [exact W|]. split; [lia|].
    intros k' v'. split.
    + intros [t H']. split; [|exists t; exact H']. intros ->. exact (Ab _ _ H').
    + intros [_ X]. exact X.
Qed.

(** ** Histories *)

Definition holds {V} (m : hmap V) (f : bytes -> option V) : Prop :=
  forall k v, (exists s, In (s, (k, v)) m) <-> f k = Some v.

Lemma last_set_snoc {V} (xs : list (hm_op V)) x k : last_set (xs ++ [x]) k = last_step k (last_set xs k) x.
Proof. unfold last_set. rewrite fold_left_app. reflexivity. Qed.

Lemma hm_run_app {V} hash (xs ys : list (hm_op V)) : forall m,
  hm_run hash m (xs ++ ys) = match hm_run hash m xs with None => None | Some m' => hm_run hash m' ys end.
Proof.
  induction xs as [|x xs IH]; intros m; cbn; [reflexivity|].
  destruct (hm_step hash m x); [apply IH|reflexivity].
Qed.

Lemma run_holds {V} hash (xs : list (hm_op V)) :
  N.of_nat (length xs) < hash_range -> deletes_harmlessly hash xs ->
  exists m, hm_run hash [] xs = Some m /\ wf hash m /\ (length m <= length xs)%nat /\ holds m (last_set xs).
Proof.
  induction xs as [|x xs IH] using rev_ind; intros Len HL.
  - exists []. split; [reflexivity|]. split; [|split; [cbn; lia|]].
    + constructor; try constructor. intros s k v [].
    + intros k v. split; [intros [s []]|discriminate].
  - rewrite app_length in Len. change (length [x]) with 1%nat in Len.
    destruct IH as (m & R & W & L & H); [lia| |].
    { intros ys k zs m E R. apply (HL ys k (zs ++ [x])); [rewrite E, <- app_assoc; reflexivity|exact R]. }
    rewrite hm_run_app, R. cbn [hm_run].
    destruct x as [k v|k|]; cbn [hm_step].
    + destruct (set_ok hash m k v W ltac:(lia)) as (m' & E & W' & L' & H').
      rewrite E. exists m'. split; [reflexivity|]. split; [exact W'|]. split; [rewrite app_length; cbn; lia|].
      intros k' v'. rewrite H', last_set_snoc. cbn. rewrite (H k' v').
      destruct (beqb k k') eqn:Eb.
      * apply beqb_eq in Eb. subst. split; [intros [[_ ->]|[N _]]; [reflexivity|congruence]|].
        intros X. injection X as ->. left. split; reflexivity.
      * apply beqb_neq in Eb. split; [intros [[-> _]|[_ X]]; [congruence|exact X]|].
        intros X. right. split; [congruence|exact X].
    + assert (HK : harmless hash m k) by (apply (HL xs k []); [reflexivity|exact R]).
      destruct (delete_ok hash m k W ltac:(lia) HK) as (m' & E & W' & L' & H').
      rewrite E. exists m'. split; [reflexivity|]. split; [exact W'|]. split; [rewrite app_length; cbn; lia|].
      intros k' v'. rewrite H', last_set_snoc. cbn. rewrite (H k' v').
      destruct (beqb k k') eqn:Eb.
      * apply beqb_eq in Eb. subst. split; [intros [N _]; congruence|discriminate].
      * apply beqb_neq in Eb. split; [intros [_ X]; exact X|]. intros X. split; [congruence|exact X].
    + exists []. split; [reflexivity|]. split; [|split; [cbn; lia|]].
      * constructor; try constructor. intros s k v [].
      * intros k v. rewrite last_set_snoc. split; [intros [s []]|discriminate].
Qed.

Lemma holds_is_map {V} hash (m : hmap V) f :
  wf hash m -> N.of_nat (length m) < hash_range -> holds m f -> is_map hash m f.
Proof.
  intros W Len H.
  assert (G : forall k, hm_get hash m k = Some (f k)); [|split; [exact G|split; [|split; [|split]]]].
  - intros k. unfold hm_get. destruct (key_in_dec m k) as [(s & v & Hk)|Ab].
    + rewrite (find_present hash m s k v W Hk). f_equal. symmetry. apply H. exists s. exact Hk.
    + destruct (find_absent hash m k (wf_slots _ _ W) Len Ab) as (d & F & _). rewrite F. f_equal.
      destruct (f k) as [v|] eqn:E; [|reflexivity]. exfalso. apply H in E as [s Hs]. exact (Ab _ _ Hs).
  - intros k. unfold hm_contains. rewrite G. eexists. split; [reflexivity|].
    destruct (f k); split; congruence.
  - intros k v. unfold hm_entries. rewrite in_map_iff, <- (H k v). split.
    + intros ([s e] & E & X). cbn in E. subst e. exists s. exact X.
    + intros [s X]. exists (s, (k, v)). split; [reflexivity|exact X].
  - unfold hm_entries. rewrite map_map. exact (wf_keys _ _ W).
  - unfold hm_len, hm_entries. rewrite !map_length. reflexivity.
Qed.

Lemma harmless_history {V} hash (xs : list (hm_op V)) :
  N.of_nat (length xs) < hash_range -> deletes_harmlessly hash xs ->
  exists m, hm_run hash [] xs = Some m /\ is_map hash m (last_set xs).
Proof.
  intros Len HL. destruct (run_holds hash xs Len HL) as (m & R & W & L & H).
  exists m. split; [exact R|]. apply holds_is_map; [exact W|lia|exact H].
Qed.

Lemma never_deletes_harmless {V} hash (xs : list (hm_op V)) : never_deletes xs -> deletes_harmlessly hash xs.
Proof. intros H ys k zs m E _. exfalso. apply (H k). rewrite E. apply in_elt. Qed.

(** without collisions every key is at home *)
Definition homed {V} (hash : bytes -> N) (ks : list bytes) (m : hmap V) : Prop :=
  NoDup (map fst m) /\ forall s k v, In (s, (k, v)) m -> In k ks /\ s = hash k mod hash_range.

Lemma homed_find {V} hash ks (m : hmap V) k :
  homed hash ks m -> no_collision hash ks -> In k ks ->
  exists v, find hash m k = Some (hash k mod hash_range, v).
Proof.
  intros [ND Hm] NC Hk. unfold find.
  destruct (slot_get m (hash k mod hash_range)) as [[k' v]|] eqn:E.
  - exists (Some v). pose proof (slot_get_in _ _ _ E) as H. destruct (Hm _ _ _ H) as [Hk' Es].
    assert (k' = k) as -> by (apply NC; auto).
    destruct (length m); cbn [probe]; rewrite E, beqb_refl; reflexivity.
  - exists None. destruct (length m); cbn [probe]; rewrite E; reflexivity.
Qed.

Lemma homed_run {V} hash ks : no_collision hash ks -> forall (xs : list (hm_op V)) m m',
  homed hash ks m -> (forall k, In k (keys_used xs) -> In k ks) -> hm_run hash m xs = Some m' ->
  homed hash ks m'.
Proof.
  intros NC. induction xs as [|x xs IH]; intros m m' Hm Hk R; cbn in R.
  - injection R as <-. exact Hm.
  - destruct (hm_step hash m x) as [m1|] eqn:E; [|discriminate].
    assert (Hk' : forall k, In k (keys_used xs) -> In k ks).
    { intros k H. apply Hk. cbn. rewrite in_app_iff. right. exact H. }
    refine (IH m1 m' _ Hk' R). clear IH R m'. pose proof Hm as [ND HS].
    destruct x as [k v|k|]; cbn [hm_step] in E.
    + assert (Kk : In k ks) by (apply Hk; cbn; tauto).
      unfold hm_set in E. destruct (homed_find hash ks m k Hm NC Kk) as [o F]. rewrite F in E.
      injection E as <-. split.
      * cbn. constructor.
        -- intros X. apply in_map_iff in X as ([t e] & Et & H). cbn in Et. subst t.
           apply slot_del_in in H. tauto.
        -- apply nodup_map_filter. exact ND.
      * intros s k' v' H. apply slot_set_in in H as [[-> X]|[H _]]; [|exact (HS _ _ _ H)].
        injection X as -> ->. split; [exact Kk|reflexivity].
    + assert (Kk : In k ks) by (apply Hk; cbn; tauto).
      unfold hm_delete in E. destruct (homed_find hash ks m k Hm NC Kk) as [o F]. rewrite F in E.
      destruct o as [v|]; injection E as <-; [|exact Hm]. split.
      * apply nodup_map_filter. exact ND.
      * intros s k' v' H. apply slot_del_in in H as [H _]. exact (HS _ _ _ H).
    + injection E as <-. split; [constructor|intros s k v []].
Qed.

Lemma no_collision_harmless {V} hash (xs : list (hm_op V)) :
  no_collision hash (keys_used xs) -> deletes_harmlessly hash xs.
Proof.
  intros NC ys k zs m E R s v s' k' v' H H' N (d & i & L1 & L2 & E1 & E2).
  assert (Hm : homed hash (keys_used xs) m).
  { eapply (homed_run hash (keys_used xs) NC ys [] m).
    - split; [constructor|intros ? ? ? []].
    - intros j Hj. rewrite E. unfold keys_used. rewrite flat_map_app, in_app_iff. left. exact Hj.
    - exact R. }
  destruct Hm as [_ HS]. destruct (HS _ _ _ H') as [_ X]. rewrite X, home_add0 in E1.
  apply mod_inj in E1; lia.
Qed.

(** ** Exactly the harmless deletions are right *)

Lemma harmful_hides {V} hash (m : hmap V) k s v s' k' v' m' :
  wf hash m -> N.of_nat (length m) < hash_range ->
  In (s, (k, v)) m -> In (s', (k', v')) m -> k' <> k -> on_the_way hash s k' s' ->
  hm_delete hash m k = Some m' ->
  hm_get hash m k' = Some (Some v') /\ hm_get hash m' k' = Some None.
Proof.
  intros W Len H H' N (d & i & L1 & L2 & E1 & E2) D.
  unfold hm_get at 1. rewrite (find_present hash m s' k' v' W H'). split; [reflexivity|].
  unfold hm_delete in D. rewrite (find_present hash m s k v W H) in D. injection D as <-.
  assert (ND : NoDup (map fst (slot_del m s))) by (apply nodup_map_filter; apply W).
  assert (Len' : (N.to_nat i <= length (slot_del m s))%nat).
  { apply (way_length _ (hash k')); [lia|]. intros j Hj.
    destruct (wf_placed _ _ W _ _ _ H') as (d' & D1 & D2 & D3).
    assert (d' = d) as -> by (apply (mod_inj (hash k')); [exact D1|exact L2|congruence]).
    destruct (D3 j ltac:(lia)) as [e He]. exists e. apply slot_del_in. split; [exact He|].
    intros X. rewrite E2 in X. apply mod_inj in X; lia. }
  unfold hm_get, find. rewrite home_add0.
  assert (G : forall n j fuel, j + N.of_nat n = i -> (n <= fuel)%nat ->
    exists t, probe fuel (slot_del m s) k' ((hash k' + j) mod hash_range) = Some (t, None)).
  { assert (Keys : forall t w, In (t, (k', w)) (slot_del m s) -> t = s').
    { intros t w X. apply slot_del_in in X as [X _]. apply (wf_key_unique _ _ _ _ _ _ _ W X H'). }
    induction n as [|n IH]; intros j fuel E F.
    - assert (j = i) as -> by lia. rewrite <- E2.
      assert (slot_get (slot_del m s) s = None) as G.
      { destruct (slot_get (slot_del m s) s) as [e|] eqn:Eg; [|reflexivity].
        apply slot_get_in in Eg. apply slot_del_in in Eg. tauto. }
      exists s. destruct fuel; cbn [probe]; rewrite G; reflexivity.
    - destruct fuel as [|fuel]; [lia|]. cbn [probe].
      destruct (slot_get _ _) as [[k'' w]|] eqn:Eg; [|eexists; reflexivity].
      destruct (beqb k'' k') eqn:Eb.
      + exfalso. apply beqb_eq in Eb. subst k''. apply slot_get_in in Eg. apply Keys in Eg.
        rewrite E1 in Eg. apply mod_inj in Eg; lia.
      + rewrite next_add. apply IH; lia. }
  destruct (G (N.to_nat i) 0 (length (slot_del m s)) ltac:(lia) Len') as [t ->]. reflexivity.
Qed.

Lemma delete_exact {V} hash (xs : list (hm_op V)) m k m' :
  N.of_nat (length xs) < hash_range -> deletes_harmlessly hash xs ->
  hm_run hash [] xs = Some m -> hm_delete hash m k = Some m' ->
  harmless hash m k <-> forall k', k' <> k -> hm_get hash m' k' = hm_get hash m k'.
Proof.
  intros Len HL R D. destruct (run_holds hash xs Len HL) as (m0 & R0 & W & L & H).
  rewrite R in R0. injection R0 as <-. split.
  - intros HM k' N. destruct (delete_ok hash m k W ltac:(lia) HM) as (m1 & E & W' & L' & H').
    rewrite D in E. injection E as <-.
    unfold hm_get. destruct (key_in_dec m k') as [(s & v & Hk)|Ab].
    + rewrite (find_present hash m s k' v W Hk).
      destruct (proj2 (H' k' v) (conj N (ex_intro _ s Hk))) as [t Ht].
      rewrite (find_present hash m' t k' v W' Ht). reflexivity.
    + destruct (find_absent hash m k' (wf_slots _ _ W) ltac:(lia) Ab) as (d & F & _). rewrite F.
      assert (Ab' : forall s v, ~ In (s, (k', v)) m').
      { intros s v X. destruct (proj1 (H' k' v) (ex_intro _ s X)) as [_ [t Ht]]. exact (Ab _ _ Ht). }
      destruct (find_absent hash m' k' (wf_slots _ _ W') ltac:(lia) Ab') as (d' & F' & _). rewrite F'. reflexivity.
  - intros G s v s' k' v' Hs Hs' N Way.
    destruct (harmful_hides hash m k s v s' k' v' m' W ltac:(lia) Hs Hs' N Way D) as [G1 G2].
    specialize (G k' N). congruence.
Qed.
