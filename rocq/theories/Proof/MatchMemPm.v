(** Lists of pipelines in memory: reading, drop policies, de-duplication, filtering. *)
From Coq Require Import Ascii String Arith NArith ZArith Bool Lia Permutation List.
From Verif.Proof Require Import MemProof MemSep RuleMemCopy RuleMemRules MatchMemSep MatchMemSlice.
From Verif.Base Require Import Bytes Mem.
From Verif.Model Require Import AggType Policy Transformation Pipeline Metadata Filter MetricID Rules RuleSet
  RuleMem MatchMem.
From Verif.Spec Require Import RuleMemSpec MatchMemSpec.
Import ListNotations.
Open Scope nat_scope.

(** * Reading *)

Lemma each_reads {A} (t : A -> tree) (rd : val -> prog A) m :
  (forall x v f, shows m v (t x) f -> rd v m = Some (x, m)) ->
  forall l vs f, shows_all m vs (map t l) f -> each rd vs m = Some (l, m).
Proof.
  intro H. induction l as [|x l IH]; intros vs f Hs; cbn [map] in Hs; inversion Hs; subst; cbn [each]; [reflexivity|].
  unfold bind. match goal with K : shows m _ (t x) _ |- _ => rewrite (H _ _ _ K) end.
  match goal with K : shows_all m _ (map t l) _ |- _ => rewrite (IH _ _ K) end. reflexivity.
Qed.
Lemma elems_reads {A} (t : A -> tree) (rd : val -> prog A) m :
  (forall x v f, shows m v (t x) f -> rd v m = Some (x, m)) ->
  forall l v f, shows m v (TList (map t l)) f -> bind (elems v) (each rd) m = Some (l, m).
Proof.
  intros H l v f Hs. destruct (elems_shows _ _ _ _ Hs) as (vs & g & E & Hvs & _). unfold bind. rewrite E.
  exact (each_reads t rd m H l vs g Hvs).
Qed.

Lemma read_bytes_ok m s v f : shows m v (t_bytes s) f -> read_bytes v m = Some (s, m).
Proof.
  apply (elems_reads (fun c => TAtom (AByte c))). intros x w g H. inversion H; subst. reflexivity.
Qed.
Lemma read_sps_ok m s v f : shows m v (t_sps s) f -> read_sps v m = Some (s, m).
Proof.
  apply (elems_reads (fun c => TAtom (APolicy c))). intros x w g H. inversion H; subst. reflexivity.
Qed.
Lemma read_applied_op_ok m o v f : shows m v (t_applied_op o) f -> read_applied_op v m = Some (o, m).
Proof.
  unfold t_applied_op. intro H. inv_shows. cbn [read_applied_op]. unfold bind.
  match goal with K : shows m _ (t_bytes _) _ |- _ => rewrite (read_bytes_ok _ _ _ _ K) end.
  unfold ret. destruct o as [k tf [i a]]. reflexivity.
Qed.
Lemma bind_elems {A C} v (rd : val -> prog A) (k : list A -> prog C) m l :
  bind (elems v) (each rd) m = Some (l, m) -> bind (elems v) (fun x => bind (each rd x) k) m = k l m.
Proof. unfold bind. intro H. destruct (elems v m) as [[x m1]|]; [|discriminate]. rewrite H. reflexivity. Qed.
Lemma read_pm_ok m p v f : shows m v (t_pm p) f -> read_pm v m = Some (p, m).
Proof.
  unfold t_pm. intro H. inv_shows. cbn [read_pm]. unfold bind at 1.
  match goal with K : shows m _ (t_sps _) _ |- _ => rewrite (read_sps_ok _ _ _ _ K) end.
  match goal with K : shows m ?w (TList (map t_applied_op _)) _ |- _ =>
    rewrite (bind_elems w read_applied_op _ m _ (elems_reads t_applied_op read_applied_op m (read_applied_op_ok m) _ w _ K)) end.
  unfold ret. destruct p. reflexivity.
Qed.
Lemma read_op_ok m o v f : shows m v (t_op o) f -> read_op v m = Some (o, m).
Proof.
  unfold t_op, t_rollup_op. intro H. inv_shows. cbn [read_op]. unfold bind at 1.
  match goal with K : shows m _ (t_bytes _) _ |- _ => rewrite (read_bytes_ok _ _ _ _ K) end.
  match goal with K : shows m ?w (TList (map t_bytes _)) _ |- _ =>
    rewrite (bind_elems w read_bytes _ m _ (elems_reads t_bytes read_bytes m (read_bytes_ok m) _ w _ K)) end.
  unfold ret. destruct o as [k a tf [n t i]]. reflexivity.
Qed.
Lemma read_target_ok m t v f : shows m v (t_target t) f -> read_target v m = Some (t, m).
Proof.
  unfold t_target. intro H. inv_shows. cbn [read_target].
  match goal with K : shows m ?w (TList (map t_op _)) _ |- _ =>
    rewrite (bind_elems w read_op _ m _ (elems_reads t_op read_op m (read_op_ok m) _ w _ K)) end.
  unfold bind. match goal with K : shows m _ (t_sps _) _ |- _ => rewrite (read_sps_ok _ _ _ _ K) end.
  unfold ret. destruct t. reflexivity.
Qed.

(** * Items that are not written to any more *)

Definition frozen {X} (t : X -> tree) (m : memory) (i : item X) : Prop :=
  it_w i = [] /\ shows m (it_v i) (t (it_x i)) (it_f i).
Lemma frozen_frame {X} (t : X -> tree) m m' i : frozen t m i -> same m m' (it_w i) (it_f i) -> frozen t m' i.
Proof. intros [A B] Hs. split; [exact A|]. exact (same_shows _ _ _ _ _ _ Hs B). Qed.
Lemma frozen_own {X} (t : X -> tree) m L : Forall (frozen t m) L -> own L = [].
Proof. induction 1 as [|i L [H _] _ IH]; [reflexivity|]. cbn [flat_map]. rewrite H, IH. reflexivity. Qed.
Lemma frozen_displays {X} (t : X -> tree) m i :
  frozen t m i -> exists f, shows m (it_v i) (t (it_x i)) f /\ forall l, In l f -> In (addr l) (it_w i) \/ In l (it_f i).
Proof. intros [_ H]. exists (it_f i). auto. Qed.
(** the items of a value that shows a list *)
Lemma shows_items {X} (t : X -> tree) m : forall l vs f,
  shows_all m vs (map t l) f -> exists L, vals L = vs /\ xs L = l /\ Forall (frozen t m) L /\ looks L = f.
Proof.
  induction l as [|x l IH]; intros vs f H; cbn [map] in H.
  - inversion H; subst. exists []. repeat split; constructor.
  - inversion H as [|v t1 f1 vs' ts fs H1 H2]; subst. destruct (IH _ _ H2) as (L & E1 & E2 & E3 & E4).
    exists (mk_it v x [] f1 :: L). cbn [map flat_map it_v it_x it_f]. rewrite E1, E2, E4. repeat split.
    constructor; [split; [reflexivity|exact H1]|exact E3].
Qed.

Notation pmi := (item pipeline_metadata).
Notation frozen_pm := (frozen t_pm).

Lemma pm_shape m (i : pmi) : frozen_pm m i ->
  exists s o, it_v i = VStruct [VAtom (AId (pm_agg (it_x i))); s; o; VAtom (AInt (pm_drop (it_x i)))].
Proof. intros [_ H]. unfold t_pm in H. destruct i as [v x w f]. cbn [it_v it_x it_f] in *. inv_shows. eexists _, _. reflexivity. Qed.

(** * De-duplication *)

Definition steady (A : list nat) (m : memory) (i : pmi) : Prop :=
  forall m', (forall p, ~ In p A -> m_at m' p = m_at m p) -> read_pm (it_v i) m' = Some (it_x i, m').
Lemma steady_later A m m' i : steady A m i -> (forall p, ~ In p A -> m_at m' p = m_at m p) -> steady A m' i.
Proof. intros H K m2 J. apply H. intros p Hp. rewrite J by exact Hp. auto. Qed.

Fixpoint dedup_items (kept rest : list pmi) : list pmi :=
  match rest with
  | [] => kept
  | i :: rest' => if existsb (fun k => pm_equal k (it_x i)) (xs kept) then dedup_items kept rest'
                  else dedup_items (kept ++ [i]) rest'
  end.
Lemma dedup_items_xs rest : forall kept, xs (dedup_items kept rest) = dedup_loop (xs kept) (xs rest).
Proof.
  induction rest as [|i rest IH]; intro kept; cbn [dedup_items map dedup_loop]; [reflexivity|].
  destruct (existsb _ (xs kept)); rewrite IH; [reflexivity|]. rewrite map_app. reflexivity.
Qed.
Lemma dedup_items_incl rest : forall kept, incl (dedup_items kept rest) (kept ++ rest).
Proof.
  induction rest as [|i rest IH]; intros kept x Hx; cbn [dedup_items] in Hx.
  - apply in_or_app. auto.
  - destruct (existsb _ (xs kept)); apply IH in Hx; rewrite !in_app_iff in *; cbn [In] in *; tauto.
Qed.
Lemma dedup_items_keeps rest : forall kept, length kept <= length (dedup_items kept rest).
Proof.
  induction rest as [|i rest IH]; intro kept; cbn [dedup_items]; [lia|]. destruct (existsb _ (xs kept)); [apply IH|].
  specialize (IH (kept ++ [i])). rewrite app_length in IH. cbn [length] in IH. lia.
Qed.

Lemma read_kept A m s : forall K rest pre,
  layout m s (pre ++ vals K ++ rest) -> (forall i, In i K -> steady A m i) ->
  each (fun j => bind (index s j) read_pm) (seq (length pre) (length K)) m = Some (xs K, m).
Proof.
  induction K as [|i K IH]; intros rest pre Hl Hs; cbn [length seq each map]; [reflexivity|]. unfold bind.
  rewrite (layout_index m s _ (length pre) (it_v i) Hl).
  2:{ rewrite nth_error_app2 by lia. rewrite Nat.sub_diag. reflexivity. }
  rewrite (Hs i (or_introl eq_refl) m (fun _ _ => eq_refl)).
  specialize (IH rest (pre ++ [it_v i])). rewrite app_length in IH. cbn [length] in IH. rewrite Nat.add_1_r in IH.
  unfold bind in IH. rewrite IH; [reflexivity| |intros j Hj; apply Hs; right; exact Hj].
  rewrite <- app_assoc. exact Hl.
Qed.

Lemma dedup_ok s : forall R K zs m,
  layout m s (vals K ++ zs ++ vals R) -> (forall i, In i (K ++ R) -> steady (arr s) m i) -> K <> [] ->
  edits (arr s) (dedup_in_place (length R) (length K + length zs) (length K - 1) s) m
    (fun c m' => exists zs', layout m' s (vals (dedup_items K R) ++ zs') /\ S c = length (dedup_items K R) /\
                             length (dedup_items K R) + length zs' = length K + length zs + length R).
Proof.
  induction R as [|r R IH]; intros K zs m Hl Hs Hk; cbn [length dedup_in_place dedup_items].
  - apply edits_ret. exists zs. cbn [map] in Hl. rewrite app_nil_r in Hl. split; [exact Hl|].
    destruct K; [contradiction|]. cbn [length]. lia.
  - assert (steady (arr s) m r) as Hr by (apply Hs; apply in_or_app; right; left; reflexivity).
    assert (index s (length K + length zs) m = Some (it_v r, m)) as Ei.
    { apply (layout_index m s _ _ _ Hl). rewrite nth_error_app2 by (rewrite map_length; lia). rewrite map_length.
      rewrite nth_error_app2 by lia. replace (length K + length zs - length K - length zs) with 0 by lia. reflexivity. }
    eapply edits_read; [exact Ei|]. eapply edits_read; [exact (Hr m (fun _ _ => eq_refl))|].
    replace (S (length K - 1)) with (length K) by (destruct K; [contradiction|cbn [length]; lia]).
    eapply edits_read.
    { apply (read_kept (arr s) m s K (zs ++ vals (r :: R)) []); [exact Hl|]. intros i Hi. apply Hs. apply in_or_app. auto. }
    destruct (existsb (fun k => pm_equal k (it_x r)) (xs K)) eqn:Ex.
    + specialize (IH K (zs ++ [it_v r]) m). rewrite app_length in IH. cbn [length] in IH.
      replace (length K + (length zs + 1)) with (S (length K + length zs)) in IH by lia.
      eapply edits_impl; [apply IH|].
      * rewrite <- app_assoc. exact Hl.
      * intros i Hi. apply Hs. rewrite in_app_iff in *. cbn [In]. tauto.
      * exact Hk.
      * intros c m' _ _ (zs' & A & C & D). exists zs'. split; [exact A|]. split; [exact C|]. lia.
    + assert (exists zs2, edits (arr s) (set_elem s (length K) (it_v r)) m (fun _ m' => layout m' s (vals (K ++ [r]) ++ zs2 ++ vals R)) /\ length zs2 = length zs) as (zs2 & Hset & L2).
      { destruct zs as [|z zs].
        - exists []. split; [|reflexivity]. cbn [app map] in Hl |- *. pose proof (layout_set _ _ _ _ _ (it_v r) Hl) as H.
          rewrite map_length in H. rewrite map_app. cbn [map]. rewrite <- app_assoc. exact H.
        - exists (zs ++ [it_v r]). split; [|rewrite app_length; cbn [length]; lia].
          cbn [app] in Hl. pose proof (layout_set _ _ _ _ _ (it_v r) Hl) as H. rewrite map_length in H.
          rewrite map_app. cbn [map]. rewrite <- !app_assoc. cbn [app]. exact H. }
      eapply edits_bind; [exact Hset|]. intros ? m1 _ Hsame Hl1.
      specialize (IH (K ++ [r]) zs2 m1). rewrite app_length in IH. cbn [length] in IH.
      replace (length K + 1 + length zs2) with (S (length K + length zs)) in IH by lia.
      replace (length K + 1 - 1) with (length K) in IH by lia.
      eapply edits_impl; [apply IH|].
      * exact Hl1.
      * intros i Hi. apply (steady_later _ m); [|exact Hsame]. apply Hs. rewrite !in_app_iff in *. cbn [In] in *. tauto.
      * destruct K; discriminate.
      * intros c m' _ _ (zs' & A & C & D). exists zs'. split; [exact A|]. split; [exact C|]. lia.
Qed.

(** the second half of [unique] *)
Definition dedup_rest (x : val) : prog val :=
  bind (slice_len x) (fun n' => bind (dedup_in_place (n' - 1) 1 0 x) (fun curr =>
    bind (each (fun i => set_elem x i zero_pipeline) (seq (S curr) (n' - S curr))) (fun _ => upto x (S curr)))).

Lemma dedup_rest_ok s i R m :
  layout m s (vals (i :: R)) -> (forall j, In j (i :: R) -> steady (arr s) m j) ->
  edits (arr s) (dedup_rest s) m (fun s' m' => layout m' s' (vals (dedup_items [i] R)) /\ arr s' = arr s).
Proof.
  intros Hl Hs. unfold dedup_rest. eapply edits_read; [exact (layout_len _ _ _ Hl)|].
  rewrite map_length. cbn [length]. replace (S (length R) - 1) with (length R) by lia.
  eapply edits_bind; [apply (dedup_ok s R [i] [] m Hl Hs); discriminate|].
  intros c m1 _ _ (zs' & Hl1 & Hc & Hn). set (D := dedup_items [i] R) in *. cbn [length] in Hn.
  eapply edits_bind.
  { replace (seq (S c) (S (length R) - S c)) with (seq (length (vals D)) (length zs')).
    - exact (zero_rest_ok zero_pipeline zs' s (vals D) m1 Hl1).
    - rewrite map_length. f_equal; lia. }
  intros ? m2 _ _ (ws' & Hl2 & Hw). destruct (layout_upto m2 s (vals D ++ ws') (S c) Hl2) as (s' & E & Hl3 & Ha).
  { rewrite app_length, map_length. lia. }
  exists s', m2. split; [exact E|]. split; [reflexivity|]. split; [auto|]. split; [|exact Ha].
  rewrite Hc in Hl3. rewrite <- (map_length it_v D), firstn_app, firstn_all, Nat.sub_diag in Hl3. cbn [firstn] in Hl3.
  rewrite app_nil_r in Hl3. exact Hl3.
Qed.

(** * Filtering *)

Definition has_type (mt : metric_type) (t : agg_type) (opts : types_options) (p : pipeline_metadata) : bool :=
  if id_is_default (pm_agg p) then is_contained_in_default opts t mt else id_contains (pm_agg p) t.

Lemma filter_ok mt t opts s : forall (R : list pmi) K zs m,
  layout m s (vals K ++ zs ++ vals R) ->
  (forall i, In i R -> exists a b c, it_v i = VStruct [VAtom (AId (pm_agg (it_x i))); a; b; c]) ->
  edits (arr s) (filter_in_place (length R) (length K + length zs) (length K) mt t opts s) m
    (fun s' m' => layout m' s' (vals (K ++ List.filter (fun i => has_type mt t opts (it_x i)) R)) /\ arr s' = arr s).
Proof.
  induction R as [|r R IH]; intros K zs m Hl Hs; cbn [length filter_in_place List.filter].
  - cbn [map] in Hl. rewrite app_nil_r in *. destruct (layout_upto m s _ (length K) Hl) as (s' & E & Hl3 & Ha).
    { rewrite app_length, map_length. lia. }
    exists s', m. split; [exact E|]. split; [reflexivity|]. split; [auto|]. split; [|exact Ha].
    rewrite <- (map_length it_v K), firstn_app, firstn_all, Nat.sub_diag in Hl3. cbn [firstn] in Hl3.
    rewrite app_nil_r in Hl3. exact Hl3.
  - assert (index s (length K + length zs) m = Some (it_v r, m)) as Ei.
    { apply (layout_index m s _ _ _ Hl). rewrite nth_error_app2 by (rewrite map_length; lia). rewrite map_length.
      rewrite nth_error_app2 by lia. replace (length K + length zs - length K - length zs) with 0 by lia. reflexivity. }
    eapply edits_read; [exact Ei|]. destruct (Hs r (or_introl eq_refl)) as (a & b & c & Er).
    unfold has_type at 1. rewrite Er. rewrite <- Er.
    destruct (if id_is_default (pm_agg (it_x r)) then is_contained_in_default opts t mt else id_contains (pm_agg (it_x r)) t).
    + assert (exists zs2, edits (arr s) (if Nat.eqb (length K) (length K + length zs) then ret tt else set_elem s (length K) (it_v r)) m
        (fun _ m' => layout m' s (vals (K ++ [r]) ++ zs2 ++ vals R)) /\ length zs2 = length zs) as (zs2 & Hset & L2).
      { destruct zs as [|z zs].
        - exists []. split; [|reflexivity]. cbn [app map length] in Hl |- *. rewrite Nat.add_0_r, Nat.eqb_refl.
          apply edits_ret. rewrite map_app. cbn [map]. rewrite <- app_assoc. exact Hl.
        - exists (zs ++ [it_v r]). split; [|rewrite app_length; cbn [length]; lia].
          rewrite (proj2 (Nat.eqb_neq _ _)) by (cbn [length]; lia).
          cbn [app] in Hl. pose proof (layout_set _ _ _ _ _ (it_v r) Hl) as H. rewrite map_length in H.
          rewrite map_app. cbn [map]. rewrite <- !app_assoc. cbn [app]. exact H. }
      eapply edits_bind; [exact Hset|]. intros ? m1 _ Hsame Hl1.
      specialize (IH (K ++ [r]) zs2 m1 Hl1 (fun i Hi => Hs i (or_intror Hi))). rewrite app_length in IH. cbn [length] in IH.
      replace (length K + 1 + length zs2) with (S (length K + length zs)) in IH by lia.
      replace (length K + 1) with (S (length K)) in IH by lia. rewrite <- app_assoc in IH. exact IH.
    + specialize (IH K (zs ++ [it_v r]) m). rewrite app_length in IH. cbn [length] in IH.
      replace (length K + (length zs + 1)) with (S (length K + length zs)) in IH by lia. apply IH.
      * rewrite <- app_assoc. exact Hl.
      * intros i Hi. apply Hs. right. exact Hi.
Qed.

(** * Drop policies *)

Definition no_if_only (p : pipeline_metadata) : Prop := (pm_drop p =? DropIfOnlyMatch)%Z = false.

Lemma count_codes_drops l : forall a b, count_codes a b (map pm_drop l) = count_drops a b l.
Proof.
  induction l as [|p l IH]; intros a b; cbn [map count_codes count_drops]; [reflexivity|].
  destruct (pm_drop p =? DropMust)%Z; [reflexivity|]. destruct (pm_drop p =? DropIfOnlyMatch)%Z; apply IH.
Qed.
Lemma count_drops_none l : Forall no_if_only l -> forall a b i n, count_drops a b l = Some (i, n) -> i = a.
Proof.
  induction 1 as [|p l Hp _ IH]; intros a b i n H; cbn [count_drops] in H; [congruence|].
  destruct (pm_drop p =? DropMust)%Z; [discriminate|]. unfold no_if_only in Hp. rewrite Hp in H. exact (IH _ _ _ _ H).
Qed.
Lemma apply_drop_none l : Forall no_if_only l ->
  pms_apply_drop l = (l, RemovedIneffectiveDropPolicies) \/ pms_apply_drop l = (drop_pipeline_metadatas, AppliedEffectiveDropPolicy).
Proof.
  intro H. unfold pms_apply_drop. destruct (count_drops 0 0 l) as [[i n]|] eqn:E; [|auto].
  rewrite (count_drops_none l H _ _ _ _ E). left. reflexivity.
Qed.
Lemma count_drops_zero l : forall a b n, count_drops a b l = Some (0, n) -> Forall no_if_only l.
Proof.
  induction l as [|p l IH]; intros a b n H; [constructor|]. cbn [count_drops] in H.
  destruct (pm_drop p =? DropMust)%Z; [discriminate|]. destruct (pm_drop p =? DropIfOnlyMatch)%Z eqn:E.
  - exfalso. clear - H. assert (forall l a b i n, count_drops a b l = Some (i, n) -> a <= i) as K.
    { clear. induction l as [|p l IH]; intros a b i n H; cbn [count_drops] in H; [injection H; lia|].
      destruct (pm_drop p =? DropMust)%Z; [discriminate|]. destruct (pm_drop p =? DropIfOnlyMatch)%Z; apply IH in H; lia. }
    apply K in H. lia.
  - constructor; [exact E|exact (IH _ _ _ H)].
Qed.
Lemma rem_by_all {A} (d : A -> bool) n : forall l, n <= length l -> Forall (fun x => d x = true) (skipn n l) ->
  Forall (fun x => d x = true) (rem_by d n l).
Proof.
  induction n as [|n IH]; intros l Hn H; cbn [rem_by]; [exact H|].
  destruct (nth_error l n) as [x|] eqn:E; [|apply nth_error_None in E; lia]. destruct (nth_split_at _ _ _ E) as [Es Ll].
  destruct (d x) eqn:Ed.
  - apply IH; [lia|]. rewrite Es, skipn_app, Ll, Nat.sub_diag, skipn_all2 by lia. cbn [app skipn]. constructor; assumption.
  - unfold remove_at. destruct (Nat.eqb n (length l - 1)) eqn:En.
    + apply IH; [lia|]. rewrite skipn_all2 by lia. constructor.
    + apply IH; [rewrite app_length; lia|]. rewrite skipn_app, Ll, Nat.sub_diag, (skipn_all2 (firstn n l)) by lia. exact H.
Qed.
(** what is left after dropping has no pipeline that is dropped only if it is the only match *)
Lemma apply_drop_clean l : Forall no_if_only (fst (pms_apply_drop l)).
Proof.
  unfold pms_apply_drop. destruct (count_drops 0 0 l) as [[i n]|] eqn:E.
  - destruct (Nat.eqb i 0) eqn:Ei.
    + apply Nat.eqb_eq in Ei. subst i. exact (count_drops_zero _ _ _ _ E).
    + destruct (Nat.eqb n 0); [repeat constructor|]. cbn [fst]. rewrite rem_by_drops.
      pose proof (rem_by_all (fun p => drop_is_default (pm_drop p)) (length l) l (le_n _)) as H.
      rewrite skipn_all in H. specialize (H ltac:(constructor)). revert H. apply Forall_impl. intros p Hp.
      unfold no_if_only. unfold drop_is_default in Hp. apply Z.eqb_eq in Hp. rewrite Hp. reflexivity.
  - repeat constructor.
Qed.

Section Drop.
  Context (m0 : memory) (G : list look) (HG : Forall (fun l => addr l < m_next m0) G).
  Context (g : globals) (Hg : globals_are m0 g G).
  Notation ok := (ok m0 G).
  Notation run := (run m0 G).
  Notation pslice := (slice frozen_pm).

  (** a list of pipelines that the match owns, or the package variable for dropped metrics *)
  Definition pipes (m : memory) (v : val) (ps : list pipeline_metadata) (W : list nat) (F : list look) : Prop :=
    (exists L, pslice m v L /\ xs L = ps /\ W = arr v ++ own L /\ F = looks L) \/
    (v = g_drop g /\ ps = drop_pipeline_metadatas /\ W = [] /\ F = []).

  Lemma ok_globals m W F f : ok m W F -> incl f G -> ok m W (F ++ f).
  Proof.
    intros (A & B & C & D) Hf. split; [exact A|]. split; [exact B|]. split; [exact C|]. intros l Hl.
    apply in_app_or in Hl. destruct Hl as [Hl|Hl]; [exact (D l Hl)|]. pose proof (HG' m0 G HG l (Hf l Hl)) as K. pose proof (proj1 A).
    split; [lia|]. split; [right; exact (Hf l Hl)|]. intro J. specialize (C _ J). lia.
  Qed.

  Lemma run_globals {X} W F f (e : prog X) m Q : run W (F ++ f) e m Q -> incl f G -> run W F e m Q.
  Proof.
    intros (x & m' & W' & F' & E & K & O & A & C & H) Hf. exists x, m', W', F'. split; [exact E|]. split; [exact K|].
    split; [exact O|]. split; [exact A|]. split; [|exact H]. intros l Hl. destruct (C l Hl) as [J|J]; [|auto].
    apply in_app_or in J. destruct J as [J|J]; [auto|]. right. right. right. exact (Hf l J).
  Qed.

  Lemma drop_shows m W F : ok m W F -> exists a b f, g_drop g = VSlice a b 1 1 /\ shows m (g_drop g) (t_pms drop_pipeline_metadatas) f /\ incl f G.
  Proof.
    intros (A & _). destruct Hg as (a & b & c & d & f1 & f2 & E1 & E2 & H1 & H2 & -> & Hlt).
    exists a, b, f1. split; [exact E1|]. split; [|apply incl_appl, incl_refl].
    apply (shows_old m0 m _ _ _ A); [|exact H1]. apply Forall_app in Hlt. exact (proj1 Hlt).
  Qed.
  Lemma default_shows m W F : ok m W F -> exists a b f, g_default g = VSlice a b 1 1 /\ shows m (g_default g) (t_pms [default_pipeline_metadata]) f /\ incl f G.
  Proof.
    intros (A & _). destruct Hg as (a & b & c & d & f1 & f2 & E1 & E2 & H1 & H2 & -> & Hlt).
    exists c, d, f2. split; [exact E2|]. split; [|apply incl_appr, incl_refl].
    apply (shows_old m0 m _ _ _ A); [|exact H2]. apply Forall_app in Hlt. exact (proj2 Hlt).
  Qed.
  (** the package variable as a slice of one item *)
  Lemma drop_item m W F : ok m W F ->
    exists i, pslice m (g_drop g) [i] /\ it_x i = drop_pipeline_metadata /\ incl (it_f i) G /\ it_w i = [].
  Proof.
    intro H. destruct (drop_shows m W F H) as (a & b & f & E & Hs & Hi). rewrite E in *.
    inversion Hs as [| | | |a' off len cap ts f' Hl Hall]; subst.
    destruct (shows_items t_pm m drop_pipeline_metadatas _ _ Hall) as (L & E1 & E2 & E3 & E4).
    destruct L as [|i [|j L]]; try discriminate. exists i. cbn [map] in E2. injection E2 as E2.
    split; [|split; [exact E2|split]].
    - split; [|exact E3]. rewrite E1. cbn [layout]. auto.
    - intros l Hl2. apply Hi. right. rewrite <- E4. cbn [flat_map]. rewrite app_nil_r. exact Hl2.
    - inversion E3 as [|? ? [K _] ?]; subst. exact K.
  Qed.

  Lemma read_drops m (L : list pmi) : Forall (frozen_pm m) L -> each drop_field (vals L) m = Some (map pm_drop (xs L), m).
  Proof.
    induction 1 as [|i L Hi _ IH]; [reflexivity|]. cbn [map each]. unfold bind. destruct (pm_shape m i Hi) as (s & o & ->).
    cbn [drop_field]. unfold ret. rewrite IH. reflexivity.
  Qed.

  Lemma drop_in_place_run m s L :
    pslice m s L -> ok m (arr s ++ own L) (looks L) ->
    run (arr s ++ own L) (looks L) (drop_in_place g s) m
      (fun r m' W F => snd r = snd (pms_apply_drop (xs L)) /\
         ((snd r = AppliedEffectiveDropPolicy /\ fst r = g_drop g /\ fst (pms_apply_drop (xs L)) = drop_pipeline_metadatas /\ W = [] /\ F = []) \/
          (snd r = RemovedIneffectiveDropPolicies /\
           exists L', pslice m' (fst r) L' /\ xs L' = fst (pms_apply_drop (xs L)) /\ W = arr (fst r) ++ own L' /\ F = looks L'))).
  Proof.
    intros Hsl Hok. pose proof Hsl as [Hl Hf]. unfold drop_in_place.
    eapply run_read; [exact (layout_elems _ _ _ Hl)|].
    eapply run_read; [exact (read_drops m L Hf)|]. rewrite count_codes_drops. unfold pms_apply_drop.
    assert (run (arr s ++ own L) (looks L) (ret (g_drop g, AppliedEffectiveDropPolicy)) m
      (fun r m' W F => snd r = AppliedEffectiveDropPolicy /\
         ((snd r = AppliedEffectiveDropPolicy /\ fst r = g_drop g /\ drop_pipeline_metadatas = drop_pipeline_metadatas /\ W = [] /\ F = []) \/
          (snd r = RemovedIneffectiveDropPolicies /\
           exists L', pslice m' (fst r) L' /\ xs L' = drop_pipeline_metadatas /\ W = arr (fst r) ++ own L' /\ F = looks L')))) as Hdrop.
    { eapply run_shrink; [apply run_ret with (Q := fun r m' W F => r = (g_drop g, AppliedEffectiveDropPolicy)); [exact Hok|reflexivity]|].
      intros r m' W' F' _ _ ->. exists [], []. split; [constructor|]. split; [intros p []|]. split; [intros l []|].
      cbn [fst snd]. split; [reflexivity|]. left. auto. }
    destruct (count_drops 0 0 (xs L)) as [[ifonly nondrop]|]; [|exact Hdrop].
    destruct (Nat.eqb ifonly 0).
    { apply run_ret; [exact Hok|]. cbn [fst snd]. split; [reflexivity|]. right. split; [reflexivity|]. exists L. auto. }
    destruct (Nat.eqb nondrop 0); [exact Hdrop|]. cbn [fst snd].
    set (d := fun v : val => match v with VStruct [_; _; _; VAtom (AInt z)] => drop_is_default z | _ => true end).
    assert (forall i, In i L -> drop_field (it_v i) = ret (pm_drop (it_x i)) /\ d (it_v i) = drop_is_default (pm_drop (it_x i))) as Hd.
    { intros i Hi. destruct (pm_shape m i (proj1 (Forall_forall _ _) Hf i Hi)) as (a & o & ->). split; reflexivity. }
    assert (rem_by d (length (vals L)) (vals L) = vals (rem_by (fun i : pmi => drop_is_default (pm_drop (it_x i))) (length L) L)) as Er.
    { rewrite rem_by_map, map_length. f_equal. clear - Hd. generalize (length L) as n. intro n. revert L Hd.
      induction n as [|n IH]; intros L Hd; [reflexivity|]. cbn [rem_by]. destruct (nth_error L n) as [x|] eqn:E.
      - rewrite (proj2 (Hd x (nth_error_In _ _ E))). destruct (drop_is_default (pm_drop (it_x x))); [exact (IH L Hd)|].
        apply IH. intros i Hi. apply Hd. exact (remove_at_incl _ _ i Hi).
      - exact (IH L Hd). }
    set (L' := rem_by (fun i : pmi => drop_is_default (pm_drop (it_x i))) (length L) L) in *.
    assert (incl L' L) as Hi by apply rem_by_incl.
    eapply run_bind.
    { eapply (slice_edit m0 G frozen_pm (frozen_frame t_pm) _ m s L L' Hok Hf).
      - rewrite <- Er. apply (remove_in_place_ok d (length (vals L)) s (vals L) m Hl (le_n _)).
        intros v Hv. apply in_map_iff in Hv. destruct Hv as (i & <- & Hin). destruct (Hd i Hin) as [H1 H2].
        exists (pm_drop (it_x i)). auto.
      - exact Hi.
      - rewrite (frozen_own t_pm m L'); [constructor|]. apply Forall_forall. intros i Hin.
        exact (proj1 (Forall_forall _ _) Hf i (Hi i Hin)). }
    intros s' m1 W1 F1 _ Hok1 (Hsl1 & -> & ->). apply run_ret; [exact Hok1|]. cbn [fst snd]. split; [reflexivity|].
    right. split; [reflexivity|]. exists L'. split; [exact Hsl1|]. split; [|auto].
    unfold L'. rewrite rem_by_drops, rem_by_map, map_length. reflexivity.
  Qed.

  (** dropping again the package variable itself *)
  Lemma drop_in_place_global m W F : ok m W F ->
    drop_in_place g (g_drop g) m = Some ((g_drop g, AppliedEffectiveDropPolicy), m).
  Proof.
    intro H. destruct (drop_item m W F H) as (i & [Hl Hf] & Ex & _). unfold drop_in_place, bind.
    rewrite (layout_elems _ _ _ Hl), (read_drops m [i] Hf). cbn [map]. rewrite Ex. reflexivity.
  Qed.

  (** ** unique *)

  Lemma unique_run m v ps W F :
    pipes m v ps W F -> ok m W F -> Forall no_if_only ps ->
    run W F (unique_in_place g v) m
      (fun v' m' W' F' => pipes m' v' (rm_pipelines (rm_unique (mk_rm 0 ps))) W' F').
  Proof.
    intros [(L & Hsl & <- & -> & ->)|(-> & -> & -> & ->)] Hok Hno; unfold unique_in_place.
    - pose proof Hsl as [Hl Hf]. eapply run_read; [exact (layout_len _ _ _ Hl)|]. rewrite map_length.
      unfold rm_unique. cbn [rm_pipelines rm_cutover].
      destruct L as [|i R].
      { cbn [length Nat.eqb]. apply run_ret; [exact Hok|]. left. exists []. auto. }
      cbn [length Nat.eqb map]. change (it_x i :: xs R) with (xs (i :: R)).
      eapply run_bind; [exact (drop_in_place_run m v (i :: R) Hsl Hok)|].
      intros r m1 W1 F1 _ Hok1 (Es & Hr).
      destruct (apply_drop_none (xs (i :: R)) Hno) as [Ed|Ed]; rewrite Ed in *; cbn [fst snd] in *; rewrite Es.
      + destruct Hr as [(K & _)|(_ & L' & Hsl' & Ex & -> & ->)]; [congruence|].
        destruct L' as [|i' R']; [discriminate|]. cbn [map] in Ex. injection Ex as Ei ER.
        change (run (arr (fst r) ++ own (i' :: R')) (looks (i' :: R')) (dedup_rest (fst r)) m1
          (fun v' m' W' F' => pipes m' v' (rm_pipelines (mk_rm 0 (dedup_loop [it_x i] (xs R)))) W' F')).
        pose proof Hsl' as [Hl' Hf'].
        assert (own (dedup_items [i'] R') = []) as Ho.
        { apply (frozen_own t_pm m1). apply Forall_forall. intros j Hj. apply (proj1 (Forall_forall _ _) Hf').
          apply dedup_items_incl in Hj. exact Hj. }
        eapply run_impl.
        { eapply (slice_edit m0 G frozen_pm (frozen_frame t_pm) _ m1 (fst r) (i' :: R') (dedup_items [i'] R') Hok1 Hf').
          - apply (dedup_rest_ok (fst r) i' R' m1 Hl'). intros j Hj m2 Hsame.
            destruct (proj1 (Forall_forall _ _) Hf' j Hj) as [_ Hsh]. apply (read_pm_ok m2 _ _ (it_f j)).
            apply (same_shows m1 m2 [] (it_f j)); [|exact Hsh]. intros p [[]|Hp]. apply Hsame. intro K.
            apply in_map_iff in Hp. destruct Hp as (l & <- & Hl2).
            apply (proj2 (proj2 (proj2 (proj2 (proj2 Hok1)) l (in_looks j _ l Hj Hl2)))). apply in_or_app. auto.
          - intros j Hj. apply dedup_items_incl in Hj. exact Hj.
          - rewrite Ho. constructor. }
        intros s' m2 W2 F2 _ _ (Hs2 & -> & ->). left. exists (dedup_items [i'] R'). split; [exact Hs2|]. split; [|auto].
        rewrite dedup_items_xs. cbn [map rm_pipelines]. rewrite Ei, ER. reflexivity.
      + destruct Hr as [(_ & Er & _ & -> & ->)|(K & _)]; [|congruence]. apply run_ret; [exact Hok1|]. right.
        cbn [rm_pipelines]. auto.
    - destruct (drop_item m [] [] Hok) as (i & [Hl Hf] & Ex & _).
      eapply run_read; [exact (layout_len _ _ _ Hl)|]. cbn [map length Nat.eqb].
      eapply run_read; [exact (drop_in_place_global m [] [] Hok)|]. cbn [fst snd].
      apply run_ret; [exact Hok|]. right. repeat split; reflexivity.
  Qed.

  (** ** merge *)

  Lemma append_all_new grow m s L t L2 :
    (exists a off n, s = VSlice a off n n) -> pslice m s L -> pslice m t L2 -> L2 <> [] ->
    ok m (own (L ++ L2)) (looks (L ++ L2)) ->
    run (own (L ++ L2)) (looks (L ++ L2)) (append_all grow s t) m
      (fun s2 m2 W F => pslice m2 s2 (L ++ L2) /\ W = arr s2 ++ own (L ++ L2) /\ F = looks (L ++ L2)).
  Proof.
    intros (a & off & n & ->) [Hl Hf] [Hl2 Hf2] Hne Hok. unfold append_all.
    assert (Forall (frozen_pm m) (L ++ L2)) as Hf3 by (apply Forall_app; auto).
    eapply run_read; [exact (layout_elems _ _ _ Hl2)|]. destruct (vals L2) as [|v vs] eqn:Ev.
    { destruct L2; [contradiction|discriminate]. }
    cbv zeta. rewrite <- Ev. set (k := length (vals L2)).
    change (own (L ++ L2)) with (arr (VNil : val) ++ own (L ++ L2)).
    destruct Hl as (H1 & H2 & E).
    assert (length (vals L) = n) as L1 by (rewrite <- E, firstn_length, skipn_length; lia).
    assert (0 < k) as Hk by (unfold k; rewrite Ev; cbn [length]; lia).
    eapply run_impl.
    { eapply (slice_step m0 G frozen_pm (frozen_frame t_pm) _ m _ VNil _ (L ++ L2) (L ++ L2)); [exact Hok|exact Hf3| | | | | | |].
      - rewrite (proj2 (Nat.leb_gt (n + k) n)) by lia. reflexivity.
      - cbn [m_next]. lia.
      - intros p Hp _. apply (proj2 (old_alloc m _)). exact Hp.
      - cbn [arr m_next]. intros p [<-|[]]. right. lia.
      - cbn [layout skipn]. rewrite at_alloc. rewrite E, !app_length, repeat_length, L1. fold k.
        split; [lia|]. split; [lia|]. rewrite map_app, app_assoc, firstn_app, app_length, L1. fold k.
        rewrite Nat.sub_diag. cbn [firstn]. rewrite app_nil_r. apply firstn_all2. rewrite app_length, L1. fold k. lia.
      - apply incl_refl.
      - exact (proj1 (proj2 Hok)). }
    intros x m2 W F _ _ (-> & -> & H). exact H.
  Qed.

  Lemma merge_run grow m v ps W F s L :
    pipes m v ps W F -> pslice m s L -> ok m (W ++ arr s ++ own L) (F ++ looks L) ->
    run (W ++ arr s ++ own L) (F ++ looks L) (append_all grow v s) m
      (fun v' m' W' F' => pipes m' v' (ps ++ xs L) W' F').
  Proof.
    intros [(LP & Hsl & <- & -> & ->)|(-> & -> & -> & ->)] Hs Hok.
    - eapply run_shrink.
      { eapply (run_frame m0 G HG (arr v ++ own (LP ++ L)) (looks (LP ++ L)) (arr s) []).
        - apply (append_all_run m0 G frozen_pm (frozen_frame t_pm) grow m v LP s L Hsl Hs).
          apply (ok_right m0 G m _ _ (arr s) []).
          apply (ok_perm m0 G _ _ _ _ _ Hok); [rewrite flat_map_app; perm|].
          rewrite app_nil_r, flat_map_app. apply incl_refl.
        - exact Hok.
        - rewrite flat_map_app. perm.
        - rewrite app_nil_r, flat_map_app. apply incl_refl. }
      intros v' m' W' F' _ Hok' (W1 & F1 & -> & -> & Hok1 & (Hsl' & -> & ->) & _).
      exists (arr v' ++ own (LP ++ L)), (looks (LP ++ L)). split; [exact (proj1 (proj2 Hok1))|].
      split; [apply incl_appl, incl_refl|]. split.
      { intros l Hl. split; [exact (proj2 (proj2 (proj2 (proj2 (proj2 Hok1)) l Hl)))|]. left. apply in_or_app. auto. }
      left. exists (LP ++ L). rewrite map_app. auto.
    - cbn [app] in Hok |- *. destruct (drop_item m _ _ Hok) as (i & Hsi & Ex & Hi & Hw).
      destruct (drop_shows m _ _ Hok) as (a & b & f & Ea & _).
      destruct L as [|j L].
      + eapply run_shrink.
        { unfold append_all. eapply run_read; [exact (layout_elems _ _ _ (proj1 Hs))|]. cbn [map].
          apply run_ret with (Q := fun v' m' W' F' => v' = g_drop g); [exact Hok|reflexivity]. }
        intros v' m' W' F' _ _ ->. exists [], []. split; [constructor|]. split; [intros p []|]. split; [intros l []|].
        right. cbn [map]. rewrite app_nil_r. auto.
      + assert (ok m (own ([i] ++ j :: L)) (looks ([i] ++ j :: L))) as Hok2.
        { apply (ok_shrink m0 G m (arr s ++ own (j :: L)) (looks (j :: L) ++ it_f i)).
          - apply (ok_globals m _ _ _ Hok Hi).
          - cbn [app flat_map]. rewrite Hw. exact (ok_nodup m0 G _ _ _ _ Hok).
          - cbn [app flat_map]. rewrite Hw. apply incl_appr, incl_refl.
          - intros l Hl. assert (In l (looks (j :: L) ++ it_f i)) as Hl'.
            { cbn [app flat_map] in *. rewrite !in_app_iff in *. tauto. }
            split; [|left; exact Hl'].
            pose proof (proj2 (proj2 (proj2 (proj2 (proj2 (ok_globals m _ _ _ Hok Hi))) l Hl'))) as K.
            intro J. apply K. apply in_or_app. right. cbn [app flat_map] in J. rewrite Hw in J. exact J. }
        apply (run_globals _ _ (it_f i)); [|exact Hi].
        eapply run_shrink.
        { eapply (run_frame m0 G HG (own ([i] ++ j :: L)) (looks ([i] ++ j :: L)) (arr s) [] (arr s ++ own (j :: L)) (looks (j :: L) ++ it_f i)).
          - apply (append_all_new grow m (g_drop g) [i] s (j :: L)); auto; [eauto|discriminate].
          - apply (ok_globals m _ _ _ Hok Hi).
          - cbn [app flat_map]. rewrite Hw. cbn [app]. apply Permutation_app_comm.
          - intros l. cbn [app flat_map]. rewrite !in_app_iff. cbn [In]. tauto. }
        intros v' m' W' F' _ Hok' (W1 & F1 & -> & -> & Hok1 & (Hsl' & -> & ->) & _).
        exists (arr v' ++ own ([i] ++ j :: L)), (looks ([i] ++ j :: L)). split; [exact (proj1 (proj2 Hok1))|].
        split; [apply incl_appl, incl_refl|]. split.
        { intros l Hl. split; [exact (proj2 (proj2 (proj2 (proj2 (proj2 Hok1)) l Hl)))|]. left. apply in_or_app. auto. }
        left. exists ([i] ++ j :: L). split; [exact Hsl'|]. split; [|auto]. cbn [app map]. rewrite Ex. reflexivity.
  Qed.
End Drop.
