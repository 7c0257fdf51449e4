(** What has happened once an update of the namespaces has been processed. *)
From Coq Require Import Arith ZArith Bool Lia List.
From Verif Require Import Base.Bytes Base.BytesFacts Base.BMap Base.BMapFacts Model.Rules
  Model.RuleSet Model.RuleSetProto Model.Namespace Model.CacheList Model.Cache Model.Matcher
  Spec.CacheListSpec Spec.CacheSpec Spec.MatcherSpec
  Proof.CacheListProof Proof.CacheProof Proof.CacheRunProof Proof.CacheLruProof Proof.MatcherProof
  Proof.MatcherServeProof.
Import ListNotations.
Local Open Scope nat_scope.

(** ** Actions outside of the thread *)

Definition of_thread (x : maction) : Prop :=
  match x with MNamespaces _ _ | MStep _ _ _ => True | _ => False end.

Lemma call_cache_frame p s y s' ev : call_cache p s y = Some (s', ev) ->
  m_rules s' = m_rules s /\ m_thread s' = m_thread s /\ m_objs s' = m_objs s /\ m_next s' = m_next s /\
  (forall n o rs t, ~ In (MProcessed n o rs t) ev).
Proof.
  unfold call_cache. destruct (cache_act _ _ _) as [[c' ev0]|]; [|discriminate]. intros E. injection E as <- <-.
  repeat split. intros n o rs t I. apply in_map_iff in I as (? & ? & _). discriminate.
Qed.

Lemma other_frame p s x s' ev : matcher_act p s x = Some (s', ev) -> ~ of_thread x ->
  m_rules s' = m_rules s /\ m_thread s' = m_thread s.
Proof.
  intros E N. destruct x; cbn in N; try tauto; cbn [matcher_act] in E.
  - destruct (_ && _); [|discriminate]. unfold deliver in E. destruct (rule_set_from_proto _ _ _); [|discriminate].
    injection E as <- <-. split; reflexivity.
  - destruct (nth_error _ _); [|discriminate]. apply call_cache_frame in E. tauto.
  - apply call_cache_frame in E. tauto.
  - apply call_cache_frame in E. tauto.
  - assert (S : call_cache p s x = Some (s', ev)) by (destruct x; try discriminate; exact E).
    apply call_cache_frame in S. tauto.
  - injection E as <- <-. split; reflexivity.
Qed.

(** what can happen to an object that has been created: it processes a rule
    set, and says so, or is watched or not *)
Definition same_rules (r r' : rs_obj) : Prop :=
  ob_ns r' = ob_ns r /\ ob_version r' = ob_version r /\ ob_cutover r' = ob_cutover r /\ ob_tomb r' = ob_tomb r.

Definition obj_step (ev : list mevent) (r r' : rs_obj) (o : nat) : Prop :=
  same_rules r r' \/
  exists rs t, In (MProcessed (ob_ns r) o rs t) ev /\ ob_ns r' = ob_ns r /\
    ob_version r' = rs_version rs /\ ob_cutover r' = rs_cutover rs /\ ob_tomb r' = rs_tomb rs.

Lemma same_rules_refl r : same_rules r r.
Proof. repeat split. Qed.

Lemma nstep_obj p s x now init s1 more ev o :
  do_nstep p s x now init = Some (s1, more, ev) -> obj_step ev (m_objs s o) (m_objs s1 o) o.
Proof.
  destruct x; cbn [do_nstep].
  - destruct (ob_watched _); [intros E; injection E as <- <- <-; left; apply same_rules_refl|].
    assert (W : same_rules (m_objs s o) (m_objs (with_obj s o0 (with_watched true)) o)).
    { cbn. destruct (Nat.eqb o o0); repeat split. }
    destruct init as [[v pb]|]; [|intros E; injection E as <- <- <-; left; exact W].
    unfold deliver. destruct (rule_set_from_proto _ _ _) as [rs|]; [|intros E; injection E as <- <- <-; left; exact W].
    intros E. injection E as <- <- <-. unfold obj_step. cbn. destruct (Nat.eqb_spec o o0) as [->|N]; [|left; repeat split].
    right. exists rs, (now - mo_match_range_past p)%Z. rewrite Nat.eqb_refl. cbn. split; [left; reflexivity|repeat split].
  - intros E. injection E as <- <- <-. left. cbn. destruct (Nat.eqb o o0); repeat split.
  - destruct (call_cache _ _ _) as [[s2 ev2]|] eqn:C; [|discriminate]. intros E. injection E as <- <- <-.
    apply call_cache_frame in C. destruct C as (_ & _ & -> & _). left. apply same_rules_refl.
  - destruct (call_cache _ _ _) as [[s2 ev2]|] eqn:C; [|discriminate]. intros E. injection E as <- <- <-.
    apply call_cache_frame in C. destruct C as (_ & _ & -> & _). left. apply same_rules_refl.
  - intros E. injection E as <- <- <-. left. apply same_rules_refl.
  - destruct (call_cache _ _ _) as [[s2 ev2]|] eqn:C; [|discriminate]. intros E. injection E as <- <- <-.
    apply call_cache_frame in C. destruct C as (_ & _ & -> & _). left. apply same_rules_refl.
  - intros E. injection E as <- <- <-. left. apply same_rules_refl.
Qed.

Lemma enter_frame s n s1 body ev : enter s n = (s1, body, ev) ->
  (forall o, o < m_next s -> m_objs s1 o = m_objs s o) /\
  (bget (m_rules s) (ns_name n) <> None /\ m_rules s1 = m_rules s /\ m_objs s1 = m_objs s \/
   bget (m_rules s) (ns_name n) = None /\ m_rules s1 = bset (m_rules s) (ns_name n) (m_next s) /\
   m_objs s1 (m_next s) = new_rs_obj (ns_name n)) /\
  exists o tl, bget (m_rules s1) (ns_name n) = Some o /\
    body = (if deleted_as_of n (ob_version (m_objs s1 o)) then NUnwatch o else NWatch o) :: tl /\
    (tl = [] \/ tl = [NRegister o]).
Proof.
  unfold enter, deleted_as_of. destruct (bget (m_rules s) (ns_name n)) as [o|] eqn:G; intros E; injection E as <- <- <-.
  - split; [reflexivity|]. split; [left; repeat split; discriminate|].
    exists o, []. split; [exact G|]. split; [|left; reflexivity].
    destruct (last_opt _) as [l|]; [|reflexivity]. destruct (nss_tomb l && _); reflexivity.
  - split; [|split].
    + intros o L. cbn. destruct (Nat.eqb_spec o (m_next s)); [lia|reflexivity].
    + right. cbn. rewrite Nat.eqb_refl. repeat split.
    + exists (m_next s), [NRegister (m_next s)]. split; [apply bget_set_same|]. split; [|right; reflexivity].
      destruct (last_opt _) as [l|]; [|reflexivity]. destruct (nss_tomb l && _); reflexivity.
Qed.

Lemma act_obj p s x s' ev o :
  matcher_act p s x = Some (s', ev) -> o < m_next s -> obj_step ev (m_objs s o) (m_objs s' o) o.
Proof.
  intros E L. destruct x; cbn [matcher_act] in E.
  - destruct (m_thread s); try discriminate. destruct (new_namespaces _ _); [|discriminate].
    injection E as <- <-. left. apply same_rules_refl.
  - unfold process_step in E. destruct (m_thread s) as [|body todo inc|body todo inc]; [discriminate| |].
    + destruct body as [|y body].
      * destruct todo as [|n0 todo]; [injection E as <- <-; left; apply same_rules_refl|].
        destruct (nth_error _ _) as [n|]; [|discriminate]. destruct (enter s n) as [[s1 b1] ev1] eqn:En.
        injection E as <- <-. left. cbn. rewrite (proj1 (enter_frame _ _ _ _ _ En) o L). apply same_rules_refl.
      * destruct (do_nstep _ _ _ _ _) as [[[s1 more] ev1]|] eqn:D; [|discriminate]. injection E as <- <-.
        exact (nstep_obj _ _ _ _ _ _ _ _ o D).
    + destruct body as [|y body].
      * destruct todo as [|n0 todo]; [injection E as <- <-; left; apply same_rules_refl|].
        destruct (nth_error _ _) as [[n o']|]; [|discriminate].
        injection E as <- <-. left. apply same_rules_refl.
      * destruct (do_nstep _ _ _ _ _) as [[[s1 more] ev1]|] eqn:D; [|discriminate]. injection E as <- <-.
        exact (nstep_obj _ _ _ _ _ _ _ _ o D).
  - destruct (_ && _); [|discriminate]. unfold deliver in E. destruct (rule_set_from_proto _ _ _) as [rs|]; [|discriminate].
    injection E as <- <-. unfold obj_step. cbn. destruct (Nat.eqb_spec o o0) as [->|N]; [|left; apply same_rules_refl].
    right. exists rs, (now - mo_match_range_past p)%Z. split; [left; reflexivity|repeat split].
  - destruct (nth_error _ _); [|discriminate]. apply call_cache_frame in E. destruct E as (_ & _ & -> & _).
    left. apply same_rules_refl.
  - apply call_cache_frame in E. destruct E as (_ & _ & -> & _). left. apply same_rules_refl.
  - apply call_cache_frame in E. destruct E as (_ & _ & -> & _). left. apply same_rules_refl.
  - assert (S : call_cache p s x = Some (s', ev)) by (destruct x; try discriminate; exact E).
    apply call_cache_frame in S. destruct S as (_ & _ & -> & _). left. apply same_rules_refl.
  - injection E as <- <-. left. repeat split.
Qed.

(** what a step for an entry does to the rules *)
Lemma nstep_rules p s x now init s1 more ev :
  do_nstep p s x now init = Some (s1, more, ev) ->
  m_rules s1 = m_rules s \/ exists ns o e, x = NForget ns o e /\ m_rules s1 = bdel (m_rules s) ns.
Proof.
  destruct x; cbn [do_nstep].
  - destruct (ob_watched _); [intros E; injection E as <- <- <-; left; reflexivity|].
    destruct init as [[v pb]|]; [|intros E; injection E as <- <- <-; left; reflexivity].
    unfold deliver. destruct (rule_set_from_proto _ _ _); intros E; injection E as <- <- <-; left; reflexivity.
  - intros E; injection E as <- <- <-; left; reflexivity.
  - destruct (call_cache _ _ _) as [[s2 ev2]|] eqn:C; [|discriminate]. intros E. injection E as <- <- <-.
    left. apply call_cache_frame in C. tauto.
  - destruct (call_cache _ _ _) as [[s2 ev2]|] eqn:C; [|discriminate]. intros E. injection E as <- <- <-.
    left. apply call_cache_frame in C. tauto.
  - intros E; injection E as <- <- <-; left; reflexivity.
  - destruct (call_cache _ _ _) as [[s2 ev2]|] eqn:C; [|discriminate]. intros E. injection E as <- <- <-.
    left. apply call_cache_frame in C. tauto.
  - intros E; injection E as <- <- <-; right; exists ns, o, earliest; split; reflexivity.
Qed.

(** ** Invariants while an update is processed *)

Lemma bset_nodup {A} (m : bmap A) k v : NoDup (map fst m) -> NoDup (map fst (bset m k v)).
Proof.
  intros H. unfold bset. cbn [map fst]. constructor; [|apply bdel_nodup; exact H].
  intros I. apply in_map_iff in I as ([j w] & E & I). cbn in E. subst j. apply bdel_in in I as [_ I]. congruence.
Qed.

Section Processing.
Variable p : matcher_opts.
Variable x0 : namespaces.
Hypothesis Hc : (0 <= co_capacity (mo_cache_opts p))%Z.
Hypothesis Hb : (0 <= co_evict_batch (mo_cache_opts p))%Z.

Definition allowed (s : mstate) (tr : list mevent) : Prop := J p s tr /\ last_update tr = Some x0.

Lemma processing (I : mstate -> list mevent -> Prop) (ok : maction -> Prop) (okev : mevent -> Prop) :
  (forall s tr x s' ev, allowed s tr -> ok x -> matcher_act p s x = Some (s', ev) -> no_update ev -> Forall okev ev ->
    I s tr -> I s' (tr ++ ev)) ->
  forall xs s tr s' ev, allowed s tr -> Forall ok xs -> matcher_run p s xs = Some (s', ev) -> no_update ev ->
    Forall okev ev -> I s tr -> I s' (tr ++ ev).
Proof.
  intros Step. induction xs as [|x xs IH]; intros s tr s' ev A O E N K H; cbn [matcher_run] in E.
  - injection E as <- <-. rewrite app_nil_r. exact H.
  - destruct (matcher_act p s x) as [[s1 e1]|] eqn:E1; [|discriminate].
    destruct (matcher_run p s1 xs) as [[s2 e2]|] eqn:E2; [|discriminate]. injection E as <- <-.
    apply Forall_cons_iff in O as [O1 O2]. apply Forall_app in K as [K1 K2].
    assert (N1 : no_update e1) by (intros y Y; apply (N y); apply in_app_iff; left; exact Y).
    assert (N2 : no_update e2) by (intros y Y; apply (N y); apply in_app_iff; right; exact Y).
    rewrite app_assoc. apply (IH s1 (tr ++ e1) s2 e2); auto.
    + destruct A as [A1 A2]. split; [exact (J_act _ _ _ _ _ _ Hc Hb A1 E1)|]. rewrite last_update_keep; assumption.
    + exact (Step s tr x s1 e1 A O1 E1 N1 K1 H).
Qed.

(** the entries left to add are the last mentions *)
Definition todo_ok (s : mstate) : Prop :=
  match m_thread s with
  | NAdding _ todo _ => forall n, In n todo -> mention x0 (ns_name n) = Some n
  | _ => True
  end.

Lemma todo_step s tr x s' ev :
  allowed s tr -> matcher_act p s x = Some (s', ev) -> no_update ev -> todo_ok s -> todo_ok s'.
Proof.
  intros A E N H. unfold todo_ok in *.
  destruct x; try (destruct (other_frame _ _ _ _ _ E ltac:(cbn; tauto)) as [_ ->]; exact H); cbn [matcher_act] in E.
  - destruct (m_thread s); try discriminate. destruct (new_namespaces _ _); [|discriminate].
    injection E as <- <-. exfalso. apply (N n). left. reflexivity.
  - unfold process_step in E. destruct (m_thread s) as [|body todo inc|body todo inc]; [discriminate| |].
    + destruct body as [|y body].
      * destruct todo as [|n0 todo]; [injection E as <- <-; exact I|].
        destruct (nth_error _ _) as [n|]; [|discriminate]. destruct (enter s n) as [[s1 b1] ev1] eqn:En.
        injection E as <- <-. cbn. intros n' I'. apply H. eapply (remove_nth_in i (n0 :: todo)). exact I'.
      * destruct (do_nstep _ _ _ _ _) as [[[s1 more] ev1]|]; [|discriminate]. injection E as <- <-. exact H.
    + destruct body as [|y body].
      * destruct todo as [|n0 todo]; [injection E as <- <-; exact I|].
        destruct (nth_error _ _) as [[n o']|]; [|discriminate]. injection E as <- <-. exact I.
      * destruct (do_nstep _ _ _ _ _) as [[[s1 more] ev1]|]; [|discriminate]. injection E as <- <-. exact I.
Qed.

Lemma mention_lists ns n : mention x0 ns = Some n -> lists x0 ns.
Proof.
  intros M. rewrite <- incoming_mention in M. apply bget_in in M. apply incoming_names in M as [-> M].
  exists n. split; [exact M|reflexivity].
Qed.

(** a listed namespace is known, or about to be added *)
Definition listed_ok (ns : bytes) (s : mstate) : Prop :=
  bget (m_rules s) ns <> None \/
  match m_thread s with NAdding _ todo _ => exists n, In n todo /\ ns_name n = ns | _ => False end.

Lemma nth_or_left {A} (l : list A) i x y : nth_error l i = Some x -> In y l -> y = x \/ In y (remove_nth i l).
Proof.
  revert i. induction l as [|z l IH]; intros [|i] E H; cbn in *; try discriminate.
  - injection E as ->. destruct H as [->|H]; auto.
  - destruct H as [->|H]; [right; left; reflexivity|]. destruct (IH i E H); auto.
Qed.

(** the namespace of a deletion under way is not listed *)
Lemma forget_unlisted s tr ns o e body todo inc :
  allowed s tr -> m_thread s = NSweeping (NForget ns o e :: body) todo inc -> ~ lists x0 ns.
Proof.
  intros [[_ T] L] Th. rewrite Th in T. destruct (t_ok _ _ _ _ _ T) as (x & Lu & _ & _ & _ & A).
  rewrite L in Lu. injection Lu as <-.
  destruct A as [A|(ns' & o' & e' & _ & N & _ & A)]; [discriminate|].
  destruct A as [(_ & _ & _ & [[A _]|[A _]])|[(_ & _ & _ & _ & A)|[_ A]]]; try discriminate.
  injection A as -> _ _ _. exact N.
Qed.

Lemma forget_not_adding s tr ns o e body todo inc :
  allowed s tr -> m_thread s = NAdding (NForget ns o e :: body) todo inc -> False.
Proof.
  intros [[_ T] L] Th. rewrite Th in T. destruct (t_ok _ _ _ _ _ T) as (x & _ & _ & A).
  apply adding_head in A as (ns' & o' & _ & [[[A|[A|A]] _]|(A & _)]); discriminate.
Qed.

Lemma listed_step ns s tr x s' ev :
  lists x0 ns -> allowed s tr -> matcher_act p s x = Some (s', ev) -> no_update ev -> listed_ok ns s -> listed_ok ns s'.
Proof.
  intros L A E N H. unfold listed_ok in *.
  destruct x; try (destruct (other_frame _ _ _ _ _ E ltac:(cbn; tauto)) as [-> ->]; exact H); cbn [matcher_act] in E.
  - destruct (m_thread s); try discriminate. destruct (new_namespaces _ _); [|discriminate].
    injection E as <- <-. exfalso. apply (N n). left. reflexivity.
  - unfold process_step in E. destruct (m_thread s) as [|body todo inc|body todo inc] eqn:Th; [discriminate| |].
    + destruct body as [|y body].
      * destruct todo as [|n0 todo].
        { injection E as <- <-. left. destruct H as [H|(n & [] & _)]. exact H. }
        destruct (nth_error _ _) as [n|] eqn:Nt; [|discriminate]. destruct (enter s n) as [[s1 b1] ev1] eqn:En.
        injection E as <- <-. cbn.
        destruct (enter_frame _ _ _ _ _ En) as (_ & F & (o & tl & G & _)).
        destruct H as [H|(n' & H1 & H2)].
        -- left. destruct F as [(_ & -> & _)|(X & -> & _)]; [exact H|].
           destruct (bytes_dec ns (ns_name n)) as [->|Nn]; [rewrite bget_set_same; discriminate|].
           rewrite bget_set_other by exact Nn. exact H.
        -- destruct (nth_or_left _ _ _ _ Nt H1) as [->|R]; [|right; exists n'; split; assumption].
           left. rewrite <- H2, G. discriminate.
      * destruct (do_nstep _ _ _ _ _) as [[[s1 more] ev1]|] eqn:D; [|discriminate]. injection E as <- <-. cbn.
        destruct (nstep_rules _ _ _ _ _ _ _ _ D) as [->|(ns' & o & e & -> & _)]; [exact H|].
        exfalso. exact (forget_not_adding _ _ _ _ _ _ _ _ A Th).
    + destruct H as [H|[]]. left. destruct body as [|y body].
      * destruct todo as [|n0 todo]; [injection E as <- <-; exact H|].
        destruct (nth_error _ _) as [[n o']|]; [|discriminate]. injection E as <- <-. exact H.
      * destruct (do_nstep _ _ _ _ _) as [[[s1 more] ev1]|] eqn:D; [|discriminate]. injection E as <- <-. cbn.
        destruct (nstep_rules _ _ _ _ _ _ _ _ D) as [->|(ns' & o & e & -> & ->)]; [exact H|].
        pose proof (forget_unlisted _ _ _ _ _ _ _ _ A Th) as U.
        rewrite bget_del_other; [exact H|]. intros ->. exact (U L).
Qed.

(** an unlisted namespace that is not known stays so *)
Lemma unlisted_step ns s tr x s' ev :
  ~ lists x0 ns -> allowed s tr -> todo_ok s -> matcher_act p s x = Some (s', ev) -> no_update ev ->
  bget (m_rules s) ns = None -> bget (m_rules s') ns = None.
Proof.
  intros L A TO E N H. unfold todo_ok in TO.
  destruct x; try (destruct (other_frame _ _ _ _ _ E ltac:(cbn; tauto)) as [-> _]; exact H); cbn [matcher_act] in E.
  - destruct (m_thread s); try discriminate. destruct (new_namespaces _ _); [|discriminate].
    injection E as <- <-. exact H.
  - unfold process_step in E. destruct (m_thread s) as [|body todo inc|body todo inc] eqn:Th; [discriminate| |].
    + destruct body as [|y body].
      * destruct todo as [|n0 todo]; [injection E as <- <-; exact H|].
        destruct (nth_error _ _) as [n|] eqn:Nt; [|discriminate]. destruct (enter s n) as [[s1 b1] ev1] eqn:En.
        injection E as <- <-. cbn.
        destruct (enter_frame _ _ _ _ _ En) as (_ & F & _).
        destruct F as [(_ & -> & _)|(X & -> & _)]; [exact H|].
        rewrite bget_set_other; [exact H|]. intros ->. apply L. apply (mention_lists _ n).
        apply TO. eapply nth_error_In. exact Nt.
      * destruct (do_nstep _ _ _ _ _) as [[[s1 more] ev1]|] eqn:D; [|discriminate]. injection E as <- <-. cbn.
        destruct (nstep_rules _ _ _ _ _ _ _ _ D) as [->|(ns' & o & e & -> & ->)]; [exact H|].
        destruct (bytes_dec ns ns') as [->|Nn]; [apply bget_del_same|]. rewrite bget_del_other by exact Nn. exact H.
    + destruct body as [|y body].
      * destruct todo as [|n0 todo]; [injection E as <- <-; exact H|].
        destruct (nth_error _ _) as [[n o']|]; [|discriminate]. injection E as <- <-. exact H.
      * destruct (do_nstep _ _ _ _ _) as [[[s1 more] ev1]|] eqn:D; [|discriminate]. injection E as <- <-. cbn.
        destruct (nstep_rules _ _ _ _ _ _ _ _ D) as [->|(ns' & o & e & -> & ->)]; [exact H|].
        destruct (bytes_dec ns ns') as [->|Nn]; [apply bget_del_same|]. rewrite bget_del_other by exact Nn. exact H.
Qed.

(** an unlisted namespace whose rules are deleted and old enough is removed, or
    about to be *)
Definition doomed (ns : bytes) (c : Z) (s : mstate) : Prop :=
  bget (m_rules s) ns = None \/
  exists o, bget (m_rules s) ns = Some o /\ ob_tomb (m_objs s o) = true /\ (ob_cutover (m_objs s o) <= c)%Z /\
    match m_thread s with
    | NIdle => False
    | NAdding _ _ _ => True
    | NSweeping body todo _ =>
        In (ns, o) todo \/ exists e, (c <= e)%Z /\
          (body = [NCutover ns o e] \/ body = [NUnregister ns o e] \/ body = [NForget ns o e])
    end.

Lemma doomed_step ns c s tr x s' ev :
  ~ lists x0 ns -> allowed s tr -> todo_ok s -> late p c x -> matcher_act p s x = Some (s', ev) -> no_update ev ->
  Forall (deletes ns c) ev -> doomed ns c s -> doomed ns c s'.
Proof.
  intros L A TO La E N De [H|(o & G & Tb & Cu & H)]; [left; exact (unlisted_step _ _ _ _ _ _ L A TO E N H)|].
  assert (KEEP : ob_tomb (m_objs s' o) = true /\ (ob_cutover (m_objs s' o) <= c)%Z).
  { destruct A as [[Bs T] _].
    pose proof (b_fresh _ _ _ _ _ _ _ Bs ns o G) as Lo. pose proof (proj1 (b_known _ _ _ _ _ _ _ Bs ns o G)) as Ens.
    destruct (act_obj _ _ _ _ _ _ E Lo) as [(_ & _ & -> & ->)|(rs & t & I & _ & _ & -> & ->)]; [split; assumption|].
    rewrite Ens in I. rewrite Forall_forall in De. exact (De _ I eq_refl). }
  destruct KEEP as [Tb' Cu'].
  assert (STAY : m_rules s' = m_rules s -> m_thread s' = m_thread s -> doomed ns c s').
  { intros X Y. unfold doomed. rewrite X, Y. right. exists o. auto. }
  destruct x; try (destruct (other_frame _ _ _ _ _ E ltac:(cbn; tauto)) as [X Y]; exact (STAY X Y)); cbn [matcher_act] in E.
  - destruct (m_thread s); try discriminate. destruct (new_namespaces _ _); [|discriminate].
    injection E as <- <-. exfalso. apply (N n). left. reflexivity.
  - unfold late, early in La. clear STAY.
    unfold process_step in E. destruct (m_thread s) as [|body todo inc|body todo inc] eqn:Th; [discriminate| |].
    + destruct body as [|y body].
      * destruct todo as [|n0 todo].
        { injection E as <- <-. right. exists o. repeat (split; [assumption|]). left. cbn. apply bget_in. exact G. }
        destruct (nth_error _ _) as [n|] eqn:Nt; [|discriminate]. destruct (enter s n) as [[s1 b1] ev1] eqn:En.
        injection E as <- <-. right. exists o. cbn.
        split; [|split; [exact Tb'|split; [exact Cu'|exact I]]].
        destruct (enter_frame _ _ _ _ _ En) as (_ & F & _).
        destruct F as [(_ & -> & _)|(X & -> & _)]; [exact G|].
        rewrite bget_set_other; [exact G|]. intros ->. congruence.
      * destruct (do_nstep _ _ _ _ _) as [[[s1 more] ev1]|] eqn:D; [|discriminate]. injection E as <- <-.
        right. exists o. cbn. split; [|split; [exact Tb'|split; [exact Cu'|exact I]]].
        destruct (nstep_rules _ _ _ _ _ _ _ _ D) as [->|(ns' & o' & e & -> & _)]; [exact G|].
        exfalso. exact (forget_not_adding _ _ _ _ _ _ _ _ A Th).
    + destruct body as [|y body].
      * destruct H as [H|(e & _ & [H|[H|H]])]; try discriminate.
        destruct todo as [|n0 todo]; [destruct H|].
        destruct (nth_error _ _) as [[n o']|] eqn:Nt; [|discriminate]. injection E as <- <-.
        right. exists o. cbn. split; [exact G|]. split; [exact Tb'|]. split; [exact Cu'|].
        destruct (nth_or_left _ _ _ _ Nt H) as [X|X]; [|left; exact X]. injection X as -> ->. right.
        exists (now - mo_match_range_past p)%Z. split; [exact La|]. left. unfold sweep.
        destruct A as [[_ T] Lu]. rewrite Th in T. destruct (t_ok _ _ _ _ _ T) as (x & Lu' & Inc & _).
        rewrite Lu in Lu'. injection Lu' as <-.
        destruct (existsb (beqb n) inc) eqn:Ex.
        { exfalso. apply L. apply Inc. apply existsb_exists in Ex as (b & I1 & I2). apply beqb_eq in I2 as ->. exact I1. }
        rewrite Tb. reflexivity.
      * destruct (do_nstep _ _ _ _ _) as [[[s1 more] ev1]|] eqn:D; [|discriminate]. injection E as <- <-.
        destruct H as [H|(e & Le & H)].
        -- right. exists o. cbn. split; [|split; [exact Tb'|split; [exact Cu'|left; exact H]]].
           destruct (nstep_rules _ _ _ _ _ _ _ _ D) as [->|(ns' & o' & e & -> & ->)]; [exact G|].
           rewrite bget_del_other; [exact G|]. intros <-.
           destruct A as [[_ T] _]. rewrite Th in T. destruct (t_ok _ _ _ _ _ T) as (x & _ & _ & A1 & A2 & A).
           destruct A as [A|(ns2 & o2 & e2 & N1 & _ & _ & A)]; [discriminate|].
           destruct A as [(_ & _ & _ & [[A _]|[A _]])|[(_ & _ & _ & _ & A)|[_ A]]]; try discriminate.
           injection A as <- _ _ _. apply N1. apply in_map_iff. exists (ns, o). split; [reflexivity|exact H].
        -- destruct H as [H|[H|H]]; injection H as -> ->; cbn [do_nstep] in D.
           ++ injection D as <- <- <-. right. exists o. cbn. split; [exact G|]. split; [exact Tb'|]. split; [exact Cu'|].
              right. exists e. split; [exact Le|]. right. left.
              replace (ob_cutover (m_objs s o) <=? e)%Z with true by (symmetry; apply Z.leb_le; lia). reflexivity.
           ++ destruct (call_cache _ _ _) as [[s2 ev2]|] eqn:C; [|discriminate]. injection D as <- <- <-.
              apply call_cache_frame in C. destruct C as (C1 & _ & C2 & _).
              right. exists o. cbn. rewrite C1. split; [exact G|]. split; [exact Tb'|]. split; [exact Cu'|].
              right. exists e. split; [exact Le|]. auto.
           ++ injection D as <- <- <-. left. cbn. apply bget_del_same.
Qed.

(** a namespace that is not removed keeps what is known about it *)
Lemma rules_kept ns o s tr x s' ev :
  allowed s tr -> matcher_act p s x = Some (s', ev) -> bget (m_rules s) ns = Some o -> bget (m_rules s') ns <> None ->
  (forall o' rs t, ~ In (MProcessed ns o' rs t) ev) -> rules_of (tr ++ ev) ns = rules_of tr ns.
Proof.
  intros A E G G' NP.
  assert (CACHE : forall y, call_cache p s y = Some (s', ev) -> rules_of (tr ++ ev) ns = rules_of tr ns).
  { intros y C. unfold call_cache in C. destruct (cache_act _ _ _) as [[c' ev0]|]; [|discriminate].
    injection C as <- <-. apply rules_of_cache. }
  assert (STEP : forall y now init s1 more ev1, do_nstep p s y now init = Some (s1, more, ev1) ->
    bget (m_rules s1) ns <> None -> (forall o' rs t, ~ In (MProcessed ns o' rs t) ev1) ->
    rules_of (tr ++ ev1) ns = rules_of tr ns).
  { intros y now init s1 more ev1 D G1 NP1. destruct y; cbn [do_nstep] in D.
    - destruct (ob_watched _); [injection D as <- <- <-; rewrite app_nil_r; reflexivity|].
      destruct init as [[v pb]|]; [|injection D as <- <- <-; rewrite app_nil_r; reflexivity].
      unfold deliver in D. destruct (rule_set_from_proto _ _ _) as [rs|]; injection D as <- <- <-; [|rewrite app_nil_r; reflexivity].
      rewrite rules_of_app. cbn [fold_left rules_step]. destruct (beqb _ ns) eqn:Eb; [|reflexivity].
      apply beqb_eq in Eb. exfalso. apply (NP1 o0 rs (now - mo_match_range_past p)%Z). left. rewrite <- Eb. reflexivity.
    - injection D as <- <- <-; rewrite app_nil_r; reflexivity.
    - unfold call_cache in D. destruct (cache_act _ _ _) as [[c' ev0]|]; [|discriminate]. injection D as <- <- <-. apply rules_of_cache.
    - unfold call_cache in D. destruct (cache_act _ _ _) as [[c' ev0]|]; [|discriminate]. injection D as <- <- <-. apply rules_of_cache.
    - injection D as <- <- <-; rewrite app_nil_r; reflexivity.
    - unfold call_cache in D. destruct (cache_act _ _ _) as [[c' ev0]|]; [|discriminate]. injection D as <- <- <-. apply rules_of_cache.
    - injection D as <- <- <-. rewrite rules_of_app. cbn [fold_left rules_step]. destruct (beqb _ ns) eqn:Eb; [|reflexivity].
      apply beqb_eq in Eb as ->. exfalso. apply G1. apply bget_del_same. }
  destruct x; cbn [matcher_act] in E.
  - destruct (m_thread s); try discriminate. destruct (new_namespaces _ _); [|discriminate].
    injection E as <- <-. rewrite rules_of_app. reflexivity.
  - unfold process_step in E. destruct (m_thread s) as [|body todo inc|body todo inc] eqn:Th; [discriminate| |].
    + destruct body as [|y body].
      * destruct todo as [|n0 todo]; [injection E as <- <-; rewrite app_nil_r; reflexivity|].
        destruct (nth_error _ _) as [n|] eqn:Nt; [|discriminate]. destruct (enter s n) as [[s1 b1] ev1] eqn:En.
        injection E as <- <-. unfold enter in En. destruct (bget (m_rules s) (ns_name n)) eqn:Gn.
        -- injection En as <- <- <-. rewrite app_nil_r. reflexivity.
        -- injection En as <- <- <-. rewrite rules_of_app. cbn [fold_left rules_step].
           destruct (beqb _ ns) eqn:Eb; [|reflexivity]. apply beqb_eq in Eb. congruence.
      * destruct (do_nstep _ _ _ _ _) as [[[s1 more] ev1]|] eqn:D; [|discriminate]. injection E as <- <-.
        exact (STEP _ _ _ _ _ _ D G' NP).
    + destruct body as [|y body].
      * destruct todo as [|n0 todo]; [injection E as <- <-; rewrite app_nil_r; reflexivity|].
        destruct (nth_error _ _) as [[n o']|]; [|discriminate]. injection E as <- <-. rewrite app_nil_r; reflexivity.
      * destruct (do_nstep _ _ _ _ _) as [[[s1 more] ev1]|] eqn:D; [|discriminate]. injection E as <- <-.
        exact (STEP _ _ _ _ _ _ D G' NP).
  - destruct (_ && _); [|discriminate]. unfold deliver in E. destruct (rule_set_from_proto _ _ _) as [rs|]; [|discriminate].
    injection E as <- <-. rewrite rules_of_app. cbn [fold_left rules_step]. destruct (beqb _ ns) eqn:Eb; [|reflexivity].
    apply beqb_eq in Eb. exfalso. apply (NP o0 rs (now - mo_match_range_past p)%Z). left. rewrite <- Eb. reflexivity.
  - destruct (nth_error _ _); [|discriminate]. unfold call_cache in E.
    destruct (cache_act _ _ _) as [[c' ev0]|]; [|discriminate]. injection E as <- <-. apply rules_of_cache.
  - exact (CACHE _ E).
  - exact (CACHE _ E).
  - apply (CACHE x). destruct x; try discriminate; exact E.
  - injection E as <- <-. rewrite app_nil_r. reflexivity.
Qed.

(** an unlisted namespace whose rules are not deleted, or not old enough, is kept *)
Definition lasting (ns : bytes) (c : Z) (k : option (option (rule_set * Z))) (s : mstate) (tr : list mevent) : Prop :=
  rules_of tr ns = k /\
  exists o, bget (m_rules s) ns = Some o /\ (ob_tomb (m_objs s o) = false \/ (c < ob_cutover (m_objs s o))%Z) /\
    match m_thread s with
    | NSweeping body _ _ => body <> [] -> ob_ns (m_objs s o) = ns ->
        forall o' e, body <> [NUnregister ns o' e] /\ body <> [NForget ns o' e] /\
          (body = [NCutover ns o' e] -> (e <= c)%Z /\ ob_tomb (m_objs s o) = true)
    | _ => True
    end.

Lemma lasting_step ns c k s tr x s' ev :
  allowed s tr -> early p c x -> matcher_act p s x = Some (s', ev) -> no_update ev ->
  Forall (untouched ns) ev -> lasting ns c k s tr -> lasting ns c k s' (tr ++ ev).
Proof.
  intros A La E N Un (K & o & G & Lv & H).
  assert (NP : forall o' rs t, ~ In (MProcessed ns o' rs t) ev).
  { intros o' rs t I. rewrite Forall_forall in Un. exact (Un _ I eq_refl). }
  pose proof A as [[Bs T] Lu].
  pose proof (b_fresh _ _ _ _ _ _ _ Bs ns o G) as Lo. pose proof (proj1 (b_known _ _ _ _ _ _ _ Bs ns o G)) as Ens.
  assert (SAME : same_rules (m_objs s o) (m_objs s' o)).
  { destruct (act_obj _ _ _ _ _ _ E Lo) as [X|(rs & t & I & _)]; [exact X|]. rewrite Ens in I. exfalso. exact (NP _ _ _ I). }
  assert (Lv' : ob_tomb (m_objs s' o) = false \/ (c < ob_cutover (m_objs s' o))%Z).
  { destruct SAME as (_ & _ & -> & ->). exact Lv. }
  assert (Ens' : ob_ns (m_objs s' o) = ns) by (destruct SAME as (-> & _); exact Ens).
  assert (FIN : bget (m_rules s') ns = Some o ->
    match m_thread s' with
    | NSweeping body _ _ => body <> [] ->
        forall o' e, body <> [NUnregister ns o' e] /\ body <> [NForget ns o' e] /\
          (body = [NCutover ns o' e] -> (e <= c)%Z /\ ob_tomb (m_objs s' o) = true)
    | _ => True
    end -> lasting ns c k s' (tr ++ ev)).
  { intros G' H'. split.
    - rewrite (rules_kept ns o s tr x s' ev A E G); [exact K|congruence|exact NP].
    - exists o. split; [exact G'|]. split; [exact Lv'|]. destruct (m_thread s'); auto. }
  assert (STAY : m_rules s' = m_rules s -> m_thread s' = m_thread s -> lasting ns c k s' (tr ++ ev)).
  { intros X Y. apply FIN; [rewrite X; exact G|]. rewrite Y. destruct (m_thread s); auto.
    destruct SAME as (_ & _ & _ & ->). auto. }
  destruct x; try (destruct (other_frame _ _ _ _ _ E ltac:(cbn; tauto)) as [X Y]; exact (STAY X Y)); cbn [matcher_act] in E.
  - destruct (m_thread s); try discriminate. destruct (new_namespaces _ _); [|discriminate].
    injection E as <- <-. exfalso. apply (N n). left. reflexivity.
  - unfold late, early in La. clear STAY.
    unfold process_step in E. destruct (m_thread s) as [|body todo inc|body todo inc] eqn:Th; [discriminate| |].
    + destruct body as [|y body].
      * destruct todo as [|n0 todo].
        { injection E as <- <-. apply FIN; [exact G|]. cbn. congruence. }
        destruct (nth_error _ _) as [n|] eqn:Nt; [|discriminate]. destruct (enter s n) as [[s1 b1] ev1] eqn:En.
        injection E as <- <-. apply FIN; [|exact I]. cbn.
        destruct (enter_frame _ _ _ _ _ En) as (_ & F & _).
        destruct F as [(_ & -> & _)|(X & -> & _)]; [exact G|].
        rewrite bget_set_other; [exact G|]. intros ->. congruence.
      * destruct (do_nstep _ _ _ _ _) as [[[s1 more] ev1]|] eqn:D; [|discriminate]. injection E as <- <-.
        apply FIN; [|exact I]. cbn.
        destruct (nstep_rules _ _ _ _ _ _ _ _ D) as [->|(ns' & o' & e & -> & _)]; [exact G|].
        exfalso. exact (forget_not_adding _ _ _ _ _ _ _ _ A Th).
    + destruct (t_ok _ _ _ _ _ T) as (x & Lu' & Inc & S1 & S2 & S).
      destruct body as [|y body].
      * destruct todo as [|n0 todo]; [injection E as <- <-; apply FIN; [exact G|exact I]|].
        destruct (nth_error _ _) as [[n o']|] eqn:Nt; [|discriminate]. injection E as <- <-.
        apply FIN; [exact G|]. cbn [m_thread with_thread m_objs]. intros _ o2 e2. unfold sweep.
        destruct (existsb (beqb n) inc); [repeat split; discriminate|].
        destruct (ob_tomb (m_objs s o')) eqn:Tb; [|repeat split; discriminate].
        split; [discriminate|]. split; [discriminate|]. intros X. injection X as -> -> <-.
        split; [exact La|]. assert (o2 = o) as ->; [|exact Tb].
        apply nth_error_In in Nt. apply S1 in Nt. congruence.
      * destruct (do_nstep _ _ _ _ _) as [[[s1 more] ev1]|] eqn:D; [|discriminate]. injection E as <- <-.
        specialize (H ltac:(discriminate) Ens).
        destruct S as [S|(ns' & o' & e & _ & _ & Ens2 & S)]; [discriminate|].
        destruct S as [(_ & _ & _ & [[S _]|[S _]])|[(_ & _ & _ & _ & S)|[_ S]]]; injection S as -> ->; cbn [do_nstep] in D.
        -- injection D as <- <- <-. apply FIN; [exact G|]. cbn [m_thread with_thread m_objs].
           intros _ o2 e2. destruct (ob_cutover (m_objs s o') <=? e)%Z eqn:Le; cbn [app];
             (split; [|split; [discriminate|discriminate]]); [|discriminate].
           intros X. injection X as -> -> ->. destruct (H o2 e2) as (_ & _ & H3).
           destruct (H3 eq_refl) as [H4 H5]. apply Z.leb_le in Le.
           assert (o2 = o) as ->; [|destruct Lv; [congruence|lia]].
           destruct T as [tk _ _]. destruct tk as (x' & _ & _ & _ & _ & S').
           destruct S' as [S'|(ns3 & o3 & e3 & _ & _ & _ & S')]; [discriminate|].
           destruct S' as [(S3 & _ & _ & [[S' _]|[S' _]])|[(_ & _ & _ & _ & S')|[_ S']]]; try discriminate.
           injection S' as <- <- _. congruence.
        -- destruct (call_cache _ _ _) as [[s2 ev2]|] eqn:C; [|discriminate]. injection D as <- <- <-.
           apply call_cache_frame in C. destruct C as (C1 & _ & C2 & _). apply FIN; [cbn; rewrite C1; exact G|].
           cbn [m_thread with_thread m_objs app]. intros _ o2 e2. split; [discriminate|]. split; [|discriminate].
           intros X. injection X as -> -> ->. destruct (H o2 e2) as (H1 & _). apply H1. reflexivity.
        -- injection D as <- <- <-. apply FIN.
           ++ cbn. rewrite bget_del_other; [exact G|]. intros <-. destruct (H o' e) as (_ & H1 & _). apply H1. reflexivity.
           ++ cbn [m_thread with_thread with_rules m_objs app]. intros _ o2 e2. repeat split; discriminate.
        -- injection D as <- <- <-. apply FIN; [exact G|]. cbn [m_thread with_thread m_objs app]. congruence.
Qed.

(** ** Watching *)

(** the namespace of an entry being added is not among those left to add *)
Definition body_ok (s : mstate) : Prop :=
  match m_thread s with
  | NAdding body todo _ => NoDup (map ns_name todo) /\
      forall o, In (NWatch o) body \/ In (NUnwatch o) body \/ In (NRefresh o) body ->
        ~ In (ob_ns (m_objs s o)) (map ns_name todo)
  | _ => True
  end.

Lemma alone_frame s x s' ev : matcher_act p s x = Some (s', ev) -> ~ of_thread x -> alone x -> m_objs s' = m_objs s.
Proof.
  intros E N Al. destruct x; cbn in N, Al; try tauto; cbn [matcher_act] in E.
  - destruct (nth_error _ _); [|discriminate]. apply call_cache_frame in E. tauto.
  - apply call_cache_frame in E. tauto.
  - apply call_cache_frame in E. tauto.
  - assert (S : call_cache p s x = Some (s', ev)) by (destruct x; try discriminate; exact E).
    apply call_cache_frame in S. tauto.
Qed.

Lemma adding_obj s tr x body todo inc :
  allowed s tr -> m_thread s = NAdding (x :: body) todo inc ->
  exists o, bget (m_rules s) (ob_ns (m_objs s o)) = Some o /\
    ((x = NWatch o \/ x = NUnwatch o \/ x = NRefresh o) /\ (body = [] \/ body = [NRegister o]) \/
     x = NRegister o /\ body = []).
Proof.
  intros [[Bs T] _] Th. rewrite Th in T. destruct (t_ok _ _ _ _ _ T) as (x1 & _ & _ & A).
  apply adding_head in A as (ns & o & G & A). exists o.
  rewrite (proj1 (b_known _ _ _ _ _ _ _ Bs ns o G)). split; [exact G|]. unfold tail_ok in A. intuition auto.
Qed.

(** what a step of the first loop does *)
Lemma adding_step s y now init s1 more ev o :
  do_nstep p s y now init = Some (s1, more, ev) ->
  (y = NWatch o \/ y = NUnwatch o \/ y = NRefresh o) \/ y = NRegister o ->
  m_rules s1 = m_rules s /\ (forall o', o' <> o -> m_objs s1 o' = m_objs s o') /\
  (forall o', ob_ns (m_objs s1 o') = ob_ns (m_objs s o')) /\
  (more = [] \/ y = NWatch o /\ more = [NRefresh o]) /\
  ob_watched (m_objs s1 o) =
    match y with NWatch _ => true | NUnwatch _ => false | _ => ob_watched (m_objs s o) end.
Proof.
  intros D Y. assert (S : forall o', o' =? o = true -> o' = o) by (intros o'; apply Nat.eqb_eq).
  destruct Y as [[->|[->| ->]]| ->]; cbn [do_nstep] in D.
  - destruct (ob_watched (m_objs s o)) eqn:W.
    { injection D as <- <- <-. repeat split; auto. }
    destruct init as [[v pb]|].
    + unfold deliver in D. destruct (rule_set_from_proto _ _ _) as [rs|]; injection D as <- <- <-; cbn.
      * split; [reflexivity|]. split; [|split; [|split; [right; split; reflexivity|rewrite Nat.eqb_refl; reflexivity]]].
        -- intros o' N. destruct (Nat.eqb_spec o' o); [congruence|reflexivity].
        -- intros o'. destruct (Nat.eqb o' o); reflexivity.
      * split; [reflexivity|]. split; [|split; [|split; [left; reflexivity|rewrite Nat.eqb_refl; reflexivity]]].
        -- intros o' N. destruct (Nat.eqb_spec o' o); [congruence|reflexivity].
        -- intros o'. destruct (Nat.eqb o' o); reflexivity.
    + injection D as <- <- <-; cbn.
      split; [reflexivity|]. split; [|split; [|split; [left; reflexivity|rewrite Nat.eqb_refl; reflexivity]]].
      * intros o' N. destruct (Nat.eqb_spec o' o); [congruence|reflexivity].
      * intros o'. destruct (Nat.eqb o' o); reflexivity.
  - injection D as <- <- <-; cbn.
    split; [reflexivity|]. split; [|split; [|split; [left; reflexivity|rewrite Nat.eqb_refl; reflexivity]]].
    + intros o' N. destruct (Nat.eqb_spec o' o); [congruence|reflexivity].
    + intros o'. destruct (Nat.eqb o' o); reflexivity.
  - destruct (call_cache _ _ _) as [[s2 ev2]|] eqn:C; [|discriminate]. injection D as <- <- <-.
    apply call_cache_frame in C. destruct C as (-> & _ & -> & _). repeat split; auto.
  - destruct (call_cache _ _ _) as [[s2 ev2]|] eqn:C; [|discriminate]. injection D as <- <- <-.
    apply call_cache_frame in C. destruct C as (-> & _ & -> & _). repeat split; auto.
Qed.

(** a namespace [ns] mentioned as [n]: not yet looked at, and its version is
    still [v]; or about to be watched or not; or done *)
Definition watch_ok (ns : bytes) (n : namespace) (v : Z) (s : mstate) : Prop :=
  let w := negb (deleted_as_of n v) in
  match m_thread s with
  | NAdding body todo _ =>
      In n todo /\ ns_version s ns = v \/
      ~ In ns (map ns_name todo) /\ exists o, bget (m_rules s) ns = Some o /\
        ((exists tl, body = (if w then NWatch o else NUnwatch o) :: tl /\ (tl = [] \/ tl = [NRegister o])) \/
         ob_watched (m_objs s o) = w /\ ~ In (NWatch o) body /\ ~ In (NUnwatch o) body)
  | NSweeping _ _ _ => exists o, bget (m_rules s) ns = Some o /\ ob_watched (m_objs s o) = w
  | NIdle => exists o, bget (m_rules s) ns = Some o /\ ob_watched (m_objs s o) = w
  end.

Lemma nodup_nth_gone (l : list namespace) i n : NoDup (map ns_name l) -> nth_error l i = Some n ->
  ~ In (ns_name n) (map ns_name (remove_nth i l)).
Proof.
  intros N E. rewrite remove_nth_map. apply remove_nth_gone; [exact N|]. rewrite nth_error_map, E. reflexivity.
Qed.

Lemma body_step s tr x s' ev :
  allowed s tr -> alone x -> matcher_act p s x = Some (s', ev) -> no_update ev -> body_ok s -> body_ok s'.
Proof.
  intros A Al E N H. unfold body_ok in *.
  destruct x; cbn in Al; try tauto;
    try (destruct (other_frame _ _ _ _ _ E ltac:(cbn; tauto)) as [_ ->];
         rewrite (alone_frame _ _ _ _ E ltac:(cbn; tauto) I); exact H); cbn [matcher_act] in E.
  - destruct (m_thread s); try discriminate. destruct (new_namespaces _ _); [|discriminate].
    injection E as <- <-. exfalso. apply (N n). left. reflexivity.
  - unfold process_step in E. destruct (m_thread s) as [|body todo inc|body todo inc] eqn:Th; [discriminate| |].
    + destruct body as [|y body].
      * destruct todo as [|n0 todo]; [injection E as <- <-; exact I|].
        destruct (nth_error _ _) as [n|] eqn:Nt; [|discriminate]. destruct (enter s n) as [[s1 b1] ev1] eqn:En.
        injection E as <- <-. cbn [m_thread with_thread m_objs]. destruct H as [ND _].
        split; [rewrite remove_nth_map; apply remove_nth_nodup; exact ND|].
        destruct (enter_frame _ _ _ _ _ En) as (F1 & F & (o & tl & G & B1 & B2)).
        assert (Eo : ob_ns (m_objs s1 o) = ns_name n).
        { destruct A as [[Bs _] _]. destruct F as [(_ & Er & Eo)|(X & Er & Eo)].
          - rewrite Eo. rewrite Er in G. exact (proj1 (b_known _ _ _ _ _ _ _ Bs _ _ G)).
          - rewrite Er, bget_set_same in G. injection G as <-. rewrite Eo. reflexivity. }
        intros o' I'. assert (o' = o) as ->.
        { rewrite B1 in I'. destruct (deleted_as_of _ _), B2 as [-> | ->]; cbn in I'; intuition congruence. }
        rewrite Eo. exact (nodup_nth_gone _ _ _ ND Nt).
      * destruct (do_nstep _ _ _ _ _) as [[[s1 more] ev1]|] eqn:D; [|discriminate]. injection E as <- <-.
        cbn [m_thread with_thread m_objs].
        destruct (adding_obj _ _ _ _ _ _ A Th) as (o & G & B1).
        assert (Y : (y = NWatch o \/ y = NUnwatch o \/ y = NRefresh o) \/ y = NRegister o) by tauto.
        destruct (adding_step _ _ _ _ _ _ _ _ D Y) as (_ & _ & D3 & D4 & _).
        destruct H as [H0 H]. split; [exact H0|]. intros o' I'. rewrite D3. apply H.
        destruct D4 as [->|[-> ->]].
        -- cbn in I'. cbn. tauto.
        -- cbn in I'. cbn. destruct I' as [[I'|I']|[[I'|I']|[I'|I']]]; try discriminate; try tauto.
           injection I' as <-. tauto.
    + destruct body as [|y body].
      * destruct todo as [|n0 todo]; [injection E as <- <-; exact I|].
        destruct (nth_error _ _) as [[n o']|]; [|discriminate]. injection E as <- <-. exact I.
      * destruct (do_nstep _ _ _ _ _) as [[[s1 more] ev1]|]; [|discriminate]. injection E as <- <-. exact I.
Qed.

Lemma watch_step ns n v s tr x s' ev :
  mention x0 ns = Some n -> allowed s tr -> todo_ok s -> body_ok s -> alone x ->
  matcher_act p s x = Some (s', ev) -> no_update ev -> watch_ok ns n v s -> watch_ok ns n v s'.
Proof.
  intros M A TO BO Al E N H. pose proof (mention_lists _ _ M) as L.
  assert (Enm : ns_name n = ns).
  { rewrite <- incoming_mention in M. apply bget_in in M. apply incoming_names in M as [-> _]. reflexivity. }
  unfold watch_ok in *. unfold todo_ok in TO. unfold body_ok in BO.
  destruct x; cbn in Al; try tauto;
    try (destruct (other_frame _ _ _ _ _ E ltac:(cbn; tauto)) as [X ->]; unfold ns_version in *; rewrite X;
         rewrite (alone_frame _ _ _ _ E ltac:(cbn; tauto) I); exact H); cbn [matcher_act] in E.
  - destruct (m_thread s); try discriminate. destruct (new_namespaces _ _) as [z|]; [|discriminate].
    injection E as <- <-. exfalso. apply (N z). left. reflexivity.
  - unfold process_step in E. destruct (m_thread s) as [|body todo inc|body todo inc] eqn:Th; [discriminate| |].
    + destruct body as [|y body].
      * destruct todo as [|n0 todo].
        { injection E as <- <-. cbn [m_thread with_thread m_rules m_objs].
          destruct H as [[[] _]|(_ & o & G & [(tl & H & _)|[W _]])].
          - destruct (negb _); discriminate.
          - exists o. split; assumption. }
        destruct (nth_error _ _) as [n1|] eqn:Nt; [|discriminate]. destruct (enter s n1) as [[s1 b1] ev1] eqn:En.
        injection E as <- <-. cbn [m_thread with_thread].
        change (m_rules (with_thread s1 _)) with (m_rules s1). change (m_objs (with_thread s1 _)) with (m_objs s1).
        assert (M1 : mention x0 (ns_name n1) = Some n1) by (apply TO; eapply nth_error_In; exact Nt).
        destruct BO as [ND _].
        destruct (enter_frame _ _ _ _ _ En) as (F1 & F & (o & tl & G & B1 & B2)).
        destruct (bytes_dec (ns_name n1) ns) as [E1|E1].
        -- (* the entry itself *)
           assert (n1 = n) as -> by congruence.
           assert (V : ns_version s ns = v).
           { destruct H as [[_ H]|[H _]]; [exact H|]. exfalso. apply H. apply in_map_iff. exists n.
             split; [exact Enm|]. eapply nth_error_In. exact Nt. }
           assert (V1 : ob_version (m_objs s1 o) = v).
           { unfold ns_version in V. rewrite Enm in F, G. destruct F as [(Kn & Er & Eo)|(Kn & Er & Eo)].
             - rewrite Er in G. rewrite G in V. rewrite Eo. exact V.
             - rewrite Er, bget_set_same in G. injection G as <-. rewrite Eo, Kn in *. exact V. }
           right. split; [rewrite <- Enm; exact (nodup_nth_gone _ _ _ ND Nt)|].
           exists o. split; [rewrite <- Enm; exact G|]. left. exists tl. split; [|exact B2].
           rewrite B1, V1. destruct (deleted_as_of n v); reflexivity.
        -- assert (G' : bget (m_rules s1) ns = bget (m_rules s) ns).
           { destruct F as [(_ & -> & _)|(_ & -> & _)]; [reflexivity|]. apply bget_set_other. congruence. }
           assert (O' : forall o', bget (m_rules s) ns = Some o' -> m_objs s1 o' = m_objs s o').
           { intros o' Go. apply F1. destruct A as [[Bs _] _]. exact (b_fresh _ _ _ _ _ _ _ Bs _ _ Go). }
           destruct H as [[H V]|(H & o1 & Go & H1)].
           ++ left. split.
              ** destruct (nth_or_left _ _ _ _ Nt H) as [->|X]; [congruence|exact X].
              ** unfold ns_version in *. change (m_rules (with_thread s1 _)) with (m_rules s1).
                 change (m_objs (with_thread s1 _)) with (m_objs s1). rewrite G'.
                 destruct (bget (m_rules s) ns) as [o'|] eqn:Go; [rewrite (O' o' eq_refl)|]; exact V.
           ++ right. split; [intros I'; apply H; rewrite remove_nth_map in I'; eapply remove_nth_in; exact I'|].
              exists o1. rewrite G'. split; [exact Go|]. rewrite (O' o1 Go).
              destruct H1 as [(tl1 & H1 & _)|(W & _)]; [destruct (negb _); discriminate|]. right. split; [exact W|].
              assert (No : o <> o1).
              { intros ->. apply E1. rewrite <- G' in Go. destruct A as [[Bs _] _].
                rewrite G' in Go. pose proof (proj1 (b_known _ _ _ _ _ _ _ Bs _ _ Go)) as X.
                rewrite <- X, <- (O' o1 Go).
                destruct F as [(_ & Er & Eo)|(Kn & Er & Eo)].
                - rewrite Eo. rewrite Er in G. symmetry. exact (proj1 (b_known _ _ _ _ _ _ _ Bs _ _ G)).
                - rewrite Er, bget_set_same in G. injection G as G.
                  pose proof (b_fresh _ _ _ _ _ _ _ Bs _ _ Go). lia. }
              rewrite B1. clear - No B2. destruct (deleted_as_of _ _), B2 as [-> | ->]; cbn; (split; intros X; decompose [or] X; congruence).
      * destruct (do_nstep _ _ _ _ _) as [[[s1 more] ev1]|] eqn:D; [|discriminate]. injection E as <- <-.
        cbn [m_thread with_thread].
        change (m_rules (with_thread s1 _)) with (m_rules s1). change (m_objs (with_thread s1 _)) with (m_objs s1).
        destruct (adding_obj _ _ _ _ _ _ A Th) as (o & G & B1).
        assert (Y : (y = NWatch o \/ y = NUnwatch o \/ y = NRefresh o) \/ y = NRegister o) by tauto.
        destruct (adding_step _ _ _ _ _ _ _ _ D Y) as (D1 & D2 & D3 & D4 & D5). rewrite D1.
        destruct A as [[Bs _] _].
        destruct H as [[H V]|(H & o1 & Go & H1)].
        -- left. split; [exact H|]. unfold ns_version in *.
           change (m_rules (with_thread s1 _)) with (m_rules s1).
           change (m_objs (with_thread s1 _)) with (m_objs s1). rewrite D1.
           destruct (bget (m_rules s) ns) as [o'|] eqn:Go; [|exact V].
           destruct Y as [Y|Y].
           ++ rewrite D2; [exact V|]. intros ->. destruct BO as [_ BO]. refine (BO o _ _).
              ** cbn. destruct Y as [->|[->| ->]]; tauto.
              ** rewrite (proj1 (b_known _ _ _ _ _ _ _ Bs _ _ Go)). apply in_map_iff. exists n. split; assumption.
           ++ subst y. cbn [do_nstep] in D. destruct (call_cache _ _ _) as [[s2 ev2]|] eqn:C; [|discriminate].
              injection D as <- <- <-. apply call_cache_frame in C. destruct C as (_ & _ & -> & _). exact V.
        -- right. split; [exact H|]. exists o1. split; [exact Go|]. right.
           destruct H1 as [(tl & Hb1 & Htl)|(W & NI1 & NI2)].
           ++ injection Hb1 as Ey ->.
              assert (o = o1) as ->.
              { destruct B1 as [[[X|[X|X]] _]|[X _]]; rewrite Ey in X; destruct (negb _); try discriminate;
                  injection X as ->; reflexivity. }
              split; [rewrite D5, Ey; destruct (negb _); reflexivity|].
              assert (NT : ~ In (NWatch o1) tl /\ ~ In (NUnwatch o1) tl)
                by (destruct Htl as [-> | ->]; cbn; intuition discriminate).
              destruct D4 as [->|[_ ->]]; [exact NT|]. cbn. intuition discriminate.
           ++ split.
              ** destruct (Nat.eq_dec o o1) as [->|No]; [|rewrite D2 by congruence; exact W].
                 rewrite D5. destruct Y as [[->|[->| ->]]| ->]; cbn in NI1, NI2; try tauto; exact W.
              ** assert (NT : ~ In (NWatch o1) body /\ ~ In (NUnwatch o1) body) by (cbn in NI1, NI2; tauto).
                 destruct D4 as [->|[_ ->]]; [exact NT|]. cbn. intuition discriminate.
    + destruct H as (o & G & W). destruct body as [|y body].
      * destruct todo as [|n0 todo]; [injection E as <- <-; exists o; split; assumption|].
        destruct (nth_error _ _) as [[n1 o']|]; [|discriminate]. injection E as <- <-. exists o. split; assumption.
      * destruct (do_nstep _ _ _ _ _) as [[[s1 more] ev1]|] eqn:D; [|discriminate]. injection E as <- <-.
        cbn [m_thread with_thread].
        change (m_rules (with_thread s1 _)) with (m_rules s1). change (m_objs (with_thread s1 _)) with (m_objs s1).
        exists o. destruct A as [[Bs T] Lu]. rewrite Th in T. destruct (t_ok _ _ _ _ _ T) as (x & Lu' & _ & _ & _ & A).
        rewrite Lu in Lu'. injection Lu' as <-.
        destruct A as [A|(ns' & o' & e & _ & N2 & Ens & A)]; [discriminate|].
        assert (NE : ns <> ns') by (intros ->; exact (N2 L)).
        destruct A as [(_ & _ & _ & [[A _]|[A _]])|[(_ & _ & _ & _ & A)|[_ A]]]; injection A as -> ->; cbn [do_nstep] in D.
        -- injection D as <- <- <-. split; assumption.
        -- destruct (call_cache _ _ _) as [[s2 ev2]|] eqn:C; [|discriminate]. injection D as <- <- <-.
           apply call_cache_frame in C. destruct C as (-> & _ & -> & _). split; assumption.
        -- injection D as <- <- <-. split; [|exact W]. cbn. rewrite bget_del_other; assumption.
        -- injection D as <- <- <-. cbn. split; [exact G|]. destruct (Nat.eqb_spec o o') as [->|_]; [|exact W].
           exfalso. apply NE. rewrite <- Ens. symmetry. exact (proj1 (b_known _ _ _ _ _ _ _ Bs _ _ G)).
Qed.

(** ** Once it has been processed *)

Lemma incoming_nodup x : NoDup (map fst (incoming x)).
Proof.
  unfold incoming. assert (G : forall l m, NoDup (map fst m) -> NoDup (map fst (fold_left (fun m n => bset m (ns_name n) n) l m))).
  { induction l as [|n l IH]; intros m H; cbn; [exact H|]. apply IH. apply bset_nodup. exact H. }
  apply G. constructor.
Qed.

Lemma incoming_snd x : map ns_name (map snd (incoming x)) = map fst (incoming x).
Proof.
  rewrite map_map. apply map_ext_in. intros [k n] H. apply incoming_names in H as [-> _]. reflexivity.
Qed.

Variable xs0 : list maction.
Variable s0 : mstate.
Variable tr0 : list mevent.
Variable version : Z.
Variable pb : namespaces_pb.
Variable s1 : mstate.
Variable xs : list maction.
Variable s2 : mstate.
Variable ev : list mevent.
Hypothesis Run0 : matcher_run p new_matcher xs0 = Some (s0, tr0).
Hypothesis Upd : matcher_act p s0 (MNamespaces version pb) = Some (s1, [MUpdate x0]).
Hypothesis Run : matcher_run p s1 xs = Some (s2, ev).
Hypothesis NoUpd : forall y, ~ In (MUpdate y) ev.
Hypothesis Idle : m_thread s2 = NIdle.

Notation tr1 := (tr0 ++ [MUpdate x0]).
Notation tr2 := (tr0 ++ MUpdate x0 :: ev).

Lemma start : allowed s1 tr1 /\ m_rules s1 = m_rules s0 /\ m_objs s1 = m_objs s0 /\
  m_thread s1 = NAdding [] (map snd (incoming x0)) (map fst (incoming x0)).
Proof.
  pose proof (reachable_J _ _ _ _ Hc Hb Run0) as J0.
  split; [split; [exact (J_act _ _ _ _ _ _ Hc Hb J0 Upd)|rewrite last_update_app; reflexivity]|].
  cbn [matcher_act] in Upd. destruct (m_thread s0); try discriminate. destruct (new_namespaces _ _) as [y|]; [|discriminate].
  injection Upd as <- ->. repeat split.
Qed.

Lemma start_todo : todo_ok s1.
Proof.
  destruct start as (_ & _ & _ & Th). unfold todo_ok. rewrite Th. intros n I. apply in_map_iff in I as ([k n'] & E & I).
  cbn in E. subst n'. pose proof (nodup_bget _ _ _ (incoming_nodup x0) I) as G. rewrite incoming_mention in G.
  apply incoming_names in I as [-> _]. exact G.
Qed.

Lemma run_all (I : mstate -> list mevent -> Prop) (ok : maction -> Prop) (okev : mevent -> Prop) :
  (forall s tr x s' ev, allowed s tr -> todo_ok s -> ok x -> matcher_act p s x = Some (s', ev) -> no_update ev -> Forall okev ev ->
    I s tr -> I s' (tr ++ ev)) -> Forall ok xs -> Forall okev ev -> I s1 tr1 -> I s2 tr2.
Proof.
  intros Step O K H.
  assert (X : todo_ok s2 /\ I s2 (tr1 ++ ev)).
  { apply (processing (fun s tr => todo_ok s /\ I s tr) ok okev) with (xs := xs) (s := s1) (tr := tr1); auto.
    - intros s tr x s' ev' A O' E N K' [T H']. split; [exact (todo_step _ _ _ _ _ A E N T)|].
      exact (Step s tr x s' ev' A T O' E N K' H').
    - apply start.
    - split; [exact start_todo|exact H]. }
  rewrite <- app_assoc in X. apply X.
Qed.

Lemma end_J : J p s2 tr2.
Proof.
  destruct start as ([A _] & _). pose proof (J_run p xs Hc Hb s1 tr1 s2 ev A Run) as X. rewrite <- app_assoc in X. exact X.
Qed.

Lemma known_iff s tr ns : J p s tr -> (rules_of tr ns = None <-> bget (m_rules s) ns = None).
Proof.
  intros [Bs _]. split.
  - intros H. destruct (bget (m_rules s) ns) as [o|] eqn:G; [|reflexivity].
    destruct (b_known _ _ _ _ _ _ _ Bs ns o G) as (_ & k & K & _). congruence.
  - exact (b_unknown _ _ _ _ _ _ _ Bs ns).
Qed.

Lemma J0 : J p s0 tr0.
Proof. exact (reachable_J _ _ _ _ Hc Hb Run0). Qed.

Lemma processed_listed ns : lists x0 ns -> rules_of tr2 ns <> None.
Proof.
  intros L. assert (X : listed_ok ns s2).
  { apply (run_all (fun s _ => listed_ok ns s) (fun _ => True) (fun _ => True)).
    - intros s tr x s' ev' A _ _ E N _. exact (listed_step ns s tr x s' ev' L A E N).
    - apply Forall_forall. auto.
    - apply Forall_forall. auto.
    - right. destruct start as (_ & _ & _ & ->). apply incoming_lists in L.
      apply in_map_iff in L as ([k n] & E & I). exists n. split; [apply in_map_iff; exists (k, n); split; [reflexivity|exact I]|].
      apply incoming_names in I as [-> _]. exact E. }
  rewrite (known_iff s2 tr2 ns end_J). unfold listed_ok in X. rewrite Idle in X. destruct X as [X|[]]. exact X.
Qed.

Lemma processed_unknown ns : ~ lists x0 ns -> rules_of tr0 ns = None -> rules_of tr2 ns = None.
Proof.
  intros L H. rewrite (known_iff s2 tr2 ns end_J). rewrite (known_iff s0 tr0 ns J0) in H.
  apply (run_all (fun s _ => bget (m_rules s) ns = None) (fun _ => True) (fun _ => True)).
  - intros s tr x s' ev' A T _ E N _. exact (unlisted_step ns s tr x s' ev' L A T E N).
  - apply Forall_forall. auto.
  - apply Forall_forall. auto.
  - destruct start as (_ & -> & _). exact H.
Qed.

Lemma processed_deleted ns rs t c :
  ~ lists x0 ns -> rules_of tr0 ns = Some (Some (rs, t)) -> rs_tomb rs = true -> (rs_cutover rs <= c)%Z ->
  Forall (late p c) xs -> Forall (deletes ns c) ev -> rules_of tr2 ns = None.
Proof.
  intros L K Tb Cu La De. rewrite (known_iff s2 tr2 ns end_J).
  assert (X : doomed ns c s2).
  { apply (run_all (fun s _ => doomed ns c s) (late p c) (deletes ns c)); auto.
    - intros s tr x s' ev' A T O E N D. exact (doomed_step ns c s tr x s' ev' L A T O E N D).
    - right. destruct start as (_ & -> & -> & ->). destruct J0 as [Bs _].
      destruct (bget (m_rules s0) ns) as [o|] eqn:G; [|rewrite (b_unknown _ _ _ _ _ _ _ Bs ns G) in K; discriminate].
      exists o. split; [reflexivity|]. destruct (b_known _ _ _ _ _ _ _ Bs ns o G) as (_ & k & K1 & K2).
      rewrite K in K1. injection K1 as <-. destruct K2 as (_ & -> & -> & _). auto. }
  destruct X as [X|(o & _ & _ & _ & X)]; [exact X|]. rewrite Idle in X. destruct X.
Qed.

Lemma processed_kept ns k c :
  rules_of tr0 ns = Some k -> match k with Some (rs, _) => rs_tomb rs = false \/ (c < rs_cutover rs)%Z | None => True end ->
  Forall (early p c) xs -> Forall (untouched ns) ev -> rules_of tr2 ns = Some k.
Proof.
  intros K Lv Ea Un.
  assert (X : lasting ns c (Some k) s2 tr2).
  { apply (run_all (fun s tr => lasting ns c (Some k) s tr) (early p c) (untouched ns)); auto.
    - intros s tr x s' ev' A _ O E N U. exact (lasting_step ns c (Some k) s tr x s' ev' A O E N U).
    - split; [rewrite rules_of_app; exact K|]. destruct start as (_ & -> & -> & ->). destruct J0 as [Bs _].
      destruct (bget (m_rules s0) ns) as [o|] eqn:G; [|rewrite (b_unknown _ _ _ _ _ _ _ Bs ns G) in K; discriminate].
      exists o. split; [reflexivity|]. destruct (b_known _ _ _ _ _ _ _ Bs ns o G) as (_ & k' & K1 & K2).
      rewrite K in K1. injection K1 as <-. split; [|exact I].
      destruct k as [[rs t]|]; [destruct K2 as (_ & -> & -> & _); exact Lv|].
      destruct K2 as (_ & _ & -> & _). left. reflexivity. }
  exact (proj1 X).
Qed.

Lemma processed_watched ns n :
  mention x0 ns = Some n -> Forall alone xs ->
  watched_ns s2 ns = negb (deleted_as_of n (version_of (rules_of tr0 ns))).
Proof.
  intros M Al.
  assert (Enm : ns_name n = ns /\ In (ns, n) (incoming x0)).
  { rewrite <- incoming_mention in M. apply bget_in in M. split; [|exact M]. apply incoming_names in M as [-> _]. reflexivity. }
  assert (V : ns_version s0 ns = version_of (rules_of tr0 ns)).
  { destruct J0 as [Bs _]. unfold ns_version. destruct (bget (m_rules s0) ns) as [o|] eqn:G.
    - destruct (b_known _ _ _ _ _ _ _ Bs ns o G) as (_ & k & -> & K2). destruct k as [[rs t]|]; apply K2.
    - rewrite (b_unknown _ _ _ _ _ _ _ Bs ns G). reflexivity. }
  assert (X : body_ok s2 /\ watch_ok ns n (version_of (rules_of tr0 ns)) s2).
  { apply (run_all (fun s _ => body_ok s /\ watch_ok ns n (version_of (rules_of tr0 ns)) s) alone (fun _ => True)).
    - intros s tr x s' ev' A T O E N _ [B W]. split; [exact (body_step s tr x s' ev' A O E N B)|].
      exact (watch_step ns n _ s tr x s' ev' M A T B O E N W).
    - exact Al.
    - apply Forall_forall. auto.
    - destruct start as (_ & Er & Eo & Th). unfold body_ok, watch_ok, ns_version. rewrite Th, Er, Eo. split.
      + split; [rewrite incoming_snd; apply incoming_nodup|]. intros o [[]|[[]|[]]].
      + left. split; [|exact V]. apply in_map_iff. exists (ns, n). split; [reflexivity|apply Enm]. }
  destruct X as [_ X]. unfold watch_ok in X. rewrite Idle in X. destruct X as (o & G & W).
  unfold watched_ns. rewrite G. exact W.
Qed.

End Processing.

(** ** Processing an update ends *)

Definition step_weight (x : nstep) : nat :=
  match x with NCutover _ _ _ => 4 | NUnregister _ _ _ => 3 | NForget _ _ _ => 2 | _ => 1 end.
Definition weight (s : mstate) : nat :=
  match m_thread s with
  | NIdle => 0
  | NAdding body todo _ => length body + 3 * length todo + 5 * (@length (bytes * nat) (m_rules s) + length todo) + 3
  | NSweeping body todo _ => list_sum (map step_weight body) + 5 * length todo + 1
  end.

Lemma reg_act_readers o c c' ev x :
  match x with ARegister _ _ | ARefresh _ _ | AUnregister _ => True | _ => False end ->
  c_readers c = [] ->
  (cache_act o c x = Some (c', ev) -> c_readers c' = []) /\ cache_act o c x <> None.
Proof.
  intros F R. destruct x; try tauto; cbn [cache_act]; unfold unlocked; rewrite R;
    (destruct (bget (c_ns c) ns) as [r|]; try (destruct (Nat.eqb _ _)));
    (split; [|discriminate]); intros E; injection E as <- <-; exact R.
Qed.

Lemma call_ok p s x :
  match x with ARegister _ _ | ARefresh _ _ | AUnregister _ => True | _ => False end ->
  c_readers (m_cache s) = [] ->
  exists s' ev, call_cache p s x = Some (s', ev) /\ c_readers (m_cache s') = [].
Proof.
  intros F R. unfold call_cache. destruct (cache_act _ _ x) as [[c' ev]|] eqn:E.
  - exists (with_cache s c'), (map MEv ev). split; [reflexivity|]. exact (proj1 (reg_act_readers _ _ _ _ _ F R) E).
  - exfalso. exact (proj2 (reg_act_readers (mo_cache_opts p) (m_cache s) (m_cache s) [] x F R) E).
Qed.

Lemma nstep_ok p s x now : c_readers (m_cache s) = [] ->
  exists s1 more ev, do_nstep p s x now None = Some (s1, more, ev) /\ c_readers (m_cache s1) = [] /\
    list_sum (map step_weight more) < step_weight x /\
    (match x with NCutover _ _ _ | NUnregister _ _ _ | NForget _ _ _ => True | _ => more = [] /\ m_rules s1 = m_rules s end).
Proof.
  intros R. destruct x; cbn [do_nstep].
  - destruct (ob_watched _); do 3 eexists; (split; [reflexivity|]); (split; [exact R|]); cbn; auto.
  - do 3 eexists; (split; [reflexivity|]); (split; [exact R|]); cbn; auto.
  - destruct (call_ok p s (ARefresh (ob_ns (m_objs s o)) o) I R) as (s' & ev & E & R'). rewrite E.
    do 3 eexists; (split; [reflexivity|]); (split; [exact R'|]); cbn. apply call_cache_frame in E. intuition auto.
  - destruct (call_ok p s (ARegister (ob_ns (m_objs s o)) o) I R) as (s' & ev & E & R'). rewrite E.
    do 3 eexists; (split; [reflexivity|]); (split; [exact R'|]); cbn. apply call_cache_frame in E. intuition auto.
  - do 3 eexists; (split; [reflexivity|]); (split; [exact R|]). destruct (_ <=? _)%Z; cbn; split; auto; lia.
  - destruct (call_ok p s (AUnregister (ob_ns (m_objs s o))) I R) as (s' & ev & E & R'). rewrite E.
    do 3 eexists; (split; [reflexivity|]); (split; [exact R'|]); cbn. auto.
  - do 3 eexists; (split; [reflexivity|]); (split; [exact R|]); cbn. auto.
Qed.

Lemma bdel_length {A} (m : bmap A) k : @length (bytes * A) (bdel m k) <= @length (bytes * A) m.
Proof. unfold bdel. induction m as [|e m IH]; cbn; [lia|]. destruct (negb _); cbn; lia. Qed.

Lemma list_sum_map_app (a b : list nstep) :
  list_sum (map step_weight (a ++ b)) = list_sum (map step_weight a) + list_sum (map step_weight b).
Proof. rewrite map_app, list_sum_app. reflexivity. Qed.

Lemma step_down p s tr now : J p s tr -> c_readers (m_cache s) = [] -> m_thread s <> NIdle ->
  exists s' ev, matcher_act p s (MStep 0 now None) = Some (s', ev) /\ no_update ev /\
    c_readers (m_cache s') = [] /\ weight s' < weight s.
Proof.
  intros Js R Th. cbn [matcher_act]. unfold process_step, weight.
  destruct (m_thread s) as [|body todo inc|body todo inc] eqn:Et; [congruence| |].
  - destruct body as [|x body].
    + destruct todo as [|n todo].
      * do 2 eexists. split; [reflexivity|]. split; [intros y []|]. split; [exact R|]. cbn. lia.
      * cbn [nth_error]. unfold enter. destruct (bget (m_rules s) (ns_name n)) as [o|] eqn:G.
        -- do 2 eexists. split; [reflexivity|]. split; [intros y []|]. split; [exact R|]. cbn. lia.
        -- do 2 eexists. split; [reflexivity|]. split; [intros y [Y|[]]; discriminate|]. split; [exact R|].
           cbn -[bdel]. pose proof (bdel_length (m_rules s) (ns_name n)). lia.
    + destruct (nstep_ok p s x now R) as (s1 & more & ev & E & R1 & W & S). rewrite E.
      do 2 eexists. split; [reflexivity|]. split; [|split; [exact R1|]].
      * intros y Y. destruct x; cbn [do_nstep] in E.
        -- destruct (ob_watched _); injection E as <- <- <-; destruct Y.
        -- injection E as <- <- <-. destruct Y.
        -- destruct (call_cache _ _ _) as [[s2 ev2]|] eqn:C; [|discriminate]. injection E as <- <- <-.
           unfold call_cache in C. destruct (cache_act _ _ _) as [[c' ev0]|]; [|discriminate]. injection C as <- <-.
           exact (no_update_cache _ _ Y).
        -- destruct (call_cache _ _ _) as [[s2 ev2]|] eqn:C; [|discriminate]. injection E as <- <- <-.
           unfold call_cache in C. destruct (cache_act _ _ _) as [[c' ev0]|]; [|discriminate]. injection C as <- <-.
           exact (no_update_cache _ _ Y).
        -- injection E as <- <- <-. destruct Y.
        -- destruct (call_cache _ _ _) as [[s2 ev2]|] eqn:C; [|discriminate]. injection E as <- <- <-.
           unfold call_cache in C. destruct (cache_act _ _ _) as [[c' ev0]|]; [|discriminate]. injection C as <- <-.
           exact (no_update_cache _ _ Y).
        -- injection E as <- <- <-. destruct Y as [Y|[]]. discriminate.
      * cbn [m_thread with_thread]. change (m_rules (with_thread s1 _)) with (m_rules s1).
        destruct Js as [_ T]. rewrite Et in T. destruct (t_ok _ _ _ _ _ T) as (x1 & _ & _ & A).
        apply adding_head in A as (ns & o & _ & A).
        assert (S' : more = [] /\ m_rules s1 = m_rules s).
        { destruct A as [[[->|[->| ->]] _]|[-> _]]; exact S. }
        destruct S' as [-> ->]. cbn. lia.
  - destruct body as [|x body].
    + destruct todo as [|[ns o] todo].
      * do 2 eexists. split; [reflexivity|]. split; [intros y []|]. split; [exact R|]. cbn. lia.
      * cbn [nth_error]. do 2 eexists. split; [reflexivity|]. split; [intros y []|]. split; [exact R|].
        cbn [m_thread with_thread]. unfold sweep. destruct (existsb _ _); [cbn; lia|]. destruct (ob_tomb _); cbn; lia.
    + destruct (nstep_ok p s x now R) as (s1 & more & ev & E & R1 & W & S). rewrite E.
      do 2 eexists. split; [reflexivity|]. split; [|split; [exact R1|]].
      * intros y Y. destruct x; cbn [do_nstep] in E.
        -- destruct (ob_watched _); injection E as <- <- <-; destruct Y.
        -- injection E as <- <- <-. destruct Y.
        -- destruct (call_cache _ _ _) as [[s2 ev2]|] eqn:C; [|discriminate]. injection E as <- <- <-.
           unfold call_cache in C. destruct (cache_act _ _ _) as [[c' ev0]|]; [|discriminate]. injection C as <- <-.
           exact (no_update_cache _ _ Y).
        -- destruct (call_cache _ _ _) as [[s2 ev2]|] eqn:C; [|discriminate]. injection E as <- <- <-.
           unfold call_cache in C. destruct (cache_act _ _ _) as [[c' ev0]|]; [|discriminate]. injection C as <- <-.
           exact (no_update_cache _ _ Y).
        -- injection E as <- <- <-. destruct Y.
        -- destruct (call_cache _ _ _) as [[s2 ev2]|] eqn:C; [|discriminate]. injection E as <- <- <-.
           unfold call_cache in C. destruct (cache_act _ _ _) as [[c' ev0]|]; [|discriminate]. injection C as <- <-.
           exact (no_update_cache _ _ Y).
        -- injection E as <- <- <-. destruct Y as [Y|[]]. discriminate.
      * cbn [m_thread with_thread]. rewrite list_sum_map_app. cbn [map list_sum fold_right].
        unfold list_sum in *. cbn [fold_right]. lia.
Qed.

Lemma finishes p now :
  (0 <= co_capacity (mo_cache_opts p))%Z -> (0 <= co_evict_batch (mo_cache_opts p))%Z ->
  forall w s tr, weight s <= w -> J p s tr -> c_readers (m_cache s) = [] ->
  exists n s' ev, matcher_run p s (repeat (MStep 0 now None) n) = Some (s', ev) /\ m_thread s' = NIdle /\ no_update ev.
Proof.
  intros Hc Hb. induction w as [|w IH]; intros s tr W Js R.
  - exists 0, s, []. split; [reflexivity|]. split; [|intros y []].
    unfold weight in W. destruct (m_thread s); [reflexivity|lia|lia].
  - assert (D : m_thread s = NIdle \/ m_thread s <> NIdle) by (destruct (m_thread s); [left; reflexivity|right; discriminate|right; discriminate]).
    destruct D as [D|D]; [exists 0, s, []; split; [reflexivity|]; split; [exact D|intros y []]|].
    destruct (step_down p s tr now Js R D) as (s1 & ev1 & E & N & R1 & W1).
    destruct (IH s1 (tr ++ ev1) ltac:(lia) (J_act _ _ _ _ _ _ Hc Hb Js E) R1) as (n & s2 & ev2 & E2 & I2 & N2).
    exists (S n), s2, (ev1 ++ ev2). cbn [repeat matcher_run]. rewrite E, E2. split; [reflexivity|]. split; [exact I2|].
    intros y Y. apply in_app_iff in Y as [Y|Y]; [exact (N y Y)|exact (N2 y Y)].
Qed.

Lemma processing_finishes p xs s tr now :
  (0 <= co_capacity (mo_cache_opts p))%Z -> (0 <= co_evict_batch (mo_cache_opts p))%Z ->
  matcher_run p new_matcher xs = Some (s, tr) -> c_readers (m_cache s) = [] ->
  exists n s' ev, matcher_run p s (repeat (MStep 0 now None) n) = Some (s', ev) /\ m_thread s' = NIdle /\
    forall y, ~ In (MUpdate y) ev.
Proof.
  intros Hc Hb Run R. exact (finishes p now Hc Hb (weight s) s tr (le_n _) (reachable_J _ _ _ _ Hc Hb Run) R).
Qed.

(** ** What the queries of the namespaces return *)

Lemma queries p xs s tr ns :
  (0 <= co_capacity (mo_cache_opts p))%Z -> (0 <= co_evict_batch (mo_cache_opts p))%Z ->
  matcher_run p new_matcher xs = Some (s, tr) ->
  ns_version s ns = version_of (rules_of tr ns) /\
  (forall id from to, ns_forward_match s ns id from to = matched_by (rules_of tr ns) id from to) /\
  (forall id from to mt at_ multi topts, ns_reverse_match s ns id from to mt at_ multi topts =
     reverse_matched_by (rules_of tr ns) id from to mt at_ multi topts).
Proof.
  intros Hc Hb Run. destruct (reachable_J _ _ _ _ Hc Hb Run) as [Bs _].
  unfold ns_version, ns_forward_match, ns_reverse_match. destruct (bget (m_rules s) ns) as [o|] eqn:G.
  - destruct (b_known _ _ _ _ _ _ _ Bs ns o G) as (_ & k & -> & K). split; [|split].
    + destruct k as [[rs t]|]; apply K.
    + intros id from to. apply shows_forward. exact K.
    + intros. unfold rs_reverse_match. destruct k as [[rs t]|]; destruct K as (_ & _ & _ & ->); reflexivity.
  - rewrite (b_unknown _ _ _ _ _ _ _ Bs ns G). repeat split.
Qed.

Lemma removed_only_if p xs s tr u ns o e v :
  (0 <= co_capacity (mo_cache_opts p))%Z -> (0 <= co_evict_batch (mo_cache_opts p))%Z ->
  matcher_run p new_matcher xs = Some (s, tr) -> tr = u ++ MRemoved ns o e :: v ->
  exists x, last_update u = Some x /\ ~ lists x ns /\
    since_update u x (rules_deleted ns) /\ since_update u x (rules_older ns e).
Proof.
  intros Hc Hb Run E. destruct (reachable_J _ _ _ _ Hc Hb Run) as [Bs _].
  exact (proj2 (b_trace _ _ _ _ _ _ _ Bs _ _ _ E)).
Qed.
