(** Proofs about a rule store that holds bytes. *)
From Coq Require Import Ascii String Arith NArith ZArith Bool Lia List.
From Verif.Base Require Import Bytes BytesFacts.
From Verif.Proof Require Import RuleWireProof StoreProof SystemProof ServedProof.
From Verif.Model Require Import Rules RuleSetProto Namespace ProtoWire RuleWire Store Cache Matcher System ByteStore.
From Verif.Spec Require Import RuleWireSpec StoreSpec SystemSpec ByteStoreSpec.
Import ListNotations.
Open Scope Z_scope.

Lemma stands_version o d s k : stands_for o d s -> bkv_version d k = kv_version s k.
Proof.
  intros H. specialize (H k). unfold bkv_version, kv_version.
  destruct (d k) as [[v b]|], (s k) as [[w x]|]; try contradiction; [apply H|reflexivity].
Qed.

Lemma stands_set o d s k b x : stands_for o d s -> means o k b x -> stands_for o (bkv_set d k b) (kv_set s k x).
Proof.
  intros H M k'. unfold bkv_set, kv_set. destruct (beqb k' k) eqn:E.
  - apply beqb_eq in E. subst k'. split; [|exact M]. now rewrite (stands_version o d s k H).
  - apply H.
Qed.

(** The sets of a transaction and their bytes. *)
Definition set_ok (o : store_opts) (x : bytes * value) : Prop :=
  exists b, value_bytes (snd x) = Ok b /\ means o (fst x) b (snd x).

Lemma sets_ok o sets : Forall (set_ok o) sets ->
  exists bs, sets_bytes sets = Ok bs /\ Forall2 (fun b x => fst b = fst x /\ means o (fst x) (snd b) (snd x)) bs sets.
Proof.
  induction 1 as [|[k x] sets (b & E & M) F (bs & Eb & F2)]; [exists []; split; [reflexivity|constructor]|].
  cbn [fst snd] in *. exists ((k, b) :: bs). cbn [sets_bytes]. rewrite E, Eb. split; [reflexivity|]. constructor; auto.
Qed.

Lemma stands_sets o bs sets : Forall2 (fun b x => fst b = fst x /\ means o (fst x) (snd b) (snd x)) bs sets ->
  forall d s, stands_for o d s ->
  stands_for o (fold_left (fun d x => bkv_set d (fst x) (snd x)) bs d) (fold_left (fun s x => kv_set s (fst x) (snd x)) sets s).
Proof.
  induction 1 as [|b x bs sets [E M] F IH]; intros d s H; [exact H|]. cbn [fold_left]. apply IH. rewrite E. now apply stands_set.
Qed.

Lemma commit_stands o d s conds sets f : stands_for o d s -> Forall (set_ok o) sets ->
  stands_for o (fst (bcommit d conds sets f)) (fst (kv_commit s conds sets f)) /\
  snd (bcommit d conds sets f) = wrap_write (snd (kv_commit s conds sets f)).
Proof.
  intros H F. destruct (sets_ok o sets F) as (bs & Eb & F2). unfold bcommit, kv_commit. rewrite Eb. cbv zeta.
  assert (Eh : forallb (fun c => bkv_version d (fst c) =? snd c) conds = forallb (fun c => kv_version s (fst c) =? snd c) conds).
  { clear -H. induction conds as [|c conds IH]; [reflexivity|]. cbn [forallb]. now rewrite (stands_version o d s _ H), IH. }
  rewrite Eh. pose proof (stands_sets o bs sets F2 d s H) as S.
  destruct f, (forallb (fun c => kv_version s (fst c) =? snd c) conds); cbn [fst snd wrap_write]; auto.
Qed.

Lemma rules_set_ok o rs pb : keys_distinct o -> rules_fit rs -> rule_set_proto rs = Some pb ->
  set_ok o (rule_set_key o (rs_namespace rs), VRules pb).
Proof.
  intros K [N L] E. pose proof (rule_set_proto_typed rs pb N E) as T.
  assert (W : marshal_rule_set pb = Ok (marshal rule_set_fields pb)).
  { apply marshal_rule_set_ok. refine (rule_set_typed_mono _ _ _ _ T). unfold code_ok, int32. lia. }
  exists (marshal rule_set_fields pb). cbn [fst snd value_bytes]. split; [exact W|].
  apply m_rules; [apply K|]. exact (proj2 (rw_rule_set pb T) (L pb _ E W)).
Qed.

Lemma names_set_ok o x : names_fit x -> set_ok o (so_names_key o, VNames (namespaces_proto x)).
Proof.
  intros [N L]. pose proof (namespaces_proto_typed x N) as T. pose proof (marshal_namespaces_ok _ T) as W.
  exists (marshal namespaces_fields (namespaces_proto x)). cbn [fst snd value_bytes]. split; [exact W|].
  apply m_names; [reflexivity|]. exact (proj2 (rw_namespaces _ T) (L _ W)).
Qed.

Lemma write_stands o d s w : keys_distinct o -> write_fits w -> stands_for o d s ->
  stands_for o (fst (brun_write o d w)) (fst (run_write o s w)) /\ snd (brun_write o d w) = snd (run_write o s w).
Proof.
  intros K [Fr Fn] H. destruct w as [rs f|x rs f]; cbn [brun_write run_write writes_rules writes_names] in *.
  - unfold write_rule_set. destruct (store_validate o rs) as [e|]; [auto|].
    destruct rs as [rs|]; cbn [rule_set_transaction]; [|auto]. destruct (rule_set_proto rs) as [pb|] eqn:E; [|auto].
    pose proof (commit_stands o d s [(rule_set_key o (rs_namespace rs), rs_version rs)] [(rule_set_key o (rs_namespace rs), VRules pb)] f H
      (Forall_cons _ (rules_set_ok o rs pb K (Fr rs eq_refl) E) (Forall_nil _))) as [S1 S2].
    destruct (kv_commit _ _ _ _) as [s' c]. cbn [fst snd] in *. auto.
  - unfold write_all. destruct (store_validate o rs) as [e|]; [auto|].
    destruct rs as [rs|]; cbn [rule_set_transaction]; [|auto]. destruct (rule_set_proto rs) as [pb|] eqn:E; [|auto].
    destruct x as [x|]; cbn [namespaces_transaction]; [|auto].
    pose proof (commit_stands o d s [(rule_set_key o (rs_namespace rs), rs_version rs); (so_names_key o, nsx_version x)]
      [(rule_set_key o (rs_namespace rs), VRules pb); (so_names_key o, VNames (namespaces_proto x))] f H
      (Forall_cons _ (rules_set_ok o rs pb K (Fr rs eq_refl) E)
        (Forall_cons _ (names_set_ok o x (Fn x eq_refl)) (Forall_nil _)))) as [S1 S2].
    destruct (kv_commit _ _ _ _) as [s' c]. cbn [fst snd] in *. auto.
Qed.

Lemma writes_stand o ws : keys_distinct o -> Forall write_fits ws -> forall d s, stands_for o d s ->
  stands_for o (fst (bwrites o d ws)) (fst (writes o s ws)) /\ snd (bwrites o d ws) = snd (writes o s ws).
Proof.
  intros K F. induction F as [|w ws Fw F IH]; intros d s H; [cbn; auto|]. cbn [bwrites writes].
  destruct (write_stands o d s w K Fw H) as [S1 S2].
  destruct (brun_write o d w) as [d1 r], (run_write o s w) as [s1 r']. cbn [fst snd] in *. subst r'.
  destruct (IH d1 s1 S1) as [S3 S4]. destruct (bwrites o d1 ws) as [d2 rs], (writes o s1 ws) as [s2 rs']. cbn [fst snd] in *.
  subst rs'. auto.
Qed.

Lemma writes_run o ws : forall s, fst (writes o s ws) = run_writes o s ws.
Proof.
  induction ws as [|w ws IH]; intros s; [reflexivity|]. cbn [writes]. unfold run_writes. cbn [fold_left].
  specialize (IH (fst (run_write o s w))). destruct (run_write o s w) as [s1 r]. cbn [fst] in *.
  destruct (writes o s1 ws) as [s2 rs]. exact IH.
Qed.

Lemma read_names_stands o d s : stands_for o d s -> bread_namespaces o d = Ok (read_namespaces o s).
Proof.
  intros H. specialize (H (so_names_key o)). unfold bread_namespaces, read_namespaces.
  destruct (d (so_names_key o)) as [[v b]|], (s (so_names_key o)) as [[w x]|]; try contradiction; [|reflexivity].
  destruct H as [<- M]. inversion M as [pb K U|K U|pb K U|K U]; subst; try congruence; now rewrite U.
Qed.

Lemma read_rules_stands o o' d s ns : keys_distinct o -> so_names_key o' = so_names_key o ->
  rule_set_key o' ns = rule_set_key o ns -> stands_for o d s -> bread_rule_set o' d ns = Ok (read_rule_set o' s ns).
Proof.
  intros K _ Ek H. specialize (H (rule_set_key o ns)). unfold bread_rule_set, read_rule_set. rewrite Ek.
  destruct (d (rule_set_key o ns)) as [[v b]|], (s (rule_set_key o ns)) as [[w x]|]; try contradiction; [|reflexivity].
  destruct H as [<- M]. specialize (K ns). inversion M as [pb Kn U|Kn U|pb Kn U|Kn U]; subst; try congruence; now rewrite U.
Qed.

(** Every store whose bytes can be read stands for one of messages. *)
Definition messages_of (o : store_opts) (d : bkv) : kv :=
  fun k => match d k with
           | None => None
           | Some (v, b) =>
               Some (v, if beqb k (so_names_key o)
                        then match unmarshal_namespaces b with Ok pb => VNames pb | _ => VOther end
                        else match unmarshal_rule_set b with Ok pb => VRules pb | _ => VOther end)
           end.
Lemma messages_stand o d : readable o d -> stands_for o d (messages_of o d).
Proof.
  intros R k. unfold messages_of. destruct (d k) as [[v b]|] eqn:E; [|exact I]. split; [reflexivity|].
  destruct (R k v b E) as [Rn Rr]. destruct (beqb k (so_names_key o)) eqn:Ek.
  - apply beqb_eq in Ek. specialize (Rn Ek). destruct (unmarshal_namespaces b) eqn:U; [now apply m_names|now apply m_bad_names|congruence].
  - assert (N : k <> so_names_key o) by (intros ->; rewrite (proj2 (beqb_eq _ _) eq_refl) in Ek; discriminate).
    specialize (Rr N). destruct (unmarshal_rule_set b) eqn:U; [now apply m_rules|now apply m_bad_rules|congruence].
Qed.
Lemma stands_readable o d s : stands_for o d s -> readable o d.
Proof.
  intros H k v b E. specialize (H k). rewrite E in H. destruct (s k) as [[w x]|]; [|contradiction]. destruct H as [_ M].
  inversion M; split; congruence.
Qed.

(** ** The store and a matcher *)

Lemma ago_stands o b s ago k : system_stands_for o b s ->
  match bytes_ago b ago k, value_ago s ago k with
  | None, None => True
  | Some (v, y), Some (w, x) => v = w /\ means o k y x
  | _, _ => False
  end.
Proof.
  intros (H & F & _). unfold bytes_ago, value_ago.
  assert (G : Forall2 (stands_for o) (bs_kv b :: bs_past b) (sy_kv s :: sy_past s)) by now constructor.
  revert G. generalize (bs_kv b :: bs_past b) (sy_kv s :: sy_past s). clear. intros l m G. revert ago.
  induction G as [|d s l m H G IH]; intros [|ago]; cbn [nth_error]; [exact I|exact I|exact (H k)|exact (IH ago)].
Qed.

Lemma rules_ago_stands o b s ago ob : keys_distinct o -> system_stands_for o b s -> brules_ago o b ago ob = rules_ago o s ago ob.
Proof.
  intros K H. unfold brules_ago, rules_ago. rewrite (proj2 (proj2 H)).
  set (ns := ob_ns (m_objs (sy_matcher s) ob)). pose proof (ago_stands o b s ago (rule_set_key o ns) H) as A. specialize (K ns).
  destruct (bytes_ago b ago _) as [[v y]|], (value_ago s ago _) as [[w x]|]; try contradiction; [|reflexivity].
  destruct A as [<- M]. inversion M as [pb Kn U|Kn U|pb Kn U|Kn U]; subst; try congruence; now rewrite U.
Qed.

Lemma action_stands o b s x : keys_distinct o -> system_stands_for o b s -> bmatcher_action o b x = matcher_action o s x.
Proof.
  intros K H. destruct x as [w|ago|i now [ago|]|ob ago now|x]; cbn [bmatcher_action matcher_action]; auto.
  - pose proof (ago_stands o b s ago (so_names_key o) H) as A.
    destruct (bytes_ago b ago _) as [[v y]|], (value_ago s ago _) as [[w x]|]; try contradiction; [|reflexivity].
    destruct A as [<- M]. inversion M as [pb Kn U|Kn U|pb Kn U|Kn U]; subst; try congruence; now rewrite U.
  - rewrite (proj2 (proj2 H)). destruct (starts_watching (sy_matcher s)) as [ob|]; [|reflexivity]. now rewrite (rules_ago_stands o b s ago ob K H).
  - now rewrite (rules_ago_stands o b s ago ob K H).
Qed.

Lemma act_stands o p b s x : keys_distinct o -> (forall w, x = SWrite w -> write_fits w) -> system_stands_for o b s ->
  match bsystem_act o p b x, system_act o p s x with
  | None, None => True
  | Some (b', e), Some (s', e') => e = e' /\ system_stands_for o b' s'
  | _, _ => False
  end.
Proof.
  intros K W H. destruct x as [w|ago|i now init|ob ago now|x].
  - cbn [bsystem_act system_act]. destruct H as (H & F & M).
    destruct (write_stands o (bs_kv b) (sy_kv s) w K (W w eq_refl) H) as [S _]. split; [reflexivity|].
    split; [exact S|]. split; [now constructor|exact M].
  - unfold bsystem_act, system_act. rewrite (action_stands o b s _ K H), (proj2 (proj2 H)).
    destruct (matcher_action o s _) as [y|]; [|exact I]. destruct (matcher_act p (sy_matcher s) y) as [[m ev]|]; [|exact I].
    split; [reflexivity|]. split; [apply H|]. split; [apply H|reflexivity].
  - unfold bsystem_act, system_act. rewrite (action_stands o b s _ K H), (proj2 (proj2 H)).
    destruct (matcher_action o s _) as [y|]; [|exact I]. destruct (matcher_act p (sy_matcher s) y) as [[m ev]|]; [|exact I].
    split; [reflexivity|]. split; [apply H|]. split; [apply H|reflexivity].
  - unfold bsystem_act, system_act. rewrite (action_stands o b s _ K H), (proj2 (proj2 H)).
    destruct (matcher_action o s _) as [y|]; [|exact I]. destruct (matcher_act p (sy_matcher s) y) as [[m ev]|]; [|exact I].
    split; [reflexivity|]. split; [apply H|]. split; [apply H|reflexivity].
  - unfold bsystem_act, system_act. rewrite (action_stands o b s _ K H), (proj2 (proj2 H)).
    destruct (matcher_action o s _) as [y|]; [|exact I]. destruct (matcher_act p (sy_matcher s) y) as [[m ev]|]; [|exact I].
    split; [reflexivity|]. split; [apply H|]. split; [apply H|reflexivity].
Qed.

Lemma run_stands o p xs : keys_distinct o -> Forall write_fits (writes_of xs) -> forall b s, system_stands_for o b s ->
  match bsystem_run o p b xs, system_run o p s xs with
  | None, None => True
  | Some (b', e), Some (s', e') => e = e' /\ system_stands_for o b' s'
  | _, _ => False
  end.
Proof.
  intros K. induction xs as [|x xs IH]; intros F b s H; [cbn; auto|]. cbn [bsystem_run system_run].
  assert (Fx : (forall w, x = SWrite w -> write_fits w) /\ Forall write_fits (writes_of xs)).
  { unfold writes_of in F. cbn [flat_map] in F. apply Forall_app in F as [F1 F2]. split; [|exact F2].
    intros w ->. now inversion F1. }
  destruct Fx as [Fx Fxs]. pose proof (act_stands o p b s x K Fx H) as A.
  destruct (bsystem_act o p b x) as [[b1 e1]|], (system_act o p s x) as [[s1 e1']|]; try contradiction; [|exact I].
  destruct A as [<- H1]. specialize (IH Fxs b1 s1 H1).
  destruct (bsystem_run o p b1 xs) as [[b2 e2]|], (system_run o p s1 xs) as [[s2 e2']|]; try contradiction; [|exact I].
  destruct IH as [<- H2]. auto.
Qed.
