(** Proofs about the rule store. *)
From Coq Require Import Ascii String Arith NArith ZArith Bool Lia List.
From Verif.Base Require Import Bytes BytesFacts.
From Verif.Model Require Import Rules RuleSetProto Namespace Store.
From Verif.Spec Require Import NamespaceSpec StoreSpec.
Import ListNotations.
Open Scope Z_scope.

Lemma beqb_neq a b : a <> b -> beqb a b = false.
Proof. intros H. destruct (beqb a b) eqn:E; auto. apply beqb_eq in E. contradiction. Qed.

Lemma rule_set_key_inj o a b : rule_set_key o a = rule_set_key o b -> a = b.
Proof. unfold rule_set_key. intros H. apply app_inv_head in H. now apply app_inv_tail in H. Qed.

Lemma kv_set_same s k x : kv_set s k x k = Some (kv_version s k + 1, x).
Proof. unfold kv_set. now rewrite beqb_refl. Qed.
Lemma kv_set_other s k x k' : k' <> k -> kv_set s k x k' = s k'.
Proof. intros H. unfold kv_set. now rewrite beqb_neq. Qed.

Lemma key_set_kv s k x : key_set s (kv_set s k x) k x.
Proof. split; [apply kv_set_same|apply kv_set_other]. Qed.
Lemma keys_set_kv s k1 x1 k2 x2 : k1 <> k2 -> keys_set s (kv_set (kv_set s k1 x1) k2 x2) k1 x1 k2 x2.
Proof.
  intros H. split; [|split].
  - rewrite kv_set_other by auto. apply kv_set_same.
  - rewrite kv_set_same. unfold kv_version. rewrite kv_set_other by auto. reflexivity.
  - intros k' H1 H2. now rewrite !kv_set_other by auto.
Qed.

Lemma store_validate_none o rs : store_validate o (Some rs) = None <-> accepted o rs.
Proof.
  unfold store_validate, accepted. destruct (so_validator o) as [v|].
  - destruct (v rs) eqn:E; split; auto; try discriminate; [intros _ v' X; now injection X as <-|]. intros H. rewrite (H v eq_refl) in E. discriminate.
  - split; auto. discriminate.
Qed.

Lemma store_validate_some o rs e : store_validate o (Some rs) = Some e -> e = WInvalid /\ ~ accepted o rs.
Proof.
  unfold store_validate, accepted. destruct (so_validator o) as [v|]; [|discriminate]. destruct (v rs) eqn:E; [discriminate|].
  intros X. injection X as <-. split; auto. intros H. rewrite (H v eq_refl) in E. discriminate.
Qed.

(** ** Exact effect of one write *)

Inductive rules_outcome (o : store_opts) (s : kv) (rs : rule_set) (f : fate) : kv -> write_result -> Prop :=
| ro_invalid : ~ accepted o rs -> rules_outcome o s rs f s WInvalid
| ro_proto : accepted o rs -> rule_set_proto rs = None -> rules_outcome o s rs f s WProto
| ro_unreachable pb : accepted o rs -> rule_set_proto rs = Some pb -> f = Unreachable -> rules_outcome o s rs f s WFailed
| ro_stale pb : accepted o rs -> rule_set_proto rs = Some pb -> kv_version s (rule_set_key o (rs_namespace rs)) <> rs_version rs ->
    f = Served -> rules_outcome o s rs f s WStale
| ro_stale_lost pb : accepted o rs -> rule_set_proto rs = Some pb -> kv_version s (rule_set_key o (rs_namespace rs)) <> rs_version rs ->
    f = ReplyLost -> rules_outcome o s rs f s WFailed
| ro_done pb : accepted o rs -> rule_set_proto rs = Some pb -> kv_version s (rule_set_key o (rs_namespace rs)) = rs_version rs ->
    f <> Unreachable ->
    rules_outcome o s rs f (kv_set s (rule_set_key o (rs_namespace rs)) (VRules pb)) (match f with Served => WOk | _ => WFailed end).

Lemma write_rule_set_cases o s rs f : rules_outcome o s rs f (fst (write_rule_set o s (Some rs) f)) (snd (write_rule_set o s (Some rs) f)).
Proof.
  unfold write_rule_set. destruct (store_validate o (Some rs)) as [e|] eqn:V.
  - apply store_validate_some in V as [-> V]. now constructor.
  - apply store_validate_none in V. cbn. destruct (rule_set_proto rs) as [pb|] eqn:P; [|now constructor].
    unfold kv_commit. cbn. rewrite andb_true_r. destruct (Z.eqb_spec (kv_version s (rule_set_key o (rs_namespace rs))) (rs_version rs)) as [E|E].
    + destruct f; cbn; [| |].
      * apply (ro_done o s rs Served pb); auto. discriminate.
      * eapply ro_unreachable; eauto.
      * apply (ro_done o s rs ReplyLost pb); auto. discriminate.
    + destruct f; cbn; [eapply ro_stale|eapply ro_unreachable|eapply ro_stale_lost]; eauto.
Qed.

Inductive all_outcome (o : store_opts) (s : kv) (x : namespaces) (rs : rule_set) (f : fate) : kv -> write_result -> Prop :=
| ao_invalid : ~ accepted o rs -> all_outcome o s x rs f s WInvalid
| ao_proto : accepted o rs -> rule_set_proto rs = None -> all_outcome o s x rs f s WProto
| ao_unreachable pb : accepted o rs -> rule_set_proto rs = Some pb -> f = Unreachable -> all_outcome o s x rs f s WFailed
| ao_stale pb : accepted o rs -> rule_set_proto rs = Some pb ->
    ~ (kv_version s (rule_set_key o (rs_namespace rs)) = rs_version rs /\ kv_version s (so_names_key o) = nsx_version x) ->
    f <> Unreachable -> all_outcome o s x rs f s (match f with Served => WStale | _ => WFailed end)
| ao_done pb : accepted o rs -> rule_set_proto rs = Some pb -> kv_version s (rule_set_key o (rs_namespace rs)) = rs_version rs ->
    kv_version s (so_names_key o) = nsx_version x -> f <> Unreachable ->
    all_outcome o s x rs f (kv_set (kv_set s (rule_set_key o (rs_namespace rs)) (VRules pb)) (so_names_key o) (VNames (namespaces_proto x)))
      (match f with Served => WOk | _ => WFailed end).

Lemma write_all_cases o s x rs f :
  all_outcome o s x rs f (fst (write_all o s (Some x) (Some rs) f)) (snd (write_all o s (Some x) (Some rs) f)).
Proof.
  unfold write_all. destruct (store_validate o (Some rs)) as [e|] eqn:V.
  - apply store_validate_some in V as [-> V]. now constructor.
  - apply store_validate_none in V. cbn. destruct (rule_set_proto rs) as [pb|] eqn:P; [|now constructor].
    unfold kv_commit. cbn. rewrite andb_true_r.
    destruct (Z.eqb_spec (kv_version s (rule_set_key o (rs_namespace rs))) (rs_version rs)) as [E|E];
      [destruct (Z.eqb_spec (kv_version s (so_names_key o)) (nsx_version x)) as [E'|E']|].
    + cbn. destruct f; cbn.
      * apply (ao_done o s x rs Served pb); auto. discriminate.
      * eapply ao_unreachable; eauto.
      * apply (ao_done o s x rs ReplyLost pb); auto. discriminate.
    + cbn. destruct f; cbn.
      * apply (ao_stale o s x rs Served pb); auto; [tauto|discriminate].
      * eapply ao_unreachable; eauto.
      * apply (ao_stale o s x rs ReplyLost pb); auto; [tauto|discriminate].
    + cbn. destruct f; cbn.
      * apply (ao_stale o s x rs Served pb); auto; [tauto|discriminate].
      * eapply ao_unreachable; eauto.
      * apply (ao_stale o s x rs ReplyLost pb); auto; [tauto|discriminate].
Qed.

Lemma write_rule_set_nil o s f : exists e, write_rule_set o s None f = (s, e) /\ (e = WNil \/ e = WPanic).
Proof. unfold write_rule_set, store_validate. destruct (so_validator o); cbn; eauto. Qed.
Lemma write_all_nil o s x rs f : x = None \/ rs = None -> exists e, write_all o s x rs f = (s, e) /\ (e = WNil \/ e = WPanic \/ e = WProto \/ e = WInvalid).
Proof.
  unfold write_all, store_validate. intros H. destruct rs as [rs|].
  - destruct H as [->|H]; [|discriminate]. destruct (so_validator o) as [v|]; [destruct (v rs)|]; cbn; eauto; destruct (rule_set_proto rs); cbn; eauto 6.
  - destruct (so_validator o); cbn; eauto 6.
Qed.

(** The written rule set reached the store. *)
Lemma write_rule_set_ok o s rs f s' : write_rule_set o s rs f = (s', WOk) ->
  exists r pb, rs = Some r /\ accepted o r /\ rule_set_proto r = Some pb /\ f = Served /\
    kv_version s (rule_set_key o (rs_namespace r)) = rs_version r /\
    s' = kv_set s (rule_set_key o (rs_namespace r)) (VRules pb).
Proof.
  intros E. destruct rs as [r|].
  - pose proof (write_rule_set_cases o s r f) as C. rewrite E in C. cbn in C. inversion C; subst; try discriminate.
    destruct f; try discriminate. exists r, pb. auto 8.
  - destruct (write_rule_set_nil o s f) as (e & E' & [-> | ->]); rewrite E in E'; discriminate.
Qed.

Lemma write_rule_set_exact o s rs f s' :
  write_rule_set o s (Some rs) f = (s', WOk) -> accepted o rs /\ exists pb, rule_set_proto rs = Some pb /\
    kv_version s (rule_set_key o (rs_namespace rs)) = rs_version rs /\ key_set s s' (rule_set_key o (rs_namespace rs)) (VRules pb).
Proof.
  intros E. apply write_rule_set_ok in E as (r & pb & X & Ha & Hp & _ & Hv & ->). injection X as <-. split; auto. exists pb. split; auto. split; auto.
  apply key_set_kv.
Qed.

(** ** Versions *)

Lemma kv_set_version s k x k' : kv_version (kv_set s k x) k' = if beqb k' k then kv_version s k + 1 else kv_version s k'.
Proof. unfold kv_version at 1, kv_set. destruct (beqb k' k); reflexivity. Qed.

(** A later store: versions only grow, and equal versions mean equal entries. *)
Definition later (s s' : kv) : Prop := forall k, kv_version s k <= kv_version s' k /\ (kv_version s' k = kv_version s k -> s' k = s k).

Lemma later_refl s : later s s.
Proof. intros k. split; [lia|auto]. Qed.
Lemma later_trans a b c : later a b -> later b c -> later a c.
Proof.
  intros H1 H2 k. destruct (H1 k) as [L1 E1], (H2 k) as [L2 E2]. split; [lia|]. intros E.
  rewrite E2, E1 by lia. reflexivity.
Qed.
Lemma later_set s k x : later s (kv_set s k x).
Proof.
  intros k'. rewrite kv_set_version. destruct (beqb k' k) eqn:E.
  - apply beqb_eq in E. subst. split; lia.
  - split; [lia|]. intros _. unfold kv_set. now rewrite E.
Qed.

Inductive write_shape (o : store_opts) (s : kv) (w : store_write) : kv -> write_result -> Prop :=
| ws_none r : r <> WOk -> write_shape o s w s r
| ws_rules rs pb r : accepted o rs -> writes_rules w = Some rs -> writes_names w = None -> rule_set_proto rs = Some pb ->
    kv_version s (rule_set_key o (rs_namespace rs)) = rs_version rs ->
    write_shape o s w (kv_set s (rule_set_key o (rs_namespace rs)) (VRules pb)) r
| ws_both rs pb x r : accepted o rs -> writes_rules w = Some rs -> writes_names w = Some x -> rule_set_proto rs = Some pb ->
    kv_version s (rule_set_key o (rs_namespace rs)) = rs_version rs -> kv_version s (so_names_key o) = nsx_version x ->
    write_shape o s w (kv_set (kv_set s (rule_set_key o (rs_namespace rs)) (VRules pb)) (so_names_key o) (VNames (namespaces_proto x))) r.

Lemma run_write_shape o s w : write_shape o s w (fst (run_write o s w)) (snd (run_write o s w)).
Proof.
  destruct w as [rs f|x rs f]; cbn.
  - destruct rs as [rs|].
    + destruct (write_rule_set_cases o s rs f); try (apply ws_none; discriminate). apply ws_rules; auto.
    + destruct (write_rule_set_nil o s f) as (e & -> & [-> | ->]); apply ws_none; discriminate.
  - destruct rs as [rs|]; [destruct x as [x|]|].
    + destruct (write_all_cases o s x rs f); try (apply ws_none; try discriminate; destruct f; discriminate). apply ws_both; auto.
    + destruct (write_all_nil o s None (Some rs) f) as (e & -> & [-> | [-> | [-> | ->]]]); auto; apply ws_none; discriminate.
    + destruct (write_all_nil o s x None f) as (e & -> & [-> | [-> | [-> | ->]]]); auto; apply ws_none; discriminate.
Qed.

Lemma run_write_later o s w : later s (fst (run_write o s w)).
Proof.
  destruct (run_write_shape o s w); [apply later_refl|apply later_set|eapply later_trans; apply later_set].
Qed.
Lemma run_writes_later o ws : forall s, later s (run_writes o s ws).
Proof.
  unfold run_writes. induction ws as [|w ws IH]; intros s; cbn; [apply later_refl|]. eapply later_trans; [apply run_write_later|apply IH].
Qed.
Lemma run_writes_app o s a b : run_writes o s (a ++ b) = run_writes o (run_writes o s a) b.
Proof. apply fold_left_app. Qed.

(** After a success, the version it was based on is gone for good. *)
Lemma one_winner o s w1 between w2 rs1 rs2 :
  writes_rules w1 = Some rs1 -> writes_rules w2 = Some rs2 ->
  rs_namespace rs2 = rs_namespace rs1 -> rs_version rs2 = rs_version rs1 ->
  snd (run_write o s w1) = WOk ->
  let s2 := run_writes o s (w1 :: between) in
  snd (run_write o s2 w2) <> WOk /\ fst (run_write o s2 w2) = s2.
Proof.
  intros W1 W2 En Ev H1 s2.
  assert (V : kv_version s2 (rule_set_key o (rs_namespace rs1)) > rs_version rs1).
  { unfold s2. change (w1 :: between) with ([w1] ++ between). rewrite run_writes_app. cbn [run_writes fold_left].
    destruct (run_writes_later o between (fst (run_write o s w1)) (rule_set_key o (rs_namespace rs1))) as [L _].
    unfold run_writes in L at 1. 
    assert (X : kv_version (fst (run_write o s w1)) (rule_set_key o (rs_namespace rs1)) > rs_version rs1); [|unfold run_writes in *; lia].
    destruct (run_write_shape o s w1) as [r Hr|rs pb r Ha Hr Hn Hp Hv|rs pb x r Ha Hr Hn Hp Hv Hx]; [contradiction| |].
    - rewrite W1 in Hr. injection Hr as <-. rewrite kv_set_version, beqb_refl. lia.
    - rewrite W1 in Hr. injection Hr as <-. rewrite kv_set_version.
      destruct (beqb (rule_set_key o (rs_namespace rs1)) (so_names_key o)) eqn:K; [apply beqb_eq in K; rewrite <- K|]; rewrite kv_set_version, beqb_refl; lia. }
  destruct (run_write_shape o s2 w2) as [r Hr|rs pb r Ha Hr Hn Hp Hv|rs pb x r Ha Hr Hn Hp Hv Hx]; [auto| |].
  - rewrite W2 in Hr. injection Hr as <-. rewrite En in Hv. lia.
  - rewrite W2 in Hr. injection Hr as <-. rewrite En in Hv. lia.
Qed.

Lemma one_winner_names o s w1 between w2 x1 x2 :
  writes_names w1 = Some x1 -> writes_names w2 = Some x2 -> nsx_version x2 = nsx_version x1 ->
  snd (run_write o s w1) = WOk ->
  let s2 := run_writes o s (w1 :: between) in
  snd (run_write o s2 w2) <> WOk /\ fst (run_write o s2 w2) = s2.
Proof.
  intros W1 W2 Ev H1 s2.
  assert (V : kv_version s2 (so_names_key o) > nsx_version x1).
  { unfold s2. change (w1 :: between) with ([w1] ++ between). rewrite run_writes_app. cbn [run_writes fold_left].
    destruct (run_writes_later o between (fst (run_write o s w1)) (so_names_key o)) as [L _].
    assert (X : kv_version (fst (run_write o s w1)) (so_names_key o) > nsx_version x1); [|unfold run_writes in *; lia].
    destruct (run_write_shape o s w1) as [r Hr|rs pb r Ha Hr Hn Hp Hv|rs pb x r Ha Hr Hn Hp Hv Hx]; [contradiction|congruence|].
    rewrite W1 in Hn. injection Hn as <-. rewrite kv_set_version, beqb_refl, kv_set_version.
    destruct (beqb (so_names_key o) (rule_set_key o (rs_namespace rs))) eqn:K; [|lia]. apply beqb_eq in K. rewrite <- K. lia. }
  destruct (run_write_shape o s2 w2) as [r Hr|rs pb r Ha Hr Hn Hp Hv|rs pb x r Ha Hr Hn Hp Hv Hx]; [auto|congruence|].
  rewrite W2 in Hn. injection Hn as <-. lia.
Qed.

(** A served write of an acceptable rule set fails only because it is stale. *)
Lemma loser_is_told o s rs pb : accepted o rs -> rule_set_proto rs = Some pb ->
  snd (write_rule_set o s (Some rs) Served) = WOk /\ kv_version s (rule_set_key o (rs_namespace rs)) = rs_version rs \/
  snd (write_rule_set o s (Some rs) Served) = WStale /\ kv_version s (rule_set_key o (rs_namespace rs)) <> rs_version rs.
Proof.
  intros Ha Hp. destruct (write_rule_set_cases o s rs Served); try congruence; try contradiction; auto.
Qed.
Lemma loser_is_told_all o s x rs pb : accepted o rs -> rule_set_proto rs = Some pb ->
  let current := kv_version s (rule_set_key o (rs_namespace rs)) = rs_version rs /\ kv_version s (so_names_key o) = nsx_version x in
  snd (write_all o s (Some x) (Some rs) Served) = WOk /\ current \/ snd (write_all o s (Some x) (Some rs) Served) = WStale /\ ~ current.
Proof.
  intros Ha Hp. cbn zeta. destruct (write_all_cases o s x rs Served); try congruence; try contradiction; auto.
Qed.

(** Both or nothing. *)
Lemma write_all_atomic o s x rs f : keys_distinct o ->
  let s' := fst (write_all o s (Some x) (Some rs) f) in
  s' = s /\ snd (write_all o s (Some x) (Some rs) f) <> WOk \/
  exists pb, rule_set_proto rs = Some pb /\ accepted o rs /\
    kv_version s (rule_set_key o (rs_namespace rs)) = rs_version rs /\ kv_version s (so_names_key o) = nsx_version x /\
    keys_set s s' (rule_set_key o (rs_namespace rs)) (VRules pb) (so_names_key o) (VNames (namespaces_proto x)).
Proof.
  intros Hk s'. unfold s'. destruct (write_all_cases o s x rs f); try (left; split; [reflexivity|try discriminate; destruct f; discriminate]).
  right. exists pb. repeat (split; auto); apply keys_set_kv; auto.
Qed.

(** ** What is in the store was accepted *)

Definition stored_ok (o : store_opts) (s0 : kv) (ws : list store_write) (s : kv) : Prop :=
  forall k v pb, s k = Some (v, VRules pb) -> s0 k = Some (v, VRules pb) \/
    exists w rs, In w ws /\ writes_rules w = Some rs /\ accepted o rs /\ rule_set_proto rs = Some pb /\ v = rs_version rs + 1 /\
      k = rule_set_key o (rs_namespace rs).

Lemma only_accepted o ws : forall s, keys_distinct o -> stored_ok o s ws (run_writes o s ws).
Proof.
  intros s Hk. induction ws as [|w ws IH] using rev_ind; [intros k v pb E; left; exact E|].
  rewrite run_writes_app. cbn [run_writes fold_left]. fold (run_writes o s ws). intros k v pb.
  assert (K : run_writes o s ws k = Some (v, VRules pb) -> s k = Some (v, VRules pb) \/
    exists w' rs, In w' (ws ++ [w]) /\ writes_rules w' = Some rs /\ accepted o rs /\ rule_set_proto rs = Some pb /\ v = rs_version rs + 1 /\
      k = rule_set_key o (rs_namespace rs)).
  { intros E. destruct (IH _ _ _ E) as [?|(w' & rs & Hin & H)]; auto. right. exists w', rs. split; auto. apply in_app_iff. auto. }
  destruct (run_write_shape o (run_writes o s ws) w) as [r Hr|rs pb' r Ha Hr Hn Hp Hv|rs pb' x r Ha Hr Hn Hp Hv Hx]; auto.
  - unfold kv_set. destruct (beqb k (rule_set_key o (rs_namespace rs))) eqn:E; auto. apply beqb_eq in E. intros X. injection X as <- <-.
    right. exists w, rs. rewrite Hv. repeat (split; auto). apply in_app_iff. right. now left.
  - unfold kv_set at 1. destruct (beqb k (so_names_key o)) eqn:E; [discriminate|].
    unfold kv_set. destruct (beqb k (rule_set_key o (rs_namespace rs))) eqn:E'; auto. apply beqb_eq in E'. intros X. injection X as <- <-.
    right. exists w, rs. rewrite Hv. repeat (split; auto). apply in_app_iff. right. now left.
Qed.

(** ** Reading what was written *)

Lemma run_write_other o s w k : keys_distinct o -> (forall rs, writes_rules w = Some rs -> k <> rule_set_key o (rs_namespace rs)) ->
  (forall x, writes_names w = Some x -> k <> so_names_key o) -> fst (run_write o s w) k = s k.
Proof.
  intros Hk H1 H2. destruct (run_write_shape o s w) as [r Hr|rs pb' r Ha Hr Hn Hp Hv|rs pb' x r Ha Hr Hn Hp Hv Hx]; auto.
  - apply kv_set_other; eauto.
  - rewrite !kv_set_other; eauto.
Qed.

Lemma run_writes_other o ns ws : forall s, keys_distinct o ->
  Forall (fun w => forall rs, writes_rules w = Some rs -> rs_namespace rs <> ns) ws ->
  run_writes o s ws (rule_set_key o ns) = s (rule_set_key o ns).
Proof.
  unfold run_writes. induction ws as [|w ws IH]; intros s Hk F; inversion F; subst; cbn; auto. rewrite IH by auto.
  apply run_write_other; auto. intros rs Hr E. apply rule_set_key_inj in E. eapply H1; eauto.
Qed.

Lemma read_your_write o s rs f s' ws : keys_distinct o -> write_rule_set o s (Some rs) f = (s', WOk) ->
  Forall (fun w => forall rs', writes_rules w = Some rs' -> rs_namespace rs' <> rs_namespace rs) ws ->
  exists pb, rule_set_proto rs = Some pb /\
    read_rule_set o (run_writes o s' ws) (rs_namespace rs) =
    match rule_set_from_proto (rs_version rs + 1) (Some pb) (so_rule o) with None => RErr | Some x => ROk x end.
Proof.
  intros Hk E F. apply write_rule_set_ok in E as (r & pb & X & Ha & Hp & _ & Hv & ->). injection X as <-. exists pb. split; auto.
  unfold read_rule_set. rewrite run_writes_other by auto. rewrite kv_set_same, Hv. reflexivity.
Qed.

(** ** Clients *)

Definition decode_rules (o : store_opts) (e : option (Z * value)) : read_result rule_set :=
  match e with
  | None => RNotFound
  | Some (v, VRules pb) => match rule_set_from_proto v (Some pb) (so_rule o) with None => RErr | Some x => ROk x end
  | Some (_, _) => RErr
  end.
Definition decode_names (e : option (Z * value)) : read_result namespaces :=
  match e with
  | None => RNotFound
  | Some (v, VNames pb) => match new_namespaces v (Some pb) with None => RErr | Some x => ROk x end
  | Some (_, _) => RErr
  end.
Definition entry_version (e : option (Z * value)) : Z := match e with None => 0 | Some (v, _) => v end.

Lemma from_proto_version v pb o rs : rule_set_from_proto v pb o = Some rs -> rs_version rs = v.
Proof.
  unfold rule_set_from_proto. destruct pb as [pb|]; [|discriminate].
  destruct (map_opt (rule_from_proto (mapping_snapshot_from_proto (ropt_tags o))) (rsetp_mapping pb)); [|discriminate].
  destruct (map_opt (rule_from_proto (rollup_snapshot_from_proto (ropt_tags o))) (rsetp_rollup pb)); [|discriminate].
  intros E. injection E as <-. reflexivity.
Qed.
Lemma new_namespaces_version v pb x : new_namespaces v pb = Some x -> nsx_version x = v.
Proof.
  unfold new_namespaces. destruct pb as [l|]; [|discriminate]. destruct (map_opt new_namespace l); [|discriminate]. intros E. injection E as <-. reflexivity.
Qed.

(** [e] was the entry of [k] at some time before. *)
Definition was (s : kv) (k : bytes) (e : option (Z * value)) : Prop :=
  entry_version e <= kv_version s k /\ (kv_version s k = entry_version e -> e = s k).
Lemma was_later s s' k e : later s s' -> was s k e -> was s' k e.
Proof.
  intros L [H1 H2]. destruct (L k) as [L1 L2]. split; [lia|]. intros E. rewrite L2 by lia. apply H2. lia.
Qed.
Lemma was_now s k : was s k (s k).
Proof. split; auto. unfold kv_version, entry_version. destruct (s k) as [[? ?]|]; lia. Qed.

Definition inv (o : store_opts) (w : world) : Prop :=
  (forall c ns, w_rules w c ns = RErr \/ exists e, was (w_kv w) (rule_set_key o ns) e /\ w_rules w c ns = decode_rules o e) /\
  (forall c, w_names w c = RErr \/ exists e, was (w_kv w) (so_names_key o) e /\ w_names w c = decode_names e).

Lemma inv_later o w s' : inv o w -> later (w_kv w) s' -> inv o (mk_world s' (w_rules w) (w_names w)).
Proof.
  intros [H1 H2] L. split; cbn.
  - intros c ns. destruct (H1 c ns) as [?|(e & He & E)]; auto. right. exists e. split; auto. eapply was_later; eauto.
  - intros c. destruct (H2 c) as [?|(e & He & E)]; auto. right. exists e. split; auto. eapply was_later; eauto.
Qed.

Lemma inv_step o w e : inv o w -> inv o (fst (step o w e)) /\ later (w_kv w) (w_kv (fst (step o w e))).
Proof.
  intros H. destruct e as [c ns up|c up|c ns f fa|c ns f g fa]; cbn [step].
  - cbn [fst w_kv]. split; [|apply later_refl]. destruct H as [H1 H2]. split; cbn; auto. intros c' ns'.
    destruct (Nat.eqb c' c && beqb ns' ns) eqn:E; auto. apply andb_prop in E as [_ E]. apply beqb_eq in E. subst ns'.
    destruct up; auto. right. exists (w_kv w (rule_set_key o ns)). split; [apply was_now|reflexivity].
  - cbn [fst w_kv]. split; [|apply later_refl]. destruct H as [H1 H2]. split; cbn; auto. intros c'. destruct (Nat.eqb c' c); auto.
    destruct up; auto. right. exists (w_kv w (so_names_key o)). split; [apply was_now|reflexivity].
  - destruct (f (w_rules w c ns)) as [rs|]; [|split; [auto|apply later_refl]].
    pose proof (run_write_later o (w_kv w) (WriteRules (Some rs) fa)) as L. cbn [run_write] in L.
    destruct (write_rule_set o (w_kv w) (Some rs) fa) as [s' r]. cbn in *. split; auto. now apply inv_later.
  - destruct (f (w_rules w c ns)) as [rs|]; [|split; [auto|apply later_refl]]. destruct (g (w_names w c)) as [x|]; [|split; [auto|apply later_refl]].
    pose proof (run_write_later o (w_kv w) (WriteBoth (Some x) (Some rs) fa)) as L. cbn [run_write] in L.
    destruct (write_all o (w_kv w) (Some x) (Some rs) fa) as [s' r]. cbn in *. split; auto. now apply inv_later.
Qed.

(** If the version still is the one that was read, what was read is what is there. *)
Lemma rules_current o w c ns f rs : inv o w -> keeps_rules ns f -> f (w_rules w c ns) = Some rs ->
  kv_version (w_kv w) (rule_set_key o (rs_namespace rs)) = rs_version rs ->
  rs_namespace rs = ns /\ w_rules w c ns = read_rule_set o (w_kv w) ns.
Proof.
  intros [H _] Hf E V. destruct (Hf _ _ E) as [En Hr]. split; auto. rewrite En in V.
  destruct (H c ns) as [R|(e & [He1 He2] & R)]; rewrite R in Hr; [contradiction|].
  rewrite R. change (read_rule_set o (w_kv w) ns) with (decode_rules o (w_kv w (rule_set_key o ns))).
  assert (X : entry_version e = rs_version rs); [|rewrite <- He2; auto; lia].
  destruct e as [[v [pb|pb|]]|]; cbn [decode_rules entry_version] in Hr |- *; try contradiction; try lia.
  destruct (rule_set_from_proto v (Some pb) (so_rule o)) as [y|] eqn:P; [|contradiction]. apply from_proto_version in P. lia.
Qed.
Lemma names_current o w c g x : inv o w -> keeps_names g -> g (w_names w c) = Some x ->
  kv_version (w_kv w) (so_names_key o) = nsx_version x -> w_names w c = read_namespaces o (w_kv w).
Proof.
  intros [_ H] Hf E V. pose proof (Hf _ _ E) as Hr.
  destruct (H c) as [R|(e & [He1 He2] & R)]; rewrite R in Hr; [contradiction|].
  rewrite R. change (read_namespaces o (w_kv w)) with (decode_names (w_kv w (so_names_key o))).
  assert (X : entry_version e = nsx_version x); [|rewrite <- He2; auto; lia].
  destruct e as [[v [pb|pb|]]|]; cbn [decode_names entry_version] in Hr |- *; try contradiction; try lia.
  destruct (new_namespaces v (Some pb)) as [y|] eqn:P; [|contradiction]. apply new_namespaces_version in P. lia.
Qed.

(** One step either leaves the store alone or is the change made alone. *)
Lemma step_alone o w e : inv o w -> keeps e -> exists took, consistent (snd (step o w e)) took /\
  w_kv (fst (step o w e)) = if took then alone o (w_kv w) e else w_kv w.
Proof.
  intros H K. destruct e as [c ns up|c up|c ns f fa|c ns f g fa]; cbn [step keeps] in *.
  - exists false. split; reflexivity.
  - exists false. split; reflexivity.
  - destruct (f (w_rules w c ns)) as [rs|] eqn:F; [|exists false; split; reflexivity].
    pose proof (write_rule_set_cases o (w_kv w) rs fa) as C. destruct (write_rule_set o (w_kv w) (Some rs) fa) as [s' r]. cbn in *.
    inversion C; subst; try (exists false; split; reflexivity).
    destruct (rules_current o w c ns f rs H K F) as [En R]; auto. exists true. split; [destruct fa; cbn; auto; contradiction|].
    rewrite <- R, F, H1, En. reflexivity.
  - destruct (f (w_rules w c ns)) as [rs|] eqn:F; [|exists false; split; reflexivity].
    destruct (g (w_names w c)) as [x|] eqn:G; [|exists false; split; reflexivity].
    pose proof (write_all_cases o (w_kv w) x rs fa) as C. destruct (write_all o (w_kv w) (Some x) (Some rs) fa) as [s' r]. cbn in *. destruct K as [K1 K2].
    inversion C; subst; try (exists false; split; [first [reflexivity | exact I | destruct fa; first [reflexivity | exact I | contradiction]]|reflexivity]).
    destruct (rules_current o w c ns f rs H K1 F) as [En R]; auto. pose proof (names_current o w c g x H K2 G) as R'. exists true. split; [destruct fa; cbn; auto; contradiction|].
    rewrite <- R, <- R' by auto. rewrite F, G, H1, En. reflexivity.
Qed.

Lemma steps_serial o es : forall w, inv o w -> Forall keeps es ->
  exists took, Forall2 consistent (snd (steps o w es)) took /\
    w_kv (fst (steps o w es)) = fold_left (alone o) (taken es took) (w_kv w).
Proof.
  induction es as [|e es IH]; intros w H F; cbn.
  - exists []. split; [constructor|reflexivity].
  - inversion F as [|? ? K F']; subst. destruct (step_alone o w e H K) as (t & Ht & E). destruct (inv_step o w e H) as [H' _].
    destruct (step o w e) as [w1 r] eqn:S. cbn in *. destruct (IH w1 H' F') as (took & Hc & E'). destruct (steps o w1 es) as [w2 rs]. cbn in *.
    exists (t :: took). split; [constructor; auto|]. rewrite E', E. destruct t; reflexivity.
Qed.

Lemma start_inv o s : inv o (start s).
Proof. split; intros; left; reflexivity. Qed.

Lemma serializable o s es : Forall keeps es ->
  exists took, Forall2 consistent (snd (steps o (start s) es)) took /\
    w_kv (fst (steps o (start s) es)) = fold_left (alone o) (taken es took) s.
Proof. intros F. apply (steps_serial o es (start s)); auto. apply start_inv. Qed.
