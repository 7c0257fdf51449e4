(** Properties of the rule store: C40. *)
From Coq Require Import Ascii String ZArith Bool List.
From Verif.Base Require Import Bytes.
From Verif.Proof Require Import StoreEditProof StoreProof.
From Verif.Model Require Import Filter Rules RuleSet RuleSetProto Namespace Store.
From Verif.Spec Require Import RuleSetProtoSpec NamespaceSpec StoreSpec.
Import ListNotations.
Open Scope Z_scope.

(** ** Optimistic writes *)

(** A write that reports success was of an accepted rule set, found the stored version equal to the version of
    the rule set, and changed exactly the key of its namespace, to the next version. *)
Theorem C40_write : forall o s rs f s', write_rule_set o s (Some rs) f = (s', WOk) ->
  accepted o rs /\ exists pb, rule_set_proto rs = Some pb /\
    kv_version s (rule_set_key o (rs_namespace rs)) = rs_version rs /\ key_set s s' (rule_set_key o (rs_namespace rs)) (VRules pb).
Proof. exact write_rule_set_exact. Qed.
Print Assumptions C40_write.

(** A request that is served succeeds exactly if the version is current; otherwise the writer is told it is stale. *)
Theorem C40_stale : forall o s rs pb, accepted o rs -> rule_set_proto rs = Some pb ->
  snd (write_rule_set o s (Some rs) Served) = WOk /\ kv_version s (rule_set_key o (rs_namespace rs)) = rs_version rs \/
  snd (write_rule_set o s (Some rs) Served) = WStale /\ kv_version s (rule_set_key o (rs_namespace rs)) <> rs_version rs.
Proof. exact loser_is_told. Qed.
Print Assumptions C40_stale.

Theorem C40_stale_both : forall o s x rs pb, accepted o rs -> rule_set_proto rs = Some pb ->
  let current := kv_version s (rule_set_key o (rs_namespace rs)) = rs_version rs /\ kv_version s (so_names_key o) = nsx_version x in
  snd (write_all o s (Some x) (Some rs) Served) = WOk /\ current \/ snd (write_all o s (Some x) (Some rs) Served) = WStale /\ ~ current.
Proof. exact loser_is_told_all. Qed.
Print Assumptions C40_stale_both.

(** Of two writes of the same namespace based on the same version at most one succeeds, whatever is written in
    between; the other changes nothing. *)
Theorem C40_one_winner : forall o s w1 between w2 rs1 rs2,
  writes_rules w1 = Some rs1 -> writes_rules w2 = Some rs2 ->
  rs_namespace rs2 = rs_namespace rs1 -> rs_version rs2 = rs_version rs1 ->
  snd (run_write o s w1) = WOk ->
  let s2 := run_writes o s (w1 :: between) in
  snd (run_write o s2 w2) <> WOk /\ fst (run_write o s2 w2) = s2.
Proof. exact one_winner. Qed.
Print Assumptions C40_one_winner.

(** Likewise for the namespaces. *)
Theorem C40_one_winner_names : forall o s w1 between w2 x1 x2,
  writes_names w1 = Some x1 -> writes_names w2 = Some x2 -> nsx_version x2 = nsx_version x1 ->
  snd (run_write o s w1) = WOk ->
  let s2 := run_writes o s (w1 :: between) in
  snd (run_write o s2 w2) <> WOk /\ fst (run_write o s2 w2) = s2.
Proof. exact one_winner_names. Qed.
Print Assumptions C40_one_winner_names.

(** ** The combined write happens entirely or not at all, even if its reply is lost. *)
Theorem C40_atomic : forall o s x rs f, keys_distinct o ->
  let s' := fst (write_all o s (Some x) (Some rs) f) in
  s' = s /\ snd (write_all o s (Some x) (Some rs) f) <> WOk \/
  exists pb, rule_set_proto rs = Some pb /\ accepted o rs /\
    kv_version s (rule_set_key o (rs_namespace rs)) = rs_version rs /\ kv_version s (so_names_key o) = nsx_version x /\
    keys_set s s' (rule_set_key o (rs_namespace rs)) (VRules pb) (so_names_key o) (VNames (namespaces_proto x)).
Proof. exact write_all_atomic. Qed.
Print Assumptions C40_atomic.

(** ** Only accepted rule sets reach the store. *)
Theorem C40_accepted : forall o ws s, keys_distinct o -> forall k v pb, run_writes o s ws k = Some (v, VRules pb) ->
  s k = Some (v, VRules pb) \/
  exists w rs, In w ws /\ writes_rules w = Some rs /\ accepted o rs /\ rule_set_proto rs = Some pb /\ v = rs_version rs + 1 /\
    k = rule_set_key o (rs_namespace rs).
Proof. exact only_accepted. Qed.
Print Assumptions C40_accepted.

(** ** A rule set that was written is read back, as the next version, until its namespace is written again. *)
Theorem C40_read_back : forall o s rs f s' ws, keys_distinct o -> storable (so_rule o) rs ->
  write_rule_set o s (Some rs) f = (s', WOk) ->
  Forall (fun w => forall rs', writes_rules w = Some rs' -> rs_namespace rs' <> rs_namespace rs) ws ->
  exists rs', read_rule_set o (run_writes o s' ws) (rs_namespace rs) = ROk rs' /\ read_back (rs_version rs + 1) (so_rule o) rs rs'.
Proof.
  intros o s rs f s' ws Hk Hs E F. destruct (read_your_write o s rs f s' ws Hk E F) as (pb & Hp & ->).
  destruct (storable_reads (rs_version rs + 1) (so_rule o) rs Hs) as (pb' & rs' & Hp' & Hr & Hb).
  rewrite Hp in Hp'. injection Hp' as <-. rewrite Hr. eauto.
Qed.
Print Assumptions C40_read_back.

(** ** No update is lost: any interleaving of any number of clients has the effect of the changes that took
    effect, each made alone, in the order in which they were written; and every client's report is right. *)
Theorem C40_serial : forall o s es, Forall keeps es ->
  exists took, Forall2 consistent (snd (steps o (start s) es)) took /\
    w_kv (fst (steps o (start s) es)) = fold_left (alone o) (taken es took) s.
Proof. exact serializable. Qed.
Print Assumptions C40_serial.

(** A concrete run: clients 1 and 2 both find the namespace missing and create it; client 2 loses, reads again,
    and then deletes it. *)
Definition st_ropts : rule_opts := mk_ro (mk_tfo (B "name") (fun _ => None) (fun _ => ([], false))) (fun n _ => n) (fun _ _ => false).
Definition st_opts : store_opts :=
  mk_so (B "namespaces") (B "rules/") [] (Some (fun rs => negb (beqb (rs_namespace rs) (B "bad")))) st_ropts.
Definition st_rules (ns : bytes) (v : Z) (tomb : bool) : rule_set :=
  mk_rs (B "u") v ns 0 0 (B "me") tomb 0 [] [] (ropt_tags st_ropts) (ropt_new_id st_ropts) (ropt_is_rollup st_ropts).
Definition create (ns : bytes) (r : read_result rule_set) : option rule_set :=
  match r with RNotFound => Some (st_rules ns 0 false) | _ => None end.
Definition remove (ns : bytes) (r : read_result rule_set) : option rule_set :=
  match r with ROk x => Some (st_rules ns (rs_version x) true) | _ => None end.
Definition st_kv : kv := fun _ => None.
Definition st_events : list event :=
  [ReadRules 1 (B "a") true; ReadRules 2 (B "a") true; ChangeRules 1 (B "a") (create (B "a")) Served;
   ChangeRules 2 (B "a") (create (B "a")) Served; ReadRules 2 (B "a") true; ChangeRules 2 (B "a") (remove (B "a")) ReplyLost;
   ReadNames 3 true; ReadRules 3 (B "b") true; 
   ChangeBoth 3 (B "b") (create (B "b")) (fun r => match r with RNotFound => Some (mk_nsx 0 []) | _ => None end) Served;
   ReadRules 4 (B "bad") true; ChangeRules 4 (B "bad") (create (B "bad")) Served].

Example C40_nonvacuous :
  keys_distinct st_opts /\ Forall keeps st_events /\
  snd (steps st_opts (start st_kv) st_events) =
    [None; None; Some WOk; Some WStale; None; Some WFailed; None; None; Some WOk; None; Some WInvalid] /\
  kv_version (w_kv (fst (steps st_opts (start st_kv) st_events))) (B "rules/a") = 2 /\
  kv_version (w_kv (fst (steps st_opts (start st_kv) st_events))) (B "rules/b") = 1 /\
  storable st_ropts (st_rules (B "a") 0 false) /\ accepted st_opts (st_rules (B "a") 0 false).
Proof.
  assert (K : forall ns, keeps_rules ns (create ns) /\ keeps_rules ns (remove ns)).
  { intros ns. split; intros [x| |] rs E; cbn in E; try discriminate; injection E as <-; auto. }
  split; [intros ns E; discriminate E|]. split.
  { unfold st_events. repeat (apply Forall_cons || apply Forall_nil); cbn [keeps]; try exact I; try apply K.
    split; [apply K|]. intros [x| |] y E; try discriminate; injection E as <-; reflexivity. }
  split; [vm_compute; reflexivity|]. split; [vm_compute; reflexivity|]. split; [vm_compute; reflexivity|]. split.
  - split; intros r s [].
  - intros v E. injection E as <-. reflexivity.
Qed.
