(** Properties of the rules validator: C41, C63.  Each theorem is stated with the vocabulary of
    [Spec/ValidatorSpec.v]. *)
From Coq Require Import Ascii String Arith NArith ZArith Bool Lia Permutation Sorting.Sorted List.
From Verif.Base Require Import Bytes BytesFacts Utf8.
From Verif.Proof Require Import Utf8Proof AggProof EditProof StoreEditProof ValidatorProof ValidatorEditProof.
From Verif.Model Require Import AggType Policy Transformation Pipeline Metadata Filter MetricID Rules RuleSet RuleSetProto Validator.
From Verif.Spec Require Import TextSpec AggSpec PolicySpec MetadataSpec FilterSpec RulesSpec EditSpec RuleSetProtoSpec ValidatorSpec.
From Verif.Props Require Import RulesProps EditProps RuleSetProtoProps.
Import ListNotations.
Open Scope Z_scope.

(** ** C41: what the validator accepts *)

Theorem C41_snapshot o v : snapshot_words v -> (validate_snapshot o v = true <-> snapshot_ok o v).
Proof. exact (snapshot_spec o v). Qed.
Print Assumptions C41_snapshot.

(** Validating a rule set is validating the newest snapshots of its live rules; deleted rules and older
    snapshots are not looked at. *)
Theorem C41_rule_set o rs : ids_ok rs -> rule_set_canonical rs -> rule_set_words rs ->
  exists ms rr, collect (shows_live (fun b => b)) (rs_mapping rs) ms /\ collect (shows_live (fun b => b)) (rs_rollup rs) rr /\
    forall v c, (validate o rs = true <-> snapshot_ok o (mk_rsv (rs_namespace rs) v c ms rr)).
Proof. intros [Im Ir]. exact (validate_spec o rs Im Ir). Qed.
Print Assumptions C41_rule_set.

(** The parts, for any options. *)
Theorem C41_pipeline o types p : (forall x, In x p -> (ro_agg (op_rollup x) < 2 ^ 64)%N) ->
  (validate_pipeline o p types = true <-> pipeline_ok o types p).
Proof. exact (pipeline_spec o types p). Qed.
Print Assumptions C41_pipeline.

Theorem C41_aggregation_id o id first types : (id < 2 ^ 64)%N ->
  (validate_aggregation_id o id first types = true <-> agg_permitted o first types id).
Proof. exact (agg_id_spec o id first types). Qed.
Print Assumptions C41_aggregation_id.

Theorem C41_storage_policies o sps types :
  validate_storage_policies o sps types = true <-> policies_permitted o types sps.
Proof. exact (policies_spec o sps types). Qed.
Print Assumptions C41_storage_policies.

(** ** Configuration *)

(** For every metric type each list of the configuration is the one of the last override that gives it, or
    else the default one. *)
Theorem C41_config_settings c t m : settings (new_validator_options c) t m <->
  last_set pc_sps t (vc_overrides c) (or_default (pc_sps (vc_default c)) []) (vm_sps m) /\
  last_set pc_first t (vc_overrides c) (or_default (pc_first (vc_default c)) []) (vm_first m) /\
  last_set pc_nonfirst t (vc_overrides c) (or_default (pc_nonfirst (vc_default c)) []) (vm_nonfirst m).
Proof. exact (config_settings c t m). Qed.
Print Assumptions C41_config_settings.

(** The metric types of a rule are the allowed ones that the filter does not exclude. *)
Theorem C41_config_types c f m : filter_conditions f m ->
  exists types, vo_types_fn (new_validator_options c) m = Some types /\
    forall t, In t types <-> In t (vc_allowed_types c) /\
      forall v g, In (vc_type_tag c, v) m -> new_filter_from_value v = Some g -> matches g (type_name t) = true.
Proof. intros H. apply config_types; [exact (parsed_nodup f m H)|apply H]. Qed.
Print Assumptions C41_config_types.

(** The other options are those of the configuration; absent limits are 1, and only timers may have several
    aggregation types. *)
Theorem C41_config_other c : let o := new_validator_options c in
  vo_namespace o = vc_namespace c /\ vo_required o = vc_required c /\ shows (vc_tag_chars c) (vo_tag_chars o) /\
  shows (vc_metric_chars c) (vo_metric_chars o) /\
  (forall n, vc_max_order c = Some n -> vo_max_order o = n) /\ (vc_max_order c = None -> vo_max_order o = 1) /\
  (forall n, vc_max_levels c = Some n -> vo_max_levels o = n) /\ (vc_max_levels c = None -> vo_max_levels o = 1) /\
  (forall l, vc_multi c = Some l -> vo_multi o = l) /\ (vc_multi c = None -> vo_multi o = [TimerMetric]).
Proof.
  cbv zeta. unfold new_validator_options; cbn [vo_namespace vo_required vo_tag_chars vo_metric_chars vo_max_order vo_max_levels vo_multi].
  split; [reflexivity|]. split; [reflexivity|]. split; [apply runes_shows|]. split; [apply runes_shows|].
  repeat (split; [intros; match goal with H : _ = _ |- _ => rewrite H end; reflexivity|]).
  intros H; rewrite H; reflexivity.
Qed.
Print Assumptions C41_config_other.

(** All bytes show exactly one sequence of characters, text the characters it was encoded from. *)
Theorem C41_characters s : (exists! cs, shows s cs) /\
  forall cs, Forall scalar_value cs -> s = flat_map utf8_encode cs -> shows s cs.
Proof.
  split.
  - exists (runes s). split; [apply runes_shows|]. intros cs H. now apply shows_runes.
  - intros cs F ->. induction F; cbn [flat_map]; now constructor.
Qed.
Print Assumptions C41_characters.

(** A closed namespace watcher accepts nothing, an open one the namespaces it was last told. *)
Theorem C41_namespaces closed valid ns : kv_namespace closed valid ns = true <-> closed = false /\ In ns valid.
Proof.
  unfold kv_namespace. destruct closed; [split; [discriminate|intros [? _]; discriminate]|].
  rewrite (existsb_in _ beqb_eq). tauto.
Qed.
Print Assumptions C41_namespaces.

(** ** A configuration and what it accepts *)
Definition a_config : validator_config :=
  mk_vcfg (kv_namespace false [B "ns"]) [B "dc"] None (Some 2) (B "type") [CounterMetric; TimerMetric; GaugeMetric] None
    (mk_pcfg (Some [sp 1 1; sp 2 1]) (Some [7]) (Some [7]))
    [(TimerMetric, mk_pcfg None (Some [7; 22]) None); (GaugeMetric, mk_pcfg (Some [sp 3 1]) None (Some []));
     (GaugeMetric, mk_pcfg (Some [sp 2 1]) None None)]
    (B " ") (B "$").
Definition a_validator := new_validator_options a_config.
Definition timers (sps : list storage_policy) (agg : N) (drop : Z) : rule_view mapping_body :=
  mk_rv (B "u") (B "t") false 0 (B "type:timer env:prod") (mk_mb agg sps drop) [] 0.
Definition counters (name : string) (p : list op) (sps : list storage_policy) : rule_view (list target) :=
  mk_rv (B "u") (B name) false 0 (B "type:{counter,timer} env:prod") [mk_target p sps] [] 0.
Definition two_levels : list op :=
  [agg_op 7; tf_op 2; roll "a" [B "dc"; B "host"] 0%N; tf_op 1; tf_op 2; roll "b" [B "dc"] 128%N].
Definition vs (ms : list (rule_view mapping_body)) (rr : list (rule_view (list target))) : rule_set_view := mk_rsv (B "ns") 1 0 ms rr.

Example C41_nonvacuous :
  map (validate_snapshot a_validator)
    [vs [timers [sp 2 1; sp 1 1] 4194432%N 0] [counters "r" two_levels [sp 1 1]];  (* Sum and P9999 of timers *)
     vs [timers [] 0%N 1] []; (* a drop policy *)
     vs [] [counters "r" two_levels [sp 1 1]; mk_rv (B "v") (B "r") true 0 [] [] [] 0];
     mk_rsv (B "other") 1 0 [] []]
  = [true; true; true; false] /\
  map (fun p => validate_snapshot a_validator (vs [] [counters "r" p [sp 1 1]]))
    [[]; [agg_op 7]; [roll "a" [B "dc"] 0%N; agg_op 7]; [agg_op 22; roll "a" [B "dc"] 0%N];
     [tf_op 2; tf_op 2; roll "a" [B "dc"] 0%N]; [roll "a" [] 0%N]; [roll "" [B "dc"] 0%N]; [roll "$" [B "dc"] 0%N];
     [roll "a" [B "dc"; B "dc"] 0%N]; [roll "a" [B "dc"] 0%N; roll "b" [B "dc"] 0%N]; two_levels ++ [roll "c" [] 0%N];
     [roll "a" [B "dc"] 4194304%N]]
  = repeat false 12 /\
  validate_snapshot a_validator (vs [timers [sp 1 1; sp 1 1] 0%N 0] []) = false /\
  validate_snapshot a_validator (vs [timers [sp 3 1] 0%N 0] []) = false /\
  validate_snapshot a_validator (vs [timers [] 0%N 0] []) = false /\
  validate_snapshot a_validator (vs [timers [sp 1 1] 0%N 2] []) = false /\
  validate_snapshot a_validator (vs [timers [sp 1 1] 0%N 0; timers [] 0%N 1] []) = false /\
  validate_snapshot a_validator (vs [] [counters "r" two_levels [sp 1 1]; counters "s" [roll "b" [B "dc"] 0%N] [sp 2 1]]) = false /\
  snapshot_words (vs [timers [sp 2 1; sp 1 1] 4194432%N 0] [counters "r" two_levels [sp 1 1]]).
Proof.
  split; [vm_compute; reflexivity|]. split; [vm_compute; reflexivity|].
  do 6 (split; [vm_compute; reflexivity|]).
  split; [intros r [<-|[]]; reflexivity|]. intros r t x [<-|[]] [<-|[]] Hx.
  cbn in Hx. repeat (destruct Hx as [<-|Hx]; [reflexivity|]). destruct Hx.
Qed.

(** ** C63: validated rule sets can be read back *)

(** Not always: a rollup rule without targets passes, and so does a rule set with an unreadable snapshot that
    is no longer the newest one. *)
Definition no_target_ns : rule_set :=
  fst (run_edit empty_set (AddRollup (B "u") (mk_re [] (B "a") (B "env:prod") [])) (at_time 1)).
Definition replaced_set : rule_set :=
  run_edits empty_set [(AddMapping (B "u") (mk_re [] (B "a") (B "env:prod") (mk_mb 0%N [] 0)), at_time 1);
                       (UpdateMapping (mk_re (B "u") (B "a") (B "env:prod") (mk_mb 0%N [sp 2 1] 0)), at_time 1)].
Lemma unreadable_set rs :
  match rule_set_proto rs with
  | None => false
  | Some pb => match rule_set_from_proto 1 (Some pb) ropts with None => true | Some _ => false end
  end = true -> exists pb, rule_set_proto rs = Some pb /\ rule_set_from_proto 1 (Some pb) ropts = None.
Proof.
  destruct (rule_set_proto rs) as [pb|]; [|discriminate]. destruct (rule_set_from_proto 1 (Some pb) ropts) eqn:E; [discriminate|]. eauto.
Qed.
Theorem C63_validated_refuted :
  exists c rs1 rs2 pb1 pb2,
    validate (new_validator_options c) rs1 = true /\ rule_set_proto rs1 = Some pb1 /\ rule_set_from_proto 1 (Some pb1) ropts = None /\
    rs1 = fst (run_edit empty_set (AddRollup (B "u") (mk_re [] (B "a") (B "env:prod") [])) (at_time 1)) /\
    validate (new_validator_options c) rs2 = true /\ rule_set_proto rs2 = Some pb2 /\ rule_set_from_proto 1 (Some pb2) ropts = None.
Proof.
  destruct (unreadable_set no_target_ns) as (pb1 & E1 & F1); [vm_compute; reflexivity|].
  destruct (unreadable_set replaced_set) as (pb2 & E2 & F2); [vm_compute; reflexivity|].
  exists a_config, no_target_ns, replaced_set, pb1, pb2.
  split; [vm_compute; reflexivity|]. split; [exact E1|]. split; [exact F1|]. split; [reflexivity|].
  split; [vm_compute; reflexivity|]. split; [exact E2|exact F2].
Qed.
Print Assumptions C63_validated_refuted.

(** They can if live rollup rules have targets and the rest of the history can be read; missing from the full
    statement are exactly these two conditions. *)
Theorem C63_validated_partial o ro rs : ids_ok rs -> rule_set_canonical rs -> rule_set_words rs ->
  allows_storable_policies o -> validate o rs = true ->
  (forall r s, In r (rs_rollup rs) -> newest r s -> sn_tomb s = false -> sn_body s <> []) ->
  (forall r h n s, In r (rs_mapping rs) -> ru_snapshots r = h ++ [n] -> In s h \/ s = n /\ sn_tomb n = true ->
     mapping_fits s /\ mapping_readable s /\ exists f, compiles_to (ropt_tags ro) (sn_raw s) f) ->
  (forall r h n s, In r (rs_rollup rs) -> ru_snapshots r = h ++ [n] -> In s h \/ s = n /\ sn_tomb n = true ->
     rollup_fits s /\ rollup_readable s /\ exists f, compiles_to (ropt_tags ro) (sn_raw s) f) ->
  forall v, exists pb rs', rule_set_proto rs = Some pb /\ rule_set_from_proto v (Some pb) ro = Some rs' /\ read_back v ro rs rs'.
Proof. intros [Im Ir] Hc Hw Ha Hv Hne Hm Hr v. apply storable_reads. now apply (validated_storable o). Qed.
Print Assumptions C63_validated_partial.

(** In particular if every edit is validated. *)
Theorem C63_session_partial o ro rs rs' : allows_storable_policies o -> storable ro rs ->
  edited_under (fun x => ids_ok x /\ rule_set_canonical x /\ rule_set_words x /\ validate o x = true /\
    (forall r s, In r (rs_rollup x) -> newest r s -> sn_tomb s = false -> sn_body s <> [])) rs rs' ->
  forall v, exists pb rs'', rule_set_proto rs' = Some pb /\ rule_set_from_proto v (Some pb) ro = Some rs'' /\ read_back v ro rs' rs''.
Proof. intros Ha Hs H v. apply storable_reads. exact (validated_session_storable o ro rs rs' Ha Hs H). Qed.
Print Assumptions C63_session_partial.

(** A validated rule with one target. *)
Definition one_rollup : edit :=
  AddRollup (B "u") (mk_re [] (B "a") (B "env:prod") [mk_target [roll "a" [B "dc"] 0%N] [sp 2 1]]).
Example C63_nonvacuous :
  allows_storable_policies a_validator /\ storable ropts empty_set /\
  edited_under (fun x => ids_ok x /\ rule_set_canonical x /\ rule_set_words x /\ validate a_validator x = true /\
    (forall r s, In r (rs_rollup x) -> newest r s -> sn_tomb s = false -> sn_body s <> []))
    empty_set (fst (run_edit empty_set one_rollup (at_time 1))).
Proof.
  split; [|split; [split; intros ? ? []|]].
  - assert (Hsp : forall w, sp_ok (sp w 1)) by (intros w; unfold sp_ok, valid_precision, sp; cbn; lia).
    intros t m p Hm Hp. apply settings_iff in Hm. subst m.
    destruct t; vm_compute in Hp; repeat (destruct Hp as [<-|Hp]; [apply Hsp|]); destruct Hp.
  - apply (eu_edit _ empty_set empty_set _ one_rollup (at_time 1)); [apply eu_start|reflexivity|].
    split; [split; repeat constructor; intros []|].
    split; [intros r s tg [<-|[]] [<-|[]] [<-|[]]; constructor; [|constructor]; split; [reflexivity|split; [reflexivity|]]; intros H; now elim H|].
    split; [split; [intros ? ? []|intros r s t x [<-|[]] [<-|[]] [<-|[]] [<-|[]]; reflexivity]|].
    split; [vm_compute; reflexivity|].
    intros r s [<-|[]] (h & E) _. destruct h as [|? [|? ?]]; cbn in E; inversion E; subst; discriminate.
Qed.
