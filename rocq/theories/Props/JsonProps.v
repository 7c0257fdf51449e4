(** C68: rule set views, changes and namespaces survive being sent as JSON. *)
From Coq Require Import Ascii String NArith ZArith Bool List.
From Verif.Base Require Import Bytes BytesFacts.
From Verif.Proof Require Import JsonKeyProof PolicyProof RuleSetProtoProof StoreEditProof JsonText JsonProof JsonReadProof JsonLatestProof.
From Verif.Props Require Import EditProps RuleSetProtoProps.
From Verif.Model Require Import AggType Policy Transformation Pipeline Rules RuleSet Namespace Json.
From Verif.Spec Require Import AggSpec PolicySpec MetadataSpec RuleSetProtoSpec JsonSpec.
Import ListNotations.
Open Scope Z_scope.

(** A view is read as it was sent. *)
Theorem C68_view dt nl v : duration_text_ok dt -> set_view_sendable v -> set_view_canonical v ->
  exists j, e_rule_set_view dt nl v = Some j /\ d_rule_set_view dt j = Some v.
Proof.
  intros ok S C. destruct (set_view_rt dt ok nl v S) as (l & E1 & E2). exists (JObj l). split; [exact E1|].
  now rewrite set_view_cleaned_canonical in E2.
Qed.
Print Assumptions C68_view.

(** Without the last condition the payloads that do not belong to the kind of an operation are dropped, nothing else. *)
Theorem C68_view_any dt nl v : duration_text_ok dt -> set_view_sendable v ->
  exists j, e_rule_set_view dt nl v = Some j /\ d_rule_set_view dt j = Some (set_view_cleaned v).
Proof. intros ok S. destruct (set_view_rt dt ok nl v S) as (l & E). now exists (JObj l). Qed.
Print Assumptions C68_view_any.

(** So a user of the API reads what [Latest] returns for a rule set that can be stored. *)
Theorem C68_latest dt nl o rs : duration_text_ok dt -> storable o rs -> rule_set_presentable rs ->
  exists j, e_rule_set_view dt nl (latest rs) = Some j /\ d_rule_set_view dt j = Some (latest rs).
Proof. intros ok S P. destruct (latest_sendable o rs S P). now apply C68_view. Qed.
Print Assumptions C68_latest.

(** Changes are read as they were sent, pointers that are nil included. *)
Theorem C68_changes dt nl c : duration_text_ok dt -> set_changes_sendable c ->
  exists j, e_set_changes dt nl c = Some j /\ d_set_changes dt j = Some (set_changes_cleaned c) /\
    (set_changes_canonical c -> d_set_changes dt j = Some c).
Proof.
  intros ok S. destruct (set_changes_rt dt ok nl c S) as (l & E1 & E2). exists (JObj l). split; [exact E1|]. split; [exact E2|].
  intros C. now rewrite set_changes_cleaned_canonical in E2.
Qed.
Print Assumptions C68_changes.

Theorem C68_namespaces nl v : namespaces_sendable v -> exists j, e_namespaces nl v = Some j /\ d_namespaces j = Some v.
Proof. apply namespaces_rt. Qed.
Print Assumptions C68_namespaces.

(** A view can be written exactly when its aggregation IDs and operations are valid. *)
Theorem C68_writable dt nl v : set_view_words v -> (exists j, e_rule_set_view dt nl v = Some j) <-> set_view_writable v.
Proof. apply set_view_writes. Qed.
Print Assumptions C68_writable.

(** Whatever document is accepted, the view read is one that can be sent and is read again as itself; likewise changes. *)
Theorem C68_received dt nl j v : duration_text_ok dt -> (forall w, valid_precision (dt_max_unit dt w)) -> document j ->
  d_rule_set_view dt j = Some v ->
  set_view_sendable v /\ set_view_canonical v /\
  exists j', e_rule_set_view dt nl v = Some j' /\ d_rule_set_view dt j' = Some v.
Proof.
  intros ok U D E. destruct (set_view_received dt U j v D E) as [S C]. split; [exact S|]. split; [exact C|]. now apply C68_view.
Qed.
Print Assumptions C68_received.

Theorem C68_received_changes dt nl j c : duration_text_ok dt -> (forall w, valid_precision (dt_max_unit dt w)) -> document j ->
  d_set_changes dt j = Some c ->
  set_changes_sendable c /\ set_changes_canonical c /\
  exists j', e_set_changes dt nl c = Some j' /\ d_set_changes dt j' = Some c.
Proof.
  intros ok U D E. destruct (set_changes_received dt U j c D E) as [S C]. split; [exact S|]. split; [exact C|].
  destruct (C68_changes dt nl c ok S) as (j' & E1 & _ & E2). exists j'. auto.
Qed.
Print Assumptions C68_received_changes.

(** Fields of newer writers, the order of fields and the case of keys do not matter, at any depth. *)
Theorem C68_newer_writers dt j j' : extends j j' ->
  d_rule_set_view dt j' = d_rule_set_view dt j /\ d_set_changes dt j' = d_set_changes dt j /\
  d_namespaces j' = d_namespaces j.
Proof.
  intros X. split; [now apply blind_set_view|]. split; [now apply blind_set_changes|now apply blind_namespaces].
Qed.
Print Assumptions C68_newer_writers.

(** Only text survives: a name is written unchanged exactly when it is UTF-8. *)
Theorem C68_text s : d_string (e_string s) = Some s <-> is_text s.
Proof.
  rewrite <- text_iff. unfold e_string, d_string. split; [now intros [= E]|now intros ->].
Qed.
Print Assumptions C68_text.

(** ** The hypotheses can be met *)

Definition textb (s : bytes) : bool := beqb (utf8_fix s) s.
Lemma textb_ok s : textb s = true -> is_text s.
Proof. intros H. apply fix_text. now apply beqb_eq in H. Qed.
Definition int64b (z : Z) : bool := (- 2 ^ 63 <=? z) && (z <? 2 ^ 63).
Lemma int64b_ok z : int64b z = true -> fits_int64 z.
Proof. unfold int64b, fits_int64. intros H. apply andb_prop in H as [H1 H2]. apply Z.leb_le in H1. apply Z.ltb_lt in H2. auto. Qed.
Definition rulesb {P} (names : P -> bool) (l : list (rule P)) : bool :=
  forallb (fun r => forallb (fun s => textb (ru_uuid r) && textb (sn_name s) && textb (sn_raw s) && textb (sn_by s) &&
    int64b (sn_cutover s) && int64b (sn_at s) && names (sn_body s)) (ru_snapshots r)) l.
Lemma rulesb_ok {P} (nb : P -> bool) (names : P -> Prop) l :
  (forall b, nb b = true -> names b) -> rulesb nb l = true -> rules_presentable names l.
Proof.
  intros N H r s Hr Hs. unfold rulesb in H. rewrite forallb_forall in H. specialize (H r Hr). rewrite forallb_forall in H.
  specialize (H s Hs). rewrite !andb_true_iff in H. destruct H as ((((((A1 & A2) & A3) & A4) & A5) & A6) & A7).
  repeat (split; [first [now apply textb_ok|now apply int64b_ok]|]). now apply N.
Qed.
Definition targetsb (ts : list target) : bool :=
  forallb (fun t => forallb (fun a => textb (ro_name (op_rollup a)) && forallb textb (ro_tags (op_rollup a))) (tg_pipeline t)) ts.
Lemma targetsb_ok ts : targetsb ts = true -> targets_text ts.
Proof.
  unfold targetsb, targets_text, rollup_op_text. intros H t a Ht Ha. rewrite forallb_forall in H. specialize (H t Ht).
  rewrite forallb_forall in H. specialize (H a Ha). apply andb_prop in H as [H1 H2]. split; [now apply textb_ok|].
  rewrite forallb_forall in H2. apply Forall_forall. intros x Hx. now apply textb_ok, H2.
Qed.

Definition sample_changes : set_changes :=
  mk_sc (B "ns")
    [mk_vc delete_op_name (Some (B "u1")) None;
     mk_vc add_op_name None (Some (mk_rv [] (B "m") false 0 (B "env:prod") (mk_mb 64%N [{| sp_resolution := {| r_window := 10000000000; r_precision := 1 |}; sp_retention := 3600000000000 |}] 0) (B "me") 12))]
    [mk_vc change_op_name (Some (B "u3")) (Some (mk_rv (B "u3") (B "r") true 5 (B "env:*")
       [mk_target [{| op_kind := RollupOp; op_agg := 0; op_tf := 0;
                      op_rollup := {| ro_name := B "requests"; ro_tags := [B "env"; B "app"]; ro_agg := 0%N |} |};
                   {| op_kind := TransformationOp; op_agg := 0; op_tf := 2; op_rollup := empty_rollup_op |}] []] [] 0))].

Example C68_nonvacuous :
  storable ropts after_session /\ rule_set_presentable after_session /\
  set_changes_sendable sample_changes /\ set_changes_canonical sample_changes /\
  option_map (fun v => (length (rsv_mapping v), length (rsv_rollup v)))
    (bind (e_rule_set_view simple_duration_text true (latest after_session)) (d_rule_set_view simple_duration_text)) =
    Some (length (rsv_mapping (latest after_session)), 1%nat) /\
  bind (e_set_changes simple_duration_text false sample_changes) (d_set_changes simple_duration_text) = Some sample_changes.
Proof.
  split; [|split; [|split; [|split; [|split]]]].
  - destruct C36_nonvacuous as (S0 & C0 & _). unfold after_session. now apply run_edits_storable.
  - split; [apply textb_ok; vm_compute; reflexivity|]. split; [apply int64b_ok; vm_compute; reflexivity|].
    split; [apply int64b_ok; vm_compute; reflexivity|]. split.
    + apply (rulesb_ok (fun _ => true)); [auto|vm_compute; reflexivity].
    + apply (rulesb_ok targetsb); [exact targetsb_ok|vm_compute; reflexivity].
  - assert (V : valid_agg_id 64%N).
    { split; [reflexivity|]. intros k Hk. destruct (N.eq_dec k 6) as [->|N6]; [split; discriminate|].
      change 64%N with (2 ^ 6)%N in Hk. rewrite N.pow2_bits_false in Hk by congruence. discriminate. }
    assert (V0 : valid_agg_id 0%N) by (split; [reflexivity|]; intros k Hk; now rewrite N.bits_0 in Hk).
    split; [apply textb_ok; reflexivity|]. split.
    + constructor; [|constructor; [|constructor]].
      * split; [apply textb_ok; reflexivity|]. split; [intros i [= <-]; apply textb_ok; reflexivity|discriminate].
      * split; [apply textb_ok; reflexivity|]. split; [discriminate|]. intros v [= <-].
        repeat (split; [first [apply textb_ok; reflexivity|apply int64b_ok; reflexivity]|]).
        split; [exact V|]. split; [repeat constructor; discriminate|]. split; [discriminate|reflexivity].
    + constructor; [|constructor].
      split; [apply textb_ok; reflexivity|]. split; [intros i [= <-]; apply textb_ok; reflexivity|].
      intros v [= <-]. repeat (split; [first [apply textb_ok; reflexivity|apply int64b_ok; reflexivity]|]).
      constructor; [|constructor]. split; [|constructor].
      constructor; [|constructor; [|constructor]].
      * split; [right; right; split; [reflexivity|exact V0]|]. intros _. split; [apply textb_ok; reflexivity|].
        repeat (constructor; [apply textb_ok; reflexivity|]). constructor.
      * split; [right; left; split; [reflexivity|now right]|discriminate].
  - intros x r [<-|[]] [= <-] t a [<-|[]] [<-|[<-|[]]]; repeat split; cbn [op_kind op_agg op_tf op_rollup]; first [reflexivity|congruence].
  - vm_compute. reflexivity.
  - vm_compute. reflexivity.
Qed.

(** Which keys are the same. *)
Theorem C68_keys cs ds : Forall scalar_value cs -> Forall scalar_value ds ->
  same_key (flat_map utf8_encode cs) (flat_map utf8_encode ds) = true <-> map folded cs = map folded ds.
Proof. exact (same_key_text cs ds). Qed.
Print Assumptions C68_keys.

(** A document by a newer writer, with keys in another case and another order. *)
Example C68_newer_nonvacuous :
  let j := JObj [(B "namespace", JStr (B "ns")); (B "mappingRuleChanges", JArr [JObj [(B "op", JStr (B "delete"))]])] in
  let j' := JObj [(B "comment", JObj [(B "op", JInt 3)]);
                  (B "MappingRuleChanges", JArr [JObj [(B "why", JFrac); (B "Op", JStr (B "delete"))]]);
                  (B "namespace", JStr (B "ns"))] in
  extends j j' /\ d_set_changes simple_duration_text j = Some (mk_sc (B "ns") [mk_vc (B "delete") None None] []).
Proof.
  assert (U : forall k, forallb (fun k' => negb (same_key k k')) known_keys = true -> unknown_key k).
  { intros k H k' Hk. rewrite forallb_forall in H. specialize (H k' Hk). now destruct (same_key k k'). }
  split; [|vm_compute; reflexivity].
  assert (N : forall (l : list bytes), (forall i j, (i < length l)%nat -> nth_error l i = nth_error l j -> i = j) -> NoDup l)
    by (intros; now apply NoDup_nth_error).
  eapply ext_obj with (kept := [(B "namespace", JStr (B "ns"));
     (B "MappingRuleChanges", JArr [JObj [(B "why", JFrac); (B "Op", JStr (B "delete"))]])]) (extra := [(B "comment", JObj [(B "op", JInt 3)])]).
  - constructor; [split; [reflexivity|constructor]|]. constructor; [|constructor]. split; [vm_compute; reflexivity|].
    apply ext_arr. constructor; [|constructor].
    eapply ext_obj with (kept := [(B "Op", JStr (B "delete"))]) (extra := [(B "why", JFrac)]).
    + constructor; [split; [vm_compute; reflexivity|constructor]|constructor].
    + constructor; [apply U; vm_compute; reflexivity|constructor].
    + repeat constructor; cbn; intuition discriminate.
    + apply Permutation.perm_swap.
  - constructor; [apply U; vm_compute; reflexivity|constructor].
  - repeat constructor; cbn; intuition discriminate.
  - apply Permutation.Permutation_trans with (l' := [(B "namespace", JStr (B "ns")); (B "comment", JObj [(B "op", JInt 3)]);
       (B "MappingRuleChanges", JArr [JObj [(B "why", JFrac); (B "Op", JStr (B "delete"))]])]).
    + apply Permutation.perm_skip, Permutation.perm_swap.
    + eapply Permutation.Permutation_trans; [apply Permutation.perm_swap|].
      apply Permutation.perm_skip, Permutation.perm_swap.
Qed.

(** Documents that are refused: null or an empty object as an operation, a name of no type, a number out of range; a drop
    policy that does not exist is not refused. *)
Example C68_refused :
  d_op JNull = None /\ d_op (JObj []) = None /\ d_agg_type JNull = None /\ d_agg_type (JStr (B "Mode")) = None /\
  d_int64 (JInt (2 ^ 63)) = None /\ d_int64 JFrac = None /\
  option_map (fun v => mb_drop (rv_body v)) (d_mapping_view simple_duration_text (JObj [(B "dropPolicy", JInt 7)])) = Some 7.
Proof. repeat split. Qed.

(** A name that is not UTF-8 is changed on the way. *)
Example C68_not_text : d_string (e_string [ascii_of_N 255; "a"%char]) = Some (replacement ++ B "a").
Proof. reflexivity. Qed.
