(** C91: pipelines and policies in YAML configuration mean what they mean in JSON. *)
From Coq Require Import Ascii String NArith ZArith Bool List.
From Verif.Proof Require Import AggProof PolicyProof RuleSetProtoProof JsonText JsonProof JsonReadProof YamlProof.
From Verif.Base Require Import Bytes BytesFacts.
From Verif.Model Require Import AggType Policy Transformation Pipeline Json Yaml.
From Verif.Spec Require Import AggSpec PolicySpec MetadataSpec JsonSpec YamlSpec.
Import ListNotations.
Open Scope Z_scope.

(** A document without nulls whose keys are spelled as documented is accepted as YAML exactly when it is accepted as JSON, and
    with the same value, be it a pipeline, an aggregation ID or a list of storage policies. *)
Theorem C91_same_as_json dt null_text j y : same_document j y -> spelled j -> null_free y ->
  y_pipeline false null_text y = d_pipeline j /\
  y_agg_id y = d_agg_id j /\
  y_list (y_sp dt) y = d_list (d_sp dt) j.
Proof.
  intros S P N. split; [symmetry; now apply agree_pipeline|]. split; [symmetry; now apply agree_agg_id|].
  symmetry. exact (agree_list _ _ (agree_sp dt) j y S P N).
Qed.
Print Assumptions C91_same_as_json.

(** The JSON form of a pipeline is a YAML document, and reading that gives the pipeline, strictly or not. *)
Theorem C91_json_is_yaml nl p : Forall op_sendable p -> Forall op_canonical p ->
  exists j y, e_pipeline nl p = Some j /\ same_document j y /\
    forall strict null_text, y_pipeline strict null_text y = Some p.
Proof.
  intros S C. destruct (pipeline_yaml nl p S) as (j & y & E1 & E2 & E3). exists j, y. split; [exact E1|]. split; [exact E2|].
  rewrite map_same in E3; [exact E3|]. rewrite Forall_forall in C. intros x Hx. now apply op_cleaned_canonical, C.
Qed.
Print Assumptions C91_json_is_yaml.

(** What is accepted, if there is no null in it, is a pipeline of operations that mean something. *)
Theorem C91_accepted strict null_text y p : null_free y -> y_pipeline strict null_text y = Some p ->
  Forall op_valid p /\ Forall op_canonical p.
Proof.
  intros N E. apply y_pipeline_valid in E; [|exact N]. split; (eapply Forall_impl; [|exact E]); now intros a [V C].
Qed.
Print Assumptions C91_accepted.

(** A null element is taken for an operation of no kind, where JSON refuses it. *)
Theorem C91_null_element strict null_text :
  (exists a, y_pipeline strict null_text (YSeq [YNull]) = Some [a] /\ ~ op_valid a) /\
  same_document (JArr [JNull]) (YSeq [YNull]) /\ d_pipeline (JArr [JNull]) = None.
Proof.
  split; [|split; [repeat constructor|reflexivity]].
  eexists. split; [reflexivity|]. intros [(K & _)|[(K & _)|(K & _)]]; discriminate K.
Qed.
Print Assumptions C91_null_element.

(** Strict reading refuses exactly the documents with unknown or repeated keys, and changes nothing else. *)
Theorem C91_strict null_text y p :
  y_pipeline true null_text y = Some p <-> y_pipeline false null_text y = Some p /\ tidy_pipeline y.
Proof. apply pipeline_strict. Qed.
Print Assumptions C91_strict.

(** The texts of types and policies are read as what they are the text of. *)
Theorem C91_texts dt : duration_text_ok dt ->
  (forall t, valid_type t -> y_agg_type (YScalar (type_string t)) = Some t) /\
  (forall p, sp_ok p -> y_sp dt (YScalar (sp_string dt p)) = Some p) /\
  (forall p, sp_ok (p_storage p) -> valid_agg_id (p_agg p) ->
     exists s, policy_string dt p = Some s /\ y_policy dt (YScalar s) = Some p) /\
  (y_tf (YScalar (B "Absolute")) = Some 1 /\ y_tf (YScalar (B "PerSecond")) = Some 2) /\
  (forall s t, y_metric_type (YScalar s) = Some t <->
     In (t, s) [(CounterMetric, B "counter"); (TimerMetric, B "timer"); (GaugeMetric, B "gauge")]) /\
  (forall s d, y_drop_policy (YScalar s) = Some d <->
     In (d, s) [(0, []); (0, B "drop_none"); (1, B "drop_must"); (2, B "drop_if_only_match")]).
Proof.
  intros ok. split; [exact parse_type_string|]. split; [intros p; exact (parse_sp_string dt ok p)|].
  split; [|split; [split; reflexivity|split]].
  - intros p P V. assert (Hw : is_word (p_agg p)) by exact (proj1 V).
    destruct (decompress_spec _ Hw) as [(l & E & _)|(E & Hn)]; [|exfalso; apply Hn; now apply word_bits_agg].
    destruct (parse_policy_string dt ok p P (proj1 V)) as (s & E1 & E2); [eauto|]. exists s. split; [exact E1|exact E2].
  - intros s t. cbn [y_metric_type y_own y_text]. unfold parse_metric_type. cbn [find metric_type_string In].
    destruct (beqb s (B "counter")) eqn:E1; [apply beqb_eq in E1; subst s; split; [intros [= <-]; auto|intros [[= <-]|[[=]|[[=]|[]]]]; reflexivity]|].
    destruct (beqb s (B "timer")) eqn:E2; [apply beqb_eq in E2; subst s; split; [intros [= <-]; auto|intros [[=]|[[= <-]|[[=]|[]]]]; reflexivity]|].
    destruct (beqb s (B "gauge")) eqn:E3; [apply beqb_eq in E3; subst s; split; [intros [= <-]; auto|intros [[=]|[[=]|[[= <-]|[]]]]; reflexivity]|].
    split; [discriminate|]. intros [H|[H|[H|[]]]]; injection H as <- <-; rewrite (proj2 (beqb_eq _ _) eq_refl) in *; discriminate.
  - intros s d. cbn [y_drop_policy y_own y_text]. unfold unmarshal_drop_policy. destruct s as [|c s].
    + split; [intros [= <-]; now left|]. intros [[= <-]|[[=]|[[=]|[[=]|[]]]]]; reflexivity.
    + unfold parse_drop_policy. change valid_drop_policies with [0; 1; 2]. cbn [find].
      change (drop_string 0) with (B "drop_none"). change (drop_string 1) with (B "drop_must").
      change (drop_string 2) with (B "drop_if_only_match"). generalize (c :: s) as r, (nil_cons (x := c) (l := s)). clear. intros s N. cbn [In].
      destruct (beqb (B "drop_none") s) eqn:E1; [apply beqb_eq in E1; subst s; split; [intros [= <-]; auto|intros [[=]|[[= <-]|[[=]|[[=]|[]]]]]; reflexivity]|].
      destruct (beqb (B "drop_must") s) eqn:E2; [apply beqb_eq in E2; subst s; split; [intros [= <-]; auto|intros [[=]|[[=]|[[= <-]|[[=]|[]]]]]; reflexivity]|].
      destruct (beqb (B "drop_if_only_match") s) eqn:E3; [apply beqb_eq in E3; subst s; split; [intros [= <-]; auto|intros [[=]|[[=]|[[=]|[[= <-]|[]]]]]; reflexivity]|].
      split; [discriminate|]. intros [H|[H|[H|[H|[]]]]]; injection H as <- <-; try (now elim N); rewrite (proj2 (beqb_eq _ _) eq_refl) in *; discriminate.
Qed.
Print Assumptions C91_texts.

(** ** The hypotheses can be met *)

Definition yaml_sample : yaml :=
  YSeq [YMap [(B "aggregation", YScalar (B "Sum"))];
        YMap [(B "transformation", YScalar (B "PerSecond")); (B "comment", YScalar (B "per second"))];
        YMap [(B "rollup", YMap [(B "newName", YScalar (B "requests")); (B "tags", YSeq [YScalar (B "env"); YScalar (B "app")]);
                                 (B "aggregation", YSeq [YScalar (B "Max"); YScalar (B "Last")])])]].
Definition json_sample : json :=
  JArr [JObj [(B "aggregation", JStr (B "Sum"))];
        JObj [(B "transformation", JStr (B "PerSecond")); (B "comment", JStr (B "per second"))];
        JObj [(B "rollup", JObj [(B "newName", JStr (B "requests")); (B "tags", JArr [JStr (B "env"); JStr (B "app")]);
                                 (B "aggregation", JArr [JStr (B "Max"); JStr (B "Last")])])]].
Definition pipeline_sample : pipeline :=
  [{| op_kind := 1; op_agg := 7; op_tf := 0; op_rollup := empty_rollup_op |};
   {| op_kind := 2; op_agg := 0; op_tf := 2; op_rollup := empty_rollup_op |};
   {| op_kind := 3; op_agg := 0; op_tf := 0; op_rollup := {| ro_name := B "requests"; ro_tags := [B "env"; B "app"]; ro_agg := 10%N |} |}].

Example C91_nonvacuous :
  same_document json_sample yaml_sample /\ spelled json_sample /\ null_free yaml_sample /\
  y_pipeline false (B "null") yaml_sample = Some pipeline_sample /\
  y_pipeline true (B "null") yaml_sample = None /\
  Forall op_sendable pipeline_sample /\ Forall op_canonical pipeline_sample /\
  y_pipeline false [] (YSeq [YMap [(B "Aggregation", YScalar (B "Sum"))]]) = None /\
  y_pipeline false [] (YSeq [YMap [(B "rollup", YMap [(B "newName", YScalar (B "1.0"))])]]) =
    Some [{| op_kind := 3; op_agg := 0; op_tf := 0; op_rollup := {| ro_name := B "1.0"; ro_tags := []; ro_agg := 0%N |} |}] /\
  duration_text_ok simple_duration_text.
Proof.
  split; [repeat constructor|]. split.
  - repeat (constructor; intros; repeat match goal with
      | H : In _ (_ :: _) |- _ => destruct H as [H|H]
      | H : In _ [] |- _ => destruct H
      | H : (_, _) = (_, _) |- _ => injection H as <- <-
      | H : JStr _ = _ |- _ => subst
      | H : JObj _ = _ |- _ => subst
      end; try split; intros;
      try (match goal with H : In ?k pipeline_keys, K : same_key _ ?k = true |- _ =>
        cbn [pipeline_keys map In] in H; repeat destruct H as [<-|H]; try contradiction; first [reflexivity|vm_compute in K; discriminate K] end)).
  - split; [repeat (constructor; intros; repeat match goal with
      | H : In _ (_ :: _) |- _ => destruct H as [H|H]
      | H : In _ [] |- _ => destruct H
      | H : (_, _) = (_, _) |- _ => injection H as <- <-
      | H : YScalar _ = _ |- _ => subst
      | H : YMap _ = _ |- _ => subst
      end)|].
    split; [vm_compute; reflexivity|]. split; [vm_compute; reflexivity|]. split; [|split].
    + constructor; [|constructor; [|constructor; [|constructor]]].
      * split; [left; split; [reflexivity|split; discriminate]|discriminate].
      * split; [right; left; split; [reflexivity|now right]|discriminate].
      * split; [right; right; split; [reflexivity|]|].
        -- split; [reflexivity|]. intros k Hk. cbn [op_rollup ro_agg] in Hk.
           destruct (N.lt_ge_cases k 4) as [L|L].
           ++ destruct k as [|[[p|p|]|[p|p|]|]]; try discriminate; split; discriminate.
           ++ rewrite N.bits_above_log2 in Hk; [discriminate|]. cbn. eapply N.lt_le_trans; [|exact L]. reflexivity.
        -- intros _. assert (T : forall s, beqb (utf8_fix s) s = true -> is_text s) by (intros s H; apply fix_text; now apply beqb_eq in H).
           split; [apply T; reflexivity|]. repeat (constructor; [apply T; reflexivity|]). constructor.
    + repeat (apply Forall_cons; [split; [|split]; intros Q; first [reflexivity|now elim Q]|]). apply Forall_nil.
    + split; [vm_compute; reflexivity|]. split; [vm_compute; reflexivity|]. exact simple_duration_text_ok.
Qed.
