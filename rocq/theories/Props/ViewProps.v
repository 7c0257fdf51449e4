(** C69: comparing rule views compares the rules; sorting views and changes orders them as documented. *)
From Coq Require Import Ascii String NArith ZArith Bool List Permutation Sorting.Sorted.
From Verif.Base Require Import Bytes BytesFacts.
From Verif.Proof Require Import PolicyProof JsonProof ViewProof.
From Verif.Props Require Import RulesProps EditProps.
From Verif.Model Require Import AggType Policy Pipeline Rules RuleSet Json View.
From Verif.Spec Require Import PolicySpec MetadataSpec JsonSpec ViewSpec.
Import ListNotations.
Open Scope Z_scope.

(** Equal mapping rules: ID, name, filter, aggregation, the storage policies in any order, and the drop policy agree, or
    both pointers are nil. *)
Theorem C69_mapping_equal sort a b : sorts sp_less sort ->
  mapping_view_equal sort a b = true <-> same_ptr same_mapping_rule a b.
Proof. intros Hs. now apply mapping_view_equal_spec. Qed.
Print Assumptions C69_mapping_equal.

(** Equal rollup rules: ID, name, filter agree, and the targets one by one, up to the order of tags and of storage
    policies. *)
Theorem C69_rollup_equal sort a b : sorts sp_less sort ->
  rollup_view_equal sort a b = true <-> same_ptr same_rollup_rule a b.
Proof. intros Hs. now apply rollup_view_equal_spec. Qed.
Print Assumptions C69_rollup_equal.

Theorem C69_equivalence sort : sorts sp_less sort ->
  equivalence_test (mapping_view_equal sort) /\ equivalence_test (rollup_view_equal sort).
Proof. intros Hs. split; [now apply mapping_equivalence|now apply rollup_equivalence]. Qed.
Print Assumptions C69_equivalence.

(** A rule that was sent as JSON equals the rule that is read. *)
Theorem C69_sent dt nl sort v : duration_text_ok dt -> sorts sp_less sort -> view_sendable rollup_sendable v ->
  exists j v', e_rollup_view dt nl v = Some j /\ d_rollup_view dt j = Some v' /\
    rollup_view_equal sort (Some v) (Some v') = true.
Proof.
  intros ok Hs S. destruct (rollup_view_rt dt ok nl v S) as (l & E1 & E2). eexists. eexists. split; [exact E1|].
  split; [exact E2|]. apply rollup_view_equal_spec; [exact Hs|]. right. eexists. eexists. split; [reflexivity|].
  split; [reflexivity|]. apply cleaned_same.
Qed.
Print Assumptions C69_sent.

(** Sorting a view: the same rules, by name. *)
Theorem C69_sorted_view sort_m sort_r v : go_sort by_name sort_m -> go_sort by_name sort_r ->
  let v' := sort_view sort_m sort_r v in
  rsv_namespace v' = rsv_namespace v /\ rsv_version v' = rsv_version v /\ rsv_cutover_ms v' = rsv_cutover_ms v /\
  Permutation (rsv_mapping v) (rsv_mapping v') /\ ascending rv_name (rsv_mapping v') /\
  Permutation (rsv_rollup v) (rsv_rollup v') /\ ascending rv_name (rsv_rollup v').
Proof.
  intros G1 G2. cbn zeta. unfold sort_view. cbn [rsv_namespace rsv_version rsv_cutover_ms rsv_mapping rsv_rollup].
  destruct (by_name_sorted sort_m (rsv_mapping v) G1), (by_name_sorted sort_r (rsv_rollup v) G2). repeat split; assumption.
Qed.
Print Assumptions C69_sorted_view.

(** Sorting changes that are well formed: the same changes, additions by name, then changes by name, then deletions by
    ID; whatever the changes, none is lost. *)
Theorem C69_sorted_changes sort_m sort_r c : go_sort change_less sort_m -> go_sort change_less sort_r ->
  let c' := sort_changes sort_m sort_r c in
  sc_namespace c' = sc_namespace c /\ Permutation (sc_mapping c) (sc_mapping c') /\ Permutation (sc_rollup c) (sc_rollup c') /\
  (Forall well_formed (sc_mapping c) -> exists adds chs dels, sc_mapping c' = adds ++ chs ++ dels /\
     Forall (named "add") adds /\ Forall (named "change") chs /\ Forall deletion dels /\
     ascending name_of adds /\ ascending name_of chs /\ ascending id_of dels) /\
  (Forall well_formed (sc_rollup c) -> exists adds chs dels, sc_rollup c' = adds ++ chs ++ dels /\
     Forall (named "add") adds /\ Forall (named "change") chs /\ Forall deletion dels /\
     ascending name_of adds /\ ascending name_of chs /\ ascending id_of dels).
Proof.
  intros G1 G2. cbn zeta. unfold sort_changes. cbn [sc_namespace sc_mapping sc_rollup].
  split; [reflexivity|]. split; [apply (G1 (sc_mapping c))|]. split; [apply (G2 (sc_rollup c))|]. split; intros W.
  - exact (proj2 (changes_sorted sort_m _ G1 W)).
  - exact (proj2 (changes_sorted sort_r _ G2 W)).
Qed.
Print Assumptions C69_sorted_changes.

(** ** The hypotheses can be met *)
Definition some_rule (id name : string) : rule_view mapping_body :=
  mk_rv (B id) (B name) false 0 (B "env:prod") (mk_mb 0%N [sp 1 1; sp 2 1] 0) [] 0.
Definition some_changes : list (view_change mapping_body) :=
  [mk_vc delete_op_name (Some (B "u2")) None; mk_vc add_op_name None (Some (some_rule "" "b"));
   mk_vc change_op_name None (Some (some_rule "u1" "z")); mk_vc add_op_name None (Some (some_rule "" "a"))].
Definition insertion {A} (less : A -> A -> bool) := isort (fun a b => negb (less b a)).

Example C69_nonvacuous :
  sorts sp_less sp_sort /\ go_sort (@by_name mapping_body) (insertion by_name) /\
  go_sort (@change_less mapping_body) (insertion change_less) /\ Forall well_formed some_changes /\
  map (fun c => (vc_op c, name_of c)) (insertion change_less some_changes) =
    [(B "add", B "a"); (B "add", B "b"); (B "change", B "z"); (B "delete", [])] /\
  mapping_view_equal sp_sort (Some (some_rule "u" "a"))
    (Some (mk_rv (B "u") (B "a") true 7 (B "env:prod") (mk_mb 0%N [sp 2 1; sp 1 1] 0) (B "you") 9)) = true /\
  mapping_view_equal sp_sort (Some (some_rule "u" "a")) (Some (some_rule "u" "b")) = false.
Proof.
  split; [exact sp_sort_sorts|]. split; [apply insertion_sorts|]. split; [apply insertion_sorts|]. split.
  - apply Forall_forall. intros c [<-|[<-|[<-|[<-|[]]]]]; unfold well_formed; cbn [vc_data vc_id vc_op]; eauto 8.
  - vm_compute. repeat split.
Qed.

(** Sorting is not harmless: changes that can be applied in the order given may fail once sorted, since additions come
    before the deletion that makes their name free. *)
Example C69_sorting_matters :
  let cs := [mk_vc delete_op_name (Some (B "u2")) None; mk_vc add_op_name None (Some (some_rule "" "b"))] in
  let apply l := snd (apply_rule_set_changes after_session (map (change_of (B "new")) l) [] (at_time 40)) in
  Forall well_formed cs /\ apply cs = Done /\ apply (insertion change_less cs) = Error.
Proof.
  cbn zeta. split; [apply Forall_forall; intros c [<-|[<-|[]]]; unfold well_formed; cbn [vc_data vc_id vc_op]; eauto 8|]. vm_compute. split; reflexivity.
Qed.

(** Changes that are not well formed may be beyond ordering: "less" relates the first and last of these, but neither to
    the one between, which therefore can keep them in either order. *)
Example C69_not_ordered :
  let a := mk_vc (B "change") None (Some (some_rule "" "b")) in
  let b := mk_vc (B "change") None None in
  let c := mk_vc (B "change") None (Some (some_rule "" "a")) in
  change_less b a = false /\ change_less c b = false /\ change_less c a = true.
Proof. vm_compute. repeat split. Qed.
