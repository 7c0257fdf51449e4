(** C80: a configuration of aggregation types means what it says. *)
From Coq Require Import Ascii String ZArith Bool List Lia.
From Verif.Base Require Import Bytes.
From Verif.Proof Require Import AggProof AggConfigProof.
From Verif.Model Require Import AggType Transformation AggConfig.
From Verif.Spec Require Import AggSpec AggConfigSpec.
Import ListNotations.
Open Scope Z_scope.

(** A document is accepted if it has no mistakes, and only then; options then exist. *)
Theorem C80_accepted : forall y : types_yaml,
  well_written y <-> exists c o, read_types_yaml y = Some c /\ config_options c = Some o.
Proof.
  intros y. rewrite read_ok. split.
  - intros [c R]. destruct (configured y c R) as [sets [E _]]. eauto.
  - intros (c & o & R & _). eauto.
Qed.
Print Assumptions C80_accepted.

(** The default types of a kind of metrics are the ones written, or the documented ones, ... *)
Theorem C80_types : forall y c o m,
  read_types_yaml y = Some c -> config_options c = Some o -> m <> UnknownMetric ->
  exists ts, types_meant y m ts /\
    (match m with
     | CounterMetric => o_counter_types o | TimerMetric => o_timer_types o
     | GaugeMetric => o_gauge_types o | UnknownMetric => []
     end) = ts /\
    forall t, is_contained_in_default o t m = true <-> In t ts.
Proof.
  intros y c o m R E Hm. destruct (configured y c R) as [sets [E' [_ K]]].
  rewrite E in E'. injection E' as ->. destruct (K m Hm) as [T _].
  eexists. split; [exact T|]. split; [now destruct m|].
  intros t. unfold is_contained_in_default. destruct m; [congruence| | |]; apply types_contains_in.
Qed.
Print Assumptions C80_types.

(** ... the quantiles are those of the default types of timers, each once if 0.5 is meant twice, ... *)
Theorem C80_quantiles : forall y c o ts,
  read_types_yaml y = Some c -> config_options c = Some o -> types_meant y TimerMetric ts ->
  o_quantiles o = keep_first_half false (flat_map documented_quantile ts).
Proof.
  intros y c o ts R E T. destruct (configured y c R) as [sets [E' [_ K]]].
  rewrite E in E'. injection E' as ->.
  destruct (K TimerMetric ltac:(discriminate)) as [T' _]. cbn [types_of] in T'.
  replace ts with (o_timer_types (fold_left apply_options_set sets new_types_options)).
  - exact (eq_trans (proj2 (proj2 (proj2 (options_sets_consistent sets)))) (quantiles_loop_spec false _)).
  - unfold types_meant in T, T'. destruct (written_types y TimerMetric) as [names|]; [|now rewrite T, T'].
    clear - T T'. revert ts T. induction T' as [|t s l names A T' IH]; intros ts T; inversion T; subst; [reflexivity|].
    f_equal; [|now apply IH].
    apply parse_type_documented in A. match goal with H : In (_, s) documented_names |- _ => apply parse_type_documented in H end.
    congruence.
Qed.
Print Assumptions C80_quantiles.

(** ... and the suffix of a type is the documented one, transformed as written. *)
Theorem C80_suffix : forall y c o m,
  read_types_yaml y = Some c -> config_options c = Some o -> m <> UnknownMetric ->
  exists f, fn_meant y m f /\
    forall t s, In (t, s) documented_suffixes -> type_string_for o m t = Some (f s).
Proof.
  intros y c o m R E Hm. destruct (configured y c R) as [sets [E' [Q K]]].
  rewrite E in E'. injection E' as ->. destruct (K m Hm) as [_ F].
  exists (fn_of (fold_left apply_options_set sets new_types_options) m). split; [exact F|].
  intros t s I. destruct (suffixes_default t s I) as [V D].
  rewrite (type_string_for_spec _ m t (options_sets_consistent sets) Hm V). cbv zeta in Q. rewrite Q, D.
  now destruct m.
Qed.
Print Assumptions C80_suffix.

(** A suffix leads back to its type, unless suffixes are made empty; then the empty suffix is taken for
    Last and no other suffix is known. *)
Theorem C80_lookup : forall y c o m t s,
  read_types_yaml y = Some c -> config_options c = Some o -> m <> UnknownMetric ->
  written_fn y m <> Some (B "empty") -> valid_type t ->
  type_string_for o m t = Some s -> type_for o m s = t.
Proof.
  intros y c o m t s R E Hm N V S.
  destruct (C80_suffix y c o m R E Hm) as [f [F W]].
  destruct (configured y c R) as [sets [E' _]]. rewrite E in E'. injection E' as ->.
  refine (type_for_inverts _ m t s (options_sets_consistent sets) Hm V _ S).
  intros t1 t2 V1 V2 H. destruct (suffixes_all t1 V1) as [s1 I1], (suffixes_all t2 V2) as [s2 I2].
  rewrite (W _ _ I1), (W _ _ I2) in H. injection H as H.
  assert (X : s1 = s2).
  { unfold fn_meant in F. destruct (written_fn y m) as [w|]; [|now subst f].
    apply (transforms_inj w f s1 s2 F); congruence. }
  subst s2. exact (suffixes_inj t1 t2 s1 I1 I2).
Qed.
Print Assumptions C80_lookup.

Theorem C80_lookup_empty : forall y c o m s,
  read_types_yaml y = Some c -> config_options c = Some o -> m <> UnknownMetric ->
  written_fn y m = Some (B "empty") ->
  type_for o m s = match s with [] => 1 | _ => 0 end.
Proof.
  intros y c o m s R E Hm N.
  destruct (C80_suffix y c o m R E Hm) as [f [F W]].
  destruct (configured y c R) as [sets [E' _]]. rewrite E in E'. injection E' as ->.
  assert (X : forall t, valid_type t -> type_string_for (fold_left apply_options_set sets new_types_options) m t = Some []).
  { intros t V. destruct (suffixes_all t V) as [s' I']. rewrite (W _ _ I').
    unfold fn_meant in F. rewrite N in F. cbn [documented_transforms In] in F.
    destruct F as [Y|[Y|[Y|[]]]]; [discriminate Y| |discriminate Y]. injection Y as <-. reflexivity. }
  assert (V1 : valid_type 1) by (unfold valid_type; lia).
  destruct (type_for_spec _ m s (options_sets_consistent sets) Hm) as [(V & T & L)|(Z0 & L)].
  - rewrite (X _ V) in T. injection T as <-. specialize (L 1 V1 (X 1 V1)). unfold valid_type in V. lia.
  - rewrite Z0. destruct s; [|reflexivity]. exfalso. exact (L 1 V1 (X 1 V1)).
Qed.
Print Assumptions C80_lookup_empty.

(** The suffixes of quantiles hold for the float64 numbers the code computes with: the quantile times one
    hundred is the float64 nearest to the percentage, although the quantile itself is rounded. *)
Theorem C80_percentages : forall t q,
  In (t, q) documented_quantiles -> percentage_float q = f_div (f_of_int q) (f_of_int 100).
Proof.
  intros t q H. cbn [In documented_quantiles] in H.
  repeat (destruct H as [H|H]; [injection H as <- <-; vm_compute; reflexivity|]). destruct H.
Qed.
Print Assumptions C80_percentages.

Example C80_nonvacuous :
  let y := mk_ty None (Some [B "P50"; B "Median"; B "P9999"]) (Some [B "Max"]) (Some (B "empty")) (Some (B "suffix")) None in
  well_written y /\ ~ well_written (mk_ty None None None None (Some (B "bla")) None) /\
  ~ well_written (mk_ty (Some [B "sum"]) None None None None None) /\
  exists c o, read_types_yaml y = Some c /\ config_options c = Some o /\
    o_quantiles o = [5000; 9999] /\ type_string_for o TimerMetric P999 = Some (B ".p999") /\
    type_for o TimerMetric (B ".p999") = P999 /\ type_for o CounterMetric [] = Last /\
    type_for o GaugeMetric (B "upper") = Max /\ is_contained_in_default o Max GaugeMetric = true.
Proof.
  cbv zeta. split; [|split; [|split]].
  - apply read_ok. eexists. vm_compute. reflexivity.
  - intros H. apply read_ok in H. destruct H as [c H]. vm_compute in H. discriminate H.
  - intros H. apply read_ok in H. destruct H as [c H]. vm_compute in H. discriminate H.
  - do 2 eexists. split; [vm_compute; reflexivity|]. split; [vm_compute; reflexivity|].
    vm_compute. repeat split; reflexivity.
Qed.

(** [percentage_float] is not the quotient for every number: 0.29 * 100 is not 29 in float64. *)
Example C80_percentages_nonvacuous : percentage_float 2900 <> f_div (f_of_int 2900) (f_of_int 100).
Proof. vm_compute. discriminate. Qed.
