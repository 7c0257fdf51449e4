(** Proofs about the configuration of aggregation types. *)
From Coq Require Import Ascii String ZArith Bool List Lia.
From Verif.Base Require Import Bytes BytesFacts.
From Verif.Proof Require Import AggProof.
From Verif.Model Require Import AggType Transformation AggConfig.
From Verif.Spec Require Import AggSpec AggConfigSpec.
Import ListNotations.
Open Scope Z_scope.

Definition types_of (o : types_options) (m : metric_type) : list agg_type :=
  match m with
  | CounterMetric => o_counter_types o | TimerMetric => o_timer_types o
  | GaugeMetric => o_gauge_types o | UnknownMetric => []
  end.
Definition fn_of (o : types_options) (m : metric_type) : bytes -> bytes :=
  match m with
  | CounterMetric => o_counter_fn o | TimerMetric => o_timer_fn o
  | GaugeMetric => o_gauge_fn o | UnknownMetric => fun b => b
  end.

Definition option_list {A} (x : option A) : list A := match x with Some a => [a] | None => [] end.

Lemma map_opt_types names ts :
  map_opt parse_type names = Some ts -> Forall2 (fun t s => In (t, s) documented_names) ts names.
Proof.
  revert ts; induction names as [|s names IH]; intros ts H; cbn [map_opt] in H.
  - injection H as <-. constructor.
  - destruct (parse_type s) as [t|] eqn:E; [|discriminate].
    destruct (map_opt parse_type names) as [ts'|]; [|discriminate]. injection H as <-.
    constructor; [now apply parse_type_documented | now apply IH].
Qed.

Lemma map_opt_types_ok names :
  (forall s, In s names -> exists t, In (t, s) documented_names) -> exists ts, map_opt parse_type names = Some ts.
Proof.
  induction names as [|s names IH]; intros H; cbn [map_opt]; [eauto|].
  destruct (H s (or_introl eq_refl)) as [t Ht]. apply parse_type_documented in Ht. rewrite Ht.
  destruct IH as [ts ->]; [|eauto]. intros s' Hs. apply H. now right.
Qed.

Lemma read_transform_eq s v : read_transform_type s = Some v -> v = s /\ In s (map fst documented_transforms).
Proof.
  unfold read_transform_type. intros H. destruct (find_some _ _ H) as [A C].
  apply beqb_eq in C. subst v. split; [reflexivity|exact A].
Qed.
Lemma read_transform_ok s : In s (map fst documented_transforms) -> read_transform_type s = Some s.
Proof. cbn. intros [<-|[<-|[<-|[]]]]; vm_compute; reflexivity. Qed.

Lemma transform_fn_meant s : In s (map fst documented_transforms) ->
  exists f, transform_fn s = Some f /\ In (s, f) documented_transforms.
Proof.
  cbn [map fst documented_transforms]. intros [<-|[<-|[<-|[]]]].
  - exists no_op_transform. split; [vm_compute; reflexivity|left; reflexivity].
  - exists empty_transform. split; [vm_compute; reflexivity|right; left; reflexivity].
  - exists suffix_transform. split; [vm_compute; reflexivity|right; right; left; reflexivity].
Qed.

Lemma read_field_some {A C} (f : A -> option C) x r : read_field f x = Some r ->
  match x with None => r = None | Some a => exists c, f a = Some c /\ r = Some c end.
Proof.
  destruct x as [a|]; cbn [read_field]; intros H; [|now injection H].
  destruct (f a) as [c|]; [|discriminate]. cbn in H. injection H as <-. eauto.
Qed.

Lemma read_field_ok {A C} (f : A -> option C) x :
  (forall a, x = Some a -> exists c, f a = Some c) -> exists r, read_field f x = Some r.
Proof.
  destruct x as [a|]; cbn [read_field]; intros H; [|eauto].
  destruct (H a eq_refl) as [c ->]. cbn. eauto.
Qed.

Lemma read_ok y : well_written y <-> exists c, read_types_yaml y = Some c.
Proof.
  unfold read_types_yaml. split.
  - intros H.
    assert (T : forall m, exists r, read_field (map_opt parse_type) (written_types y m) = Some r).
    { intros m. apply read_field_ok. intros names E. apply map_opt_types_ok.
      intros s Hs. exact (proj1 (H m) names s E Hs). }
    assert (F : forall m, exists r, read_field read_transform_type (written_fn y m) = Some r).
    { intros m. apply read_field_ok. intros s E. exists s. apply read_transform_ok. exact (proj2 (H m) s E). }
    pose proof (T CounterMetric) as [? E1]; pose proof (T TimerMetric) as [? E2]; pose proof (T GaugeMetric) as [? E3].
    pose proof (F CounterMetric) as [? E4]; pose proof (F TimerMetric) as [? E5]; pose proof (F GaugeMetric) as [? E6].
    cbn [written_types written_fn] in *. rewrite E1, E2, E3, E4, E5, E6. eauto.
  - intros [c H].
    destruct (read_field _ (ty_counter_types y)) as [a1|] eqn:E1; [|discriminate].
    destruct (read_field _ (ty_timer_types y)) as [a2|] eqn:E2; [|discriminate].
    destruct (read_field _ (ty_gauge_types y)) as [a3|] eqn:E3; [|discriminate].
    destruct (read_field _ (ty_counter_fn y)) as [a4|] eqn:E4; [|discriminate].
    destruct (read_field _ (ty_timer_fn y)) as [a5|] eqn:E5; [|discriminate].
    destruct (read_field _ (ty_gauge_fn y)) as [a6|] eqn:E6; [|discriminate].
    assert (T : forall m, exists r, read_field (map_opt parse_type) (written_types y m) = Some r)
      by (intros []; cbn [written_types]; [exists None; reflexivity|eauto|eauto|eauto]).
    assert (F : forall m, exists r, read_field read_transform_type (written_fn y m) = Some r)
      by (intros []; cbn [written_fn]; [exists None; reflexivity|eauto|eauto|eauto]).
    intros m. split.
    + intros names s W I. destruct (T m) as [r R]. apply read_field_some in R. rewrite W in R.
      destruct R as [ts [R _]]. apply map_opt_types in R.
      clear - R I. induction R as [|t s' ts names A R IH]; [destruct I|].
      destruct I as [<-|I]; eauto.
    + intros s W. destruct (F m) as [r R]. apply read_field_some in R. rewrite W in R.
      destruct R as [v [R _]]. exact (proj2 (read_transform_eq _ _ R)).
Qed.

(** The options are those of a sequence of setters *)
Definition config_sets (c : types_config) (cf tf gf : option (bytes -> bytes)) : list options_set :=
  map SetDefaultCounterTypes (option_list (tc_counter_types c)) ++
  map SetDefaultGaugeTypes (option_list (tc_gauge_types c)) ++
  map SetDefaultTimerTypes (option_list (tc_timer_types c)) ++
  map SetCounterFn (option_list cf) ++ map SetTimerFn (option_list tf) ++ map SetGaugeFn (option_list gf).

Lemma set_if_fold {A} (set : A -> options_set) x o :
  set_if set x o = fold_left apply_options_set (map set (option_list x)) o.
Proof. now destruct x. Qed.

Definition fn_as (s : option bytes) (f : option (bytes -> bytes)) : Prop :=
  match s, f with
  | None, None => True
  | Some s, Some f => In (s, f) documented_transforms
  | _, _ => False
  end.

Lemma set_fn_ok set x o : (forall s, x = Some s -> In s (map fst documented_transforms)) ->
  exists f, fn_as x f /\ set_fn_if set x o = Some (fold_left apply_options_set (map set (option_list f)) o).
Proof.
  destruct x as [s|]; intros H.
  - destruct (transform_fn_meant s (H s eq_refl)) as [f [E M]].
    exists (Some f). split; [exact M|]. cbn [set_fn_if]. rewrite E. reflexivity.
  - exists None. split; [exact I|reflexivity].
Qed.

Lemma config_options_sets c :
  (forall s, tc_counter_fn c = Some s \/ tc_timer_fn c = Some s \/ tc_gauge_fn c = Some s ->
     In s (map fst documented_transforms)) ->
  exists cf tf gf, fn_as (tc_counter_fn c) cf /\ fn_as (tc_timer_fn c) tf /\ fn_as (tc_gauge_fn c) gf /\
    config_options c = Some (fold_left apply_options_set (config_sets c cf tf gf) new_types_options).
Proof.
  intros H. unfold config_options, config_sets. cbv zeta. rewrite !set_if_fold.
  match goal with |- context [set_fn_if SetCounterFn _ ?o] => destruct (set_fn_ok SetCounterFn (tc_counter_fn c) o) as [cf [A1 B1]] end.
  { intros s E. apply H. auto. }
  rewrite B1.
  match goal with |- context [set_fn_if SetTimerFn _ ?o] => destruct (set_fn_ok SetTimerFn (tc_timer_fn c) o) as [tf [A2 B2]] end.
  { intros s E. apply H. auto. }
  rewrite B2.
  match goal with |- context [set_fn_if SetGaugeFn _ ?o] => destruct (set_fn_ok SetGaugeFn (tc_gauge_fn c) o) as [gf [A3 B3]] end.
  { intros s E. apply H. auto. }
  rewrite B3. exists cf, tf, gf. repeat (split; [assumption|]).
  rewrite !fold_left_app. reflexivity.
Qed.

Lemma config_fields c cf tf gf :
  let o := fold_left apply_options_set (config_sets c cf tf gf) new_types_options in
  o_counter_types o = match tc_counter_types c with Some ts => ts | None => documented_defaults CounterMetric end /\
  o_timer_types o = match tc_timer_types c with Some ts => ts | None => documented_defaults TimerMetric end /\
  o_gauge_types o = match tc_gauge_types c with Some ts => ts | None => documented_defaults GaugeMetric end /\
  o_counter_fn o = match cf with Some f => f | None => fun b => b end /\
  o_timer_fn o = match tf with Some f => f | None => fun b => b end /\
  o_gauge_fn o = match gf with Some f => f | None => fun b => b end /\
  o_quantile_fn o = default_quantile_string.
Proof.
  destruct c as [[c1|] [c2|] [c3|] a b d]; destruct cf as [cf|], tf as [tf|], gf as [gf|]; cbv zeta;
    repeat split; reflexivity.
Qed.

Lemma configured y c : read_types_yaml y = Some c ->
  exists sets, config_options c = Some (fold_left apply_options_set sets new_types_options) /\
    let o := fold_left apply_options_set sets new_types_options in
    o_quantile_fn o = default_quantile_string /\
    forall m, m <> UnknownMetric -> types_meant y m (types_of o m) /\ fn_meant y m (fn_of o m).
Proof.
  intros R. unfold read_types_yaml in R.
  destruct (read_field _ (ty_counter_types y)) as [a1|] eqn:E1; [|discriminate].
  destruct (read_field _ (ty_timer_types y)) as [a2|] eqn:E2; [|discriminate].
  destruct (read_field _ (ty_gauge_types y)) as [a3|] eqn:E3; [|discriminate].
  destruct (read_field _ (ty_counter_fn y)) as [a4|] eqn:E4; [|discriminate].
  destruct (read_field _ (ty_timer_fn y)) as [a5|] eqn:E5; [|discriminate].
  destruct (read_field _ (ty_gauge_fn y)) as [a6|] eqn:E6; [|discriminate].
  injection R as <-.
  apply read_field_some in E1, E2, E3, E4, E5, E6.
  destruct (config_options_sets (mk_tc a1 a2 a3 a4 a5 a6)) as (cf & tf & gf & F1 & F2 & F3 & E).
  { cbn [tc_counter_fn tc_timer_fn tc_gauge_fn].
    assert (K : forall x r s, match x with None => r = None | Some a => exists c, read_transform_type a = Some c /\ r = Some c end ->
              r = Some s -> In s (map fst documented_transforms)).
    { intros [x|] r s; [|intros -> ?; discriminate]. intros [v [A ->]] Q. injection Q as ->.
      destruct (read_transform_eq _ _ A) as [-> ?]. assumption. }
    intros s [Q|[Q|Q]]; eauto. }
  exists (config_sets (mk_tc a1 a2 a3 a4 a5 a6) cf tf gf). split; [exact E|].
  cbv zeta. destruct (config_fields (mk_tc a1 a2 a3 a4 a5 a6) cf tf gf) as (T1 & T2 & T3 & G1 & G2 & G3 & Q).
  cbn [tc_counter_types tc_timer_types tc_gauge_types tc_counter_fn tc_timer_fn tc_gauge_fn] in *.
  split; [exact Q|]. intros m Hm. unfold types_meant, fn_meant.
  assert (KT : forall x r ts d, match x with None => r = None | Some a => exists c, map_opt parse_type a = Some c /\ r = Some c end ->
     ts = match r with Some ts => ts | None => d end ->
     match x with Some names => Forall2 (fun t s => In (t, s) documented_names) ts names | None => ts = d end).
  { intros [x|] r ts d; [intros [v [A ->]] ->; now apply map_opt_types|intros -> ->; reflexivity]. }
  assert (KF : forall x r f g, match x with None => r = None | Some a => exists c, read_transform_type a = Some c /\ r = Some c end ->
     fn_as r f -> g = match f with Some f => f | None => fun b => b end ->
     match x with Some s => In (s, g) documented_transforms | None => g = fun s => s end).
  { intros [x|] r f g.
    - intros [v [A ->]] B ->. destruct f as [f|]; [|destruct B]. destruct (read_transform_eq _ _ A) as [-> _]. exact B.
    - intros -> B ->. destruct f as [f|]; [destruct B|reflexivity]. }
  destruct m; [congruence| | |]; cbn [written_types written_fn types_of fn_of]; split.
  - exact (KT _ _ _ _ E1 T1).
  - exact (KF _ _ _ _ E4 F1 G1).
  - exact (KT _ _ _ _ E2 T2).
  - exact (KF _ _ _ _ E5 F2 G2).
  - exact (KT _ _ _ _ E3 T3).
  - exact (KF _ _ _ _ E6 F3 G3).
Qed.

Lemma suffixes_default t s : In (t, s) documented_suffixes -> valid_type t /\ documented_suffix default_quantile_string t = s.
Proof.
  intros H.
  assert (K : forallb (fun p => (1 <=? fst p) && (fst p <=? 22) &&
     beqb (documented_suffix default_quantile_string (fst p)) (snd p)) documented_suffixes = true) by (vm_compute; reflexivity).
  rewrite forallb_forall in K. specialize (K _ H). cbn [fst snd] in K.
  apply andb_prop in K. destruct K as [K1 K2]. apply andb_prop in K1. destruct K1 as [K0 K1].
  apply beqb_eq in K2. split; [unfold valid_type; lia|exact K2].
Qed.

Lemma suffixes_all t : valid_type t -> exists s, In (t, s) documented_suffixes.
Proof.
  intros H. assert (I : In t (map fst documented_suffixes)).
  { apply in_valid_types in H.
    assert (K : forallb (fun x => existsb (Z.eqb x) (map fst documented_suffixes)) valid_types = true) by (vm_compute; reflexivity).
    rewrite forallb_forall in K. specialize (K t H). apply existsb_exists in K. destruct K as [x [I E]].
    apply Z.eqb_eq in E. now subst x. }
  apply in_map_iff in I. destruct I as [[t' s] [E I]]. cbn in E. subst. eauto.
Qed.

Lemma suffixes_inj t1 t2 s : In (t1, s) documented_suffixes -> In (t2, s) documented_suffixes -> t1 = t2.
Proof.
  assert (K : forallb (fun p => forallb (fun q => implb (beqb (snd p) (snd q)) (fst p =? fst q)) documented_suffixes)
    documented_suffixes = true) by (vm_compute; reflexivity).
  rewrite forallb_forall in K. intros A B. specialize (K _ A). rewrite forallb_forall in K. specialize (K _ B).
  cbn [fst snd] in K. rewrite (proj2 (beqb_eq s s) eq_refl) in K. cbn in K. now apply Z.eqb_eq in K.
Qed.

Lemma transforms_inj s f x y : In (s, f) documented_transforms -> s <> B "empty" -> f x = f y -> x = y.
Proof.
  cbn [documented_transforms In]. intros [E|[E|[E|[]]]] N; injection E as <- <-.
  - auto.
  - exfalso; apply N; reflexivity.
  - intros H. now injection H.
Qed.
