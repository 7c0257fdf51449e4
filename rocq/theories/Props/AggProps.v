(** C01-C05: aggregation types, IDs, names, suffixes and quantiles. *)
From Coq Require Import Ascii String NArith ZArith Bool List Sorting Lia.
From Verif.Base Require Import Bytes.
From Verif.Model Require Import AggType.
From Verif.Spec Require Import AggSpec.
From Verif.Proof Require Import AggProof.
Import ListNotations.
Open Scope Z_scope.

(** C01: compressing valid types, whatever the compressor did before ([stale] is
    its bitset), and decompressing gives the distinct types in ascending order. *)
Theorem C01_compress_decompress : forall (stale : N) (ts : list Z),
  Forall valid_type ts ->
  exists id l,
    snd (compressor_compress stale ts) = (id, false) /\
    decompress id = (l, false) /\
    ascending l /\
    (forall t, In t l <-> In t ts) /\
    (forall t, id_contains id t = true <-> In t ts) /\
    (id_is_default id = true <-> ts = []).
Proof. exact compress_decompress. Qed.
Print Assumptions C01_compress_decompress.

Theorem C01_compress_rejects_invalid : forall (stale : N) (ts : list Z),
  ~ Forall valid_type ts -> snd (compressor_compress stale ts) = (0%N, true).
Proof. exact compressor_invalid. Qed.
Print Assumptions C01_compress_rejects_invalid.

Example C01_nonvacuous :
  Forall valid_type [P9999; Sum; Last; Sum] /\
  compress_types [P9999; Sum; Last; Sum] = (4194434%N, false) /\
  decompress 4194434%N = ([Last; Sum; P9999], false) /\
  ~ Forall valid_type [Sum; 23].
Proof.
  split; [repeat constructor; unfold valid_type; vm_compute; intuition discriminate|].
  split; [vm_compute; reflexivity|]. split; [vm_compute; reflexivity|].
  intros H; inversion H as [|? ? _ H2]; inversion H2 as [|? ? H3 _]; unfold valid_type in H3; lia.
Qed.

(** C02 *)
Theorem C02_decompress_succeeds_iff : forall w : N,
  (w < 2 ^ 64)%N ->
  ((exists l, decompress w = (l, false)) <->
   (forall bit, N.testbit w bit = true -> (1 <= bit <= 22)%N)).
Proof. exact decompress_ok_iff. Qed.
Print Assumptions C02_decompress_succeeds_iff.

Theorem C02_decompress_recompress : forall (stale w : N) (l : list Z),
  (w < 2 ^ 64)%N -> decompress w = (l, false) ->
  ascending l /\ Forall valid_type l /\ snd (compressor_compress stale l) = (w, false).
Proof. exact decompress_compress. Qed.
Print Assumptions C02_decompress_recompress.

Theorem C02_decompress_injective : forall (w1 w2 : N) (l : list Z),
  (w1 < 2 ^ 64)%N -> (w2 < 2 ^ 64)%N ->
  decompress w1 = (l, false) -> decompress w2 = (l, false) -> w1 = w2.
Proof. exact decompress_inj. Qed.
Print Assumptions C02_decompress_injective.

Example C02_nonvacuous :
  decompress 4194434%N = ([Last; Sum; P9999], false) /\ decompress 1%N = ([], true) /\
  decompress (2 ^ 63)%N = ([], true) /\ (4194434 < 2 ^ 64)%N.
Proof. vm_compute; auto. Qed.

(** C03 *)
Theorem C03_parse_type : forall (s : bytes) (t : Z),
  parse_type s = Some t <-> In (t, s) documented_names.
Proof. exact parse_type_documented. Qed.
Print Assumptions C03_parse_type.

Theorem C03_parse_printed_types : forall ts : list Z,
  ts <> [] -> Forall valid_type ts -> parse_types (types_string ts) = Some ts.
Proof. exact parse_types_string. Qed.
Print Assumptions C03_parse_printed_types.

Theorem C03_parse_types_only_printed : forall (s : bytes) (ts : list Z),
  parse_types s = Some ts -> ts <> [] /\ Forall valid_type ts /\ s = types_string ts.
Proof. exact parse_types_inv. Qed.
Print Assumptions C03_parse_types_only_printed.

Example C03_nonvacuous :
  parse_types (B "P9999,Sum,Sum") = Some [P9999; Sum; Sum] /\ parse_types (B "Sum,,Sum") = None /\
  parse_types (B "") = None.
Proof. vm_compute; auto. Qed.

(** C04: options are built from the defaults by any sequence of setters. *)
Theorem C04_suffix_of_type : forall (sets : list options_set) (m : metric_type) (t : Z),
  let o := fold_left apply_options_set sets new_types_options in
  m <> UnknownMetric -> valid_type t ->
  type_string_for o m t =
    Some ((match m with
           | CounterMetric => o_counter_fn o | TimerMetric => o_timer_fn o
           | GaugeMetric => o_gauge_fn o | UnknownMetric => fun b => b
           end) (documented_suffix (o_quantile_fn o) t)).
Proof. exact (fun sets m t => type_string_for_spec _ m t (options_sets_consistent sets)). Qed.
Print Assumptions C04_suffix_of_type.

Theorem C04_lookup_inverts : forall (sets : list options_set) (m : metric_type) (t : Z) (s : bytes),
  let o := fold_left apply_options_set sets new_types_options in
  m <> UnknownMetric -> valid_type t ->
  (forall t1 t2, valid_type t1 -> valid_type t2 ->
     type_string_for o m t1 = type_string_for o m t2 -> t1 = t2) ->
  type_string_for o m t = Some s -> type_for o m s = t.
Proof. exact (fun sets m t s => type_for_inverts _ m t s (options_sets_consistent sets)). Qed.
Print Assumptions C04_lookup_inverts.

(** In general the lookup returns the smallest type with the suffix, or the unknown type. *)
Theorem C04_lookup_smallest : forall (sets : list options_set) (m : metric_type) (v : bytes),
  let o := fold_left apply_options_set sets new_types_options in
  m <> UnknownMetric ->
  let r := type_for o m v in
  (valid_type r /\ type_string_for o m r = Some v /\
     forall t, valid_type t -> type_string_for o m t = Some v -> r <= t) \/
  (r = 0 /\ forall t, valid_type t -> type_string_for o m t <> Some v).
Proof. exact (fun sets m v => type_for_spec _ m v (options_sets_consistent sets)). Qed.
Print Assumptions C04_lookup_smallest.

Example C04_nonvacuous :
  let o := fold_left apply_options_set [SetTimerFn suffix_transform] new_types_options in
  type_string_for o TimerMetric P999 = Some (B ".p999") /\ type_for o TimerMetric (B ".p999") = P999 /\
  type_for o TimerMetric (B "p999") = UnknownType /\
  type_for (apply_options_set o (SetGaugeFn empty_transform)) GaugeMetric [] = Last /\
  (forall t1 t2, valid_type t1 -> valid_type t2 ->
     type_string_for o TimerMetric t1 = type_string_for o TimerMetric t2 -> t1 = t2).
Proof.
  intros o; repeat (split; [vm_compute; reflexivity|]).
  intros t1 t2 H1 H2 H.
  assert (Hall : forallb (fun a => forallb (fun b =>
     implb (match type_string_for o TimerMetric a, type_string_for o TimerMetric b with
            | Some x, Some y => beqb x y | _, _ => true end) (a =? b)) valid_types) valid_types = true)
    by (vm_compute; reflexivity).
  rewrite forallb_forall in Hall. specialize (Hall t1 (proj2 (in_valid_types t1) H1)).
  rewrite forallb_forall in Hall. specialize (Hall t2 (proj2 (in_valid_types t2) H2)).
  rewrite <- H in Hall. destruct (type_string_for o TimerMetric t1) as [x|] eqn:E.
  - rewrite (proj2 (BytesFacts.beqb_eq x x) eq_refl) in Hall. now apply Z.eqb_eq in Hall.
  - now apply Z.eqb_eq in Hall.
Qed.

(** C05 *)
Theorem C05_quantiles : forall ts : list Z,
  quantiles ts = keep_first_half false (flat_map documented_quantile ts).
Proof. exact (quantiles_loop_spec false). Qed.
Print Assumptions C05_quantiles.

Theorem C05_options_quantiles : forall sets : list options_set,
  let o := fold_left apply_options_set sets new_types_options in
  o_quantiles o = keep_first_half false (flat_map documented_quantile (o_timer_types o)).
Proof.
  exact (fun sets => eq_trans (proj2 (proj2 (proj2 (options_sets_consistent sets))))
                              (quantiles_loop_spec false _)).
Qed.
Print Assumptions C05_options_quantiles.

Example C05_nonvacuous :
  quantiles [Sum; P50; P95; Median; P95; P10] = [5000; 9500; 9500; 1000] /\
  o_quantiles (fold_left apply_options_set [SetDefaultTimerTypes [Median; P999]] new_types_options)
    = [5000; 9990].
Proof. vm_compute; auto. Qed.

(** C61: which aggregation types a metric type accepts.  Code 1 is Last. *)
Theorem C61_gauge ts :
  types_valid_for_gauge ts = true <-> forall t, In t ts -> valid_type t /\ documented_quantile t = [].
Proof. exact (valid_for_gauge_spec ts). Qed.
Print Assumptions C61_gauge.
Theorem C61_counter ts :
  types_valid_for_counter ts = true <-> forall t, In t ts -> valid_type t /\ documented_quantile t = [] /\ t <> 1.
Proof. exact (valid_for_counter_spec ts). Qed.
Print Assumptions C61_counter.
Theorem C61_timer ts : types_valid_for_timer ts = true <-> ~ In 1 ts.
Proof. exact (valid_for_timer_spec ts). Qed.
Print Assumptions C61_timer.
(** The types used when none are given are accepted. *)
Theorem C61_defaults :
  types_valid_for_gauge (o_gauge_types new_types_options) = true /\
  types_valid_for_counter (o_counter_types new_types_options) = true /\
  types_valid_for_timer (o_timer_types new_types_options) = true.
Proof. repeat split; vm_compute; reflexivity. Qed.
Print Assumptions C61_defaults.
Example C61_nonvacuous :
  types_valid_for_gauge [Last; Sum] = true /\ types_valid_for_gauge [Sum; P99] = false /\
  types_valid_for_counter [Last] = false /\ types_valid_for_timer [Sum; P99; Median] = true /\
  types_valid_for_timer [99] = true /\ types_valid_for_gauge [99] = false.
Proof. repeat split. Qed.
