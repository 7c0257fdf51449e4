(** Bytes are one stream: what they say and how reading ends is determined by the format. *)
From Coq Require Import Ascii String NArith ZArith Bool Arith Lia List.
From Verif.Base Require Import Bytes BytesFacts.
From Verif.Proof Require Import ProtoWireProof MessagesProof ProtoSafeProof WireProof WireMeaning WireMeaningFields WireMeaningParts
  WireMeaningMessages StreamMeaning.
From Verif.Spec Require Import WireSpec WireMeaningSpec.
From Verif.Model Require Import ProtoStream.
From Verif.Model Require Import Policy Transformation Pipeline Metadata ProtoWire Messages.
From Verif.Spec Require Import ProtoStreamSpec StreamMeaningSpec.
Import ListNotations.
Local Open Scope Z_scope.

Lemma base128_unique p v : base128 p v -> forall p' v' r r', base128 p' v' -> p ++ r = p' ++ r' -> p = p' /\ v = v' /\ r = r'.
Proof.
  induction 1 as [b H|b d v H B IH]; intros p' v' r r' B' E; inversion B' as [b' H'|b' d' w H' D']; subst; cbn [app] in E;
    injection E as Eb E; subst b'; try lia.
  - auto.
  - destruct (IH d' w r r' D' E) as (-> & -> & ->). auto.
Qed.
Lemma base128_finished p v d : base128 p v -> forall r, d = p ++ r -> ~ unfinished d.
Proof.
  intros B. revert d. induction B as [b H|b q v H B IH]; intros d r -> U; cbn [app] in U; inversion U as [|x y Hx Hy]; subst; [lia|].
  exact (IH (q ++ r) r eq_refl Hy).
Qed.

Lemma size_unique p n p' n' r r' : is_size p n -> is_size p' n' -> p ++ r = p' ++ r' -> p = p' /\ n = n' /\ r = r'.
Proof.
  intros (v & [B _] & _ & H) (v' & [B' _] & _ & H') E. destruct (base128_unique _ _ B _ _ _ _ B' E) as (-> & <- & ->).
  split; [reflexivity|]. split; [lia|reflexivity].
Qed.
Lemma size_finished p n r : is_size p n -> ~ unfinished (p ++ r).
Proof. intros (v & [B _] & _). exact (base128_finished _ _ _ B r eq_refl). Qed.
Lemma oversized_finished p r : oversized p -> ~ unfinished (p ++ r).
Proof. intros (v & B & _). exact (base128_finished _ _ _ B r eq_refl). Qed.
Lemma size_oversized p n p' r r' : is_size p n -> oversized p' -> p ++ r <> p' ++ r'.
Proof.
  intros (v & [B L] & S & _) (v' & B' & H) E. destruct (base128_unique _ _ B _ _ _ _ B' E) as (-> & <- & _). lia.
Qed.
Lemma size_bound p (b : bytes) : is_size p (Z.of_nat (length b)) -> zlen b < 2 ^ 63.
Proof.
  intros (v & [B _] & S & H). assert (0 <= v); [|unfold zlen; lia]. clear S H. induction B as [c|c q v Hc B IH]; [|lia].
  unfold byte_value. lia.
Qed.
Lemma reads_unique d m m' : zlen d < 2 ^ 63 -> WireMeaningSpec.reads MetricWithMetadatas_ d m ->
  WireMeaningSpec.reads MetricWithMetadatas_ d m' -> m = m'.
Proof.
  intros L R R'. pose proof (reads_ok MetricWithMetadatas_ mm_fields mm_parts zero_mm d m good_mm meant_mm L R).
  pose proof (reads_ok MetricWithMetadatas_ mm_fields mm_parts zero_mm d m' good_mm meant_mm L R'). congruence.
Qed.
Lemma says_unique pb x x' : says pb x -> says pb x' -> x = x'.
Proof.
  intros S S'. apply (mm_computes pb zero_union) in S as (u & E & Q). apply (mm_computes pb zero_union) in S' as (u' & E' & Q'). congruence.
Qed.
Lemma says_type pb x : says pb x -> 1 <= mm_type pb <= 5.
Proof. intros []; lia. Qed.

Lemma same_block (b b' r r' : bytes) : Z.of_nat (length b) = Z.of_nat (length b') -> b ++ r = b' ++ r' -> b = b' /\ r = r'.
Proof.
  revert b'. induction b as [|x b IH]; intros [|x' b'] L E; cbn [length app] in *; try lia; [auto|].
  injection E as -> E. destruct (IH b' ltac:(lia) E) as [-> ->]. auto.
Qed.
Lemma cut_block (b r r' : bytes) : b ++ r = r' -> Z.of_nat (length r') < Z.of_nat (length b) -> False.
Proof. intros <-. rewrite app_length. lia. Qed.

Ltac heads :=
  match goal with
  | U : unfinished (?p ++ ?r), S : is_size ?p _ |- _ => destruct (size_finished p _ r S U)
  | U : unfinished (?p ++ ?r), S : oversized ?p |- _ => destruct (oversized_finished p r S U)
  | S : is_size ?p _, O : oversized ?q, E : ?p ++ _ = ?q ++ _ |- _ => destruct (size_oversized p _ q _ _ S O E)
  | S : is_size ?p _, O : oversized ?q, E : ?q ++ _ = ?p ++ _ |- _ => destruct (size_oversized p _ q _ _ S O (eq_sym E))
  | S : is_size ?p ?n, S' : is_size ?q ?k, E : ?p ++ ?r = ?q ++ ?r' |- _ =>
      let E1 := fresh in let E2 := fresh in let E3 := fresh in
      destruct (size_unique p n q k r r' S S' E) as (E1 & E2 & E3); clear E S'; subst q
  end.

Ltac bodies :=
  try match goal with
  | L : Z.of_nat (length ?b) = Z.of_nat (length ?b'), E : ?b ++ ?r = ?b' ++ ?r' |- _ =>
      let E1 := fresh in let E2 := fresh in destruct (same_block b b' r r' L E) as [E1 E2]; clear L E; subst b' r'
  | E : ?b ++ ?r = ?r', L : Z.of_nat (length ?b) = ?n, C : Z.of_nat (length ?r') < ?n |- _ => exfalso; subst n; exact (cut_block b r r' E C)
  | E : ?r' = ?b ++ ?r, L : ?n = Z.of_nat (length ?b), C : Z.of_nat (length ?r') < ?n |- _ =>
      exfalso; subst n; exact (cut_block b r r' (eq_sym E) C)
  end;
  try match goal with
  | B : is_size _ (Z.of_nat (length ?b)), R : reads MetricWithMetadatas_ ?b ?m, R' : reads MetricWithMetadatas_ ?b ?m' |- _ =>
      let E := fresh in pose proof (reads_unique b m m' (size_bound _ b B) R R') as E; clear R'; subst m'
  end;
  try match goal with
  | N : forall m, ~ reads _ ?b m, R : reads _ ?b ?m |- _ => destruct (N m R)
  | N : forall x, ~ says ?pb x, R : says ?pb ?x |- _ => destruct (N x R)
  | N : ~ 1 <= mm_type ?m <= 5, R : says (completed ?h ?m) ?x |- _ => destruct (N (says_type _ _ R))
  | N : ~ 1 <= mm_type ?m <= 5, R : 1 <= mm_type ?m <= 5 |- _ => destruct (N R)
  end.
Lemma stream_unique max h d ms o : stream max h d ms o -> forall ms' o', stream max h d ms' o' -> ms' = ms /\ o' = o.
Proof.
  induction 1; intros ms' o' S'; inversion S'; subst; try (split; reflexivity); try heads; try lia; try (split; congruence).
  all: try (split; [reflexivity|]; congruence).
  all: try bodies.
  - subst. split; reflexivity.
  - match goal with K : stream _ _ _ ms0 o' |- _ => destruct (IHstream ms0 o' K) as [-> ->] end.
    match goal with K : says _ x, K' : says _ x0 |- _ => rewrite (says_unique _ x0 x K' K) end. split; reflexivity.
Qed.
