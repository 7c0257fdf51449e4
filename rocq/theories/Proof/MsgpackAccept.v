(** What the decoders accept is what the format and the schema describe. *)
From Coq Require Import Ascii String Arith NArith ZArith Bool Lia List.
From Verif.Base Require Import Bytes.
From Verif.Proof Require Import ProtoWireProof MsgpackLibProof MsgpackProof MsgpackLocal MsgpackIterProof.
From Verif.Model Require Import AggType Policy Transformation ProtoWire MsgpackLib Msgpack.
From Verif.Spec Require Import MetadataSpec ProtoStreamSpec MsgpackSpec.
Import ListNotations.
Open Scope Z_scope.

(** * The format *)

Lemma code_bz b : code (bz b) = b.
Proof. unfold code, bz. rewrite N2Z.id. apply ascii_N_embedding. Qed.

Lemma take_inv n d a r : take n d = inl (a, r) -> d = a ++ r /\ (0 <= n -> zlen a = n).
Proof.
  unfold take. destruct (Z.leb_spec n (zlen d)); [|destruct d; discriminate]. intros [= <- <-].
  split; [symmetry; apply firstn_skipn|]. intros N. unfold zlen in *. rewrite firstn_length. lia.
Qed.
Lemma read_uint_inv n d v r : 0 <= n -> read_uint n d = inl (v, r) -> exists x, d = x ++ r /\ zlen x = n /\ v = number x.
Proof.
  intros N. unfold read_uint. destruct (take n d) as [[x r']|] eqn:E; [|discriminate]. intros [= <- <-].
  apply take_inv in E as [-> L]. exists x. rewrite number_be. auto.
Qed.
Lemma read_sint_inv n d v r : 0 <= n -> read_sint n d = inl (v, r) -> exists x, d = x ++ r /\ zlen x = n /\ v = signed_number x.
Proof.
  intros N H. unfold read_sint in H. destruct (read_uint n d) as [[w r']|] eqn:E; [|discriminate].
  apply read_uint_inv in E as (x & -> & L & ->); [|exact N]. exists x. split; [injection H as _ <-; reflexivity|]. split; [exact L|].
  pose proof (read_sint_app n x r' L) as S. unfold read_sint in S. rewrite (read_uint_app n x r' L) in S.
  rewrite S in H. injection H as <- _. reflexivity.
Qed.

(** One case per code; in each the code is known. *)
Ltac by_code b H :=
  let c := fresh "c" in let Ec := fresh "Ec" in
  remember (bz b) as c eqn:Ec in H; cbv zeta in H; rewrite <- (code_bz b), <- Ec;
  repeat match type of H with
  | (if ?x then _ else _) = _ =>
      let E := fresh "E" in destruct x eqn:E;
      rewrite ?orb_true_iff, ?orb_false_iff, ?andb_true_iff, ?andb_false_iff, ?Z.eqb_eq, ?Z.eqb_neq, ?Z.ltb_lt, ?Z.ltb_ge,
        ?Z.leb_le, ?Z.leb_gt in E
  end.

Lemma read_int_inv d v r : read_int d = inl (v, r) -> exists b, d = b ++ r /\ int_as v b.
Proof.
  destruct d as [|b d]; [discriminate|]. cbn [read_int]. intros H. pose proof (bz_range b) as R. by_code b H; try discriminate H; subst c.
  - injection H as <- <-. exists [code (bz b)]. split; [reflexivity|]. apply int_pos. lia.
  - injection H as <- <-. exists [code (bz b)]. split; [reflexivity|].
    replace (bz b) with (256 + (bz b - 256)) at 2 by lia. apply int_neg. lia.
  - injection H as <- <-. exists [code (bz b)]. split; [reflexivity|]. rewrite E1. apply int_nil.
  - apply read_uint_inv in H as (x & -> & L & ->); [|lia]. exists (code (bz b) :: x). split; [reflexivity|]. rewrite E2.
    apply int_unsigned. rewrite L. cbn. tauto.
  - apply read_uint_inv in H as (x & -> & L & ->); [|lia]. exists (code (bz b) :: x). split; [reflexivity|]. rewrite E3.
    apply int_unsigned. rewrite L. cbn. tauto.
  - apply read_uint_inv in H as (x & -> & L & ->); [|lia]. exists (code (bz b) :: x). split; [reflexivity|]. rewrite E4.
    apply int_unsigned. rewrite L. cbn. tauto.
  - apply read_sint_inv in H as (x & -> & L & ->); [|lia]. exists (code (bz b) :: x). split; [reflexivity|]. rewrite E5.
    apply int_signed. rewrite L. cbn. tauto.
  - apply read_sint_inv in H as (x & -> & L & ->); [|lia]. exists (code (bz b) :: x). split; [reflexivity|]. rewrite E6.
    apply int_signed. rewrite L. cbn. tauto.
  - apply read_sint_inv in H as (x & -> & L & ->); [|lia]. exists (code (bz b) :: x). split; [reflexivity|]. rewrite E7.
    apply int_signed. rewrite L. cbn. tauto.
  - apply read_sint_inv in H as (x & -> & L & ->); [|lia]. exists (code (bz b) :: x). split; [reflexivity|]. rewrite E8.
    apply int_signed. rewrite L. cbn. tauto.
  - apply read_sint_inv in H as (x & -> & L & ->); [|lia]. exists (code (bz b) :: x). split; [reflexivity|]. rewrite E9.
    apply int_signed. rewrite L. cbn. tauto.
Qed.

(** Nil as a length. *)
Definition len_as (n : Z) (b : bytes) : Prop := (n = -1 /\ b = [code 192]) \/ (0 <= n /\ array_as n b).

Lemma number_nonneg d : 0 <= number d.
Proof. rewrite number_be. apply get_be_range. Qed.
Lemma read_array_inv d n r : read_array_len d = inl (n, r) -> exists b, d = b ++ r /\ len_as n b.
Proof.
  destruct d as [|b d]; [discriminate|]. cbn [read_array_len]. intros H. pose proof (bz_range b) as R. by_code b H; try discriminate H; subst c.
  - injection H as <- <-. exists [code (bz b)]. split; [reflexivity|]. left. rewrite E. auto.
  - injection H as <- <-. exists [code (bz b)]. split; [reflexivity|]. right. split; [lia|].
    replace (bz b) with (144 + (bz b - 144)) at 2 by lia. apply array_fix. lia.
  - apply read_uint_inv in H as (x & -> & L & ->); [|lia]. exists (code (bz b) :: x). split; [reflexivity|]. rewrite E1.
    right. split; [apply number_nonneg|]. apply array_n. rewrite L. cbn. tauto.
  - apply read_uint_inv in H as (x & -> & L & ->); [|lia]. exists (code (bz b) :: x). split; [reflexivity|]. rewrite E2.
    right. split; [apply number_nonneg|]. apply array_n. rewrite L. cbn. tauto.
Qed.

Lemma read_bool_inv d v r : read_bool d = inl (v, r) -> exists b, d = b ++ r /\ bool_as v b.
Proof.
  destruct d as [|b d]; [discriminate|]. cbn [read_bool]. intros H. by_code b H; try discriminate H; subst c;
    injection H as <- <-; exists [code (bz b)]; (split; [reflexivity|]).
  - rewrite E. constructor.
  - rewrite E0. constructor.
Qed.
Lemma read_float_inv d v r : read_float64 d = inl (v, r) -> exists b, d = b ++ r /\ float_as v b.
Proof.
  destruct d as [|b d]; [discriminate|]. cbn [read_float64]. intros H. by_code b H; try discriminate H; subst c.
  apply read_uint_inv in H as (x & -> & L & ->); [|lia]. exists (code (bz b) :: x). split; [reflexivity|]. rewrite E.
  apply float_8. unfold zlen in L. lia.
Qed.

(** A length, then that many bytes. *)
Lemma read_bytes_len_inv d n r : read_bytes_len d = inl (n, r) -> exists h, d = h ++ r /\
  ((n = -1 /\ h = [code 192]) \/ (0 <= n /\ forall s, zlen s = n -> bytes_as s (h ++ s))).
Proof.
  destruct d as [|b d]; [discriminate|]. cbn [read_bytes_len]. intros H. pose proof (bz_range b) as R. by_code b H; try discriminate H; subst c.
  - injection H as <- <-. exists [code (bz b)]. split; [reflexivity|]. left. rewrite E. auto.
  - injection H as <- <-. exists [code (bz b)]. split; [reflexivity|]. right. split; [lia|]. intros s L.
    replace (bz b) with (160 + zlen s) by lia. apply bytes_fix. lia.
  - apply read_uint_inv in H as (x & -> & L & ->); [|lia]. exists (code (bz b) :: x). split; [reflexivity|].
    right. split; [apply number_nonneg|]. intros s Ls. apply (bytes_n (bz b) x s); [|auto]. rewrite L. destruct E1 as [-> | ->]; cbn; tauto.
  - apply read_uint_inv in H as (x & -> & L & ->); [|lia]. exists (code (bz b) :: x). split; [reflexivity|].
    right. split; [apply number_nonneg|]. intros s Ls. apply (bytes_n (bz b) x s); [|auto]. rewrite L. destruct E2 as [-> | ->]; cbn; tauto.
  - apply read_uint_inv in H as (x & -> & L & ->); [|lia]. exists (code (bz b) :: x). split; [reflexivity|].
    right. split; [apply number_nonneg|]. intros s Ls. apply (bytes_n (bz b) x s); [|auto]. rewrite L. destruct E3 as [-> | ->]; cbn; tauto.
Qed.
Lemma read_bytes_inv d s r : read_bytes d = inl (s, r) -> exists b, d = b ++ r /\ bytes_as s b.
Proof.
  unfold read_bytes. destruct (read_bytes_len d) as [[n d']|] eqn:E; [|discriminate].
  apply read_bytes_len_inv in E as (h & -> & [[-> ->]|[N W]]).
  - change (-1 =? -1) with true. cbv iota. intros [= <- <-]. exists [code 192]. split; [reflexivity|constructor].
  - rewrite (proj2 (Z.eqb_neq _ _)) by lia. intros T. apply take_inv in T as [-> L]. exists (h ++ s).
    split; [apply app_assoc|]. apply W. auto.
Qed.

(** ** Skipping *)
Inductive atom : bytes -> Prop :=
| atom_int v a : int_as v a -> atom a
| atom_bytes s a : bytes_as s a -> atom a
| atom_bool v a : bool_as v a -> atom a
| atom_float v a : float_as v a -> atom a
| atom_other a : other_as a -> atom a.
Lemma values_atom n a b : atom a -> values n b -> values (S n) (a ++ b).
Proof.
  intros [v x H|s x H|v x H|v x H|x H] V.
  - exact (values_int n v x b H V).
  - exact (values_bytes n s x b H V).
  - exact (values_bool n v x b H V).
  - exact (values_float n v x b H V).
  - exact (values_other n x b H V).
Qed.

Lemma skip_n_inv n d k r : 0 <= n -> skip_n n d = inl (k, r) -> k = 0 /\ exists x, d = x ++ r /\ zlen x = n.
Proof.
  intros N. unfold skip_n. destruct (take n d) as [[x r']|] eqn:E; [|discriminate]. intros [= <- <-].
  apply take_inv in E as [-> L]. split; [reflexivity|]. exists x. auto.
Qed.
Lemma skip_len_inv c e d k r : 0 <= c -> 0 <= e -> skip_len c e d = inl (k, r) -> k = 0 /\
  exists n x, d = n ++ x ++ r /\ zlen n = c /\ zlen x = number n + e.
Proof.
  intros C Ge. unfold skip_len. destruct (read_uint c d) as [[v d']|] eqn:E; [|discriminate].
  apply read_uint_inv in E as (n & -> & L & ->); [|exact C]. intros H. pose proof (number_nonneg n).
  apply skip_n_inv in H as [-> (x & -> & X)]; [|lia]. split; [reflexivity|]. exists n, x. auto.
Qed.

Lemma skip_count_inv c per d k r : 0 <= c -> skip_count c per d = inl (k, r) -> exists n, d = n ++ r /\ zlen n = c /\ k = per * number n.
Proof.
  intros C. unfold skip_count. destruct (read_uint c d) as [[v d']|] eqn:E; [|discriminate].
  apply read_uint_inv in E as (n & -> & L & ->); [|exact C]. intros [= <- <-]. exists n. auto.
Qed.

Lemma skip_head_inv d k r : skip_head d = inl (k, r) ->
  exists a, d = a ++ r /\ ((k = 0 /\ atom a) \/ (0 <= k /\ array_as k a) \/ (exists m, 0 <= m /\ k = 2 * m /\ map_as m a)).
Proof.
  destruct d as [|b d]; [discriminate|]. cbn [skip_head]. intros H. pose proof (bz_range b) as R. by_code b H; try discriminate H; subst c.

  - injection H as <- <-. exists [code (bz b)]. split; [reflexivity|]. left. split; [reflexivity|]. eapply atom_int, int_pos. lia.
  - injection H as <- <-. exists [code (bz b)]. split; [reflexivity|]. left. split; [reflexivity|].
    replace (bz b) with (256 + (bz b - 256)) by lia. eapply atom_int, int_neg. lia.
  - injection H as <- <-. exists [code (bz b)]. split; [reflexivity|]. right. right. exists (bz b - 128). split; [lia|].
    split; [reflexivity|]. replace (bz b) with (128 + (bz b - 128)) at 2 by lia. apply map_fix. lia.
  - injection H as <- <-. exists [code (bz b)]. split; [reflexivity|]. right. left. split; [lia|].
    replace (bz b) with (144 + (bz b - 144)) at 2 by lia. apply array_fix. lia.
  - apply skip_n_inv in H as [-> (x & -> & X)]; [|lia]. exists (code (bz b) :: x). split; [reflexivity|]. left. split; [reflexivity|].
    replace (bz b) with (160 + zlen x) by lia. eapply atom_bytes, bytes_fix. lia.
  - injection H as <- <-. exists [code (bz b)]. split; [reflexivity|]. left. split; [reflexivity|].
    destruct E4 as [[-> | ->]| ->]; [eapply atom_bytes, bytes_nil|eapply atom_bool, bool_false|eapply atom_bool, bool_true].
  - apply skip_n_inv in H as [-> (x & -> & X)]; [|lia]. exists (code (bz b) :: x). split; [reflexivity|]. left. split; [reflexivity|].
    destruct E5 as [-> | ->]; [eapply atom_int, int_unsigned; rewrite X; cbn; tauto|eapply atom_int, int_signed; rewrite X; cbn; tauto].
  - apply skip_n_inv in H as [-> (x & -> & X)]; [|lia]. exists (code (bz b) :: x). split; [reflexivity|]. left. split; [reflexivity|].
    destruct E6 as [-> | ->]; [eapply atom_int, int_unsigned; rewrite X; cbn; tauto|eapply atom_int, int_signed; rewrite X; cbn; tauto].
  - apply skip_n_inv in H as [-> (x & -> & X)]; [|lia]. exists (code (bz b) :: x). split; [reflexivity|]. left. split; [reflexivity|].
    destruct E7 as [[-> | ->]| ->]; [eapply atom_int, int_unsigned; rewrite X; cbn; tauto|eapply atom_int, int_signed; rewrite X; cbn; tauto|]. apply atom_other, other_float32. unfold zlen in X. lia.
  - apply skip_n_inv in H as [-> (x & -> & X)]; [|lia]. exists (code (bz b) :: x). split; [reflexivity|]. left. split; [reflexivity|].
    destruct E8 as [[-> | ->]| ->]; [eapply atom_int, int_signed; rewrite X; cbn; tauto|eapply atom_int, int_signed; rewrite X; cbn; tauto|]. eapply atom_float, float_8. unfold zlen in X. lia.
  - apply skip_len_inv in H as [-> (n & x & -> & N & X)]; [|lia|lia]. exists (code (bz b) :: n ++ x). split; [cbn [app]; rewrite <- app_assoc; reflexivity|].
    left. split; [reflexivity|]. apply (atom_bytes x), bytes_n; [|lia]. rewrite N. destruct E9 as [-> | ->]; cbn; tauto.
  - apply skip_len_inv in H as [-> (n & x & -> & N & X)]; [|lia|lia]. exists (code (bz b) :: n ++ x). split; [cbn [app]; rewrite <- app_assoc; reflexivity|].
    left. split; [reflexivity|]. apply (atom_bytes x), bytes_n; [|lia]. rewrite N. destruct E10 as [-> | ->]; cbn; tauto.
  - apply skip_len_inv in H as [-> (n & x & -> & N & X)]; [|lia|lia]. exists (code (bz b) :: n ++ x). split; [cbn [app]; rewrite <- app_assoc; reflexivity|].
    left. split; [reflexivity|]. apply (atom_bytes x), bytes_n; [|lia]. rewrite N. destruct E11 as [-> | ->]; cbn; tauto.
  - apply skip_count_inv in H as (n & -> & N & ->); [|lia]. exists (code (bz b) :: n). split; [reflexivity|]. right. pose proof (number_nonneg n).
    left. split; [lia|]. rewrite E12. replace (1 * number n) with (number n) by lia. apply array_n. rewrite N. cbn. tauto.
  - apply skip_count_inv in H as (n & -> & N & ->); [|lia]. exists (code (bz b) :: n). split; [reflexivity|]. right. pose proof (number_nonneg n).
    left. split; [lia|]. rewrite E13. replace (1 * number n) with (number n) by lia. apply array_n. rewrite N. cbn. tauto.
  - apply skip_count_inv in H as (n & -> & N & ->); [|lia]. exists (code (bz b) :: n). split; [reflexivity|]. right. pose proof (number_nonneg n).
    right. exists (number n). split; [lia|]. split; [reflexivity|]. rewrite E14. apply map_n. rewrite N. cbn. tauto.
  - apply skip_count_inv in H as (n & -> & N & ->); [|lia]. exists (code (bz b) :: n). split; [reflexivity|]. right. pose proof (number_nonneg n).
    right. exists (number n). split; [lia|]. split; [reflexivity|]. rewrite E15. apply map_n. rewrite N. cbn. tauto.
  - apply skip_n_inv in H as [-> ([|t x] & -> & X)]; [| |lia]; [cbn in X; lia|]. exists (code (bz b) :: t :: x). split; [reflexivity|]. left. split; [reflexivity|].
    rewrite E16. apply atom_other, other_fixext. rewrite zlen_cons in X. replace (zlen x) with 1 by lia. cbn. tauto.
  - apply skip_n_inv in H as [-> ([|t x] & -> & X)]; [| |lia]; [cbn in X; lia|]. exists (code (bz b) :: t :: x). split; [reflexivity|]. left. split; [reflexivity|].
    rewrite E17. apply atom_other, other_fixext. rewrite zlen_cons in X. replace (zlen x) with 2 by lia. cbn. tauto.
  - apply skip_n_inv in H as [-> ([|t x] & -> & X)]; [| |lia]; [cbn in X; lia|]. exists (code (bz b) :: t :: x). split; [reflexivity|]. left. split; [reflexivity|].
    rewrite E18. apply atom_other, other_fixext. rewrite zlen_cons in X. replace (zlen x) with 4 by lia. cbn. tauto.
  - apply skip_n_inv in H as [-> ([|t x] & -> & X)]; [| |lia]; [cbn in X; lia|]. exists (code (bz b) :: t :: x). split; [reflexivity|]. left. split; [reflexivity|].
    rewrite E19. apply atom_other, other_fixext. rewrite zlen_cons in X. replace (zlen x) with 8 by lia. cbn. tauto.
  - apply skip_n_inv in H as [-> ([|t x] & -> & X)]; [| |lia]; [cbn in X; lia|]. exists (code (bz b) :: t :: x). split; [reflexivity|]. left. split; [reflexivity|].
    rewrite E20. apply atom_other, other_fixext. rewrite zlen_cons in X. replace (zlen x) with 16 by lia. cbn. tauto.
  - apply skip_len_inv in H as [-> (n & x & -> & N & X)]; [|lia|lia]. pose proof (number_nonneg n). destruct x as [|t x]; [cbn in X; lia|].
    exists (code (bz b) :: n ++ t :: x). split; [cbn [app]; rewrite <- app_assoc; reflexivity|].
    left. split; [reflexivity|]. rewrite E21. apply atom_other, other_ext; [rewrite N; cbn; tauto|]. rewrite zlen_cons in X. lia.
  - apply skip_len_inv in H as [-> (n & x & -> & N & X)]; [|lia|lia]. pose proof (number_nonneg n). destruct x as [|t x]; [cbn in X; lia|].
    exists (code (bz b) :: n ++ t :: x). split; [cbn [app]; rewrite <- app_assoc; reflexivity|].
    left. split; [reflexivity|]. rewrite E22. apply atom_other, other_ext; [rewrite N; cbn; tauto|]. rewrite zlen_cons in X. lia.
  - apply skip_len_inv in H as [-> (n & x & -> & N & X)]; [|lia|lia]. pose proof (number_nonneg n). destruct x as [|t x]; [cbn in X; lia|].
    exists (code (bz b) :: n ++ t :: x). split; [cbn [app]; rewrite <- app_assoc; reflexivity|].
    left. split; [reflexivity|]. rewrite E23. apply atom_other, other_ext; [rewrite N; cbn; tauto|]. rewrite zlen_cons in X. lia.
Qed.

Lemma values_split i : forall j b, values (i + j) b -> exists x y, b = x ++ y /\ values i x /\ values j y.
Proof.
  induction i as [|i IH]; intros j b V.
  - exists [], b. split; [reflexivity|]. split; [constructor|exact V].
  - cbn [Nat.add] in V. inversion V as [|n v a c H W|n s a c H W|n v a c H W|n v a c H W|n a c H W|n k a x c H X W|n k a x c H X W]; subst;
      destruct (IH j c W) as (x1 & y & -> & X1 & Y).
    + exists (a ++ x1), y. rewrite app_assoc. split; [reflexivity|]. split; [exact (values_int i v a x1 H X1)|exact Y].
    + exists (a ++ x1), y. rewrite app_assoc. split; [reflexivity|]. split; [exact (values_bytes i s a x1 H X1)|exact Y].
    + exists (a ++ x1), y. rewrite app_assoc. split; [reflexivity|]. split; [exact (values_bool i v a x1 H X1)|exact Y].
    + exists (a ++ x1), y. rewrite app_assoc. split; [reflexivity|]. split; [exact (values_float i v a x1 H X1)|exact Y].
    + exists (a ++ x1), y. rewrite app_assoc. split; [reflexivity|]. split; [exact (values_other i a x1 H X1)|exact Y].
    + exists (a ++ x ++ x1), y. rewrite <- !app_assoc. split; [reflexivity|]. split; [exact (values_array i k a x x1 H X X1)|exact Y].
    + exists (a ++ x ++ x1), y. rewrite <- !app_assoc. split; [reflexivity|]. split; [exact (values_map i k a x x1 H X X1)|exact Y].
Qed.

Lemma skip_loop_inv f : forall n d r, skip_loop f n d = inl r -> exists b, d = b ++ r /\ values (Z.to_nat n) b.
Proof.
  induction f as [|f IH]; intros n d r; cbn [skip_loop]; destruct (Z.leb_spec n 0); intros E; try discriminate E;
    try (injection E as ->; exists []; split; [reflexivity|]; replace (Z.to_nat n) with 0%nat by lia; constructor).
  destruct (skip_head d) as [[k d']|] eqn:Eh; [|discriminate]. apply skip_head_inv in Eh as (a & -> & C).
  apply IH in E as (b & -> & V). assert (Z.to_nat n = S (Z.to_nat (n - 1))) as -> by lia.
  destruct C as [[-> A]|[[K A]|(m & M & -> & A)]].
  - exists (a ++ b). split; [apply app_assoc|]. apply values_atom; [exact A|]. replace (n - 1 + 0) with (n - 1) in V by lia. exact V.
  - replace (Z.to_nat (n - 1 + k)) with (Z.to_nat k + Z.to_nat (n - 1))%nat in V by lia.
    apply values_split in V as (x & y & -> & X & Y). exists (a ++ x ++ y). split; [rewrite <- !app_assoc; reflexivity|].
    apply (values_array _ (Z.to_nat k)); [rewrite Z2Nat.id by lia; exact A|exact X|exact Y].
  - replace (Z.to_nat (n - 1 + 2 * m)) with (2 * Z.to_nat m + Z.to_nat (n - 1))%nat in V by lia.
    apply values_split in V as (x & y & -> & X & Y). exists (a ++ x ++ y). split; [rewrite <- !app_assoc; reflexivity|].
    apply (values_map _ (Z.to_nat m)); [rewrite Z2Nat.id by lia; exact A|exact X|exact Y].
Qed.

(** * Composing decoders *)

(** If the decoder ends without an error, it began without one, and it read a form of its result. *)
Definition accepts {A} (x : D A) (r : A -> bytes -> Prop) : Prop :=
  forall s a s', x s = (a, s') -> d_err s' = None -> d_err s = None /\ exists b, d_in s = b ++ d_in s' /\ r a b.

Lemma acc_mono {A} (x : D A) (r q : A -> bytes -> Prop) : accepts x r -> (forall a b, r a b -> q a b) -> accepts x q.
Proof. intros X M s a s' E N. destruct (X s a s' E N) as (Z & b & Eb & R). split; [exact Z|]. exists b. auto. Qed.
Lemma acc_ret {A} (a : A) : accepts (ret a) (fun a' b => a' = a /\ b = []).
Proof. intros s a' s' [= <- <-] N. split; [exact N|]. exists []. auto. Qed.
Lemma acc_bind {A C} (x : D A) (f : A -> D C) r q : accepts x r -> (forall a, accepts (f a) (q a)) ->
  accepts (bindD x f) (fun c b => exists a b1 b2, b = b1 ++ b2 /\ r a b1 /\ q a c b2).
Proof.
  intros X F s c s' E N. unfold bindD in E. destruct (x s) as [a s1] eqn:Ex.
  destruct (F a s1 c s' E N) as (N1 & b2 & E2 & Q). destruct (X s a s1 Ex N1) as (N0 & b1 & E1 & R).
  split; [exact N0|]. exists (b1 ++ b2). split; [rewrite E1, E2; apply app_assoc|]. exists a, b1, b2. auto.
Qed.
Lemma acc_fail {C} e (f : D C) (q : C -> bytes -> Prop) : accepts f q ->
  accepts (bindD (set_err (Some e)) (fun _ => f)) (fun _ _ => False).
Proof.
  intros F s c s' E N. unfold bindD, set_err in E. destruct (F _ c s' E N) as (N1 & _). discriminate N1.
Qed.
Lemma acc_err {C} (f : D C) (g : merr -> D C) q q' : accepts f q -> (forall e, accepts (g e) q') ->
  accepts (bindD get_err (fun e => match e with Some e => g e | None => f end)) q.
Proof.
  intros F G s c s' E N. unfold bindD, get_err in E. destruct (d_err s) as [e|] eqn:Es; [|destruct (F s c s' E N) as (_ & Q); split; [reflexivity|exact Q]].
  destruct (G e s c s' E N) as (N1 & _). congruence.
Qed.
Lemma acc_prim {A} (z : A) read r : (forall d a d', read d = inl (a, d') -> exists b, d = b ++ d' /\ r a b) ->
  accepts (prim z read) r.
Proof.
  intros R s a s' E N. unfold prim in E. destruct (d_err s) eqn:Es; [injection E as _ <-; congruence|].
  destruct (read (d_in s)) as [[a' d]|] eqn:Er; injection E as <- <-; [|discriminate N]. split; [reflexivity|]. exact (R _ _ _ Er).
Qed.
Lemma acc_if {A} (c : bool) (x y : D A) r q : accepts x r -> accepts y q -> accepts (if c then x else y) (fun a b => if c then r a b else q a b).
Proof. destruct c; auto. Qed.
Lemma acc_opt {A C} (o : option C) (x : C -> D A) (y : D A) r q : (forall c, accepts (x c) (r c)) -> accepts y q ->
  accepts (match o with None => y | Some c => x c end) (fun a b => match o with None => q a b | Some c => r c a b end).
Proof. destruct o; auto. Qed.

Lemma acc_int : accepts dec_varint64 int_as.
Proof. apply acc_prim. exact read_int_inv. Qed.
Lemma acc_bool : accepts dec_bool bool_as.
Proof. apply acc_prim. exact read_bool_inv. Qed.
Lemma acc_float : accepts dec_float64 float_as.
Proof. apply acc_prim. exact read_float_inv. Qed.
Lemma acc_bytes : accepts dec_bytes bytes_as.
Proof. apply acc_prim. exact read_bytes_inv. Qed.
Lemma acc_array : accepts dec_array_len len_as.
Proof. apply acc_prim. exact read_array_inv. Qed.
Lemma acc_skip n : accepts (dec_skip n) (fun _ b => 0 <= n /\ values (Z.to_nat n) b).
Proof.
  intros s a s' E N. unfold dec_skip in E. destruct (d_err s) eqn:Es; [injection E as _ <-; congruence|].
  destruct (Z.ltb_spec n 0); [injection E as _ <-; discriminate N|].
  destruct (skip_values n (d_in s)) as [d|] eqn:Er; injection E as _ <-; [|discriminate N]. split; [reflexivity|].
  apply skip_loop_inv in Er as (b & Eb & V). exists b. auto.
Qed.

Lemma acc_id : accepts dec_id bytes_as.
Proof.
  intros s a s' E N. unfold dec_id, bindD, get_err, dec_bytes_len, prim, ret in E.
  destruct (d_err s) eqn:Es; [rewrite Es in E; injection E as _ <-; congruence|].
  destruct (read_bytes_len (d_in s)) as [[n d]|] eqn:Er; cbn [d_err] in E; [|injection E as _ <-; discriminate N].
  split; [reflexivity|]. assert (R : read_bytes (d_in s) = inl (a, d_in s')).
  { unfold read_bytes. rewrite Er. destruct (n =? -1); [injection E as <- <-; reflexivity|]. cbn [d_err d_in] in E.
    destruct (take n d) as [[x r]|]; injection E as <- <-; [reflexivity|discriminate N]. }
  exact (read_bytes_inv _ _ _ R).
Qed.

Lemma acc_type : accepts dec_type (fun t b => int_as t b /\ type_valid t = true).
Proof.
  unfold dec_type. eapply acc_mono.
  - eapply acc_bind; [exact acc_int|]. intros t. eapply acc_err; [|intros e; apply acc_ret].
    apply acc_if; [apply acc_ret|]. eapply acc_fail, acc_ret.
  - cbv beta. intros a b (t & b1 & b2 & -> & I & Q). destruct (type_valid t) eqn:V; [|contradiction]. destruct Q as [-> ->].
    rewrite app_nil_r. auto.
Qed.

Lemma num_fields_nonneg t : 0 <= num_fields t.
Proof.
  unfold num_fields. assert (F : Forall (fun x => 0 <= x) num_fields_table) by (repeat constructor; lia).
  destruct (nth_in_or_default (Z.to_nat (t - 1)) num_fields_table 0) as [I| ->]; [|lia]. rewrite Forall_forall in F. exact (F _ I).
Qed.
Lemma acc_expected t n : accepts (check_expected t n) (fun o b => exists e : nat, o = Some (Z.of_nat e) /\ n = num_fields t + Z.of_nat e /\ b = []).
Proof.
  unfold check_expected. eapply acc_mono.
  - eapply acc_err; [|intros e; apply acc_ret]. apply acc_if; [eapply acc_fail, acc_ret|apply acc_ret].
  - cbv beta. intros o b. destruct (Z.ltb_spec n (num_fields t)); [contradiction|]. intros [-> ->].
    exists (Z.to_nat (n - num_fields t)). rewrite Z2Nat.id by lia. split; [reflexivity|]. split; [lia|reflexivity].
Qed.

(** Objects. *)
Lemma acc_checked {C} (x : D (option Z)) (k : Z -> D C) (f : D C) (r : nat -> bytes -> Prop) q q0 :
  accepts x (fun o b => exists e : nat, o = Some (Z.of_nat e) /\ r e b) -> (forall z, accepts (k z) (q z)) -> accepts f q0 ->
  accepts (bindD x (fun ok => match ok with None => f | Some e => k e end))
    (fun c b => exists (e : nat) b1 b2, b = b1 ++ b2 /\ r e b1 /\ q (Z.of_nat e) c b2).
Proof.
  intros X K F. eapply acc_mono.
  - eapply acc_bind; [exact X|]. intros o. apply acc_opt; [exact K|exact F].
  - cbv beta. intros c b (o & b1 & b2 & -> & (e & -> & R) & Q). exists e, b1, b2. auto.
Qed.
Lemma acc_fields t : accepts (check_fields t) (fun o b => exists e : nat, o = Some (Z.of_nat e) /\ array_as (num_fields t + Z.of_nat e) b).
Proof.
  unfold check_fields. eapply acc_mono.
  - eapply acc_bind; [exact acc_array|]. intros n. apply acc_expected.
  - cbv beta. intros o b (n & b1 & b2 & -> & L & e & -> & -> & ->). rewrite app_nil_r. exists e. split; [reflexivity|].
    destruct L as [[L _]|[_ L]]; [pose proof (num_fields_nonneg t); lia|exact L].
Qed.
Lemma acc_object {C} t (k : Z -> D C) (f : D C) q q0 : (forall z, accepts (k z) (q z)) -> accepts f q0 ->
  accepts (bindD (check_fields t) (fun ok => match ok with None => f | Some e => k e end))
    (fun c b => exists (e : nat) h x, b = h ++ x /\ array_as (num_fields t + Z.of_nat e) h /\ q (Z.of_nat e) c x).
Proof. intros K F. exact (acc_checked _ k f _ q q0 (acc_fields t) K F). Qed.
Lemma acc_typed {C} (k : Z -> Z -> D C) (f : Z -> D C) q q0 : (forall t z, accepts (k t z) (q t z)) -> (forall t, accepts (f t) (q0 t)) ->
  accepts (bindD dec_array_len (fun n => bindD dec_type (fun t => bindD (check_expected t n)
      (fun ok => match ok with None => f t | Some e => k t e end))))
    (fun c b => exists t (e : nat) h tb x, b = h ++ tb ++ x /\ array_as (num_fields t + Z.of_nat e) h /\ int_as t tb /\
      type_valid t = true /\ q t (Z.of_nat e) c x).
Proof.
  intros K F. eapply acc_mono.
  - eapply acc_bind; [exact acc_array|]. intros n. eapply acc_bind; [exact acc_type|]. intros t.
    eapply acc_checked; [apply acc_expected|exact (K t)|exact (F t)].
  - cbv beta. intros c b (n & h & ? & -> & L & t & tb & ? & -> & (T & V) & e & ? & x & -> & (-> & ->) & Q).
    exists t, e, h, tb, x. split; [reflexivity|]. split; [|auto].
    destruct L as [[L _]|[_ L]]; [pose proof (num_fields_nonneg t); lia|exact L].
Qed.
Lemma acc_end {C} z (c : C) : accepts (bindD (dec_skip z) (fun _ => ret c)) (fun c' b => c' = c /\ values (Z.to_nat z) b).
Proof.
  eapply acc_mono; [eapply acc_bind; [apply acc_skip|intros; apply acc_ret]|].
  cbv beta. intros c' b (u & b1 & b2 & -> & (_ & V) & -> & ->). rewrite app_nil_r. auto.
Qed.
Lemma object_is n (e : nat) h body x b : array_as (n + Z.of_nat e) h -> values (Z.to_nat (Z.of_nat e)) x -> b = h ++ body ++ x -> object n body b.
Proof. rewrite Nat2Z.id. intros H X E. exists e, h, x. auto. Qed.
Ltac is_object n e H V := apply (object_is n e _ _ _ _ H V); rewrite ?app_nil_r, <- ?app_assoc; reflexivity.

Lemma acc_loop {A} (x : D A) r : accepts x r -> forall n, accepts (dec_loop x n)
  (fun l b => length l = n /\ exists bs, Forall2 r l bs /\ b = concat bs).
Proof.
  intros X. induction n as [|n IH]; cbn [dec_loop].
  - eapply acc_mono; [apply acc_ret|]. intros l b [-> ->]. split; [reflexivity|]. exists []. split; [constructor|reflexivity].
  - eapply acc_mono; [eapply acc_bind; [exact X|]; intros a; eapply acc_bind; [exact IH|]; intros l; apply acc_ret|].
    cbv beta. intros l b (a & b1 & ? & -> & Ra & l' & ? & ? & -> & (L & bs & F & ->) & -> & ->).
    split; [cbn [length]; congruence|]. exists (b1 :: bs). split; [constructor; assumption|]. cbn [concat]. rewrite app_nil_r. reflexivity.
Qed.
Lemma acc_list {A C} (x : D A) r (f : list A -> D C) q : accepts x r -> (forall l, accepts (f l) (q l)) ->
  accepts (bindD dec_array_len (fun n => bindD (dec_list x n) f))
    (fun c b => exists l b1 b2, b = b1 ++ b2 /\ seq_as r l b1 /\ q l c b2).
Proof.
  intros X F. eapply acc_mono.
  - eapply acc_bind; [exact acc_array|]. intros n. eapply acc_bind; [apply acc_loop, X|exact F].
  - cbv beta. intros c b (n & h & ? & -> & L & l & ? & b2 & -> & (Ln & bs & Fb & ->) & Q).
    exists l, (h ++ concat bs), b2. split; [apply app_assoc|]. split; [|exact Q].
    destruct L as [[-> ->]|[N L]].
    + destruct l; [|discriminate Ln]. inversion Fb; subst. constructor.
    + apply seq_array; [|exact Fb]. unfold zlen. rewrite Ln, Z2Nat.id by exact N. exact L.
Qed.

(** * The parts of a message *)



Lemma known_resolution_inv v r : resolution_of_value v = Some r -> abbreviated_resolution v = Some (r_window r, r_precision r).
Proof.
  unfold resolution_of_value. destruct (find _ _) as [[w x]|] eqn:F; [|discriminate]. intros [= <-]. apply find_some in F as [I E].
  apply Z.eqb_eq in E. cbn [fst snd] in *. subst w. cbn [known_resolutions In] in I.
  repeat (destruct I as [I|I]; [injection I as <- <-; reflexivity|]). contradiction.
Qed.
Lemma known_retention_inv v t : retention_of_value v = Some t -> abbreviated_retention v = Some t.
Proof.
  unfold retention_of_value. destruct (find _ _) as [[w x]|] eqn:F; [|discriminate]. intros [= <-]. apply find_some in F as [I E].
  apply Z.eqb_eq in E. cbn [fst snd] in *. subst w. cbn [known_retentions In] in I.
  repeat (destruct I as [I|I]; [injection I as <- <-; reflexivity|]). contradiction.
Qed.
Lemma unit_inv p u : unit_value p = Some u -> 1 <= p <= 8.
Proof.
  unfold unit_value. destruct (find _ _) as [[w x]|] eqn:F; [|discriminate]. intros _. apply find_some in F as [I E].
  apply Z.eqb_eq in E. cbn [fst snd] in *. subst w. cbn [unit_table In] in I.
  repeat (destruct I as [I|I]; [injection I as <- <-; lia|]). contradiction.
Qed.

Lemma acc_resolution : accepts dec_resolution resolution_as.
Proof.
  unfold dec_resolution. eapply acc_mono.
  - eapply acc_typed; [|intros; apply acc_ret]. intros t z. apply acc_if; [|apply acc_if].
    + eapply acc_bind; [exact acc_int|]. intros v. apply acc_opt; [|eapply acc_fail, acc_ret]. intros r.
      eapply acc_bind; [apply acc_skip|]. intros u. eapply acc_err; [apply acc_ret|intros; apply acc_ret].
    + eapply acc_bind; [exact acc_int|]. intros w. eapply acc_bind; [exact acc_int|]. intros p.
      eapply acc_err; [|intros; apply acc_ret]. apply acc_opt; [|eapply acc_fail, acc_ret]. intros u. apply acc_end.
    + eapply acc_fail, acc_ret.
  - cbv beta. intros r b (t & e & h & tb & x & -> & H & T & _ & Q).
    destruct (Z.eqb_spec t known_res_type) as [->|_]; [|destruct (Z.eqb_spec t unknown_res_type) as [->|_]; [|contradiction]].
    + destruct Q as (v & b1 & ? & -> & I & Q). destruct (resolution_of_value v) as [r'|] eqn:R; [|contradiction].
      destruct Q as (_ & b2 & ? & -> & (_ & V) & -> & ->). apply known_resolution_inv in R. destruct r' as [w p].
      rewrite app_nil_r. apply (resolution_known v w p tb b1); [exact R|exact T|exact I|]. is_object 2 e H V.
    + destruct Q as (w & b1 & ? & -> & Iw & p & b2 & ? & -> & Ip & Q). destruct (unit_value (p mod 256)) as [u|] eqn:U; [|contradiction].
      destruct Q as [-> V]. apply unit_inv in U. apply (resolution_full w p tb b1 b2); [exact U|exact T|exact Iw|exact Ip|].
      is_object 3 e H V.
Qed.
Lemma acc_retention : accepts dec_retention retention_as.
Proof.
  unfold dec_retention. eapply acc_mono.
  - eapply acc_typed; [|intros; apply acc_ret]. intros t z. apply acc_if; [|apply acc_if].
    + eapply acc_bind; [exact acc_int|]. intros v. apply acc_opt; [|eapply acc_fail, acc_ret]. intros r.
      eapply acc_bind; [apply acc_skip|]. intros u. eapply acc_err; [apply acc_ret|intros; apply acc_ret].
    + eapply acc_bind; [exact acc_int|]. intros r. apply acc_end.
    + eapply acc_fail, acc_ret.
  - cbv beta. intros r b (t & e & h & tb & x & -> & H & T & _ & Q).
    destruct (Z.eqb_spec t known_ret_type) as [->|_]; [|destruct (Z.eqb_spec t unknown_ret_type) as [->|_]; [|contradiction]].
    + destruct Q as (v & b1 & ? & -> & I & Q). destruct (retention_of_value v) as [r'|] eqn:R; [|contradiction].
      destruct Q as (_ & b2 & ? & -> & (_ & V) & -> & ->). apply known_retention_inv in R.
      rewrite app_nil_r. apply (retention_known v r' tb b1); [exact R|exact T|exact I|]. is_object 2 e H V.
    + destruct Q as (w & b1 & ? & -> & Iw & -> & V). apply (retention_full w tb b1); [exact T|exact Iw|].
      is_object 2 e H V.
Qed.
Lemma acc_sp : accepts dec_storage_policy sp_as.
Proof.
  unfold dec_storage_policy. eapply acc_mono.
  - eapply acc_object; [|apply acc_ret]. intros z. eapply acc_bind; [exact acc_resolution|]. intros r.
    eapply acc_bind; [exact acc_retention|]. intros t. apply acc_end.
  - cbv beta. intros p b (e & h & ? & -> & H & r & x & ? & -> & R & t & y & ? & -> & T & -> & V).
    exists x, y. split; [exact R|]. split; [exact T|]. is_object 2 e H V.
Qed.
Lemma acc_agg : accepts dec_agg agg_as.
Proof.
  unfold dec_agg. eapply acc_mono.
  - eapply acc_typed; [|intros; apply acc_ret]. intros t z. apply acc_if; [|apply acc_if; [|apply acc_if]].
    + apply acc_end.
    + eapply acc_bind; [exact acc_int|]. intros v. apply acc_end.
    + eapply acc_bind; [exact acc_array|]. intros k. apply acc_if; [eapply acc_fail, acc_ret|]. apply acc_if; [|apply acc_end].
      eapply acc_bind; [exact acc_int|]. intros v. apply acc_end.
    + eapply acc_fail, acc_ret.
  - cbv beta. intros r b (t & e & h & tb & x & -> & H & T & _ & Q).
    destruct (Z.eqb_spec t default_agg_type) as [->|_];
      [|destruct (Z.eqb_spec t short_agg_type) as [->|_]; [|destruct (Z.eqb_spec t long_agg_type) as [->|_]; [|contradiction]]].
    + destruct Q as [-> V]. apply (agg_default tb); [exact T|]. is_object 1 e H V.
    + destruct Q as (v & b1 & ? & -> & I & -> & V). apply (agg_short v tb b1); [exact T|exact I|]. is_object 2 e H V.
    + destruct Q as (k & n & ? & -> & L & Q). destruct (Z.ltb_spec 1 k); [contradiction|]. destruct (Z.eqb_spec k 1) as [->|].
      * destruct Q as (v & b1 & ? & -> & I & -> & V). destruct L as [[L _]|[_ L]]; [discriminate L|].
        apply (agg_long v tb (n ++ b1)); [exact T| |].
        -- replace (n ++ b1) with (n ++ concat [b1]) by (cbn [concat]; rewrite app_nil_r; reflexivity). apply seq_array; [exact L|]. repeat constructor. exact I.
        -- is_object 2 e H V.
      * destruct Q as [-> V]. apply (agg_long_empty tb n); [exact T| |is_object 2 e H V].
        destruct L as [[-> ->]|[K L]]; [constructor|]. assert (k = 0) as -> by lia.
        rewrite <- (app_nil_r n). exact (seq_array int_as [] n [] L (Forall2_nil _)).
Qed.
Lemma acc_policy : accepts dec_policy policy_as.
Proof.
  unfold dec_policy. eapply acc_mono.
  - eapply acc_object; [|apply acc_ret]. intros z. eapply acc_bind; [exact acc_sp|]. intros r.
    eapply acc_bind; [exact acc_agg|]. intros t. apply acc_end.
  - cbv beta. intros p b (e & h & ? & -> & H & r & x & ? & -> & R & t & y & ? & -> & T & -> & V).
    exists x, y. split; [exact R|]. split; [exact T|]. is_object 2 e H V.
Qed.
Lemma acc_staged : accepts dec_staged staged_as.
Proof.
  unfold dec_staged. eapply acc_mono.
  - eapply acc_object; [|apply acc_ret]. intros z. eapply acc_bind; [exact acc_int|]. intros r.
    eapply acc_bind; [exact acc_bool|]. intros t. eapply acc_list; [exact acc_policy|]. intros l. apply acc_end.
  - cbv beta. intros p b (e & h & ? & -> & H & r & x & ? & -> & R & t & y & ? & -> & T & l & z & ? & -> & L & -> & V).
    exists x, y, z. split; [exact R|]. split; [exact T|]. split; [exact L|].
    is_object 3 e H V.
Qed.
Lemma acc_policies_list old : accepts (dec_policies_list old) policies_list_as.
Proof.
  unfold dec_policies_list. eapply acc_mono.
  - eapply acc_typed; [|intros; apply acc_ret]. intros t z. apply acc_if; [|apply acc_if].
    + apply acc_end.
    + eapply acc_list; [exact acc_staged|]. intros l. apply acc_end.
    + eapply acc_fail. apply acc_end.
  - cbv beta. intros r b (t & e & h & tb & x & -> & H & T & _ & Q).
    destruct (Z.eqb_spec t default_pl_type) as [->|_]; [|destruct (Z.eqb_spec t custom_pl_type) as [->|_]; [|contradiction]].
    + destruct Q as [-> V]. apply (policies_default tb); [exact T|]. is_object 1 e H V.
    + destruct Q as (l & b1 & ? & -> & I & -> & V). apply (policies_custom l tb b1); [exact T|exact I|]. is_object 2 e H V.
Qed.

(** * Unaggregated messages *)

Definition fits (t : Z) (m : sample) : Prop :=
  match m with
  | SCounter _ _ => t = 6 \/ t = 2
  | STimer _ _ => t = 7 \/ t = 3
  | SGauge _ _ => ~ (t = 6 \/ t = 2) /\ ~ (t = 7 \/ t = 3)
  end.
Lemma acc_body t m : accepts (dec_body t m) (fun u b => exists x, shown u = Some x /\ sample_as x b /\ fits t x).
Proof.
  unfold dec_body. eapply acc_mono.
  - apply acc_if; [|apply acc_if].
    + unfold dec_counter. eapply acc_object; [|apply acc_ret]. intros z. eapply acc_bind; [exact acc_id|]. intros id.
      eapply acc_bind; [exact acc_int|]. intros v. apply acc_end.
    + unfold dec_timer. eapply acc_object; [|apply acc_ret]. intros z. eapply acc_bind; [exact acc_id|]. intros id.
      eapply acc_list; [exact acc_float|]. intros v. apply acc_end.
    + unfold dec_gauge. eapply acc_object; [|apply acc_ret]. intros z. eapply acc_bind; [exact acc_id|]. intros id.
      eapply acc_bind; [exact acc_float|]. intros v. apply acc_end.
  - cbv beta. intros u b Q.
    destruct ((t =? counter_type) || (t =? counter_pl_type)) eqn:T1;
      [|destruct ((t =? timer_type) || (t =? timer_pl_type)) eqn:T2];
      destruct Q as (e & h & ? & -> & H & id & x & ? & -> & I & v & y & ? & -> & J & -> & V).
    + rewrite orb_true_iff, !Z.eqb_eq in T1. exists (SCounter id v). split; [reflexivity|]. split; [|exact T1].
      apply (counter_as id v x y); [exact I|exact J|]. is_object 2 e H V.
    + rewrite orb_true_iff, !Z.eqb_eq in T2. exists (STimer id v). split; [reflexivity|]. split; [|exact T2].
      apply (timer_as id v x y); [exact I|exact J|]. is_object 2 e H V.
    + rewrite orb_false_iff, !Z.eqb_neq in T1, T2. exists (SGauge id v). split; [reflexivity|]. split; [|cbn; unfold counter_type, counter_pl_type, timer_type, timer_pl_type in *; tauto].
      apply (gauge_as id v x y); [exact I|exact J|]. is_object 2 e H V.
Qed.

Lemma acc_message m pl : accepts (dec_object m pl) (fun r b => exists x o, shown (fst r) = Some x /\
  snd r = match o with None => pl | Some l => l end /\ forall v w, v <= 1 -> int_as v w -> message_as (x, o) (w ++ b)).
Proof.
  unfold dec_object. eapply acc_mono.
  - eapply acc_object; [|apply acc_ret]. intros z. eapply acc_bind; [exact acc_type|]. intros t.
    eapply acc_err; [|intros; apply acc_ret]. apply acc_if; [|apply acc_if].
    + eapply acc_bind; [|intros r; apply acc_end]. unfold dec_plain. eapply acc_bind; [apply acc_body|]. intros u. apply acc_ret.
    + eapply acc_bind; [|intros r; apply acc_end]. unfold dec_with_policies. eapply acc_object; [|apply acc_ret]. intros z'.
      eapply acc_bind; [apply acc_body|]. intros u. eapply acc_bind; [apply acc_policies_list|]. intros l. apply acc_end.
    + eapply acc_fail. apply acc_end.
  - cbv beta. intros r b (e & h & ? & -> & H & t & tb & ? & -> & (T & _) & Q).
    destruct ((t =? counter_type) || (t =? timer_type) || (t =? gauge_type)) eqn:T1;
      [|destruct ((t =? counter_pl_type) || (t =? timer_pl_type) || (t =? gauge_pl_type)) eqn:T2; [|contradiction]].
    + destruct Q as (r' & ? & ? & -> & (u & xb & ? & -> & (x & S & X & F) & -> & ->) & -> & V).
      rewrite !orb_true_iff, !Z.eqb_eq in T1. exists x, None. split; [exact S|]. split; [reflexivity|]. intros v w Hv W.
      apply (plain_as x v tb xb); [exact Hv|exact W| |exact X|is_object 2 e H V].
      assert (plain_code x = t) as ->; [|exact T]. destruct x; cbn in F |- *; unfold counter_type, timer_type, gauge_type in *; lia.
    + destruct Q as (r' & zb' & ? & -> & (e' & h' & ? & -> & H' & u & xb & ? & -> & (x & S & X & F) & l & y & xr & -> & P & -> & V') & -> & V).
      rewrite !orb_true_iff, !Z.eqb_eq in T2. exists x, (Some l). split; [exact S|]. split; [reflexivity|]. intros v w Hv W.
      assert (policies_code x = t) as Et.
      { destruct x; cbn in F |- *; unfold counter_pl_type, timer_pl_type, gauge_pl_type in *; lia. }
      apply (with_policies_as x l v tb xb y (h' ++ (xb ++ y) ++ xr)); [exact Hv|exact W|rewrite Et; exact T|exact X|exact P| |is_object 2 e H V].
      assert (num_fields t = 2) as N by (rewrite <- Et; destruct x; reflexivity). rewrite N in H'. is_object 2 e' H' V'.
Qed.

(** [Next]: newer messages, then a message. *)
Lemma mnext_accepts : forall n it it', (left_in (x_st it) <= n)%nat -> mnext it = (true, it') ->
  d_err (x_st it) = None /\ ready it' (d_in (x_st it')) /\ x_ignore it' = x_ignore it /\
  exists ns b x o, d_in (x_st it) = concat ns ++ b ++ d_in (x_st it') /\ Forall newer ns /\ (x_ignore it = false -> ns = []) /\
    message_as (x, o) b /\ shown (x_metric it') = Some x /\ x_policies it' = match o with None => x_policies it | Some l => l end.
Proof.
  induction n as [n IH] using lt_wf_ind. intros it it' L E. rewrite mnext_eq in E. unfold next_body in E.
  destruct (d_err (x_st it)) eqn:Ee; [discriminate E|]. split; [reflexivity|]. destruct (x_closed it) eqn:C; [discriminate E|].
  cbv zeta in E. destruct (dec_varint64 (x_st it)) as [v s] eqn:Ev. destruct (d_err s) eqn:Es; [discriminate E|].
  destruct (acc_int _ _ _ Ev Es) as (_ & w & Ew & W). pose proof (varint_shrinks _ _ _ Ev Ee Es) as Sh.
  destruct (Z.ltb_spec unaggregated_version v).
  - destruct (x_ignore it) eqn:G; [|discriminate E].
    destruct (dec_array_len s) as [k s1] eqn:Ek. destruct (dec_skip k s1) as [u s2] eqn:Esk.
    assert (E2 : d_err s2 = None).
    { rewrite mnext_eq in E. unfold next_body in E. cbn [x_st] in E. destruct (d_err s2); [discriminate E|reflexivity]. }
    destruct (acc_skip k _ _ _ Esk E2) as (E1 & x & Ex & K & X). destruct (acc_array _ _ _ Ek E1) as (_ & a & Ea & A).
    assert (L2 : (left_in s2 < left_in (x_st it))%nat).
    { unfold left_in in *. rewrite Ea, Ex, !app_length in Sh. lia. }
    destruct (IH (left_in s2) ltac:(lia) (mk_mit s2 true false (emptied (x_metric it)) (x_policies it)) it' ltac:(cbn [x_st]; lia) E)
      as (_ & R & G' & ns & b & y & o & Eb & N & _ & M & S & P).
    cbn [x_st x_ignore x_policies] in *. split; [exact R|]. split; [exact G'|].
    exists ((w ++ a ++ x) :: ns), b, y, o. split; [rewrite Ew, Ea, Ex, Eb; cbn [concat]; rewrite <- !app_assoc; reflexivity|].
    split; [|split; [discriminate|auto]]. constructor; [|exact N].
    exists v, (Z.to_nat k), w, a, x. split; [exact H|]. split; [exact W|]. rewrite Z2Nat.id by exact K.
    split; [|auto]. destruct A as [[A _]|[_ A]]; [lia|exact A].
  - destruct (dec_object (emptied (x_metric it)) (x_policies it) s) as [[m pl] s1] eqn:Eo. injection E as Er <-.
    cbn [x_st x_ignore x_metric x_policies] in *.
    destruct (d_err s1) eqn:E1; [discriminate Er|].
    destruct (acc_message _ _ _ _ _ Eo E1) as (_ & b & Eb & x & o & S & P & M). cbn [fst snd] in *.
    split; [split; [destruct s1; cbn in *; congruence|reflexivity]|]. split; [reflexivity|].
    exists [], (w ++ b), x, o. split; [rewrite Ew, Eb; cbn [concat app]; apply app_assoc|].
    split; [constructor|]. split; [reflexivity|]. split; [exact (M v w H W)|]. split; assumption.
Qed.
