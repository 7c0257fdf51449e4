(** Reading what the format describes, and writing it. *)
From Coq Require Import Ascii String Arith NArith ZArith Bool Lia List.
From Verif.Base Require Import Bytes.
From Verif.Proof Require Import ProtoWireProof.
From Verif.Model Require Import AggType Policy Transformation ProtoWire MsgpackLib Msgpack.
From Verif.Spec Require Import ProtoStreamSpec MsgpackSpec.
Import ListNotations.
Open Scope Z_scope.

Lemma number_be d : number d = get_be 0 d.
Proof.
  unfold number. generalize 0. induction d as [|b d IH]; intros a; [reflexivity|]. cbn [fold_left get_be]. apply IH.
Qed.

Lemma get_be_app a x y : get_be a (x ++ y) = get_be (get_be a x) y.
Proof. revert a. induction x as [|b x IH]; intros a; [reflexivity|]. cbn [app get_be]. apply IH. Qed.

Lemma get_be_acc a d : get_be a d = a * 256 ^ zlen d + get_be 0 d.
Proof.
  revert a. induction d as [|b d IH]; intros a.
  - cbn [get_be]. rewrite zlen_nil. lia.
  - cbn [get_be]. rewrite IH, (IH (256 * 0 + bz b)), zlen_cons, Z.pow_add_r by (pose proof (zlen_nonneg d); lia). ring.
Qed.

Lemma get_be_range d : 0 <= get_be 0 d < 256 ^ zlen d.
Proof.
  induction d as [|b d IH]; [cbn; lia|]. cbn [get_be]. rewrite get_be_acc, zlen_cons, Z.pow_add_r
    by (pose proof (zlen_nonneg d); lia). pose proof (bz_range b). set (P := 256 ^ zlen d) in *. nia.
Qed.

Lemma take_app n x r : zlen x = n -> take n (x ++ r) = inl (x, r).
Proof.
  intros E. unfold take. rewrite zlen_app. pose proof (zlen_nonneg r). rewrite (proj2 (Z.leb_le _ _)) by lia.
  unfold zlen in E. replace (Z.to_nat n) with (length x) by lia.
  rewrite firstn_app, firstn_all, Nat.sub_diag, skipn_app, skipn_all, Nat.sub_diag. cbn [firstn skipn].
  rewrite app_nil_r. reflexivity.
Qed.

Lemma read_uint_app n x r : zlen x = n -> read_uint n (x ++ r) = inl (number x, r).
Proof. intros E. unfold read_uint. rewrite (take_app n x r E), number_be. reflexivity. Qed.

Lemma read_sint_app n x r : zlen x = n -> read_sint n (x ++ r) = inl (signed_number x, r).
Proof.
  intros E. unfold read_sint. rewrite (read_uint_app n x r E). unfold signed_number. fold (zlen x). rewrite E.
  f_equal. f_equal. destruct (Z.leb_spec (2 ^ (8 * n - 1)) (number x)), (Z.ltb_spec (number x) (2 ^ (8 * n - 1))); lia.
Qed.

(** Code tests on literal codes. *)
Lemma bz_code c : 0 <= c < 256 -> bz (code c) = c.
Proof. exact (bz_zb c). Qed.

Ltac codes := repeat (rewrite bz_code by lia).
Ltac tests := repeat (first
  [ rewrite (proj2 (Z.ltb_lt _ _)) by lia | rewrite (proj2 (Z.ltb_ge _ _)) by lia
  | rewrite (proj2 (Z.leb_le _ _)) by lia | rewrite (proj2 (Z.leb_gt _ _)) by lia
  | rewrite (proj2 (Z.eqb_neq _ _)) by lia ]; cbn [andb orb]).
Ltac pairs H :=
  cbn [In] in H;
  repeat match type of H with _ \/ _ => let H' := fresh in destruct H as [H'|H]; [clear H; rename H' into H|] end;
  try contradiction H;
  let Ec := fresh "Ec" in let El := fresh "El" in
  apply pair_equal_spec in H as [Ec El]; symmetry in El; subst.

Lemma pair_cases (P : Z -> Z -> Prop) c n l :
  In (c, n) l -> Forall (fun p => P (fst p) (snd p)) l -> P c n.
Proof. intros I F. rewrite Forall_forall in F. exact (F _ I). Qed.

Lemma read_int_as v b r : int_as v b -> read_int (b ++ r) = inl (v, r).
Proof.
  intros [|w H|w H|c d H|c d H].
  - reflexivity.
  - cbn [app]. unfold read_int. codes. tests. reflexivity.
  - cbn [app]. unfold read_int. codes. tests. f_equal. f_equal. lia.
  - revert H. refine (fun H => pair_cases
      (fun c n => zlen d = n -> read_int ((code c :: d) ++ r) = inl (number d, r)) c (zlen d) _ H _ eq_refl).
    repeat constructor; cbn [fst snd]; intros E; cbn [app]; unfold read_int; codes; cbn [Z.ltb Z.leb Z.eqb Z.compare Pos.compare Pos.compare_cont Pos.eqb];
      exact (read_uint_app _ d r E).
  - revert H. refine (fun H => pair_cases
      (fun c n => zlen d = n -> read_int ((code c :: d) ++ r) = inl (signed_number d, r)) c (zlen d) _ H _ eq_refl).
    repeat constructor; cbn [fst snd]; intros E; cbn [app]; unfold read_int; codes; cbn [Z.ltb Z.leb Z.eqb Z.compare Pos.compare Pos.compare_cont Pos.eqb];
      exact (read_sint_app _ d r E).
Qed.

Ltac lits := codes; cbn [andb orb Z.ltb Z.leb Z.eqb Z.compare Pos.compare Pos.compare_cont Pos.eqb].

Lemma read_array_as n b r : array_as n b -> read_array_len (b ++ r) = inl (n, r).
Proof.
  intros [w H|c d H].
  - cbn [app]. unfold read_array_len. codes. tests. f_equal. f_equal. lia.
  - revert H. refine (fun H => pair_cases
      (fun c n => zlen d = n -> read_array_len ((code c :: d) ++ r) = inl (number d, r)) c (zlen d) _ H _ eq_refl).
    repeat constructor; cbn [fst snd]; intros E; cbn [app]; unfold read_array_len; lits; exact (read_uint_app _ d r E).
Qed.

(** A length that is not nil, and the bytes it announces. *)
Lemma read_bytes_len_as s b : bytes_as s b ->
  (s = [] /\ forall r, read_bytes_len (b ++ r) = inl (-1, r)) \/
  exists h, b = h ++ s /\ forall r, read_bytes_len (h ++ r) = inl (zlen s, r).
Proof.
  intros [|w H|c d w H N].
  - left. split; [reflexivity|]. intros r. reflexivity.
  - right. exists [code (160 + zlen w)]. split; [reflexivity|]. intros r. cbn [app]. unfold read_bytes_len.
    pose proof (zlen_nonneg w). codes. tests. f_equal. f_equal. lia.
  - right. exists (code c :: d). split; [reflexivity|]. intros r. rewrite <- N.
    revert H. refine (fun H => pair_cases
      (fun c n => zlen d = n -> read_bytes_len ((code c :: d) ++ r) = inl (number d, r)) c (zlen d) _ H _ eq_refl).
    repeat constructor; cbn [fst snd]; intros E; cbn [app]; unfold read_bytes_len; lits; exact (read_uint_app _ d r E).
Qed.

Lemma read_bytes_as s b r : bytes_as s b -> read_bytes (b ++ r) = inl (s, r).
Proof.
  intros H. unfold read_bytes. destruct (read_bytes_len_as s b H) as [[-> E]|(h & -> & E)].
  - rewrite E. reflexivity.
  - rewrite <- app_assoc, E. pose proof (zlen_nonneg s). rewrite (proj2 (Z.eqb_neq _ _)) by lia. apply take_app. reflexivity.
Qed.

Lemma read_bool_as v b r : bool_as v b -> read_bool (b ++ r) = inl (v, r).
Proof. intros []; reflexivity. Qed.

Lemma read_float_as v b r : float_as v b -> read_float64 (b ++ r) = inl (v, r).
Proof.
  intros [d E]. cbn [app]. unfold read_float64. lits. apply read_uint_app. unfold zlen. rewrite E. reflexivity.
Qed.

(** * Skipping *)

Lemma take_suffix n d x r : take n d = inl (x, r) -> d = x ++ r.
Proof.
  unfold take. destruct (n <=? zlen d); [|destruct d; discriminate].
  intros E. injection E as <- <-. symmetry. apply firstn_skipn.
Qed.
Lemma read_uint_suffix n d v r : read_uint n d = inl (v, r) -> exists x, d = x ++ r.
Proof.
  unfold read_uint. destruct (take n d) as [[x r']|e] eqn:E; [|discriminate].
  intros H. exists x. assert (r' = r) as <- by congruence. exact (take_suffix _ _ _ _ E).
Qed.
Lemma skip_n_suffix n d v r : skip_n n d = inl (v, r) -> v = 0 /\ exists x, d = x ++ r.
Proof.
  unfold skip_n. destruct (take n d) as [[x r']|e] eqn:E; [|discriminate].
  intros H. assert (r' = r /\ v = 0) as [<- ->] by (split; congruence). split; [reflexivity|]. exists x.
  exact (take_suffix _ _ _ _ E).
Qed.
Lemma skip_len_suffix k x d v r : skip_len k x d = inl (v, r) -> v = 0 /\ exists x, d = x ++ r.
Proof.
  unfold skip_len. destruct (read_uint k d) as [[n d']|e] eqn:E; [|discriminate]. intros H.
  apply read_uint_suffix in E as [y ->]. apply skip_n_suffix in H as (-> & z & ->). split; [reflexivity|].
  exists (y ++ z). apply app_assoc.
Qed.
Lemma skip_count_suffix k per d v r : 0 <= per -> skip_count k per d = inl (v, r) -> 0 <= v /\ exists x, d = x ++ r.
Proof.
  unfold skip_count. intros P. destruct (read_uint k d) as [[n d']|e] eqn:E; [|discriminate]. intros H.
  assert (d' = r /\ v = per * n) as [<- ->] by (split; congruence).
  split; [|exact (read_uint_suffix _ _ _ _ E)]. revert E. unfold read_uint. destruct (take k d) as [[y z]|]; [|discriminate].
  intros E. assert (n = get_be 0 y) as -> by congruence. pose proof (get_be_range y). nia.
Qed.

Lemma skip_head_suffix d k r : skip_head d = inl (k, r) -> 0 <= k /\ exists b x, d = b :: x ++ r.
Proof.
  destruct d as [|b d]; [discriminate|]. unfold skip_head. cbv zeta. intros H.
  assert (0 <= k /\ exists x, d = x ++ r) as (K & x & ->); [|split; [exact K|]; exists b, x; reflexivity].
  repeat match type of H with (if ?c then _ else _) = _ => let E := fresh "E" in destruct c eqn:E end;
    try discriminate H;
    try (assert (d = r) as -> by congruence; split; [|exists []; reflexivity];
         repeat match goal with E : (_ <? _) = _ |- _ => first [apply Z.ltb_lt in E|apply Z.ltb_ge in E] end;
         first [assert (0 = k) by congruence; lia|assert (2 * (bz b - 128) = k) by congruence; lia
               |assert (bz b - 144 = k) by congruence; lia]);
    try (apply skip_n_suffix in H as (-> & X); split; [lia|exact X]);
    try (apply skip_len_suffix in H as (-> & X); split; [lia|exact X]);
    try (apply skip_count_suffix in H as (K & X); [split; [exact K|exact X]|lia]).
Qed.

Lemma skip_loop_fuel f1 : forall f2 n d, (length d < f1)%nat -> (length d < f2)%nat ->
  skip_loop f1 n d = skip_loop f2 n d.
Proof.
  induction f1 as [|f1 IH]; intros f2 n d L1 L2; [lia|]. destruct f2 as [|f2]; [lia|].
  cbn [skip_loop]. destruct (n <=? 0); [reflexivity|]. destruct (skip_head d) as [[k r]|e] eqn:E; [|reflexivity].
  apply skip_head_suffix in E as (_ & b & x & ->). cbn [length] in *. rewrite app_length in *. apply IH; lia.
Qed.

Lemma skip_values_next n d : 0 < n ->
  skip_values n d = match skip_head d with inr e => inr e | inl (k, d') => skip_values (n - 1 + k) d' end.
Proof.
  intros N. unfold skip_values at 1. cbn [skip_loop]. rewrite (proj2 (Z.leb_gt _ _) N).
  destruct (skip_head d) as [[k r]|e] eqn:E; [|reflexivity].
  apply skip_head_suffix in E as (_ & b & x & ->). unfold skip_values. apply skip_loop_fuel; cbn [length]; rewrite ?app_length; lia.
Qed.
Lemma skip_values_0 d : skip_values 0 d = inl d.
Proof. reflexivity. Qed.

Lemma skip_n_app n x r : zlen x = n -> skip_n n (x ++ r) = inl (0, r).
Proof. intros E. unfold skip_n. rewrite (take_app n x r E). reflexivity. Qed.
Lemma skip_len_app k e x s r : zlen x = k -> number x + e = zlen s -> skip_len k e (x ++ s ++ r) = inl (0, r).
Proof.
  intros E N. unfold skip_len. rewrite (read_uint_app k x (s ++ r) E). apply skip_n_app. symmetry. exact N.
Qed.
Lemma skip_count_app k p x r : zlen x = k -> skip_count k p (x ++ r) = inl (p * number x, r).
Proof. intros E. unfold skip_count. rewrite (read_uint_app k x r E). reflexivity. Qed.

Ltac literals := intros; cbn [fst snd app] in *; unfold skip_head; lits.

Lemma skip_int v a r : int_as v a -> skip_head (a ++ r) = inl (0, r).
Proof.
  intros [|w H|w H|c d H|c d H].
  - reflexivity.
  - cbn [app]. unfold skip_head. codes. tests. reflexivity.
  - cbn [app]. unfold skip_head. codes. tests. reflexivity.
  - revert H. refine (fun H => pair_cases
      (fun c n => zlen d = n -> skip_head ((code c :: d) ++ r) = inl (0, r)) c (zlen d) _ H _ eq_refl).
    repeat constructor; literals; apply skip_n_app; assumption.
  - revert H. refine (fun H => pair_cases
      (fun c n => zlen d = n -> skip_head ((code c :: d) ++ r) = inl (0, r)) c (zlen d) _ H _ eq_refl).
    repeat constructor; literals; apply skip_n_app; assumption.
Qed.

Lemma skip_bytes s a r : bytes_as s a -> skip_head (a ++ r) = inl (0, r).
Proof.
  intros [|w H|c d w H N].
  - reflexivity.
  - cbn [app]. unfold skip_head. pose proof (zlen_nonneg w). codes. tests. apply skip_n_app. lia.
  - revert H. refine (fun H => pair_cases
      (fun c n => zlen d = n -> skip_head ((code c :: d ++ w) ++ r) = inl (0, r)) c (zlen d) _ H _ eq_refl).
    repeat constructor; literals; rewrite <- app_assoc; apply skip_len_app; try assumption; lia.
Qed.

Lemma skip_other a r : other_as a -> skip_head (a ++ r) = inl (0, r).
Proof.
  intros [d H|c t d H|c n t d H N].
  - literals. apply skip_n_app. unfold zlen. rewrite H. reflexivity.
  - revert H. refine (fun H => pair_cases
      (fun c n => zlen d = n -> skip_head ((code c :: t :: d) ++ r) = inl (0, r)) c (zlen d) _ H _ eq_refl).
    repeat constructor; literals; apply (skip_n_app _ (t :: d)); rewrite zlen_cons; lia.
  - revert H. refine (fun H => pair_cases
      (fun c k => zlen n = k -> skip_head ((code c :: n ++ t :: d) ++ r) = inl (0, r)) c (zlen n) _ H _ eq_refl).
    repeat constructor; literals; rewrite <- app_assoc; apply (skip_len_app _ _ n (t :: d)); try assumption;
      rewrite zlen_cons; lia.
Qed.

Lemma skip_array k a r : array_as k a -> skip_head (a ++ r) = inl (k, r).
Proof.
  intros [w H|c d H].
  - cbn [app]. unfold skip_head. codes. tests. f_equal. f_equal. lia.
  - revert H. refine (fun H => pair_cases
      (fun c n => zlen d = n -> skip_head ((code c :: d) ++ r) = inl (number d, r)) c (zlen d) _ H _ eq_refl).
    repeat constructor; literals; rewrite skip_count_app by assumption; f_equal; f_equal; lia.
Qed.
Lemma skip_map k a r : map_as k a -> skip_head (a ++ r) = inl (2 * k, r).
Proof.
  intros [w H|c d H].
  - cbn [app]. unfold skip_head. codes. tests. f_equal. f_equal. lia.
  - revert H. refine (fun H => pair_cases
      (fun c n => zlen d = n -> skip_head ((code c :: d) ++ r) = inl (2 * number d, r)) c (zlen d) _ H _ eq_refl).
    repeat constructor; literals; rewrite skip_count_app by assumption; reflexivity.
Qed.

Lemma skip_values_app n b : values n b -> forall m r, 0 <= m -> skip_values (Z.of_nat n + m) (b ++ r) = skip_values m r.
Proof.
  assert (forall n m a r, 0 <= m -> skip_head (a ++ r) = inl (0, r) ->
    skip_values (Z.of_nat (S n) + m) (a ++ r) = skip_values (Z.of_nat n + m) r) as Atom.
  { intros k m a r M H. rewrite skip_values_next, H by lia. f_equal. lia. }
  induction 1 as [|n v a b I V IH|n s a b I V IH|n v a b I V IH|n v a b I V IH|n a b I V IH|n k a x b I Vx IHx V IH
                 |n k a x b I Vx IHx V IH]; intros m r M.
  - reflexivity.
  - rewrite <- app_assoc. rewrite Atom by (assumption || exact (skip_int v a (b ++ r) I)). exact (IH m r M).
  - rewrite <- app_assoc. rewrite Atom by (assumption || exact (skip_bytes s a (b ++ r) I)). exact (IH m r M).
  - rewrite <- app_assoc. rewrite Atom; [exact (IH m r M)|exact M|]. destruct I; reflexivity.
  - rewrite <- app_assoc. rewrite Atom; [exact (IH m r M)|exact M|]. destruct I as [d E]. literals.
    apply skip_n_app. unfold zlen. rewrite E. reflexivity.
  - rewrite <- app_assoc. rewrite Atom by (assumption || exact (skip_other a (b ++ r) I)). exact (IH m r M).
  - rewrite <- !app_assoc. rewrite skip_values_next by lia. rewrite (skip_array (Z.of_nat k) a _ I).
    replace (Z.of_nat (S n) + m - 1 + Z.of_nat k) with (Z.of_nat k + (Z.of_nat n + m)) by lia.
    rewrite IHx by lia. exact (IH m r M).
  - rewrite <- !app_assoc. rewrite skip_values_next by lia. rewrite (skip_map (Z.of_nat k) a _ I).
    replace (Z.of_nat (S n) + m - 1 + 2 * Z.of_nat k) with (Z.of_nat (2 * k) + (Z.of_nat n + m)) by lia.
    rewrite IHx by lia. exact (IH m r M).
Qed.

Lemma skip_values_all n b r : values n b -> skip_values (Z.of_nat n) (b ++ r) = inl r.
Proof.
  intros V. pose proof (skip_values_app n b V 0 r ltac:(lia)) as E. rewrite Z.add_0_r in E. exact E.
Qed.

(** * Writing *)

Lemma put_be_length k v : zlen (put_be k v) = Z.of_nat k.
Proof. induction k as [|k IH]; [reflexivity|]. cbn [put_be]. rewrite zlen_cons, IH. lia. Qed.

Lemma number_put_be k v : number (put_be k v) = v mod 256 ^ Z.of_nat k.
Proof.
  rewrite number_be. induction k as [|k IH].
  - cbn. rewrite Z.mod_1_r. reflexivity.
  - cbn [put_be get_be]. rewrite get_be_acc, put_be_length, IH.
    rewrite bz_zb by (apply Z.mod_pos_bound; lia).
    assert (0 < 256 ^ Z.of_nat k) as P by (apply Z.pow_pos_nonneg; lia).
    replace (Z.of_nat (S k)) with (1 + Z.of_nat k) by lia. rewrite Z.pow_add_r, Z.pow_1_r by lia.
    set (Q := 256 ^ Z.of_nat k) in *. clearbody Q. rewrite Z.add_0_l.
    rewrite (Z.mul_comm 256 Q), Z.rem_mul_r by lia. ring.
Qed.

Lemma number_put_small k v : 0 <= v < 256 ^ Z.of_nat k -> number (put_be k v) = v.
Proof. intros H. rewrite number_put_be. apply Z.mod_small. exact H. Qed.

Lemma signed_put_be k v : (0 < k)%nat -> - 2 ^ (8 * Z.of_nat k - 1) <= v < 2 ^ (8 * Z.of_nat k - 1) ->
  signed_number (put_be k v) = v.
Proof.
  intros K H. unfold signed_number. fold (zlen (put_be k v)). rewrite put_be_length, number_put_be.
  replace (256 ^ Z.of_nat k) with (2 * 2 ^ (8 * Z.of_nat k - 1))
    by (change 256 with (2 ^ 8); rewrite <- Z.pow_mul_r by lia; rewrite <- Z.pow_succ_r by lia; f_equal; lia).
  replace (2 ^ (8 * Z.of_nat k)) with (2 * 2 ^ (8 * Z.of_nat k - 1))
    by (rewrite <- Z.pow_succ_r by lia; f_equal; lia).
  set (P := 2 ^ (8 * Z.of_nat k - 1)) in *. clearbody P.
  destruct (Z.leb_spec 0 v) as [L|L].
  - rewrite Z.mod_small by lia. rewrite (proj2 (Z.ltb_lt _ _)) by lia. reflexivity.
  - replace (v mod (2 * P)) with (v + 2 * P).
    + rewrite (proj2 (Z.ltb_ge _ _)) by lia. lia.
    + apply Z.mod_unique with (q := -1); lia.
Qed.

Lemma mp_int_as v : is_int64 v -> int_as v (mp_int v).
Proof.
  unfold is_int64, mp_int. intros H.
  assert (forall c k, In (c, Z.of_nat k) [(204, 1); (205, 2); (206, 4)] -> 0 <= v < 256 ^ Z.of_nat k ->
    int_as v (zb c :: put_be k v)) as U.
  { intros c k I R. rewrite <- (number_put_small k v R) at 1. apply int_unsigned. rewrite put_be_length. exact I. }
  assert (forall c k, In (c, Z.of_nat k) [(207, 8); (208, 1); (209, 2); (210, 4); (211, 8)] ->
    (0 < k)%nat -> - 2 ^ (8 * Z.of_nat k - 1) <= v < 2 ^ (8 * Z.of_nat k - 1) -> int_as v (zb c :: put_be k v)) as S.
  { intros c k I K R. rewrite <- (signed_put_be k v K R) at 1. apply int_signed. rewrite put_be_length. exact I. }
  destruct (Z.leb_spec 0 v).
  - destruct (Z.ltb_spec v 128); [apply int_pos; lia|].
    destruct (Z.ltb_spec v 256); [apply (U 204 1%nat); cbn; tauto || lia|].
    destruct (Z.ltb_spec v 65536); [apply (U 205 2%nat); cbn; tauto || lia|].
    destruct (Z.ltb_spec v 4294967296); [apply (U 206 4%nat); cbn; tauto || lia|].
    apply (S 207 8%nat); cbn; tauto || lia.
  - destruct (Z.leb_spec (-32) v); [rewrite Z.add_comm; apply int_neg; lia|].
    destruct (Z.leb_spec (-128) v); [apply (S 208 1%nat); cbn; tauto || lia|].
    destruct (Z.leb_spec (-32768) v); [apply (S 209 2%nat); cbn; tauto || lia|].
    destruct (Z.leb_spec (-2147483648) v); [apply (S 210 4%nat); cbn; tauto || lia|].
    apply (S 211 8%nat); cbn; tauto || lia.
Qed.

Lemma mp_array_as n : 0 <= n < 2 ^ 32 -> array_as n (mp_array_len n).
Proof.
  intros H. unfold mp_array_len.
  assert (forall c k, In (c, Z.of_nat k) [(220, 2); (221, 4)] -> 0 <= n < 256 ^ Z.of_nat k ->
    array_as n (zb c :: put_be k n)) as U.
  { intros c k I R. rewrite <- (number_put_small k n R) at 1. apply array_n. rewrite put_be_length. exact I. }
  destruct (Z.ltb_spec n 16); [apply array_fix; lia|].
  destruct (Z.ltb_spec n 65536); [apply (U 220 2%nat); cbn; tauto || lia|].
  apply (U 221 4%nat); cbn; tauto || lia.
Qed.

Lemma mp_bytes_len_as s : zlen s < 2 ^ 32 -> bytes_as s (mp_bytes_len (zlen s) ++ s).
Proof.
  intros H. pose proof (zlen_nonneg s). unfold mp_bytes_len.
  assert (forall c k, In (c, Z.of_nat k) [(196, 1); (197, 2); (198, 4); (217, 1); (218, 2); (219, 4)] ->
    0 <= zlen s < 256 ^ Z.of_nat k -> bytes_as s ((zb c :: put_be k (zlen s)) ++ s)) as U.
  { intros c k I R. cbn [app]. apply bytes_n; [rewrite put_be_length; exact I|exact (number_put_small k _ R)]. }
  destruct (Z.ltb_spec (zlen s) 256); [apply (U 196 1%nat); cbn; tauto || lia|].
  destruct (Z.ltb_spec (zlen s) 65536); [apply (U 197 2%nat); cbn; tauto || lia|].
  apply (U 198 4%nat); cbn; tauto || lia.
Qed.

Lemma mp_bytes_as id : zlen (id_content id) < 2 ^ 32 -> bytes_as (id_content id) (mp_bytes id).
Proof. destruct id as [s|]; cbn [id_content mp_bytes]; intros H; [exact (mp_bytes_len_as s H)|constructor]. Qed.

Lemma mp_bool_as v : bool_as v (mp_bool v).
Proof. destruct v; constructor. Qed.

Lemma mp_float_as v : is_float64 v -> float_as v (mp_float64 v).
Proof.
  intros H. unfold mp_float64. rewrite <- (number_put_small 8 v H) at 1. apply float_8.
  pose proof (put_be_length 8 v) as L. unfold zlen in L. lia.
Qed.
