(** The raw metric and the aggregated iterator. *)
From Coq Require Import Ascii String Arith NArith ZArith Bool Lia List.
From Verif.Base Require Import Bytes.
From Verif.Proof Require Import ProtoWireProof MsgpackLibProof MsgpackProof MsgpackLocal MsgpackIterProof.
From Verif.Model Require Import AggType Policy Transformation ProtoWire MsgpackLib Msgpack.
From Verif.Spec Require Import MetadataSpec ProtoStreamSpec MsgpackSpec.
Import ListNotations.
Open Scope Z_scope.

(** * The raw metric *)

(** The states of a raw metric whose data follow the schema: nothing, the ID, the time too, the value too. *)
Definition stage (d id : bytes) (t v : Z) (r1 r2 r3 : bytes) (w : raw_metric) : Prop :=
  w = new_raw d \/
  w = mk_raw d (mk_st r1 None) id 0 0 true false false \/
  w = mk_raw d (mk_st r2 None) id t 0 true true false \/
  w = mk_raw d (mk_st r3 None) id t v true true true.

Lemma skip_known {A} (i q : list A) : skipn (Z.to_nat (zlen i)) (i ++ q) = q.
Proof. unfold zlen. rewrite Nat2Z.id, skipn_app, skipn_all, Nat.sub_diag. reflexivity. Qed.
Lemma take_middle {A} (p i q : list A) : firstn (Z.to_nat (zlen i)) (skipn (Z.to_nat (zlen p)) (p ++ i ++ q)) = i.
Proof.
  rewrite skip_known. unfold zlen. rewrite Nat2Z.id, firstn_app, firstn_all, Nat.sub_diag. cbn [firstn]. apply app_nil_r.
Qed.

Lemma raw_starts id t v d : raw_as id t v d -> starts_with_metric id t v d.
Proof.
  intros [i t' v' ver w x y z b V W X Y Z (extra & a & e & A & _ & ->)]. exists ver, extra, w, a, x, y, z, e.
  rewrite <- !app_assoc. auto 10.
Qed.

Lemma raw_id_step id t v d : starts_with_metric id t v d -> exists r1 r2 r3,
  raw_decode_id (new_raw d) = mk_raw d (mk_st r1 None) id 0 0 true false false /\
  raw_decode_time (mk_raw d (mk_st r1 None) id 0 0 true false false) = mk_raw d (mk_st r2 None) id t 0 true true false /\
  raw_decode_value (mk_raw d (mk_st r2 None) id t 0 true true false) = mk_raw d (mk_st r3 None) id t v true true true.
Proof.
  intros (ver & extra & w & a & x & y & z & e & V & W & A & X & Y & Z & ->). exists (y ++ z ++ e), (z ++ e), e.
  split; [|split].
  - unfold raw_decode_id. cbv zeta. cbn [new_raw w_st w_id_decoded d_err]. rewrite (y_int ver w W). cbn [d_err].
    change metric_version with 1. rewrite (proj2 (Z.ltb_ge _ _)) by lia.
    rewrite (y_fields metric_obj_type (Z.of_nat extra) a ltac:(lia) A).
    destruct (read_bytes_len_as id x X) as [[-> E]|(h & -> & E)].
    + rewrite (y_prim 0 (-1) read_bytes_len x E). reflexivity.
    + rewrite <- app_assoc. rewrite (y_prim 0 (zlen id) read_bytes_len h E). cbn [d_err d_in w_data w_id w_time w_value w_time_decoded
        w_value_decoded].
      pose proof (zlen_nonneg id). rewrite (proj2 (Z.eqb_neq _ _)) by lia. unfold raw_read_bytes. cbn [d_err d_in].
      cbn [new_raw w_data w_id w_time w_value w_time_decoded w_value_decoded]. set (D := w ++ a ++ h ++ id ++ y ++ z ++ e).
      assert (zlen D - zlen (id ++ y ++ z ++ e) = zlen (w ++ a ++ h)) as ->
        by (unfold D, zlen; rewrite !app_length; lia).
      rewrite (proj2 (Z.ltb_ge (zlen id) 0)) by lia. rewrite (proj2 (Z.ltb_ge (zlen (w ++ a ++ h)) 0)) by apply zlen_nonneg.
      rewrite (proj2 (Z.ltb_ge (zlen D) _)) by (unfold D, zlen; rewrite !app_length; lia). cbn [orb d_err].
      assert (D = (w ++ a ++ h) ++ id ++ y ++ z ++ e) as ED by (unfold D; rewrite <- !app_assoc; reflexivity).
      rewrite (skip_known id). rewrite ED at 2. rewrite take_middle. reflexivity.
  - unfold raw_decode_time. cbn [w_st w_time_decoded d_err]. rewrite (y_int t y Y). reflexivity.
  - unfold raw_decode_value. cbn [w_st w_value_decoded d_err]. rewrite (y_float v z Z). reflexivity.
Qed.

Lemma access_right id t v d : starts_with_metric id t v d -> exists r1 r2 r3, forall w, stage d id t v r1 r2 r3 w ->
  forall a, fst (access a w) = right_answer d id t v a /\ stage d id t v r1 r2 r3 (snd (access a w)).
Proof.
  intros R. destruct (raw_id_step id t v d R) as (r1 & r2 & r3 & E1 & E2 & E3). exists r1, r2, r3.
  set (w1 := mk_raw d (mk_st r1 None) id 0 0 true false false) in *.
  set (w2 := mk_raw d (mk_st r2 None) id t 0 true true false) in *.
  set (w3 := mk_raw d (mk_st r3 None) id t v true true true) in *.
  assert (raw_decode_id w1 = w1) as I1 by reflexivity. assert (raw_decode_id w2 = w2) as I2 by reflexivity.
  assert (raw_decode_id w3 = w3) as I3 by reflexivity. assert (raw_decode_time w2 = w2) as T2 by reflexivity.
  assert (raw_decode_time w3 = w3) as T3 by reflexivity. assert (raw_decode_value w3 = w3) as V3 by reflexivity.
  assert (fst (AnID id, w1) = AnID id) as _ by reflexivity.
  intros w H a. assert (stage d id t v r1 r2 r3 w1 /\ stage d id t v r1 r2 r3 w2 /\ stage d id t v r1 r2 r3 w3) as (S1 & S2 & S3)
    by (unfold stage; tauto).
  destruct a; unfold access; cbv zeta; [| | | |split; [destruct H as [->|[->|[->| ->]]]; reflexivity|exact H]];
    destruct H as [->|[->|[->| ->]]];
    rewrite ?E1; fold w1 w2 w3; rewrite ?I1, ?I2, ?I3, ?E2, ?T2, ?T3, ?E3, ?V3; (split; [reflexivity|assumption]).
Qed.

Lemma accesses_right id t v d : starts_with_metric id t v d -> forall l,
  accesses l (new_raw d) = map (right_answer d id t v) l.
Proof.
  intros R. destruct (access_right id t v d R) as (r1 & r2 & r3 & H).
  assert (forall l w, stage d id t v r1 r2 r3 w -> accesses l w = map (right_answer d id t v) l) as K.
  { induction l as [|a l IH]; intros w S; [reflexivity|]. cbn [accesses map]. destruct (H w S a) as [-> S'].
    rewrite (IH _ S'). reflexivity. }
  intros l. apply K. left. reflexivity.
Qed.

(** ** Any data *)

Lemma id_done w : raw_decode_id (raw_decode_id w) = raw_decode_id w /\
  (d_err (w_st (raw_decode_id w)) = None -> w_id_decoded (raw_decode_id w) = true).
Proof.
  assert (forall w', d_err (w_st w') <> None \/ w_id_decoded w' = true ->
    raw_decode_id w' = w' /\ (d_err (w_st w') = None -> w_id_decoded w' = true)) as K.
  { intros w' H. unfold raw_decode_id. destruct (d_err (w_st w')) eqn:E.
    - split; [reflexivity|discriminate].
    - destruct H as [H|H]; [congruence|]. rewrite H. split; reflexivity. }
  apply K. unfold raw_decode_id. cbv zeta.
  destruct (d_err (w_st w)) eqn:E0; [left; congruence|]. destruct (w_id_decoded w) eqn:D0; [right; exact D0|].
  destruct (dec_varint64 (w_st w)) as [ver s]. destruct (d_err s) eqn:E1; [left; cbn [w_st]; congruence|].
  destruct (metric_version <? ver); [left; cbn; discriminate|].
  destruct (check_fields metric_obj_type s) as [[extra|] s1] eqn:Ec.
  - destruct (dec_bytes_len s1) as [n s2]. destruct (d_err s2) eqn:E2; [left; cbn [w_st]; congruence|].
    destruct (n =? -1); [right; reflexivity|]. destruct (raw_read_bytes _ _ n s2) as [id s3].
    destruct (d_err s3) eqn:E3; [left; cbn [w_st]; congruence|right; reflexivity].
  - left. cbn [w_st]. revert Ec. unfold check_fields, check_expected, bindD, get_err, set_err, ret.
    destruct (dec_array_len s) as [n s2]. destruct (d_err s2) eqn:E2.
    + intros Ec. assert (s2 = s1) as <- by congruence. congruence.
    + destruct (n <? _); intros Ec; [|discriminate Ec].
      assert (s1 = mk_st (d_in s2) (Some Malformed)) as -> by congruence. discriminate.
Qed.

Lemma stay_time w : w_time_decoded w = true \/ d_err (w_st w) <> None -> raw_decode_time w = w.
Proof.
  intros H. unfold raw_decode_time. destruct (d_err (w_st w)); [reflexivity|]. destruct H as [->|H]; [reflexivity|congruence].
Qed.
Lemma stay_value w : w_value_decoded w = true \/ d_err (w_st w) <> None -> raw_decode_value w = w.
Proof.
  intros H. unfold raw_decode_value. destruct (d_err (w_st w)); [reflexivity|]. destruct H as [->|H]; [reflexivity|congruence].
Qed.
Lemma time_cases w : (raw_decode_time w = w /\ (w_time_decoded w = true \/ d_err (w_st w) <> None)) \/
  exists t s b, d_err (w_st w) = None /\ (b = true \/ d_err s <> None) /\
    raw_decode_time w = mk_raw (w_data w) s (w_id w) t (w_value w) (w_id_decoded w) b (w_value_decoded w).
Proof.
  destruct (d_err (w_st w)) eqn:E.
  { left. assert (d_err (w_st w) <> None) as K by congruence. split; [apply stay_time; right; exact K|right; discriminate]. }
  destruct (w_time_decoded w) eqn:T; [left; split; [apply stay_time; left; exact T|left; reflexivity]|].
  right. unfold raw_decode_time. rewrite E, T. destruct (dec_varint64 (w_st w)) as [x s]. destruct (d_err s) eqn:Es.
  - exists (w_time w), s, false. split; [reflexivity|]. split; [right; congruence|reflexivity].
  - exists x, s, true. split; [reflexivity|]. split; [left; reflexivity|reflexivity].
Qed.
Lemma value_cases w : (raw_decode_value w = w /\ (w_value_decoded w = true \/ d_err (w_st w) <> None)) \/
  exists v s b, d_err (w_st w) = None /\ (b = true \/ d_err s <> None) /\
    raw_decode_value w = mk_raw (w_data w) s (w_id w) (w_time w) v (w_id_decoded w) (w_time_decoded w) b.
Proof.
  destruct (d_err (w_st w)) eqn:E.
  { left. assert (d_err (w_st w) <> None) as K by congruence. split; [apply stay_value; right; exact K|right; discriminate]. }
  destruct (w_value_decoded w) eqn:T; [left; split; [apply stay_value; left; exact T|left; reflexivity]|].
  right. unfold raw_decode_value. rewrite E, T. destruct (dec_float64 (w_st w)) as [x s]. destruct (d_err s) eqn:Es.
  - exists (w_value w), s, false. split; [reflexivity|]. split; [right; congruence|reflexivity].
  - exists x, s, true. split; [reflexivity|]. split; [left; reflexivity|reflexivity].
Qed.

Lemma time_keeps w : w_id (raw_decode_time w) = w_id w /\ w_id_decoded (raw_decode_time w) = w_id_decoded w /\
  w_data (raw_decode_time w) = w_data w /\ (d_err (w_st w) <> None -> raw_decode_time w = w) /\
  (d_err (w_st (raw_decode_time w)) = None -> w_time_decoded (raw_decode_time w) = true) /\
  raw_decode_time (raw_decode_time w) = raw_decode_time w.
Proof.
  destruct (time_cases w) as [[-> H]|(t & s & b & E & H & ->)].
  - repeat split; try (apply stay_time; exact H). intros N. destruct H; [assumption|congruence].
  - cbn [w_id w_id_decoded w_data w_st w_time_decoded]. repeat split; try congruence.
    + intros N. destruct H; [assumption|congruence].
    + apply stay_time. cbn [w_time_decoded w_st]. exact H.
Qed.
Lemma value_keeps w : w_id (raw_decode_value w) = w_id w /\ w_id_decoded (raw_decode_value w) = w_id_decoded w /\
  w_time (raw_decode_value w) = w_time w /\ w_time_decoded (raw_decode_value w) = w_time_decoded w /\
  w_data (raw_decode_value w) = w_data w /\ (d_err (w_st w) <> None -> raw_decode_value w = w) /\
  raw_decode_value (raw_decode_value w) = raw_decode_value w.
Proof.
  destruct (value_cases w) as [[-> H]|(t & s & b & E & H & ->)].
  - repeat split. apply stay_value; exact H.
  - cbn [w_id w_id_decoded w_data w_st w_time w_time_decoded]. repeat split; try congruence.
    apply stay_value. cbn [w_value_decoded w_st]. exact H.
Qed.
Lemma id_keeps_data w : w_data (raw_decode_id w) = w_data w.
Proof.
  unfold raw_decode_id. cbv zeta. destruct (d_err (w_st w)); [reflexivity|]. destruct (w_id_decoded w); [reflexivity|].
  destruct (dec_varint64 (w_st w)) as [ver s]. destruct (d_err s); [reflexivity|]. destruct (_ <? ver); [reflexivity|].
  destruct (check_fields metric_obj_type s) as [[extra|] s1]; [|reflexivity].
  destruct (dec_bytes_len s1) as [n s2]. destruct (d_err s2); [reflexivity|]. destruct (n =? -1); [reflexivity|].
  destruct (raw_read_bytes _ _ n s2) as [id s3]. destruct (d_err s3); reflexivity.
Qed.

Section AnyData.
  Variable d : bytes.
  Let w1 := raw_decode_id (new_raw d).
  Let w2 := raw_decode_time w1.
  Let w3 := raw_decode_value w2.

  Let id1 : raw_decode_id w1 = w1 := proj1 (id_done (new_raw d)).
  Lemma stay_id w : w_id_decoded w = true \/ d_err (w_st w) <> None -> raw_decode_id w = w.
  Proof.
    intros H. unfold raw_decode_id. destruct (d_err (w_st w)); [reflexivity|]. destruct H as [->|H]; [reflexivity|congruence].
  Qed.
  Lemma id2 : raw_decode_id w2 = w2.
  Proof.
    apply stay_id. destruct (d_err (w_st w1)) eqn:E.
    - right. unfold w2. destruct (time_keeps w1) as (_ & _ & _ & K & _). rewrite K; congruence.
    - left. unfold w2. destruct (time_keeps w1) as (_ & -> & _). exact (proj2 (id_done (new_raw d)) E).
  Qed.
  Lemma time2 : raw_decode_time w2 = w2.
  Proof. apply (time_keeps w1). Qed.
  Lemma id3 : raw_decode_id w3 = w3.
  Proof.
    apply stay_id. destruct (d_err (w_st w2)) eqn:E.
    - right. unfold w3. destruct (value_keeps w2) as (_ & _ & _ & _ & _ & K & _). rewrite K; congruence.
    - left. unfold w3. destruct (value_keeps w2) as (_ & -> & _). unfold w2 in *. destruct (d_err (w_st w1)) eqn:E1.
      + destruct (time_keeps w1) as (_ & _ & _ & K & _). rewrite K in E by congruence. congruence.
      + destruct (time_keeps w1) as (_ & -> & _). exact (proj2 (id_done (new_raw d)) E1).
  Qed.
  Lemma time3 : raw_decode_time w3 = w3.
  Proof.
    apply stay_time. destruct (d_err (w_st w2)) eqn:E.
    - right. unfold w3. destruct (value_keeps w2) as (_ & _ & _ & _ & _ & K & _). rewrite K; congruence.
    - left. unfold w3. destruct (value_keeps w2) as (_ & _ & _ & -> & _). unfold w2 in *.
      destruct (time_keeps w1) as (_ & _ & _ & _ & K & _). exact (K E).
  Qed.
  Lemma value3 : raw_decode_value w3 = w3.
  Proof. apply (value_keeps w2). Qed.

  Definition anywhere (w : raw_metric) : Prop := w = new_raw d \/ w = w1 \/ w = w2 \/ w = w3.
  Lemma access_anywhere a w : anywhere w -> anywhere (snd (access a w)) /\
    ((exists e, fst (access a w) = AnError e) \/
     fst (access a w) = right_answer d (w_id w3) (w_time w3) (w_value w3) a).
  Proof.
    assert (w_id w2 = w_id w1) as A1 by apply (time_keeps w1).
    assert (w_id w3 = w_id w2) as A2 by apply (value_keeps w2).
    assert (w_time w3 = w_time w2) as A3 by apply (value_keeps w2).
    assert (forall w x, (exists e, answer_of w x = AnError e) \/ answer_of w x = x) as An.
    { intros u x. unfold answer_of. destruct (d_err (w_st u)); [left; eexists; reflexivity|right; reflexivity]. }
    intros H. unfold access. cbv zeta. destruct a.
    - assert (raw_decode_id w = w1 \/ raw_decode_id w = w2 \/ raw_decode_id w = w3) as K.
      { destruct H as [->|[->|[->| ->]]]; rewrite ?id1, ?id2, ?id3; auto. }
      cbn [fst snd]. split; [unfold anywhere; tauto|]. destruct (An (raw_decode_id w) (AnID (w_id (raw_decode_id w)))) as [X|X];
        [left; exact X|right]. rewrite X. cbn [right_answer]. f_equal. destruct K as [->|[->| ->]]; congruence.
    - assert (raw_decode_time (raw_decode_id w) = w2 \/ raw_decode_time (raw_decode_id w) = w3) as K.
      { destruct H as [->|[->|[->| ->]]]; rewrite ?id1, ?id2, ?id3, ?time2, ?time3; auto. }
      cbn [fst snd]. split; [unfold anywhere; tauto|].
      destruct (An (raw_decode_time (raw_decode_id w)) (ATime (w_time (raw_decode_time (raw_decode_id w))))) as [X|X];
        [left; exact X|right]. rewrite X. cbn [right_answer]. f_equal. destruct K as [->| ->]; congruence.
    - assert (raw_decode_value (raw_decode_time (raw_decode_id w)) = w3) as K.
      { destruct H as [->|[->|[->| ->]]]; rewrite ?id1, ?id2, ?id3, ?time2, ?time3, ?value3; auto. }
      rewrite K. cbn [fst snd]. split; [unfold anywhere; tauto|]. exact (An w3 _).
    - assert (raw_decode_value (raw_decode_time (raw_decode_id w)) = w3) as K.
      { destruct H as [->|[->|[->| ->]]]; rewrite ?id1, ?id2, ?id3, ?time2, ?time3, ?value3; auto. }
      rewrite K. cbn [fst snd]. split; [unfold anywhere; tauto|]. exact (An w3 _).
    - cbn [fst snd]. split; [exact H|]. right. cbn [right_answer]. f_equal.
      assert (w_data w1 = d) as D1 by apply id_keeps_data.
      assert (w_data w2 = d) as D2 by (rewrite <- D1; apply (time_keeps w1)).
      assert (w_data w3 = d) as D3 by (rewrite <- D2; apply (value_keeps w2)).
      destruct H as [->|[->|[->| ->]]]; trivial.
  Qed.
End AnyData.

Lemma raw_consistent d : exists id t v, forall l a,
  (exists e, fst (access a (after l (new_raw d))) = AnError e) \/
  fst (access a (after l (new_raw d))) = right_answer d id t v a.
Proof.
  do 3 eexists. intros l a.
  assert (forall l w, anywhere d w -> anywhere d (after l w)) as K.
  { induction l0 as [|b l0 IH]; intros w H; [exact H|]. cbn [after]. apply IH. apply access_anywhere. exact H. }
  apply (access_anywhere d a). apply K. left. reflexivity.
Qed.

(** * Encoding *)

Lemma y_raw_message am b : amessage_as am b -> exists v w b' d, b = w ++ b' /\ v <= 1 /\ int_as v w /\
  raw_as (am_id am) (am_time am) (am_value am) d /\
  forall old, yields (dec_agg_object old) (new_raw d, am_sp am, am_at am) b'.
Proof.
  intros [id t v sp ver w r d x y z b' V W R Rw X Y Oz Ob|id t v sp at_nanos ver w r d x y a z b' V W R Rw X Y A Oz Ob];
    exists ver, w, b', d; (split; [reflexivity|]); (split; [exact V|]); (split; [exact W|]); (split; [exact Rw|]);
    intros old; cbn [am_sp am_at]; unfold dec_agg_object.
  - refine (y_object 1 2 (r ++ z) b' _ _ Ob eq_refl _). intros extra e Ve. rewrite <- app_assoc.
    apply y_bind with 5; [apply y_type; [exact R|reflexivity]|]. apply y_then with None; [apply y_err|].
    change ((5 =? raw_sp_type) || (5 =? raw_sp_time_type)) with true. cbv iota.
    apply y_bind with (new_raw d, sp, 0).
    + unfold dec_raw. refine (y_object 5 2 (x ++ y) z _ _ Oz eq_refl _). intros extra' e' Ve'. rewrite <- app_assoc.
      apply y_bind with d; [exact (y_bytes d x X)|]. apply y_bind with sp; [exact (y_sp sp y Y)|].
      change (5 =? raw_sp_type) with true. cbv iota. apply y_last with tt; [exact (y_skip extra' e' Ve')|]. apply y_ret.
    + apply y_last with tt; [exact (y_skip extra e Ve)|]. apply y_ret.
  - refine (y_object 1 2 (r ++ z) b' _ _ Ob eq_refl _). intros extra e Ve. rewrite <- app_assoc.
    apply y_bind with 22; [apply y_type; [exact R|reflexivity]|]. apply y_then with None; [apply y_err|].
    change ((22 =? raw_sp_type) || (22 =? raw_sp_time_type)) with true. cbv iota.
    apply y_bind with (new_raw d, sp, at_nanos).
    + unfold dec_raw. refine (y_object 22 3 (x ++ y ++ a) z _ _ Oz eq_refl _). intros extra' e' Ve'. rewrite <- !app_assoc.
      apply y_bind with d; [exact (y_bytes d x X)|]. apply y_bind with sp; [exact (y_sp sp y Y)|].
      change (22 =? raw_sp_type) with false. cbv iota. apply y_bind with at_nanos; [exact (y_int _ a A)|].
      apply y_last with tt; [exact (y_skip extra' e' Ve')|]. apply y_ret.
    + apply y_last with tt; [exact (y_skip extra e Ve)|]. apply y_ret.
Qed.

Lemma mp_int_short v : is_int64 v -> zlen (mp_int v) <= 9.
Proof.
  intros _. unfold mp_int. repeat match goal with |- context [if ?c then _ else _] => destruct c end;
    rewrite ?zlen_cons, ?put_be_length; cbn; lia.
Qed.
Lemma mp_float_short v : zlen (mp_float64 v) = 9.
Proof. unfold mp_float64. rewrite zlen_cons, put_be_length. reflexivity. Qed.
Lemma mp_bytes_len_short n : zlen (mp_bytes_len n) <= 5.
Proof.
  unfold mp_bytes_len. repeat match goal with |- context [if ?c then _ else _] => destruct c end;
    rewrite ?zlen_cons, ?put_be_length; cbn; lia.
Qed.

Lemma enc_id_as i : zlen (id_of i) < 2 ^ 32 -> bytes_as (id_of i) (enc_id i) /\ zlen (enc_id i) <= 5 + zlen (id_of i).
Proof.
  destruct i as [[s|]|p d s]; cbn [id_of id_content enc_id]; intros L.
  - split; [exact (mp_bytes_as (Some s) L)|]. unfold mp_bytes. rewrite zlen_app. pose proof (mp_bytes_len_short (zlen s)). lia.
  - split; [exact (mp_bytes_as None L)|]. vm_compute. discriminate.
  - assert (enc_chunked_id p d s = mp_bytes (Some (p ++ d ++ s))) as ->.
    { unfold enc_chunked_id, mp_bytes. f_equal. f_equal. unfold zlen. rewrite !app_length. lia. }
    split; [exact (mp_bytes_as (Some (p ++ d ++ s)) L)|]. unfold mp_bytes. rewrite zlen_app.
    pose proof (mp_bytes_len_short (zlen (p ++ d ++ s))). lia.
Qed.

Lemma enc_raw_as i t v : zlen (id_of i) < 2 ^ 32 - 32 -> is_int64 t -> is_float64 v ->
  raw_as (id_of i) t v (enc_raw_metric i t v) /\ zlen (enc_raw_metric i t v) < 2 ^ 32.
Proof.
  intros L T V. destruct (enc_id_as i ltac:(lia)) as [I Li]. split.
  - apply (raw_metric_as _ _ _ 1 (mp_int 1) (enc_id i) (mp_int t) (mp_float64 v)); [lia|tag64|exact I|exact (mp_int_as t T)|
      exact (mp_float_as v V)|]. apply (object_plain 3). lia.
  - unfold enc_raw_metric. rewrite !zlen_app, mp_float_short. pose proof (mp_int_short t T).
    change (zlen (enc_version metric_version)) with 1. change (zlen (enc_fields metric_obj_type)) with 1. lia.
Qed.

Lemma encode_ainput_as i : ainput_sendable i -> amessage_as (ainput_message i) (encode_ainput i).
Proof.
  destruct i as [id t v sp at_nanos]. intros (L & T & V & S & A). unfold ainput_message, encode_ainput, encode_aggregated.
  cbn [ai_id ai_time ai_value ai_sp ai_at] in *. cbv zeta. destruct (enc_raw_as id t v L T V) as [R Lr].
  pose proof (mp_bytes_as (Some (enc_raw_metric id t v)) Lr) as X. cbn [id_content] in X. destruct at_nanos as [u|].
  - apply (am_with _ _ _ _ _ 1 (mp_int 1) (mp_int 22) (enc_raw_metric id t v) (mp_bytes (Some (enc_raw_metric id t v)))
      (enc_storage_policy sp) (mp_int u) (mp_array_len 3 ++ mp_bytes (Some (enc_raw_metric id t v)) ++ enc_storage_policy sp ++ mp_int u));
      [lia|tag64|tag64|exact R|exact X|exact (enc_sp_as sp S)|exact (mp_int_as u A)| |]; apply object_plain; lia.
  - apply (am_without _ _ _ _ 1 (mp_int 1) (mp_int 5) (enc_raw_metric id t v) (mp_bytes (Some (enc_raw_metric id t v)))
      (enc_storage_policy sp) (mp_array_len 2 ++ mp_bytes (Some (enc_raw_metric id t v)) ++ enc_storage_policy sp));
      [lia|tag64|tag64|exact R|exact X|exact (enc_sp_as sp S)| |]; apply object_plain; lia.
Qed.

(** * The aggregated iterator *)

Definition anext_body (rec : ait -> bool * ait) (it : ait) : bool * ait :=
  match d_err (g_st it), g_closed it with
  | None, false =>
      let '(version, s) := dec_varint64 (g_st it) in
      match d_err s with
      | Some _ => (false, mk_ait s (g_ignore it) false (g_metric it) (g_sp it) (g_at it))
      | None =>
          if aggregated_version <? version then
            if g_ignore it then
              let '(n, s) := dec_array_len s in
              let '(_, s) := dec_skip n s in
              rec (mk_ait s true false (g_metric it) (g_sp it) (g_at it))
            else (false, mk_ait (mk_st (d_in s) (Some Malformed)) false false (g_metric it) (g_sp it) (g_at it))
          else
            let '((w, sp, at_nanos), s) := dec_agg_object (g_metric it, g_sp it, g_at it) s in
            (match d_err s with None => true | Some _ => false end, mk_ait s (g_ignore it) false w sp at_nanos)
      end
  | _, _ => (false, it)
  end.
Lemma anext_loop_body f it : anext_loop (S f) it = anext_body (anext_loop f) it.
Proof. cbn [anext_loop]. unfold anext_body. destruct (d_err (g_st it)); [reflexivity|]. destruct (g_closed it); reflexivity. Qed.

Lemma anext_loop_fuel f1 : forall f2 it, (left_in (g_st it) < f1)%nat -> (left_in (g_st it) < f2)%nat ->
  anext_loop f1 it = anext_loop f2 it.
Proof.
  induction f1 as [|f1 IH]; intros f2 it L1 L2; [lia|]. destruct f2 as [|f2]; [lia|]. rewrite !anext_loop_body.
  unfold anext_body. destruct (d_err (g_st it)) eqn:Ee; [reflexivity|]. destruct (g_closed it); [reflexivity|].
  destruct (dec_varint64 (g_st it)) as [v s] eqn:Ev. destruct (d_err s) eqn:Es; [reflexivity|].
  destruct (_ <? v); [|reflexivity]. destruct (g_ignore it); [|reflexivity].
  destruct (dec_array_len s) as [n s1] eqn:En. destruct (dec_skip n s1) as [u s2] eqn:Ek.
  pose proof (varint_shrinks _ v s Ev Ee Es).
  pose proof (prim_shrinks 0 read_array_len (l10 _ l1_array) s) as H1. fold dec_array_len in H1. rewrite En in H1.
  pose proof (skip_shrinks n s1) as H2. rewrite Ek in H2. cbn [snd] in *. apply IH; cbn [g_st]; lia.
Qed.

Lemma anext_eq it : anext it = anext_body anext it.
Proof.
  unfold anext at 1. rewrite anext_loop_body. unfold anext_body.
  destruct (d_err (g_st it)) eqn:Ee; [reflexivity|]. destruct (g_closed it); [reflexivity|].
  destruct (dec_varint64 (g_st it)) as [v s] eqn:Ev. destruct (d_err s) eqn:Es; [reflexivity|].
  destruct (_ <? v); [|reflexivity]. destruct (g_ignore it); [|reflexivity].
  destruct (dec_array_len s) as [n s1] eqn:En. destruct (dec_skip n s1) as [u s2] eqn:Ek.
  pose proof (varint_shrinks _ v s Ev Ee Es).
  pose proof (prim_shrinks 0 read_array_len (l10 _ l1_array) s) as H1. fold dec_array_len in H1. rewrite En in H1.
  pose proof (skip_shrinks n s1) as H2. rewrite Ek in H2. cbn [snd] in *. unfold anext. apply anext_loop_fuel; cbn [g_st];
    unfold left_in in *; lia.
Qed.

Definition aready (it : ait) (d : bytes) : Prop := g_st it = mk_st d None /\ g_closed it = false.
(** The iterator shows [am]. *)
Definition shows (it : ait) (am : amessage) : Prop :=
  fst (access GetMetric (g_metric it)) = AMetric (am_id am) (am_time am) (am_value am) /\ g_sp it = am_sp am /\ g_at it = am_at am.

Lemma anext_message am b r it : amessage_as am b -> aready it (b ++ r) ->
  exists it', anext it = (true, it') /\ aready it' r /\ g_ignore it' = g_ignore it /\ shows it' am.
Proof.
  intros M [S C]. destruct (y_raw_message am b M) as (v & w & b' & d & -> & V & W & R & K).
  rewrite anext_eq. unfold anext_body. rewrite S, C.
  cbn [d_err]. rewrite <- app_assoc, (y_int v w W). cbn [d_err]. change aggregated_version with 1.
  rewrite (proj2 (Z.ltb_ge _ _)) by lia. rewrite K. eexists. split; [reflexivity|]. split; [split; reflexivity|].
  split; [reflexivity|]. split; [|split; reflexivity]. cbn [g_metric].
  pose proof (accesses_right _ _ _ d (raw_starts _ _ _ _ R) [GetMetric]) as E. cbn [accesses map right_answer] in E. congruence.
Qed.

Lemma anext_newer_skip b r it : newer b -> g_ignore it = true -> aready it (b ++ r) ->
  exists it', anext it = anext it' /\ aready it' r /\ g_ignore it' = true.
Proof.
  intros (v & n & w & a & x & V & W & A & X & ->) G [S C]. eexists.
  rewrite anext_eq at 1. unfold anext_body. rewrite S, C. cbn [d_err]. rewrite <- !app_assoc, (y_int v w W). cbn [d_err].
  change aggregated_version with 1. rewrite (proj2 (Z.ltb_lt _ _)) by lia. rewrite G.
  rewrite (y_array (Z.of_nat n) a A), (y_skip n x X). split; [reflexivity|]. repeat split.
Qed.
Lemma anext_newer_reject b r it : newer b -> g_ignore it = false -> aready it (b ++ r) ->
  exists it', anext it = (false, it') /\ d_err (g_st it') = Some Malformed.
Proof.
  intros (v & n & w & a & x & V & W & A & X & ->) G [S C]. eexists.
  rewrite anext_eq. unfold anext_body. rewrite S, C. cbn [d_err]. rewrite <- !app_assoc, (y_int v w W). cbn [d_err].
  change aggregated_version with 1. rewrite (proj2 (Z.ltb_lt _ _)) by lia. rewrite G. split; reflexivity.
Qed.
Lemma anext_end it : aready it [] -> exists it', anext it = (false, it') /\ d_err (g_st it') = Some EndOfInput.
Proof. intros [S C]. rewrite anext_eq. unfold anext_body. rewrite S, C. eexists. split; reflexivity. Qed.

Lemma anext_stream l b : astream_as l b -> forall it, g_ignore it = true -> aready it b ->
  match l with
  | [] => exists it', anext it = (false, it') /\ d_err (g_st it') = Some EndOfInput
  | am :: l => exists it' r, anext it = (true, it') /\ aready it' r /\ astream_as l r /\ g_ignore it' = true /\ shows it' am
  end.
Proof.
  induction 1 as [|am l b r M R _|l b r N R IH]; intros it G Rd.
  - exact (anext_end it Rd).
  - destruct (anext_message am b r it M Rd) as (it' & E & Rd' & G' & Sh). exists it', r.
    rewrite G in G'. repeat (split; [assumption|]). exact Sh.
  - destruct (anext_newer_skip b r it N G Rd) as (it' & E & Rd' & G'). specialize (IH it' G' Rd'). rewrite E. exact IH.
Qed.

Lemma adecoded_next it it' am l e : anext it = (true, it') -> shows it' am -> adecoded it' l e -> adecoded it (am :: l) e.
Proof.
  intros E (A & P & T) D. destruct am as [id t v sp u]. cbn [am_id am_time am_value am_sp am_at] in *. subst sp u.
  exact (adecoded_more it it' id t v l e E A D).
Qed.

Lemma adecode_stream l : forall b it, astream_as l b -> g_ignore it = true -> aready it b -> adecoded it l EndOfInput.
Proof.
  induction l as [|am l IH]; intros b it St G Rd; pose proof (anext_stream _ b St it G Rd) as H.
  - destruct H as (it' & E & Ee). exact (adecoded_stop it it' EndOfInput E Ee).
  - destruct H as (it' & r & E & Rd' & St' & G' & Sh). exact (adecoded_next it it' am l _ E Sh (IH r it' St' G' Rd')).
Qed.

Lemma adecode_messages l bs : Forall2 amessage_as l bs -> forall r e,
  forall it, (forall it', g_ignore it' = g_ignore it -> aready it' r -> adecoded it' [] e) ->
  aready it (concat bs ++ r) -> adecoded it l e.
Proof.
  induction 1 as [|am b l bs M F IH]; intros r e it End Rd.
  - exact (End it eq_refl Rd).
  - cbn [concat] in Rd. rewrite <- app_assoc in Rd.
    destruct (anext_message am b _ it M Rd) as (it' & E & Rd' & G & Sh). apply (adecoded_next it it' am l e E Sh).
    apply (IH r e it'); [|exact Rd']. intros it2 G2. apply End. congruence.
Qed.

Lemma adecoded_functional it l e : adecoded it l e -> forall l' e', adecoded it l' e' -> l' = l /\ e' = e.
Proof.
  induction 1 as [it it' e E Ee|it it' id t v l e E Sh D IH]; intros l' e' D'.
  - destruct D' as [jt jt' f F Ff|jt jt' id2 t2 v2 l' f F Sf D']; [|congruence].
    assert (it' = jt') as <- by congruence. split; [reflexivity|congruence].
  - destruct D' as [jt jt' f F Ff|jt jt' id2 t2 v2 l' f F Sf D']; [congruence|].
    assert (it' = jt') as <- by congruence. destruct (IH l' f D') as [-> ->]. split; [|reflexivity].
    rewrite Sh in Sf. assert (id = id2 /\ t = t2 /\ v = v2) as (-> & -> & ->) by (repeat split; congruence). reflexivity.
Qed.

Lemma anext_any : forall n it, (left_in (g_st it) <= n)%nat -> d_err (g_st it) = None -> g_closed it = false ->
  match anext it with
  | (false, it') => exists e, d_err (g_st it') = Some e
  | (true, it') => exists b, d_in (g_st it) = b ++ d_in (g_st it') /\ b <> [] /\ aready it' (d_in (g_st it')) /\
      g_ignore it' = g_ignore it /\
      forall it2 r, g_ignore it2 = g_ignore it -> aready it2 (b ++ r) ->
        exists it2', anext it2 = (true, it2') /\ aready it2' r /\ g_metric it2' = g_metric it' /\
          g_sp it2' = g_sp it' /\ g_at it2' = g_at it'
  end.
Proof.
  induction n as [n IH] using lt_wf_ind. intros it L Ee C. rewrite (anext_eq it). unfold anext_body. rewrite Ee, C.
  destruct (g_st it) as [d e] eqn:St. cbn [d_err] in Ee. subst e.
  destruct (dec_varint64 (mk_st d None)) as [v s] eqn:Ev. destruct (d_err s) as [e|] eqn:Es; [exists e; exact Es|].
  pose proof (varint_shrinks _ v s Ev eq_refl Es) as Sh1.
  destruct (local_yields _ _ l_varint d v s Ev Es) as (w & Ed & _ & Yv).
  assert (w <> []) as Nw by (intros ->; cbn [app] in Ed; unfold left_in in Sh1; cbn [d_in] in Sh1; rewrite <- Ed in Sh1; lia).
  destruct s as [d1 e1]. cbn [d_err d_in] in *. subst e1.
  destruct (aggregated_version <? v) eqn:Vv.
  - destruct (g_ignore it) eqn:G; [|eexists; reflexivity].
    destruct (dec_array_len (mk_st d1 None)) as [k s1] eqn:En. destruct (dec_skip k s1) as [u s2] eqn:Ek.
    pose proof (prim_shrinks 0 read_array_len (l10 _ l1_array) (mk_st d1 None)) as H1. fold dec_array_len in H1. rewrite En in H1.
    pose proof (skip_shrinks k s1) as H2. rewrite Ek in H2. cbn [snd] in *.
    destruct (d_err s2) as [e|] eqn:E2.
    { rewrite anext_eq. unfold anext_body. cbn [g_st]. rewrite E2. cbn [g_st]. exists e. exact E2. }
    set (jt := mk_ait s2 true false (g_metric it) (g_sp it) (g_at it)).
    specialize (IH (left_in s2) ltac:(lia) jt (le_n _) E2 eq_refl).
    destruct s1 as [d2 e2]. assert (e2 = None) as ->.
    { destruct e2 as [e|]; [|reflexivity]. exfalso. apply (s_skip k (mk_st d2 (Some e))); [discriminate|]. rewrite Ek. exact E2. }
    destruct (local_yields _ _ l_darray d1 k (mk_st d2 None) En eq_refl) as (a & Ed1 & _ & Ya).
    destruct (local_yields _ _ (l_skip k) d2 u s2 Ek E2) as (x & Ed2 & _ & Yx). cbn [d_in] in *.
    destruct (anext jt) as [[|] jt']; [|exact IH].
    destruct IH as (b & Eb & Nb & Rd & Gi & All). cbn [g_st g_ignore jt] in *.
    exists (w ++ a ++ x ++ b). split; [subst; rewrite Eb, <- !app_assoc; reflexivity|].
    split; [destruct w; [congruence|discriminate]|]. split; [exact Rd|]. split; [congruence|].
    intros it2 r G2 [S2 C2].
    destruct (All (mk_ait (mk_st (b ++ r) None) true false (g_metric it2) (g_sp it2) (g_at it2)) r eq_refl
      (conj eq_refl eq_refl)) as (it2' & E2' & Rest).
    exists it2'. split; [|exact Rest].
    rewrite anext_eq. unfold anext_body. rewrite S2, C2. cbn [d_err]. rewrite <- !app_assoc, Yv. cbn [d_err].
    rewrite Vv, G2, Ya, Yx. exact E2'.
  - rewrite ra_agg_object. destruct (core_agg_object (mk_st d1 None)) as [h s1] eqn:Ec. cbn [fst snd].
    destruct (h (g_metric it, g_sp it, g_at it)) as [[m1 sp1] t1] eqn:Eh.
    destruct (d_err s1) as [e|] eqn:E1; [exists e; exact E1|].
    destruct (local_yields _ _ l_agg_object d1 h s1 Ec E1) as (b & Ed1 & (d0 & sp0 & t0 & H0) & Yo). cbn [g_st].
    exists (w ++ b). split; [subst; rewrite <- app_assoc; reflexivity|].
    split; [destruct w; [congruence|discriminate]|].
    split; [split; [destruct s1 as [d2 e2]; cbn [d_err d_in] in *; subst e2; reflexivity|reflexivity]|].
    split; [reflexivity|].
    intros it2 r G2 [S2 C2]. rewrite anext_eq. unfold anext_body. rewrite S2, C2. cbn [d_err].
    rewrite <- app_assoc, Yv. cbn [d_err]. rewrite Vv, ra_agg_object, Yo. cbn [fst snd].
    rewrite H0 in *. cbn [d_err]. eexists. split; [reflexivity|]. split; [split; reflexivity|].
    cbn [g_metric g_sp g_at]. repeat split; congruence.
Qed.

Lemma adecode_cut l : forall b p q it, astream_as l b -> b = p ++ q -> g_ignore it = true -> aready it p ->
  forall seen e, adecoded it seen e -> exists l2, l = seen ++ l2.
Proof.
  induction l as [|am l IH]; intros b p q it St Eb G Rd seen e D; destruct D as [it it1 e E Ee|it it1 id t v seen e E Sh D].
  - exists []. reflexivity.
  - exfalso. pose proof (anext_any _ it (le_n _)) as K. destruct Rd as [Sx Cx]. rewrite Sx in K. specialize (K eq_refl Cx).
    rewrite E in K. destruct K as (b0 & E0 & N0 & _ & _ & All). cbn [d_in] in E0. subst p b.
    set (jt := mk_ait (mk_st ((b0 ++ d_in (g_st it1)) ++ q) None) true false (g_metric it) (g_sp it) (g_at it)).
    pose proof (anext_stream [] _ St jt eq_refl (conj eq_refl eq_refl)) as (jt' & F & _).
    destruct (All jt (d_in (g_st it1) ++ q)) as (jt2 & F2 & _); [symmetry; exact G| |].
    { split; [cbn [jt g_st]; rewrite <- app_assoc; reflexivity|reflexivity]. }
    congruence.
  - exists (am :: l). reflexivity.
  - pose proof (anext_any _ it (le_n _)) as K. destruct Rd as [Sx Cx]. rewrite Sx in K. specialize (K eq_refl Cx).
    rewrite E in K. destruct K as (b0 & E0 & N0 & Rd1 & G1 & All). cbn [d_in] in E0. subst p b.
    set (jt := mk_ait (mk_st ((b0 ++ d_in (g_st it1)) ++ q) None) true false (g_metric it) (g_sp it) (g_at it)).
    pose proof (anext_stream _ _ St jt eq_refl (conj eq_refl eq_refl)) as (jt' & r & F & Rj & Str & Gj & (A & P & T)).
    destruct (All jt (d_in (g_st it1) ++ q)) as (jt2 & F2 & Rj2 & Mj & Pj & Tj); [symmetry; exact G| |].
    { split; [cbn [jt g_st]; rewrite <- app_assoc; reflexivity|reflexivity]. }
    assert (jt2 = jt') as -> by congruence.
    assert (r = d_in (g_st it1) ++ q) as -> by (destruct Rj as [X _], Rj2 as [X2 _]; congruence).
    destruct (IH _ (d_in (g_st it1)) q it1 Str eq_refl (eq_trans G1 G) Rd1 seen e D) as (l2 & ->).
    exists l2. rewrite Mj in A. rewrite Pj in P. rewrite Tj in T. rewrite Sh in A. rewrite P, T.
    destruct am as [i' t' v' sp' u']. cbn [am_id am_time am_value am_sp am_at] in *.
    assert (id = i' /\ t = t' /\ v = v') as (-> & -> & ->) by (repeat split; congruence). reflexivity.
Qed.
