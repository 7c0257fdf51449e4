(** The decoders read what the schema describes; the encoders write it. *)
From Coq Require Import Ascii String Arith NArith ZArith Bool Lia List.
From Verif.Base Require Import Bytes.
From Verif.Proof Require Import ProtoWireProof MsgpackLibProof.
From Verif.Model Require Import AggType Policy Transformation ProtoWire MsgpackLib Msgpack.
From Verif.Spec Require Import MetadataSpec ProtoStreamSpec MsgpackSpec.
Import ListNotations.
Open Scope Z_scope.

(** * Composing decoders *)

Definition yields {A} (x : D A) (a : A) (b : bytes) : Prop :=
  forall r, x (mk_st (b ++ r) None) = (a, mk_st r None).

Lemma y_ret {A} (a : A) : yields (ret a) a [].
Proof. intros r. reflexivity. Qed.
Lemma y_bind {A C} (x : D A) (f : A -> D C) a c b1 b2 :
  yields x a b1 -> yields (f a) c b2 -> yields (bindD x f) c (b1 ++ b2).
Proof. intros X F r. unfold bindD. rewrite <- app_assoc, X. apply F. Qed.
Lemma y_then {A C} (x : D A) (f : A -> D C) a c b :
  yields x a [] -> yields (f a) c b -> yields (bindD x f) c b.
Proof. intros X F. exact (y_bind x f a c [] b X F). Qed.
Lemma y_last {A C} (x : D A) (f : A -> D C) a c b :
  yields x a b -> yields (f a) c [] -> yields (bindD x f) c b.
Proof. intros X F. rewrite <- (app_nil_r b). exact (y_bind x f a c b [] X F). Qed.
Lemma y_err : yields get_err None [].
Proof. intros r. reflexivity. Qed.

Lemma y_prim {A} (z a : A) read b : (forall r, read (b ++ r) = inl (a, r)) -> yields (prim z read) a b.
Proof. intros H r. unfold prim. cbn [d_err d_in]. rewrite H. reflexivity. Qed.
Lemma y_int v b : int_as v b -> yields dec_varint64 v b.
Proof. intros H. apply y_prim. intros r. exact (read_int_as v b r H). Qed.
Lemma y_array n b : array_as n b -> yields dec_array_len n b.
Proof. intros H. apply y_prim. intros r. exact (read_array_as n b r H). Qed.
Lemma y_bool v b : bool_as v b -> yields dec_bool v b.
Proof. intros H. apply y_prim. intros r. exact (read_bool_as v b r H). Qed.
Lemma y_float v b : float_as v b -> yields dec_float64 v b.
Proof. intros H. apply y_prim. intros r. exact (read_float_as v b r H). Qed.
Lemma y_bytes s b : bytes_as s b -> yields dec_bytes s b.
Proof. intros H. apply y_prim. intros r. exact (read_bytes_as s b r H). Qed.

Lemma y_id s b : bytes_as s b -> yields dec_id s b.
Proof.
  intros H. unfold dec_id. destruct (read_bytes_len_as s b H) as [[-> E]|(h & -> & E)].
  - apply y_last with (-1); [apply y_prim; exact E|]. apply y_then with None; [apply y_err|]. apply y_ret.
  - apply y_bind with (zlen s); [apply y_prim; exact E|]. apply y_then with None; [apply y_err|].
    pose proof (zlen_nonneg s). rewrite (proj2 (Z.eqb_neq _ _)) by lia. apply y_prim. intros r. apply take_app. reflexivity.
Qed.

Lemma y_skip n b : values n b -> yields (dec_skip (Z.of_nat n)) tt b.
Proof.
  intros V r. unfold dec_skip. cbn [d_err d_in]. rewrite (proj2 (Z.ltb_ge _ _)) by lia.
  rewrite (skip_values_all n b r V). reflexivity.
Qed.

Lemma y_type t b : int_as t b -> type_valid t = true -> yields dec_type t b.
Proof.
  intros I V. unfold dec_type. apply y_last with t; [exact (y_int t b I)|]. apply y_then with None; [apply y_err|].
  rewrite V. apply y_ret.
Qed.

Lemma y_expected t n : num_fields t <= n -> yields (check_expected t n) (Some (n - num_fields t)) [].
Proof.
  intros H. unfold check_expected. apply y_then with None; [apply y_err|].
  rewrite (proj2 (Z.ltb_ge _ _)) by lia. apply y_ret.
Qed.
Lemma y_fields t extra a : 0 <= extra -> array_as (num_fields t + extra) a -> yields (check_fields t) (Some extra) a.
Proof.
  intros P H. unfold check_fields. apply y_last with (num_fields t + extra); [exact (y_array _ a H)|].
  replace extra with (num_fields t + extra - num_fields t) at 2 by lia. apply y_expected. lia.
Qed.

(** An object of type [t] known beforehand, and one that starts with its type. *)
Lemma y_object {A} t n body b (k : option Z -> D A) c : object n body b -> num_fields t = n ->
  (forall extra x, values extra x -> yields (k (Some (Z.of_nat extra))) c (body ++ x)) ->
  yields (bindD (check_fields t) k) c b.
Proof.
  intros (extra & a & x & Ha & Hx & ->) N K. apply y_bind with (Some (Z.of_nat extra)).
  - apply y_fields; [lia|]. rewrite N. exact Ha.
  - exact (K extra x Hx).
Qed.
Lemma y_typed {A} t n tb body b (k : Z -> option Z -> D A) c :
  object n (tb ++ body) b -> int_as t tb -> type_valid t = true -> num_fields t = n ->
  (forall extra x, values extra x -> yields (k t (Some (Z.of_nat extra))) c (body ++ x)) ->
  yields (bindD dec_array_len (fun n => bindD dec_type (fun t => bindD (check_expected t n) (fun ok => k t ok)))) c b.
Proof.
  intros (extra & a & x & Ha & Hx & ->) I V N K. rewrite <- app_assoc.
  apply y_bind with (n + Z.of_nat extra); [exact (y_array _ a Ha)|].
  apply y_bind with t; [exact (y_type t tb I V)|].
  apply y_then with (Some (Z.of_nat extra)).
  - replace (Z.of_nat extra) with (n + Z.of_nat extra - num_fields t) at 2 by lia. apply y_expected. lia.
  - exact (K extra x Hx).
Qed.

Lemma y_loop {A} (x : D A) l bs : Forall2 (yields x) l bs -> yields (dec_loop x (length l)) l (concat bs).
Proof.
  induction 1 as [|a b l bs H F IH]; [apply y_ret|]. cbn [length dec_loop concat].
  apply y_bind with a; [exact H|]. apply y_last with l; [exact IH|]. apply y_ret.
Qed.
Lemma y_list {A} (x : D A) (r : A -> bytes -> Prop) l b : (forall a b, r a b -> yields x a b) -> seq_as r l b ->
  forall C (f : list A -> D C) c rest, yields (f l) c rest ->
  yields (bindD dec_array_len (fun n => bindD (dec_list x n) f)) c (b ++ rest).
Proof.
  intros R [|l' a bs Ha F] C f c rest Y.
  { apply y_bind with (-1); [apply y_prim; intros; reflexivity|]. apply y_then with []; [apply y_ret|exact Y]. }
  rewrite <- app_assoc. apply y_bind with (zlen l'); [exact (y_array _ a Ha)|].
  apply y_bind with l'; [|exact Y]. unfold dec_list, zlen. rewrite Nat2Z.id. apply y_loop.
  clear - R F. induction F as [|u v l bs U F IH]; constructor; [exact (R u v U)|exact IH].
Qed.

(** * The parts of a message *)

Lemma known_resolution v w p : abbreviated_resolution v = Some (w, p) ->
  resolution_of_value v = Some {| r_window := w; r_precision := p |}.
Proof.
  intros H.
  assert (v = 1 \/ v = 2 \/ v = 3 \/ v = 4 \/ v = 5) as [->|[->|[->|[->| ->]]]];
    [|injection H as <- <-; reflexivity ..].
  destruct v as [|v|v]; try discriminate H. repeat (destruct v as [v|v|]; try discriminate H; try tauto).
Qed.
Lemma known_retention v t : abbreviated_retention v = Some t -> retention_of_value v = Some t.
Proof.
  intros H.
  assert (v = 1 \/ v = 2 \/ v = 3 \/ v = 4 \/ v = 5 \/ v = 6 \/ v = 7 \/ v = 8 \/ v = 9)
    as [->|[->|[->|[->|[->|[->|[->|[->| ->]]]]]]]]; [|injection H as <-; reflexivity ..].
  destruct v as [|v|v]; try discriminate H. repeat (destruct v as [v|v|]; try discriminate H; try tauto).
Qed.

Lemma unit_ok p : 1 <= p <= 8 -> exists v, unit_value p = Some v.
Proof.
  intros H. assert (p = 1 \/ p = 2 \/ p = 3 \/ p = 4 \/ p = 5 \/ p = 6 \/ p = 7 \/ p = 8) as K by lia.
  destruct K as [->|[->|[->|[->|[->|[->|[->| ->]]]]]]]; eexists; reflexivity.
Qed.

Lemma y_resolution r b : resolution_as r b -> yields dec_resolution r b.
Proof.
  intros [v w p t a b' K It Ia Ob|w p t a c b' P It Ia Ic Ob]; unfold dec_resolution.
  - refine (y_typed 14 2 t a b' _ _ Ob It eq_refl eq_refl _). intros extra x V. cbn [Z.eqb Pos.eqb known_res_type].
    apply y_bind with v; [exact (y_int v a Ia)|]. rewrite (known_resolution v w p K).
    apply y_last with tt; [exact (y_skip extra x V)|]. apply y_then with None; [apply y_err|]. apply y_ret.
  - refine (y_typed 15 3 t (a ++ c) b' _ _ Ob It eq_refl eq_refl _). intros extra x V.
    change (15 =? known_res_type) with false. change (15 =? unknown_res_type) with true. cbv iota. rewrite <- app_assoc.
    apply y_bind with w; [exact (y_int w a Ia)|]. apply y_bind with p; [exact (y_int p c Ic)|].
    apply y_then with None; [apply y_err|]. destruct (unit_ok _ P) as [u ->].
    apply y_last with tt; [exact (y_skip extra x V)|]. apply y_ret.
Qed.

Lemma y_retention t b : retention_as t b -> yields dec_retention t b.
Proof.
  intros [v r h a b' K It Ia Ob|r h a b' It Ia Ob]; unfold dec_retention.
  - refine (y_typed 16 2 h a b' _ _ Ob It eq_refl eq_refl _). intros extra x V. cbn [Z.eqb Pos.eqb known_ret_type].
    apply y_bind with v; [exact (y_int v a Ia)|]. rewrite (known_retention v r K).
    apply y_last with tt; [exact (y_skip extra x V)|]. apply y_then with None; [apply y_err|]. apply y_ret.
  - refine (y_typed 17 2 h a b' _ _ Ob It eq_refl eq_refl _). intros extra x V.
    change (17 =? known_ret_type) with false. change (17 =? unknown_ret_type) with true. cbv iota.
    apply y_bind with r; [exact (y_int r a Ia)|]. apply y_last with tt; [exact (y_skip extra x V)|]. apply y_ret.
Qed.

Lemma y_sp p b : sp_as p b -> yields dec_storage_policy p b.
Proof.
  intros (x & y & X & Y & Ob). unfold dec_storage_policy. refine (y_object 13 2 (x ++ y) b _ _ Ob eq_refl _).
  intros extra e V. rewrite <- app_assoc.
  apply y_bind with (sp_resolution p); [exact (y_resolution _ x X)|].
  apply y_bind with (sp_retention p); [exact (y_retention _ y Y)|].
  apply y_last with tt; [exact (y_skip extra e V)|]. destruct p. apply y_ret.
Qed.

Lemma y_agg id b : agg_as id b -> yields dec_agg id b.
Proof.
  intros [t b' It Ob|v t a b' It Ia Ob|v t a b' It Ia Ob|t a b' It Ia Ob]; unfold dec_agg.
  - assert (object 1 (t ++ []) b') as Ob' by (rewrite app_nil_r; exact Ob).
    refine (y_typed 18 1 t [] b' _ _ Ob' It eq_refl eq_refl _). intros extra x V. cbn [app].
    change (18 =? default_agg_type) with true. cbv iota.
    apply y_last with tt; [exact (y_skip extra x V)|]. apply y_ret.
  - refine (y_typed 19 2 t a b' _ _ Ob It eq_refl eq_refl _). intros extra x V.
    change (19 =? default_agg_type) with false. change (19 =? short_agg_type) with true. cbv iota.
    apply y_bind with v; [exact (y_int v a Ia)|]. apply y_last with tt; [exact (y_skip extra x V)|]. apply y_ret.
  - refine (y_typed 20 2 t a b' _ _ Ob It eq_refl eq_refl _). intros extra x V.
    change (20 =? default_agg_type) with false. change (20 =? short_agg_type) with false.
    change (20 =? long_agg_type) with true. cbv iota.
    inversion Ia as [|l n bs Hn F]; subst. inversion F as [|? c ? ? Ic F']; subst. inversion F'; subst. cbn [concat].
    rewrite app_nil_r, <- app_assoc.
    apply y_bind with 1; [exact (y_array 1 n Hn)|]. change (1 <? 1) with false. change (1 =? 1) with true. cbv iota.
    apply y_bind with v; [exact (y_int v c Ic)|]. apply y_last with tt; [exact (y_skip extra x V)|]. apply y_ret.
  - refine (y_typed 20 2 t a b' _ _ Ob It eq_refl eq_refl _). intros extra x V.
    change (20 =? default_agg_type) with false. change (20 =? short_agg_type) with false.
    change (20 =? long_agg_type) with true. cbv iota.
    inversion Ia as [|l n bs Hn F]; subst.
    + apply y_bind with (-1); [apply y_prim; intros; reflexivity|]. change (1 <? -1) with false. change (-1 =? 1) with false. cbv iota.
      apply y_last with tt; [exact (y_skip extra x V)|]. apply y_ret.
    + inversion F; subst. cbn [concat]. rewrite app_nil_r.
      apply y_bind with 0; [exact (y_array 0 n Hn)|]. change (1 <? 0) with false. change (0 =? 1) with false. cbv iota.
      apply y_last with tt; [exact (y_skip extra x V)|]. apply y_ret.
Qed.

Lemma y_policy p b : policy_as p b -> yields dec_policy p b.
Proof.
  intros (x & y & X & Y & Ob). unfold dec_policy. refine (y_object 21 2 (x ++ y) b _ _ Ob eq_refl _).
  intros extra e V. rewrite <- app_assoc.
  apply y_bind with (p_storage p); [exact (y_sp _ x X)|]. apply y_bind with (p_agg p); [exact (y_agg _ y Y)|].
  apply y_last with tt; [exact (y_skip extra e V)|]. destruct p. apply y_ret.
Qed.

Lemma y_staged s b : staged_as s b -> yields dec_staged s b.
Proof.
  intros (x & y & z & X & Y & Z & Ob). unfold dec_staged. refine (y_object 12 3 (x ++ y ++ z) b _ _ Ob eq_refl _).
  intros extra e V. rewrite <- !app_assoc.
  apply y_bind with (stp_cutover s); [exact (y_int _ x X)|].
  apply y_bind with (stp_tombstoned s); [exact (y_bool _ y Y)|].
  apply (y_list dec_policy policy_as (stp_policies s) z y_policy Z).
  apply y_last with tt; [exact (y_skip extra e V)|]. destruct s. apply y_ret.
Qed.

Lemma y_policies_list l b old : policies_list_as l b -> yields (dec_policies_list old) l b.
Proof.
  intros [t b' It Ob|l' t a b' It Ia Ob]; unfold dec_policies_list.
  - assert (object 1 (t ++ []) b') as Ob' by (rewrite app_nil_r; exact Ob).
    refine (y_typed 10 1 t [] b' _ _ Ob' It eq_refl eq_refl _). intros extra x V. cbn [app].
    change (10 =? default_pl_type) with true. cbv iota.
    apply y_last with tt; [exact (y_skip extra x V)|]. apply y_ret.
  - refine (y_typed 11 2 t a b' _ _ Ob It eq_refl eq_refl _). intros extra x V.
    change (11 =? default_pl_type) with false. change (11 =? custom_pl_type) with true. cbv iota.
    apply (y_list dec_staged staged_as l' a y_staged Ia).
    apply y_last with tt; [exact (y_skip extra x V)|]. apply y_ret.
Qed.

(** * Unaggregated messages *)

Lemma y_body m b old t : sample_as m b -> t = plain_code m \/ t = policies_code m ->
  exists u, shown u = Some m /\ yields (dec_body t old) u b.
Proof.
  intros [id v x y b' X Y Ob|id vs x y b' X Y Ob|id v x y b' X Y Ob] T.
  - exists (mk_mu 1 id v (mu_timer old) (mu_gauge old)). split; [reflexivity|].
    assert (dec_body t old = dec_counter old) as -> by (destruct T as [->| ->]; reflexivity).
    unfold dec_counter. refine (y_object 6 2 (x ++ y) b' _ _ Ob eq_refl _). intros extra e V. rewrite <- app_assoc.
    apply y_bind with id; [exact (y_id id x X)|]. apply y_bind with v; [exact (y_int v y Y)|].
    apply y_last with tt; [exact (y_skip extra e V)|]. apply y_ret.
  - exists (mk_mu 2 id (mu_counter old) vs (mu_gauge old)). split; [reflexivity|].
    assert (dec_body t old = dec_timer old) as -> by (destruct T as [->| ->]; reflexivity).
    unfold dec_timer. refine (y_object 7 2 (x ++ y) b' _ _ Ob eq_refl _). intros extra e V. rewrite <- app_assoc.
    apply y_bind with id; [exact (y_id id x X)|]. apply (y_list dec_float64 float_as vs y y_float Y).
    apply y_last with tt; [exact (y_skip extra e V)|]. apply y_ret.
  - exists (mk_mu 3 id (mu_counter old) (mu_timer old) v). split; [reflexivity|].
    assert (dec_body t old = dec_gauge old) as -> by (destruct T as [->| ->]; reflexivity).
    unfold dec_gauge. refine (y_object 8 2 (x ++ y) b' _ _ Ob eq_refl _). intros extra e V. rewrite <- app_assoc.
    apply y_bind with id; [exact (y_id id x X)|]. apply y_bind with v; [exact (y_float v y Y)|].
    apply y_last with tt; [exact (y_skip extra e V)|]. apply y_ret.
Qed.

(** A message: its version, and what [dec_object] makes of the rest. *)
Lemma y_message mm b : message_as mm b -> exists v w b', b = w ++ b' /\ v <= 1 /\ int_as v w /\
  forall old pl, exists u pl', shown u = Some (fst mm) /\
    match snd mm with None => pl' = pl | Some l => pl' = l end /\ yields (dec_object old pl) (u, pl') b'.
Proof.
  intros [m v t x b' w V Iw It S Ob|m l v t x y z b' w V Iw It S P Oz Ob]; exists v, w, b';
    (split; [reflexivity|]); (split; [exact V|]); (split; [exact Iw|]); intros old pl; cbn [fst snd].
  - destruct (y_body m x old (plain_code m) S (or_introl eq_refl)) as (u & Su & Yu). exists u, pl.
    split; [exact Su|]. split; [reflexivity|]. unfold dec_object.
    refine (y_object 1 2 (t ++ x) b' _ _ Ob eq_refl _). intros extra e Ve. rewrite <- app_assoc.
    apply y_bind with (plain_code m); [apply y_type; [exact It|destruct m; reflexivity]|].
    apply y_then with None; [apply y_err|].
    replace ((plain_code m =? counter_type) || (plain_code m =? timer_type) || (plain_code m =? gauge_type)) with true
      by (destruct m; reflexivity).
    apply y_bind with (u, pl).
    + unfold dec_plain. apply y_last with u; [exact Yu|]. apply y_ret.
    + apply y_last with tt; [exact (y_skip extra e Ve)|]. apply y_ret.
  - destruct (y_body m x old (policies_code m) S (or_intror eq_refl)) as (u & Su & Yu). exists u, l.
    split; [exact Su|]. split; [reflexivity|]. unfold dec_object.
    refine (y_object 1 2 (t ++ z) b' _ _ Ob eq_refl _). intros extra e Ve. rewrite <- app_assoc.
    apply y_bind with (policies_code m); [apply y_type; [exact It|destruct m; reflexivity]|].
    apply y_then with None; [apply y_err|].
    replace ((policies_code m =? counter_type) || (policies_code m =? timer_type) || (policies_code m =? gauge_type))
      with false by (destruct m; reflexivity).
    replace ((policies_code m =? counter_pl_type) || (policies_code m =? timer_pl_type) ||
      (policies_code m =? gauge_pl_type)) with true by (destruct m; reflexivity).
    apply y_bind with (u, l).
    + unfold dec_with_policies. refine (y_object (policies_code m) 2 (x ++ y) z _ _ Oz _ _); [destruct m; reflexivity|].
      intros extra' e' Ve'. rewrite <- app_assoc. apply y_bind with u; [exact Yu|].
      apply y_bind with l; [exact (y_policies_list l y pl P)|].
      apply y_last with tt; [exact (y_skip extra' e' Ve')|]. apply y_ret.
    + apply y_last with tt; [exact (y_skip extra e Ve)|]. apply y_ret.
Qed.

(** * Encoders *)

Lemma object_plain n body : 0 <= n < 16 -> object n body (mp_array_len n ++ body).
Proof.
  intros H. exists 0%nat, (mp_array_len n), []. split; [rewrite Z.add_0_r; apply mp_array_as; lia|].
  split; [constructor|]. rewrite app_nil_r. reflexivity.
Qed.

Lemma seq_written {A} (r : A -> bytes -> Prop) (enc : A -> bytes) l : zlen l < 2 ^ 32 ->
  Forall (fun a => r a (enc a)) l -> seq_as r l (mp_array_len (zlen l) ++ concat (map enc l)).
Proof.
  intros L F. pose proof (zlen_nonneg l). apply seq_array; [apply mp_array_as; lia|].
  clear L. induction F as [|a l Ha F IH]; constructor; [exact Ha|]. apply IH. apply zlen_nonneg.
Qed.

Lemma abbreviated_resolution_value r v : value_of_resolution r = Some v ->
  abbreviated_resolution v = Some (r_window r, r_precision r) /\ is_int64 v.
Proof.
  unfold value_of_resolution, known_resolutions. destruct r as [w p]. cbn [find snd fst].
  unfold resolution_eqb. cbn [r_window r_precision]. intros H.
  repeat match type of H with
  | option_map _ (if ?c then _ else _) = _ =>
      let E := fresh "E" in destruct c eqn:E;
      [apply andb_prop in E as [Ew Ep]; apply Z.eqb_eq in Ew, Ep; injection H as <-; subst; split; [reflexivity|];
       unfold is_int64; lia|]
  end. discriminate H.
Qed.
Lemma abbreviated_retention_value t v : value_of_retention t = Some v ->
  abbreviated_retention v = Some t /\ is_int64 v.
Proof.
  unfold value_of_retention, known_retentions. cbn [find snd fst]. intros H.
  repeat match type of H with
  | option_map _ (if ?c then _ else _) = _ =>
      let E := fresh "E" in destruct c eqn:E;
      [apply Z.eqb_eq in E; injection H as <-; subst; split; [reflexivity|]; unfold is_int64; lia|]
  end. discriminate H.
Qed.

Ltac tag64 := apply mp_int_as; unfold is_int64; first [lia|vm_compute; split; [discriminate|reflexivity]].

Lemma enc_resolution_as p : sp_sendable p -> resolution_as (sp_resolution p) (enc_resolution (sp_resolution p)).
Proof.
  intros (Ok & W & _). unfold enc_resolution. destruct (value_of_resolution (sp_resolution p)) as [v|] eqn:E.
  - apply abbreviated_resolution_value in E as [E V]. destruct (sp_resolution p) as [w u]. cbn [r_window r_precision] in *.
    apply (resolution_known v w u (enc_type known_res_type) (mp_int v)); [exact E|tag64|exact (mp_int_as v V)|].
    apply (object_plain 2). lia.
  - assert (1 <= r_precision (sp_resolution p) <= 8) as P.
    { exact Ok. }
    destruct (sp_resolution p) as [w u]. cbn [r_window r_precision] in *.
    assert (M : u mod 256 = u) by (apply Z.mod_small; lia). rewrite <- M at 1.
    apply (resolution_full w u (enc_type unknown_res_type) (mp_int w) (mp_int u));
      [lia|tag64|exact (mp_int_as w W)|tag64|]. apply (object_plain 3). lia.
Qed.

Lemma enc_retention_as t : is_int64 t -> retention_as t (enc_retention t).
Proof.
  intros T. unfold enc_retention. destruct (value_of_retention t) as [v|] eqn:E.
  - apply abbreviated_retention_value in E as [E V].
    apply (retention_known v t (enc_type known_ret_type) (mp_int v)); [exact E|tag64|exact (mp_int_as v V)|].
    apply (object_plain 2). lia.
  - apply (retention_full t (enc_type unknown_ret_type) (mp_int t)); [tag64|exact (mp_int_as t T)|].
    apply (object_plain 2). lia.
Qed.

Lemma enc_sp_as p : sp_sendable p -> sp_as p (enc_storage_policy p).
Proof.
  intros S. exists (enc_resolution (sp_resolution p)), (enc_retention (sp_retention p)).
  split; [exact (enc_resolution_as p S)|]. split; [apply enc_retention_as; apply S|]. apply (object_plain 2). lia.
Qed.

Lemma enc_agg_as id : is_agg_id id -> agg_as id (enc_agg id).
Proof.
  intros H. unfold enc_agg, id_is_default. destruct (N.eqb_spec id default_id) as [->|Ne].
  - apply (agg_default (enc_type default_agg_type)); [tag64|]. apply (object_plain 1). lia.
  - assert (0 <= Z.of_N id < 2 ^ 64) as R by (unfold is_agg_id in H; lia).
    assert (id = Z.to_N (to_int64 (Z.of_N id) mod 2 ^ 64)) as E.
    { unfold to_int64. rewrite Zminus_mod_idemp_l. rewrite Z.add_simpl_r, Z.mod_small by exact R.
      rewrite N2Z.id. reflexivity. }
    rewrite E at 1. apply (agg_short _ (enc_type short_agg_type) (mp_int (to_int64 (Z.of_N id)))).
    + tag64.
    + apply mp_int_as. exact (to_int64_range (Z.of_N id)).
    + apply (object_plain 2). lia.
Qed.

Lemma enc_policy_as p : policy_sendable p -> policy_as p (enc_policy p).
Proof.
  intros [S A]. exists (enc_storage_policy (p_storage p)), (enc_agg (p_agg p)).
  split; [exact (enc_sp_as _ S)|]. split; [exact (enc_agg_as _ A)|]. apply (object_plain 2). lia.
Qed.

Lemma enc_staged_as s : staged_sendable s -> staged_as s (enc_staged s).
Proof.
  intros (C & L & F). exists (mp_int (stp_cutover s)), (mp_bool (stp_tombstoned s)),
    (mp_array_len (zlen (stp_policies s)) ++ concat (map enc_policy (stp_policies s))).
  split; [exact (mp_int_as _ C)|]. split; [apply mp_bool_as|]. split.
  - apply seq_written; [exact L|]. eapply Forall_impl; [|exact F]. exact enc_policy_as.
  - apply (object_plain 3). lia.
Qed.

Lemma default_list l : policies_list_is_default l = true ->
  l = [{| stp_cutover := 0; stp_tombstoned := false; stp_policies := [] |}].
Proof.
  destruct l as [|[c b ps] [|]]; try discriminate. unfold policies_list_is_default, stp_is_default.
  cbn [stp_cutover stp_tombstoned stp_policies]. intros H. apply andb_prop in H as [H P]. apply andb_prop in H as [C T].
  apply Z.eqb_eq in C as ->. destruct b; [discriminate|]. destruct ps; [reflexivity|discriminate].
Qed.

Lemma enc_policies_list_as l : policies_sendable l -> policies_list_as l (enc_policies_list l).
Proof.
  intros [L F]. unfold enc_policies_list. destruct (policies_list_is_default l) eqn:E.
  - rewrite (default_list l E). apply (policies_default (enc_type default_pl_type)); [tag64|].
    apply (object_plain 1). lia.
  - apply (policies_custom l (enc_type custom_pl_type) (mp_array_len (zlen l) ++ concat (map enc_staged l))).
    + tag64.
    + apply seq_written; [exact L|]. eapply Forall_impl; [|exact F]. exact enc_staged_as.
    + apply (object_plain 2). lia.
Qed.

Lemma enc_metric_as m : metric_sendable m -> sample_as (content m) (enc_metric m).
Proof.
  destruct m as [id v|id vs|id v]; cbn [metric_sendable content enc_metric].
  - intros [I V]. apply (counter_as _ _ (mp_bytes id) (mp_int v)); [exact (mp_bytes_as id I)|exact (mp_int_as v V)|].
    apply (object_plain 2). lia.
  - intros (I & L & F). apply (timer_as _ _ (mp_bytes id) (mp_array_len (zlen vs) ++ concat (map mp_float64 vs))).
    + exact (mp_bytes_as id I).
    + apply seq_written; [exact L|]. eapply Forall_impl; [|exact F]. exact mp_float_as.
    + apply (object_plain 2). lia.
  - intros [I V]. apply (gauge_as _ _ (mp_bytes id) (mp_float64 v)); [exact (mp_bytes_as id I)|exact (mp_float_as v V)|].
    apply (object_plain 2). lia.
Qed.

Lemma encode_input_as i : input_sendable i -> message_as (input_message i) (encode_input i).
Proof.
  intros [M P]. unfold input_message, encode_input. destruct i as [m [l|]]; cbn [fst snd] in *.
  - pose proof (enc_metric_as m M) as X. pose proof (enc_policies_list_as l P) as Y.
    assert (exists t, encode_with_policies m l = mp_int 1 ++ mp_array_len 2 ++ mp_int t ++
      mp_array_len 2 ++ enc_metric m ++ enc_policies_list l /\ t = policies_code (content m) /\ is_int64 t)
      as (t & -> & -> & T) by (destruct m; eexists; (split; [reflexivity|split; [reflexivity|vm_compute; split; [discriminate|reflexivity]]])).
    apply (with_policies_as (content m) l 1 (mp_int (policies_code (content m))) (enc_metric m) (enc_policies_list l)
      (mp_array_len 2 ++ enc_metric m ++ enc_policies_list l)); [lia|tag64|exact (mp_int_as _ T)|exact X|exact Y| |].
    + apply object_plain. lia.
    + apply object_plain. lia.
  - pose proof (enc_metric_as m M) as X.
    assert (exists t, encode_plain m = mp_int 1 ++ mp_array_len 2 ++ mp_int t ++ enc_metric m /\
      t = plain_code (content m) /\ is_int64 t)
      as (t & -> & -> & T) by (destruct m; eexists; (split; [reflexivity|split; [reflexivity|vm_compute; split; [discriminate|reflexivity]]])).
    apply (plain_as (content m) 1 (mp_int (plain_code (content m))) (enc_metric m));
      [lia|tag64|exact (mp_int_as _ T)|exact X|]. apply object_plain. lia.
Qed.
