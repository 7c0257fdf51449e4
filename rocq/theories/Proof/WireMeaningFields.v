(** Reading a message field by field: the fields of every pattern as lenses, and the reading of a whole message. *)
From Coq Require Import Ascii String NArith ZArith Bool Arith Lia List.
From Verif.Base Require Import Bytes BytesFacts.
From Verif.Proof Require Import ProtoWireProof MessagesProof ProtoSafeProof WireProof WireMeaning.
From Verif.Model Require Import Policy Transformation Pipeline Metadata Rules RuleSetProto Namespace ProtoWire Messages
  RuleWire.
From Verif.Spec Require Import WireSpec WireMeaningSpec.
Import ListNotations.
Local Open Scope Z_scope.

(** * Lenses *)

(** The part of a message that one field holds, and what an occurrence of the field does to it. *)
Record part (M : Type) := mk_part {
  p_num : Z; p_shape : shape; p_val : Type;
  p_get : M -> p_val; p_set : p_val -> M -> M; p_step : item -> p_val -> p_val -> Prop }.
Arguments mk_part {M} _ _ _ _ _ _.
Arguments p_num {M} _.
Arguments p_shape {M} _.
Arguments p_val {M} _.
Arguments p_get {M} _ _.
Arguments p_set {M} _ _ _.
Arguments p_step {M} _ _ _ _.

(** The parts of a message.  (A list of its own: the universe of [list] is already used for the messages.) *)
Inductive parts (M : Type) := pnil | pcons (p : part M) (ps : parts M).
Arguments pnil {M}.
Arguments pcons {M} _ _.
Declare Scope parts_scope.
Delimit Scope parts_scope with parts.
Bind Scope parts_scope with parts.
Notation "[ x ; y ; .. ; z ]" := (pcons x (pcons y .. (pcons z pnil) ..)) : parts_scope.
Notation "[ x ]" := (pcons x pnil) : parts_scope.

Fixpoint table_of {M} (ps : parts M) : list (Z * shape) :=
  match ps with pnil => [] | pcons p ps => (p_num p, p_shape p) :: table_of ps end.
Fixpoint nums {M} (ps : parts M) : list Z :=
  match ps with pnil => [] | pcons p ps => p_num p :: nums ps end.
Fixpoint part_in {M} (p : part M) (ps : parts M) : Prop :=
  match ps with pnil => False | pcons q ps => q = p \/ part_in p ps end.
Fixpoint all_parts {M} (P : part M -> Prop) (ps : parts M) : Prop :=
  match ps with pnil => True | pcons p ps => P p /\ all_parts P ps end.

Lemma all_parts_forall {M} (P : part M -> Prop) ps : all_parts P ps <-> forall p, part_in p ps -> P p.
Proof.
  induction ps as [|q ps IH]; cbn [all_parts part_in]; [split; [intros _ p []|auto]|]. rewrite IH. split.
  - intros [H1 H2] p [<-|I]; auto.
  - intros H. split; [apply H; auto|]. intros p I. apply H. auto.
Qed.
Lemma part_in_nums {M} (p : part M) ps : part_in p ps -> In (p_num p) (nums ps).
Proof. induction ps as [|q ps IH]; intros I; [destruct I|]. destruct I as [->|I]; [left; reflexivity|right; auto]. Qed.
Lemma nums_part_in {M} n (ps : parts M) : In n (nums ps) -> exists p, p_num p = n /\ part_in p ps.
Proof.
  induction ps as [|q ps IH]; intros I; [destruct I|]. destruct I as [<-|I].
  - exists q. split; [reflexivity|left; reflexivity].
  - destruct (IH I) as (p & E & J). exists p. split; [exact E|right; exact J].
Qed.
Lemma part_unique {M} (ps : parts M) p q : NoDup (nums ps) -> part_in p ps -> part_in q ps -> p_num p = p_num q -> p = q.
Proof.
  intros Nd. induction ps as [|a ps IH]; intros Ip Iq E; [destruct Ip|]. cbn [nums] in Nd. inversion Nd as [|? ? Nn Nd']; subst.
  destruct Ip as [->|Ip], Iq as [->|Iq]; auto.
  - exfalso. apply Nn. rewrite E. apply part_in_nums, Iq.
  - exfalso. apply Nn. rewrite <- E. apply part_in_nums, Ip.
Qed.

(** The fields of a message, one after the other. *)
Inductive runs {M} (ps : parts M) : list (Z * item) -> M -> M -> Prop :=
| runs_nil m : runs ps [] m m
| runs_cons p it x l m m' : part_in p ps -> p_step p it (p_get p m) x -> runs ps l (p_set p x m) m' ->
    runs ps ((p_num p, it) :: l) m m'.

(** * Fields do what their parts say *)

Definition field_part {M} (f : field M) (p : part M) : Prop :=
  f_num f = p_num p /\
  (forall l wt v rest it x m, zlen (v ++ rest) <= l < 2 ^ 63 -> holds (p_shape p) wt v it -> p_step p it (p_get p m) x ->
    f_dec f l wt (v ++ rest) m = Ok (p_set p x m, rest)) /\
  (forall V l wt d m m' rest, 8 <= V -> small V d -> zlen d <= l -> l + V < 2 ^ 63 -> f_dec f l wt d m = Ok (m', rest) ->
    exists v it x, d = v ++ rest /\ holds (p_shape p) wt v it /\ p_step p it (p_get p m) x /\ m' = p_set p x m).

Definition int_part {M T} (num : Z) (conv : Z -> T) (get : M -> T) (set : T -> M -> M) : part M :=
  mk_part num AnInt T get set (fun it _ y => exists v, it = Number v /\ y = conv v).
Definition double_part {M} (num : Z) (get : M -> Z) (set : Z -> M -> M) : part M :=
  mk_part num ADouble Z get set (fun it _ y => it = Eight y).
Definition bytes_part {M} (num : Z) (get : M -> bytes) (set : bytes -> M -> M) : part M :=
  mk_part num ABlock bytes get set (fun it _ y => it = Block y).
Definition strings_part {M} (num : Z) (get : M -> list bytes) (set : list bytes -> M -> M) : part M :=
  mk_part num ABlock (list bytes) get set (fun it x y => exists b, it = Block b /\ y = x ++ [b]).
Definition list_part {M} (num : Z) (k : shape) (get : M -> list Z) (set : list Z -> M -> M) : part M :=
  mk_part num k (list Z) get set (fun it x y => exists vs, it = Several vs /\ y = x ++ vs).
(** An embedded message is read into [start] of what is there; [put] puts it back. *)
Definition msg_part {M S T} (num : Z) (ps : parts S) (get : M -> T) (set : T -> M -> M) (start : T -> S) (put : T -> S -> T)
  : part M :=
  mk_part num ABlock T get set (fun it x y => exists b l s, it = Block b /\ parsed (table_of ps) b l /\ runs ps l (start x) s /\ y = put x s).

Lemma field_int {M T} num conv (get' : M -> Z) set' (g : Z -> T) get set :
  (forall v m, set' (conv v) m = set (g v) m) -> field_part (varint_field num conv get' set') (int_part num g get set).
Proof.
  intros H. split; [reflexivity|]. split.
  - intros l wt v rest it x m B Ho (w & E & ->). cbn [p_shape int_part] in Ho. inversion Ho as [d w' Vd| | | | | |]; subst. injection H3 as ->.
    cbn [f_dec varint_field Z.eqb negb]. rewrite (varint_dec v w rest Vd). cbn [bind p_set int_part]. rewrite H. reflexivity.
  - intros V l wt d m m' rest V8 Sm Ld L E. cbn [f_dec varint_field] in E. destruct (wt =? 0) eqn:W; [|discriminate].
    apply Z.eqb_eq in W. subst wt. cbn [negb] in E. destruct (dec_varint d) as [[v r]| |] eqn:D; try discriminate.
    cbn [bind] in E. injection E as <- <-. apply dec_varint_iff in D as (p & -> & Vp). exists p, (Number v), (g v).
    split; [reflexivity|]. split; [exact (holds_int p v Vp)|]. split; [exists v; auto|]. apply H.
Qed.

Lemma field_double {M} num (get : M -> Z) set : field_part (double_field num get set) (double_part num get set).
Proof.
  split; [reflexivity|]. split.
  - intros l wt v rest it x m B Ho St. cbn [p_shape p_step double_part] in *. subst it. inversion Ho as [|d w A| | | | |]; subst.
    cbn [f_dec double_field Z.eqb Pos.eqb negb]. rewrite (proj2 (a_double_iff (v ++ rest) x rest)) by eauto. reflexivity.
  - intros V l wt d m m' rest V8 Sm Ld L E. cbn [f_dec double_field] in E. destruct (wt =? 1) eqn:W; [|discriminate].
    apply Z.eqb_eq in W. subst wt. cbn [negb] in E. destruct (get_le 8 d) as [[v r]|] eqn:D; [|discriminate].
    injection E as <- <-. apply a_double_iff in D as (p & -> & A). exists p, (Eight v), v.
    split; [reflexivity|]. split; [exact (holds_double p v A)|]. split; reflexivity.
Qed.

Lemma field_bytes {M} num (get : M -> bytes) set : field_part (bytes_field num get set) (bytes_part num get set).
Proof.
  split; [reflexivity|]. split.
  - intros l wt v rest it x m B Ho St. cbn [p_shape p_step bytes_part] in *. subst it. inversion Ho as [| |p b A| | | |]; subst.
    cbn [f_dec bytes_field Z.eqb Pos.eqb negb]. rewrite (block_dec l p x rest A B). reflexivity.
  - intros V l wt d m m' rest V8 Sm Ld L E. cbn [f_dec bytes_field] in E. destruct (wt =? 2) eqn:W; [|discriminate].
    apply Z.eqb_eq in W. subst wt. cbn [negb] in E. destruct (dec_bytes l d) as [[b r]| |] eqn:D; try discriminate.
    cbn [bind] in E. injection E as <- <-. apply (block_of V l d b r V8 Sm Ld L) in D as (p & -> & A). exists (p ++ b), (Block b), b.
    split; [reflexivity|]. split; [exact (holds_block p b A)|]. split; reflexivity.
Qed.

Lemma field_strings {M} num (get : M -> list bytes) set : field_part (strings_field num get set) (strings_part num get set).
Proof.
  split; [reflexivity|]. split.
  - intros l wt v rest it x m B Ho (b0 & E & ->). cbn [p_shape p_get strings_part] in *. subst it. inversion Ho as [| |p b A| | | |]; subst.
    cbn [f_dec strings_field Z.eqb Pos.eqb negb]. rewrite (block_dec l p b0 rest A B). reflexivity.
  - intros V l wt d m m' rest V8 Sm Ld L E. cbn [f_dec strings_field] in E. destruct (wt =? 2) eqn:W; [|discriminate].
    apply Z.eqb_eq in W. subst wt. cbn [negb] in E. destruct (dec_bytes l d) as [[b r]| |] eqn:D; try discriminate.
    cbn [bind] in E. injection E as <- <-. apply (block_of V l d b r V8 Sm Ld L) in D as (p & -> & A). exists (p ++ b), (Block b), (get m ++ [b]).
    split; [reflexivity|]. split; [exact (holds_block p b A)|]. split; [exists b; auto|reflexivity].
Qed.

Lemma packed_bound element n vs d : packed element n vs d -> n <= zlen d.
Proof. intros (ds & -> & _ & L & _). exact L. Qed.

Lemma field_doubles {M} num (get : M -> list Z) set : field_part (doubles_field num get set) (list_part num SomeDoubles get set).
Proof.
  split; [reflexivity|]. split.
  - intros l wt v rest it x m B Ho (vs0 & E & ->). cbn [p_shape p_get list_part] in *. subst it.
    inversion Ho as [| | |d w A|p n d vs A P| |]; subst.
    + cbn [f_dec doubles_field Z.eqb Pos.eqb]. rewrite (proj2 (a_double_iff (v ++ rest) w rest)) by eauto. reflexivity.
    + cbn [f_dec doubles_field Z.eqb Pos.eqb]. apply announces_dec in A as (w & Vp & E & N). pose proof (packed_bound _ _ _ _ P).
      rewrite <- app_assoc in *. rewrite (varint_dec p w _ Vp). cbn [bind]. cbv zeta. rewrite E. rewrite !zlen_app in *.
      pose proof (zlen_nonneg p). pose proof (zlen_nonneg rest). rewrite (proj2 (Z.ltb_ge _ 0)) by lia. rewrite to_int64_id by lia.
      rewrite (proj2 (Z.ltb_ge l _)) by lia.
      replace (l - (zlen d + zlen rest) + n - (l - (zlen d + zlen rest))) with n by lia.
      rewrite (proj2 (dec_packed_iff (S (length (d ++ rest))) n (d ++ rest) (get m) (get m ++ vs0) rest ltac:(lia))); [reflexivity|]. eauto.
  - intros V l wt d m m' rest V8 Sm Ld L E. cbn [f_dec doubles_field] in E. destruct (wt =? 1) eqn:W1.
    + apply Z.eqb_eq in W1. subst wt. destruct (get_le 8 d) as [[v r]|] eqn:D; [|discriminate].
      injection E as <- <-. apply a_double_iff in D as (p & -> & A). exists p, (Several [v]), (get m ++ [v]).
      split; [reflexivity|]. split; [exact (holds_one_double p v A)|]. split; [exists [v]; auto|reflexivity].
    + destruct (wt =? 2) eqn:W2; [|discriminate]. apply Z.eqb_eq in W2. subst wt.
      destruct (dec_varint d) as [[v r]| |] eqn:D; try discriminate. cbn [bind] in E. cbv zeta in E.
      pose proof (small_head V d _ _ Sm D). pose proof (dec_varint_shorter _ _ _ D). pose proof (zlen_nonneg r).
      destruct (to_int64 v <? 0) eqn:Neg; [discriminate|]. apply Z.ltb_ge in Neg. rewrite to_int64_id in E by lia.
      destruct (l <? _) eqn:C; [discriminate|]. replace (l - zlen r + to_int64 v - (l - zlen r)) with (to_int64 v) in E by lia.
      destruct (dec_packed _ _ r (get m)) as [[vs r2]| |] eqn:Dp; try discriminate. cbn [bind] in E. injection E as <- <-.
      apply dec_packed_iff in Dp as (ws & q & -> & -> & P); [|lia]. apply dec_varint_iff in D as (p & -> & Vp).
      exists (p ++ q), (Several ws), (get m ++ ws). split; [rewrite <- app_assoc; reflexivity|].
      split; [exact (holds_doubles p _ q ws (announces_of p v Vp Neg) P)|]. split; [exists ws; auto|reflexivity].
Qed.

Lemma field_enums {M} num (get : M -> list Z) set : field_part (enums_field num get set) (list_part num SomeEnums get set).
Proof.
  split; [reflexivity|]. split.
  - intros l wt v rest it x m B Ho (vs0 & E & ->). cbn [p_shape p_get list_part] in *. subst it.
    inversion Ho as [| | | | |d w A|p n d vs A P]; subst.
    + cbn [f_dec enums_field Z.eqb]. destruct (proj2 (an_enum_iff (v ++ rest) w rest)) as (y & D & ->); [eauto|]. rewrite D. reflexivity.
    + cbn [f_dec enums_field Z.eqb Pos.eqb]. apply announces_dec in A as (w & Vp & E & N). pose proof (packed_bound _ _ _ _ P).
      rewrite <- app_assoc in *. rewrite (varint_dec p w _ Vp). cbn [bind]. cbv zeta. rewrite E. rewrite !zlen_app in *.
      pose proof (zlen_nonneg p). pose proof (zlen_nonneg rest). rewrite (proj2 (Z.ltb_ge _ 0)) by lia. rewrite to_int64_id by lia.
      rewrite (proj2 (Z.ltb_ge l _)) by lia.
      replace (l - (zlen d + zlen rest) + n - (l - (zlen d + zlen rest))) with n by lia.
      rewrite (proj2 (dec_enums_iff (S (length (d ++ rest))) n (d ++ rest) (get m) (get m ++ vs0) rest ltac:(lia))); [reflexivity|]. eauto.
  - intros V l wt d m m' rest V8 Sm Ld L E. cbn [f_dec enums_field] in E. destruct (wt =? 0) eqn:W1.
    + apply Z.eqb_eq in W1. subst wt. destruct (dec_varint d) as [[v r]| |] eqn:D; try discriminate. cbn [bind] in E.
      injection E as <- <-. destruct (proj1 (an_enum_iff d (to_int32 v) r)) as (p & -> & A); [eauto|].
      exists p, (Several [to_int32 v]), (get m ++ [to_int32 v]).
      split; [reflexivity|]. split; [exact (holds_one_enum p _ A)|]. split; [exists [to_int32 v]; auto|reflexivity].
    + destruct (wt =? 2) eqn:W2; [|discriminate]. apply Z.eqb_eq in W2. subst wt.
      destruct (dec_varint d) as [[v r]| |] eqn:D; try discriminate. cbn [bind] in E. cbv zeta in E.
      pose proof (small_head V d _ _ Sm D). pose proof (dec_varint_shorter _ _ _ D). pose proof (zlen_nonneg r).
      destruct (to_int64 v <? 0) eqn:Neg; [discriminate|]. apply Z.ltb_ge in Neg. rewrite to_int64_id in E by lia.
      destruct (l <? _) eqn:C; [discriminate|]. replace (l - zlen r + to_int64 v - (l - zlen r)) with (to_int64 v) in E by lia.
      destruct (dec_enums _ _ r (get m)) as [[vs r2]| |] eqn:Dp; try discriminate. cbn [bind] in E. injection E as <- <-.
      apply dec_enums_iff in Dp as (ws & q & -> & -> & P); [|lia]. apply dec_varint_iff in D as (p & -> & Vp).
      exists (p ++ q), (Several ws), (get m ++ ws). split; [rewrite <- app_assoc; reflexivity|].
      split; [exact (holds_enums p _ q ws (announces_of p v Vp Neg) P)|]. split; [exists ws; auto|reflexivity].
Qed.

(** * Whole messages *)

Inductive matched {M} : list (field M) -> parts M -> Prop :=
| matched_nil : matched [] pnil
| matched_cons f p fs ps : field_part f p -> matched fs ps -> matched (f :: fs) (pcons p ps).

Lemma shape_of_find {M} (fs : list (field M)) (ps : parts M) n : matched fs ps ->
  match find_field fs n with
  | Some f => exists p, part_in p ps /\ p_num p = n /\ field_part f p /\ shape_of (table_of ps) n = Some (p_shape p)
  | None => shape_of (table_of ps) n = None
  end.
Proof.
  intros F. unfold find_field, shape_of. induction F as [|f p fs ps H F IH]; [reflexivity|].
  cbn [find table_of fst]. pose proof (proj1 H) as E. rewrite E. destruct (p_num p =? n) eqn:C.
  - apply Z.eqb_eq in C. exists p. split; [left; reflexivity|]. auto.
  - destruct (find (fun f => f_num f =? n) fs) as [g|].
    + destruct IH as (q & I & N & FP & S). exists q. split; [right; exact I|]. auto.
    + exact IH.
Qed.

Lemma unmarshal_complete {M} (fs : list (field M)) ps : matched fs ps -> NoDup (nums ps) ->
  forall d l, parsed (table_of ps) d l -> forall m m', runs ps l m m' ->
  forall len fuel, zlen d <= len < 2 ^ 63 -> (length d <= fuel)%nat -> unmarshal_loop fs len fuel d m = Ok m'.
Proof.
  intros F Nd d l P. induction P as [|t n wt k v it d l (x & Vt & -> & En) N Sh Ho P IH|t n wt v d l (x & Vt & -> & En) N Sh Pa P IH];
    intros m m' R len fuel B Fu.
  - inversion R; subst. destruct fuel; reflexivity.
  - pose proof (varint_nonempty _ _ Vt) as Nt. rewrite !app_length in Fu. destruct fuel as [|fuel]; [lia|].
    assert (unmarshal_loop fs len (S fuel) (t ++ v ++ d) m =
      bind (dec_varint (t ++ v ++ d)) (fun '(wire, rest) =>
          let num := to_int32 (u64 wire / 8) in
          let wt := wire mod 8 in
          if wt =? 4 then Err
          else if num <=? 0 then Err
          else
            match find_field fs num with
            | Some f => bind (f_dec f len wt rest m) (fun '(m, rest) => unmarshal_loop fs len fuel rest m)
            | None =>
                bind (skip_field (S (length (t ++ v ++ d))) (t ++ v ++ d)) (fun n =>
                if n <? 0 then Err
                else
                  let i := to_int64 (len - zlen (t ++ v ++ d) + n) in
                  if len <? i then Err
                  else if i <? 0 then Panic
                  else unmarshal_loop fs len fuel (skipn (Z.to_nat n) (t ++ v ++ d)) m)
            end)) as -> by (destruct t; [cbn in Nt; lia|reflexivity]).
    rewrite (varint_dec t x _ Vt). cbn [bind]. cbv zeta. unfold u64. rewrite <- signed32, <- En.
    assert (x mod 8 =? 4 = false) as -> by (apply Z.eqb_neq; intros Q; rewrite Q in Ho; inversion Ho).
    rewrite (proj2 (Z.leb_gt n 0)) by exact N. pose proof (shape_of_find fs ps n F) as K.
    destruct (find_field fs n) as [f|]; [|congruence]. destruct K as (p & Ip & Np & FP & Sp). rewrite Sp in Sh. injection Sh as <-.
    inversion R as [|p' it' y l' m0 m0' Ip' St R' E1 E2]; subst it' l' m0 m0'.
    assert (p' = p) as ->.
    { apply (part_unique ps p' p Nd Ip' Ip). congruence. }
    rewrite !zlen_app in B. pose proof (zlen_nonneg t). pose proof (zlen_nonneg v).
    destruct FP as (_ & C & _). rewrite (C len (x mod 8) v d it y m); [|rewrite zlen_app; lia|exact Ho|exact St]. cbn [bind].
    apply IH; [exact R'|lia|lia].
  - pose proof (varint_nonempty _ _ Vt) as Nt. pose proof (varint_pos _ _ Vt). rewrite !app_length in Fu. destruct fuel as [|fuel]; [lia|].
    assert (unmarshal_loop fs len (S fuel) (t ++ v ++ d) m =
      bind (dec_varint (t ++ v ++ d)) (fun '(wire, rest) =>
          let num := to_int32 (u64 wire / 8) in
          let wt := wire mod 8 in
          if wt =? 4 then Err
          else if num <=? 0 then Err
          else
            match find_field fs num with
            | Some f => bind (f_dec f len wt rest m) (fun '(m, rest) => unmarshal_loop fs len fuel rest m)
            | None =>
                bind (skip_field (S (length (t ++ v ++ d))) (t ++ v ++ d)) (fun n =>
                if n <? 0 then Err
                else
                  let i := to_int64 (len - zlen (t ++ v ++ d) + n) in
                  if len <? i then Err
                  else if i <? 0 then Panic
                  else unmarshal_loop fs len fuel (skipn (Z.to_nat n) (t ++ v ++ d)) m)
            end)) as -> by (destruct t; [cbn in Nt; lia|reflexivity]).
    rewrite (varint_dec t x _ Vt). cbn [bind]. cbv zeta. unfold u64. rewrite <- signed32, <- En.
    assert (x mod 8 =? 4 = false) as -> by (apply Z.eqb_neq; intros Q; rewrite Q in Pa; inversion Pa).
    rewrite (proj2 (Z.leb_gt n 0)) by exact N. pose proof (shape_of_find fs ps n F) as K.
    destruct (find_field fs n) as [f|]; [destruct K as (p & _ & _ & _ & K); congruence|].
    rewrite (proj1 skip_complete (x mod 8) v Pa t x d (S (length (t ++ v ++ d))) Vt eq_refl ltac:(lia) ltac:(lia)). cbn [bind].
    rewrite !zlen_app in *. pose proof (zlen_nonneg d). pose proof (zlen_nonneg v).
    rewrite (proj2 (Z.ltb_ge _ 0)) by lia. rewrite to_int64_id by lia. rewrite (proj2 (Z.ltb_ge len _)) by lia.
    rewrite (proj2 (Z.ltb_ge _ 0)) by lia.
    assert (skipn (Z.to_nat (zlen t + zlen v)) (t ++ v ++ d) = d) as ->.
    { replace (Z.to_nat (zlen t + zlen v)) with (length (t ++ v)) by (rewrite app_length; unfold zlen; lia).
      rewrite app_assoc, skipn_app, Nat.sub_diag, skipn_all. reflexivity. }
    apply IH; [exact R|lia|lia].
Qed.

Lemma unmarshal_sound {M} (fs : list (field M)) ps : matched fs ps ->
  forall V len, 8 <= V -> len + V < 2 ^ 63 -> forall fuel d m m', small V d -> zlen d <= len ->
  unmarshal_loop fs len fuel d m = Ok m' -> exists l, parsed (table_of ps) d l /\ runs ps l m m'.
Proof.
  intros F V len V8 L. induction fuel as [|fuel IH]; intros d m m' Sm Ld E.
  { destruct d; [|discriminate]. injection E as <-. exists []. split; constructor. }
  destruct d as [|b d0].
  { injection E as <-. exists []. split; constructor. }
  cbn [unmarshal_loop] in E. remember (b :: d0) as d eqn:Ed. assert (d <> []) as N by (subst; discriminate). clear b d0 Ed.
  destruct (dec_varint d) as [[x rest]| |] eqn:D; try discriminate. cbn [bind] in E. cbv zeta in E.
  pose proof (dec_varint_shorter _ _ _ D) as Sh. pose proof (small_rest V d _ _ Sm D) as Sr.
  destruct (x mod 8 =? 4) eqn:W4; [discriminate|]. apply Z.eqb_neq in W4.
  destruct (to_int32 (u64 x / 8) <=? 0) eqn:Np; [discriminate|]. apply Z.leb_gt in Np.
  set (n := to_int32 (u64 x / 8)) in *.
  assert (forall t, varint t x -> tag_of t n (x mod 8)) as Tag.
  { intros t Vt. exists x. split; [exact Vt|]. split; [reflexivity|]. rewrite signed32. reflexivity. }
  pose proof (shape_of_find fs ps n F) as K. destruct (find_field fs n) as [f|].
  - destruct K as (p & Ip & Nn & FP & Sp). apply dec_varint_iff in D as (t & -> & Vt).
    destruct (f_dec f len (x mod 8) rest m) as [[m1 r1]| |] eqn:Fd; try discriminate. cbn [bind] in E.
    destruct FP as (_ & _ & So). destruct (So V len (x mod 8) rest m m1 r1 V8 Sr ltac:(lia) L Fd) as (v & it & y & -> & Ho & St & ->).
    rewrite zlen_app in Sh, Ld. rewrite zlen_app in Ld. pose proof (zlen_nonneg t). pose proof (zlen_nonneg v).
    apply IH in E as (l & P & R); [|exact (small_suffix V v r1 Sr)|lia]. exists ((n, it) :: l). split.
    + exact (parsed_known _ t n (x mod 8) (p_shape p) v it r1 l (Tag t Vt) Np Sp Ho P).
    + rewrite <- Nn. exact (runs_cons ps p it y l m m' Ip St R).
  - destruct (skip_field (S (length d)) d) as [k| |] eqn:Sk; try discriminate. cbn [bind] in E.
    pose proof (skip_field_ok V V8 (S (length d)) d Sm ltac:(lia) N ltac:(lia)) as Ok1. rewrite Sk in Ok1. cbn [skip_ok] in Ok1.
    destruct (k <? 0); [discriminate|]. pose proof (zlen_nonneg d). rewrite to_int64_id in E by lia.
    destruct (len <? _) eqn:C; [discriminate|]. apply Z.ltb_ge in C. destruct (_ <? 0); [discriminate|].
    destruct (skip_sound V V8 (S (length d)) d k Sm ltac:(lia) N ltac:(lia) Sk ltac:(lia)) as [(x' & r' & D' & W)|(t & x' & v & r & -> & Vt & Pa & ->)].
    { rewrite D in D'. injection D' as <- <-. contradiction. }
    rewrite (varint_dec t x' _ Vt) in D. injection D as -> <-.
    assert (skipn (Z.to_nat (zlen t + zlen v)) (t ++ v ++ r) = r) as Sk2.
    { replace (Z.to_nat (zlen t + zlen v)) with (length (t ++ v)) by (rewrite app_length; unfold zlen; lia).
      rewrite app_assoc, skipn_app, Nat.sub_diag, skipn_all. reflexivity. }
    rewrite Sk2 in E. rewrite !zlen_app in *. pose proof (zlen_nonneg t). pose proof (zlen_nonneg v).
    apply IH in E as (l & P & R); [|exact (small_suffix V v r Sr)|lia]. exists l. split; [|exact R].
    exact (parsed_unknown _ t n (x mod 8) v r l (Tag t Vt) Np K Pa P).
Qed.

Lemma unmarshal_writes {M} (fs : list (field M)) ps d l m m' : matched fs ps -> NoDup (nums ps) ->
  parsed (table_of ps) d l -> runs ps l m m' -> zlen d < 2 ^ 63 -> unmarshal fs d m = Ok m'.
Proof. intros F Nd P R B. apply (unmarshal_complete fs ps F Nd d l P m m' R); lia. Qed.
Lemma unmarshal_means {M} (fs : list (field M)) ps V d m m' : matched fs ps -> 8 <= V -> small V d ->
  zlen d + V < 2 ^ 63 -> unmarshal fs d m = Ok m' -> exists l, parsed (table_of ps) d l /\ runs ps l m m'.
Proof. intros F V8 Sm L E. apply (unmarshal_sound fs ps F V (zlen d) V8 L (length d) d m m' Sm); [lia|exact E]. Qed.

(** * Embedded messages *)

Definition good {M} (fs : list (field M)) (ps : parts M) : Prop := matched fs ps /\ NoDup (nums ps).

Lemma field_embedded {M S T} (f : field M) num (fs : list (field S)) ps (get : M -> T) set start put :
  f_num f = num -> good fs ps ->
  (forall l wt d m, f_dec f l wt d m = bind (dec_msg fs l wt d (start (get m))) (fun '(s, rest) => Ok (set (put (get m) s) m, rest))) ->
  field_part f (msg_part num ps get set start put).
Proof.
  intros En (F & Nd) H. split; [exact En|]. split.
  - intros l wt v rest it x m B Ho (b & fl & s & -> & P & R & ->). cbn [p_shape p_get p_set msg_part] in *.
    inversion Ho as [| |p b' A| | | |]; subst. rewrite H. unfold dec_msg. cbn [Z.eqb Pos.eqb negb].
    rewrite (block_dec l p b rest A B). cbn [bind]. rewrite (unmarshal_writes fs ps b fl _ s F Nd P R); [reflexivity|].
    rewrite !zlen_app in B. pose proof (zlen_nonneg p). pose proof (zlen_nonneg rest). lia.
  - intros V l wt d m m' rest V8 Sm Ld L E. rewrite H in E. unfold dec_msg in E. destruct (wt =? 2) eqn:W; [|discriminate].
    apply Z.eqb_eq in W. subst wt. cbn [negb] in E. destruct (dec_bytes l d) as [[b r]| |] eqn:D; try discriminate. cbn [bind] in E.
    destruct (dec_bytes_part V l d b r Sm D) as [Sb Zb]. apply (block_of V l d b r V8 Sm Ld L) in D as (p & -> & A).
    destruct (unmarshal fs b (start (get m))) as [s| |] eqn:U; try discriminate. cbn [bind] in E. injection E as <- <-.
    apply (unmarshal_means fs ps V b _ s F V8 Sb ltac:(lia)) in U as (fl & P & R).
    exists (p ++ b), (Block b), (put (get m) s). split; [reflexivity|]. split; [exact (holds_block p b A)|].
    split; [exists b, fl, s; auto|reflexivity].
Qed.

Definition value_part {M S} (num : Z) (ps : parts S) (get : M -> S) (set : S -> M -> M) : part M :=
  msg_part num ps get set (fun x => x) (fun _ s => s).
Definition ptr_part {M S} (num : Z) (ps : parts S) (zero : S) (get : M -> option S) (set : option S -> M -> M) : part M :=
  msg_part num ps get set (fun x => match x with None => zero | Some s => s end) (fun _ s => Some s).
Definition msgs_part {M S} (num : Z) (ps : parts S) (zero : S) (get : M -> list S) (set : list S -> M -> M) : part M :=
  msg_part num ps get set (fun _ => zero) (fun x s => x ++ [s]).
Definition ptrs_part {M S} (num : Z) (ps : parts S) (zero : S) (get : M -> list (option S)) (set : list (option S) -> M -> M)
  : part M :=
  msg_part num ps get set (fun _ => zero) (fun x s => x ++ [Some s]).

Lemma field_msg {M S} num (fs : list (field S)) ps (get : M -> S) set : good fs ps ->
  field_part (msg_field num fs get set) (value_part num ps get set).
Proof. intros G. apply (field_embedded _ num fs); [reflexivity|exact G|]. reflexivity. Qed.
Lemma field_ptr {M S} num (fs : list (field S)) ps zero (get : M -> option S) set : good fs ps ->
  field_part (ptr_field num fs zero get set) (ptr_part num ps zero get set).
Proof. intros G. apply (field_embedded _ num fs); [reflexivity|exact G|]. reflexivity. Qed.
Lemma field_msgs {M S} num (fs : list (field S)) ps zero (get : M -> list S) set : good fs ps ->
  field_part (msgs_field num fs zero get set) (msgs_part num ps zero get set).
Proof. intros G. apply (field_embedded _ num fs); [reflexivity|exact G|]. reflexivity. Qed.
Lemma field_ptrs {M S} num (fs : list (field S)) ps zero (get : M -> list (option S)) set : good fs ps ->
  field_part (ptrs_field num fs zero get set) (ptrs_part num ps zero get set).
Proof. intros G. apply (field_embedded _ num fs); [reflexivity|exact G|]. reflexivity. Qed.
