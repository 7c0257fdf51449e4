(** Reading messages field by field: what one field does, that unknown fields do nothing, and that fields of different
    numbers may trade places. *)
From Coq Require Import Ascii String Arith NArith ZArith Bool Lia List.
From Verif.Base Require Import Bytes BytesFacts.
From Verif.Proof Require Import ProtoWireProof.
From Verif.Model Require Import Transformation ProtoWire Messages RuleWire.
From Verif.Spec Require Import WireSpec.
Import ListNotations.
Open Scope Z_scope.

(** * Varints *)

Lemma base128_get d v : base128 d v -> forall k w acc r, (length d <= k)%nat ->
  get_varint k w acc (d ++ r) = Ok (acc + v * w, r).
Proof.
  induction 1 as [b B|b d v B H IH]; intros k w acc r L; (destruct k as [|k]; [cbn in L; lia|]); cbn [app get_varint];
    change (byte_value b) with (bz b) in *; pose proof (bz_range b).
  - rewrite (proj2 (Z.ltb_lt _ _)) by lia. rewrite Z.mod_small by lia. reflexivity.
  - rewrite (proj2 (Z.ltb_ge _ _)) by lia. rewrite IH by (cbn in L; lia).
    replace (bz b mod 128) with (bz b - 128) by (apply Z.mod_unique with 1; lia). f_equal. f_equal. lia.
Qed.

Lemma varint_dec d v r : varint d v -> dec_varint (d ++ r) = Ok (v, r).
Proof. intros [H L]. unfold dec_varint. rewrite (base128_get d v H) by exact L. f_equal. f_equal. lia. Qed.

Lemma base128_nonempty d v : base128 d v -> (1 <= length d)%nat.
Proof. destruct 1; cbn; lia. Qed.
Lemma varint_nonempty d v : varint d v -> (1 <= length d)%nat.
Proof. intros [H _]. exact (base128_nonempty d v H). Qed.

Lemma varint_bytes l p b r : varint p (Z.of_nat (length b)) -> zlen (p ++ b ++ r) <= l < 2 ^ 63 ->
  dec_bytes l (p ++ b ++ r) = Ok (b, r).
Proof.
  intros V [H L]. unfold dec_bytes. rewrite !zlen_app in H.
  pose proof (zlen_nonneg b). pose proof (zlen_nonneg r). pose proof (zlen_nonneg p).
  rewrite (varint_dec p _ (b ++ r) V). cbn [bind]. change (Z.of_nat (length b)) with (zlen b).
  rewrite (to_int64_id (zlen b)) by lia. rewrite (proj2 (Z.ltb_ge (zlen b) 0)) by lia. rewrite zlen_app.
  rewrite to_int64_id by lia.
  rewrite (proj2 (Z.ltb_ge l _)) by lia. rewrite (proj2 (Z.ltb_ge _ 0)) by lia.
  assert (Z.to_nat (zlen b) = length b) as -> by (unfold zlen; lia).
  rewrite firstn_app, Nat.sub_diag, firstn_all, skipn_app, Nat.sub_diag, skipn_all. cbn [firstn skipn app].
  rewrite app_nil_r. reflexivity.
Qed.

Lemma get_le_exact k : forall d r, length d = k -> exists v, get_le k (d ++ r) = Some (v, r) /\ get_le k d = Some (v, []).
Proof.
  induction k as [|k IH]; intros d r L.
  - destruct d; [|discriminate]. exists 0. split; reflexivity.
  - destruct d as [|b d]; [discriminate|]. cbn in L. destruct (IH d r) as (v & E1 & E2); [lia|]. exists (bz b + 256 * v).
    cbn [app get_le]. rewrite E1, E2. split; reflexivity.
Qed.
Lemma get_le_fixed k d : length d = k -> exists v, forall r, get_le k (d ++ r) = Some (v, r).
Proof.
  revert d. induction k as [|k IH]; intros d L.
  - destruct d; [|discriminate]. exists 0. reflexivity.
  - destruct d as [|b d]; [discriminate|]. cbn in L. destruct (IH d) as (v & E); [lia|]. exists (bz b + 256 * v).
    intros r. cbn [app get_le]. rewrite E. reflexivity.
Qed.

Lemma dec_packed_block n : forall b, length b = (8 * n)%nat ->
  exists vs, forall fuel r acc, (n <= fuel)%nat -> dec_packed fuel (zlen b) (b ++ r) acc = Ok (acc ++ vs, r).
Proof.
  induction n as [|n IH]; intros b L.
  - destruct b; [|discriminate]. exists []. intros fuel r acc _. rewrite app_nil_r. destruct fuel; reflexivity.
  - destruct (get_le_fixed 8 (firstn 8 b)) as (v & E); [rewrite firstn_length; lia|].
    destruct (IH (skipn 8 b)) as (vs & D); [rewrite skipn_length; lia|]. exists (v :: vs). intros fuel r acc F.
    destruct fuel as [|fuel]; [lia|].
    assert (zlen b - 8 = zlen (skipn 8 b)) as Eq by (unfold zlen; rewrite skipn_length; lia).
    rewrite <- (firstn_skipn 8 b) at 2. rewrite <- app_assoc. cbn [dec_packed].
    rewrite (proj2 (Z.leb_gt _ _)) by (unfold zlen; lia). rewrite E, Eq, D by lia.
    rewrite <- app_assoc. reflexivity.
Qed.

Lemma dec_enums_block l : Forall (fun x => exists v, varint x v) l ->
  exists vs, forall fuel r acc, (length l <= fuel)%nat -> dec_enums fuel (zlen (concat l)) (concat l ++ r) acc = Ok (acc ++ vs, r).
Proof.
  induction 1 as [|x l (v & V) _ (vs & D)].
  - exists []. intros fuel r acc _. rewrite app_nil_r. destruct fuel; reflexivity.
  - exists (to_int32 v :: vs). intros fuel r acc F. cbn [length] in F. destruct fuel as [|fuel]; [lia|].
    cbn [concat dec_enums]. pose proof (varint_nonempty x v V). pose proof (zlen_nonneg (concat l)).
    rewrite (proj2 (Z.leb_gt _ _)) by (rewrite zlen_app; unfold zlen in *; lia).
    rewrite <- app_assoc. rewrite (varint_dec x v _ V). cbn [bind].
    replace (zlen (x ++ concat l) - (zlen (x ++ concat l ++ r) - zlen (concat l ++ r))) with (zlen (concat l))
      by (rewrite !zlen_app; lia).
    rewrite D by lia. rewrite <- app_assoc. reflexivity.
Qed.

Lemma concat_length_ge {A} (l : list (list A)) : Forall (fun x => (1 <= length x)%nat) l -> (length l <= length (concat l))%nat.
Proof. induction 1 as [|x l H _ IH]; cbn; [lia|]. rewrite app_length. lia. Qed.

(** * What one field does *)

(** A field of kind [k] reads a value without looking at what follows and changes only the part of the message that
    [get] and [set] speak of. *)
Definition lensed {M S} (f : field M) (k : kind) (get : M -> S) (set : S -> M -> M) : Prop :=
  forall wt v, value (Some k) wt v -> exists h : S -> res S, forall l rest m, zlen (v ++ rest) <= l < 2 ^ 63 ->
    f_dec f l wt (v ++ rest) m = bind (h (get m)) (fun x => Ok (set x m, rest)).

Ltac wrong := exists (fun _ => Err); reflexivity.

Lemma lens_varint {M} num conv (get : M -> Z) set : lensed (varint_field num conv get set) Plain get set.
Proof.
  intros wt v V. destruct V as [d v V|d L|p b V _|d L]; try wrong. exists (fun _ => Ok (conv v)). intros l rest m _.
  cbn [f_dec varint_field]. rewrite (varint_dec d v rest V). reflexivity.
Qed.

Lemma lens_bytes {M} num (get : M -> bytes) set : lensed (bytes_field num get set) Plain get set.
Proof.
  intros wt v V. destruct V as [d v V|d L|p b V _|d L]; try wrong. exists (fun _ => Ok b). intros l rest m B.
  rewrite <- app_assoc in *. cbn [f_dec bytes_field]. rewrite (varint_bytes l p b rest V B). reflexivity.
Qed.

Lemma lens_strings {M} num (get : M -> list bytes) set : lensed (strings_field num get set) Plain get set.
Proof.
  intros wt v V. destruct V as [d v V|d L|p b V _|d L]; try wrong. exists (fun x => Ok (x ++ [b])). intros l rest m B.
  rewrite <- app_assoc in *. cbn [f_dec strings_field]. rewrite (varint_bytes l p b rest V B). reflexivity.
Qed.

Lemma lens_double {M} num (get : M -> Z) set : lensed (double_field num get set) Plain get set.
Proof.
  intros wt v V. destruct V as [d v V|d L|p b V _|d L]; try wrong. destruct (get_le_fixed 8 d L) as (v & E).
  exists (fun _ => Ok v). intros l rest m B. cbn [f_dec double_field]. rewrite E. reflexivity.
Qed.

Lemma post_eq l (p b rest : bytes) : zlen ((p ++ b) ++ rest) <= l < 2 ^ 63 ->
  to_int64 (l - zlen (b ++ rest) + zlen b) = l - zlen rest /\ (l <? l - zlen rest) = false /\
  l - zlen rest - (l - zlen (b ++ rest)) = zlen b /\ to_int64 (zlen b) = zlen b /\ (zlen b <? 0) = false.
Proof.
  intros B. rewrite !zlen_app in *. pose proof (zlen_nonneg b). pose proof (zlen_nonneg rest). pose proof (zlen_nonneg p).
  repeat split; try (rewrite to_int64_id by lia); try (apply Z.ltb_ge); lia.
Qed.

Lemma lens_doubles {M} num (get : M -> list Z) set : lensed (doubles_field num get set) Doubles get set.
Proof.
  intros wt v V. destruct V as [d v V|d L|p b V (n & K)|d L]; try wrong.
  - destruct (get_le_fixed 8 d L) as (v & E).
    exists (fun x => Ok (x ++ [v])). intros l rest m B. cbn [f_dec doubles_field]. cbn [Z.eqb Pos.eqb]. rewrite E. reflexivity.
  - destruct (dec_packed_block n b K) as (vs & D). exists (fun x => Ok (x ++ vs)). intros l rest m B.
    destruct (post_eq l p b rest B) as (E1 & E2 & E3 & E4 & E5).
    cbn [f_dec doubles_field]. cbn [Z.eqb Pos.eqb]. rewrite <- app_assoc. rewrite (varint_dec p _ (b ++ rest) V). cbn [bind].
    change (Z.of_nat (length b)) with (zlen b). rewrite E4, E5, E1, E2, E3, D; [reflexivity|rewrite app_length; lia].
Qed.

Lemma lens_enums {M} num (get : M -> list Z) set : lensed (enums_field num get set) Enums get set.
Proof.
  intros wt v V. destruct V as [d v V|d L|p b V (xs & -> & F)|d L]; try wrong.
  - exists (fun x => Ok (x ++ [to_int32 v])). intros l rest m B. cbn [f_dec enums_field]. cbn [Z.eqb Pos.eqb].
    rewrite (varint_dec d v rest V). reflexivity.
  - destruct (dec_enums_block xs F) as (vs & D). exists (fun x => Ok (x ++ vs)). intros l rest m B.
    destruct (post_eq l p (concat xs) rest B) as (E1 & E2 & E3 & E4 & E5).
    cbn [f_dec enums_field]. cbn [Z.eqb Pos.eqb]. rewrite <- app_assoc. rewrite (varint_dec p _ (concat xs ++ rest) V). cbn [bind].
    change (Z.of_nat (length (concat xs))) with (zlen (concat xs)).
    rewrite E4, E5, E1, E2, E3, D; [reflexivity|]. rewrite app_length.
    apply (Nat.le_trans _ (length (concat xs))); [|apply le_S, Nat.le_add_r]. apply (concat_length_ge xs).
    eapply Forall_impl; [|exact F]. cbn. intros x (v & Vx). exact (varint_nonempty x v Vx).
Qed.

(** Embedded messages: the block is read as a message of its own. *)
Definition embeds {M S T} (f : field M) (fs : list (field S)) (get : M -> T) (set : T -> M -> M) (start : T -> S)
  (put : T -> S -> T) : Prop :=
  (forall wt v l rest m, value None wt v -> wt <> 2 -> f_dec f l wt (v ++ rest) m = Err) /\
  forall p b l rest m, varint p (Z.of_nat (length b)) -> zlen ((p ++ b) ++ rest) <= l < 2 ^ 63 ->
    f_dec f l 2 ((p ++ b) ++ rest) m =
    bind (unmarshal fs b (start (get m))) (fun s => Ok (set (put (get m) s) m, rest)).

Lemma embeds_dec_msg {S} (fs : list (field S)) p b l rest s : varint p (Z.of_nat (length b)) ->
  zlen ((p ++ b) ++ rest) <= l < 2 ^ 63 ->
  dec_msg fs l 2 ((p ++ b) ++ rest) s = bind (unmarshal fs b s) (fun s => Ok (s, rest)).
Proof. intros V B. rewrite <- app_assoc in *. unfold dec_msg. cbn [Z.eqb Pos.eqb negb]. rewrite (varint_bytes l p b rest V B). reflexivity. Qed.
Lemma dec_msg_err {S} (fs : list (field S)) l wt d s : wt <> 2 -> dec_msg fs l wt d s = Err.
Proof. intros N. unfold dec_msg. rewrite (proj2 (Z.eqb_neq _ _) N). reflexivity. Qed.

Lemma embeds_msg {M S} num (fs : list (field S)) (get : M -> S) set :
  embeds (msg_field num fs get set) fs get set (fun x => x) (fun _ x => x).
Proof.
  split; [intros; cbn [f_dec msg_field]; rewrite dec_msg_err by assumption; reflexivity|].
  intros p b l rest m V B. cbn [f_dec msg_field]. rewrite embeds_dec_msg by assumption. destruct (unmarshal _ _ _); reflexivity.
Qed.
Lemma embeds_ptr {M S} num (fs : list (field S)) z (get : M -> option S) set :
  embeds (ptr_field num fs z get set) fs get set (fun x => match x with None => z | Some s => s end) (fun _ x => Some x).
Proof.
  split; [intros; cbn [f_dec ptr_field]; rewrite dec_msg_err by assumption; reflexivity|].
  intros p b l rest m V B. cbn [f_dec ptr_field]. rewrite embeds_dec_msg by assumption. destruct (unmarshal _ _ _); reflexivity.
Qed.
Lemma embeds_msgs {M S} num (fs : list (field S)) z (get : M -> list S) set :
  embeds (msgs_field num fs z get set) fs get set (fun _ => z) (fun x s => x ++ [s]).
Proof.
  split; [intros; cbn [f_dec msgs_field]; rewrite dec_msg_err by assumption; reflexivity|].
  intros p b l rest m V B. cbn [f_dec msgs_field]. rewrite embeds_dec_msg by assumption. destruct (unmarshal _ _ _); reflexivity.
Qed.
Lemma embeds_ptrs {M S} num (fs : list (field S)) z (get : M -> list (option S)) set :
  embeds (ptrs_field num fs z get set) fs get set (fun _ => z) (fun x s => x ++ [Some s]).
Proof.
  split; [intros; cbn [f_dec ptrs_field]; rewrite dec_msg_err by assumption; reflexivity|].
  intros p b l rest m V B. cbn [f_dec ptrs_field]. rewrite embeds_dec_msg by assumption. destruct (unmarshal _ _ _); reflexivity.
Qed.

Lemma embeds_lensed {M S T} (f : field M) (fs : list (field S)) (get : M -> T) set start put s :
  embeds f fs get set start put -> lensed f (Message s) get set.
Proof.
  intros [E1 E2] wt v V. destruct V as [d v V|d L|p b V _|d L].
  - exists (fun _ => Err). intros l rest m _. apply E1; [exact (value_varint None d v V)|lia].
  - exists (fun _ => Err). intros l rest m _. apply E1; [exact (value_eight None d L)|lia].
  - exists (fun x => bind (unmarshal fs b (start x)) (fun s => Ok (put x s))). intros l rest m B.
    rewrite (E2 p b l rest m V B). destruct (unmarshal _ _ _); reflexivity.
  - exists (fun _ => Err). intros l rest m _. apply E1; [exact (value_four None d L)|lia].
Qed.

(** What reading the value [v] does to a message. *)
Definition act {M} (f : field M) (wt : Z) (v : bytes) (m : M) : res M :=
  bind (f_dec f (zlen v) wt v m) (fun '(m, _) => Ok m).

Definition framed {M} (f : field M) (k : kind) : Prop := forall wt v l rest m, value (Some k) wt v ->
  zlen (v ++ rest) <= l < 2 ^ 63 -> f_dec f l wt (v ++ rest) m = bind (act f wt v m) (fun m => Ok (m, rest)).

Definition commute {M} (f : field M) (kf : kind) (g : field M) (kg : kind) : Prop := forall wf v wg w m r,
  value (Some kf) wf v -> value (Some kg) wg w -> zlen v < 2 ^ 63 -> zlen w < 2 ^ 63 ->
  bind (act f wf v m) (act g wg w) = Ok r -> bind (act g wg w m) (act f wf v) = Ok r.

Lemma lensed_act {M S} (f : field M) k (get : M -> S) set wt v : lensed f k get set -> value (Some k) wt v ->
  exists h, (zlen v < 2 ^ 63 -> forall m, act f wt v m = bind (h (get m)) (fun x => Ok (set x m))) /\
    forall l rest m, zlen (v ++ rest) <= l < 2 ^ 63 ->
    f_dec f l wt (v ++ rest) m = bind (h (get m)) (fun x => Ok (set x m, rest)).
Proof.
  intros L V. destruct (L wt v V) as (h & H). exists h. split; [|exact H]. intros B m. unfold act.
  specialize (H (zlen v) [] m). rewrite app_nil_r in H. rewrite H by lia. destruct (h (get m)); reflexivity.
Qed.

Lemma lensed_framed {M S} (f : field M) k (get : M -> S) set : lensed f k get set -> framed f k.
Proof.
  intros L wt v l rest m V B. destruct (lensed_act f k get set wt v L V) as (h & A & H). rewrite (H l rest m B).
  rewrite A by (rewrite zlen_app in B; pose proof (zlen_nonneg rest); lia). destruct (h (get m)); reflexivity.
Qed.

Lemma lensed_commute {M S T} (f : field M) kf (get1 : M -> S) set1 (g : field M) kg (get2 : M -> T) set2 :
  lensed f kf get1 set1 -> lensed g kg get2 set2 ->
  (forall x m, get2 (set1 x m) = get2 m) -> (forall x m, get1 (set2 x m) = get1 m) ->
  (forall x y m, set1 x (set2 y m) = set2 y (set1 x m)) -> commute f kf g kg.
Proof.
  intros L1 L2 G1 G2 C wf v wg w m r V W B1 B2 E.
  destruct (lensed_act f kf get1 set1 wf v L1 V) as (h1 & A1 & _). destruct (lensed_act g kg get2 set2 wg w L2 W) as (h2 & A2 & _).
  specialize (A1 B1). specialize (A2 B2). rewrite A1 in E. rewrite A2. destruct (h1 (get1 m)) as [x| |] eqn:E1; try discriminate.
  cbn [bind] in E. rewrite A2, G1 in E. destruct (h2 (get2 m)) as [y| |]; try discriminate. cbn [bind] in *.
  rewrite A1, G2, E1. cbn [bind]. rewrite C. exact E.
Qed.

(** * Whole messages *)

(** Reading does not notice that a message is a newer form of another. *)
Definition respects {M} (s : schema) (fs : list (field M)) : Prop := forall d d' m r, newer s d d' ->
  zlen d < 2 ^ 63 -> zlen d' < 2 ^ 63 -> (unmarshal fs d m = Ok r <-> unmarshal fs d' m = Ok r).

Definition nested {M} (f : field M) (k : kind) : Prop :=
  match k with
  | Message s => forall p x p' x' m r, varint p (Z.of_nat (length x)) -> varint p' (Z.of_nat (length x')) -> newer s x x' ->
      zlen (p ++ x) < 2 ^ 63 -> zlen (p' ++ x') < 2 ^ 63 -> (act f 2 (p ++ x) m = Ok r <-> act f 2 (p' ++ x') m = Ok r)
  | _ => True
  end.

Lemma embeds_nested {M S T} (f : field M) (fs : list (field S)) (get : M -> T) set start put s :
  embeds f fs get set start put -> respects s fs -> nested f (Message s).
Proof.
  intros [_ E] R p x p' x' m r V V' N B B'. unfold act.
  pose proof (E p x (zlen (p ++ x)) [] m V) as H. pose proof (E p' x' (zlen (p' ++ x')) [] m V') as H'.
  rewrite !app_nil_r in H, H'. rewrite H, H' by lia. rewrite zlen_app in B, B'.
  pose proof (zlen_nonneg p). pose proof (zlen_nonneg p').
  assert (Q : forall y, unmarshal fs x (start (get m)) = Ok y <-> unmarshal fs x' (start (get m)) = Ok y)
    by (intros y; apply (R x x' (start (get m)) y N); lia).
  destruct (unmarshal fs x (start (get m))) as [y| |] eqn:E1.
  - rewrite (proj1 (Q y) eq_refl). reflexivity.
  - destruct (unmarshal fs x' (start (get m))) as [y| |] eqn:E2; [specialize (proj2 (Q y) eq_refl); discriminate| |];
      cbn [bind]; split; discriminate.
  - destruct (unmarshal fs x' (start (get m))) as [y| |] eqn:E2; [specialize (proj2 (Q y) eq_refl); discriminate| |];
      cbn [bind]; split; discriminate.
Qed.

Definition field_fits {M} (f : field M) (x : Z * kind) : Prop :=
  f_num f = fst x /\ 1 <= fst x < 2 ^ 29 /\ framed f (snd x) /\ nested f (snd x).

Definition all_commute {M} (l : list (field M * kind)) : Prop :=
  forall f kf g kg, In (f, kf) l -> In (g, kg) l -> f_num f <> f_num g -> commute f kf g kg.

Lemma lookup_fits {M} (fs : list (field M)) s n : Forall2 field_fits fs s ->
  match lookup s n with
  | None => find_field fs n = None
  | Some k => exists f, find_field fs n = Some f /\ f_num f = n /\ 1 <= n < 2 ^ 29 /\ framed f k /\ nested f k /\
      In (f, k) (combine fs (map snd s))
  end.
Proof.
  unfold lookup, find_field. induction 1 as [|f [n' k] fs s (E & R & F & N) _ IH]; [reflexivity|].
  cbn [fst snd] in *. cbn [find fst map combine snd]. rewrite E. destruct (n' =? n) eqn:Q.
  - apply Z.eqb_eq in Q. subst n'. exists f. repeat split; auto; try lia. now left.
  - destruct (find (fun x => fst x =? n) s) as [[n2 k2]|]; [|exact IH].
    destruct IH as (g & I1 & I2 & I3 & I4 & I5 & I6). exists g. repeat split; auto; try lia. now right.
Qed.

Lemma bind_ok {A C} (r : res A) (f : A -> res C) y : bind r f = Ok y <-> exists x, r = Ok x /\ f x = Ok y.
Proof.
  destruct r as [x| |]; cbn [bind]; split; intros H.
  - exists x. split; [reflexivity|exact H].
  - destruct H as (x' & E & H). injection E as ->. exact H.
  - discriminate.
  - destruct H as (x' & E & _). discriminate.
  - discriminate.
  - destruct H as (x' & E & _). discriminate.
Qed.

(** An unknown field is skipped whole. *)
Lemma skip_unknown fuel t n wt v rest : is_tag t n wt -> 0 <= n < 2 ^ 29 -> value None wt v -> zlen ((t ++ v) ++ rest) < 2 ^ 63 ->
  skip_field (S fuel) ((t ++ v) ++ rest) = Ok (zlen (t ++ v)).
Proof.
  intros T N V B. cbn [skip_field]. pose proof (varint_nonempty t _ T) as L. pose proof (zlen_nonneg v). pose proof (zlen_nonneg rest).
  assert (1 <= zlen t) by (unfold zlen; lia).
  rewrite (proj2 (Z.eqb_neq _ 0)) by (rewrite !zlen_app; lia). rewrite <- app_assoc.
  unfold is_tag in T. rewrite (varint_dec t _ (v ++ rest) T). cbn [bind].
  assert (W : forall w, 0 <= w < 8 -> (8 * n + w) mod 8 = w)
    by (intros w Hw; rewrite Z.mul_comm, Z.add_comm, Z.mod_add, Z.mod_small by lia; reflexivity).
  destruct V as [d v V|d Ld|p b V _|d Ld]; rewrite W by lia; cbn [Z.eqb Pos.eqb].
  - rewrite (varint_dec d v rest V). cbn [bind]. f_equal. rewrite !zlen_app. lia.
  - f_equal. rewrite !zlen_app. unfold zlen in *. lia.
  - rewrite <- app_assoc. rewrite (varint_dec p _ (b ++ rest) V). cbn [bind]. change (Z.of_nat (length b)) with (zlen b).
    rewrite !zlen_app in *. pose proof (zlen_nonneg b). pose proof (zlen_nonneg p).
    rewrite (to_int64_id (zlen b)) by lia. rewrite (proj2 (Z.ltb_ge _ _)) by lia. rewrite to_int64_id by lia. f_equal. lia.
  - f_equal. rewrite !zlen_app. unfold zlen in *. lia.
Qed.

Lemma value_any k wt v : value k wt v -> value None wt v.
Proof. destruct 1; econstructor; eauto. exact I. Qed.

Section Message.
  Context {M : Type} (fs : list (field M)) (s : schema).
  Hypothesis Fits : Forall2 field_fits fs s.
  Hypothesis Comm : all_commute (combine fs (map snd s)).

  (** The effect of a field of number [n]. *)
  Inductive effect (n : Z) : (M -> res M) -> Prop :=
  | effect_unknown : lookup s n = None -> effect n Ok
  | effect_known f k wt v : lookup s n = Some k -> f_num f = n -> In (f, k) (combine fs (map snd s)) ->
      value (Some k) wt v -> zlen v < 2 ^ 63 -> effect n (act f wt v).

  (** The bytes [f] are read first, with effect [e]. *)
  Definition reads_first (f : bytes) (e : M -> res M) : Prop := forall l fuel d m,
    (length (f ++ d) <= fuel)%nat -> zlen (f ++ d) <= l < 2 ^ 63 ->
    unmarshal_loop fs l fuel (f ++ d) m = bind (e m) (unmarshal_loop fs l (pred fuel) d).

  Lemma field_reads n t wt v : 1 <= n < 2 ^ 29 -> is_tag t n wt -> value (lookup s n) wt v ->
    match lookup s n with
    | None => reads_first (t ++ v) Ok
    | Some k => exists f, find_field fs n = Some f /\ f_num f = n /\ In (f, k) (combine fs (map snd s)) /\
        framed f k /\ nested f k /\ reads_first (t ++ v) (act f wt v)
    end.
  Proof.
    intros N T V. pose proof (lookup_fits fs s n Fits) as L.
    assert (W : (8 * n + wt) mod 8 = wt /\ to_int32 (u64 (8 * n + wt) / 8) = n /\ wt <> 4).
    { assert (0 <= wt < 8 /\ wt <> 4) as [Hw H4] by (destruct V; lia). repeat split; [| |exact H4].
      - rewrite Z.mul_comm, Z.add_comm, Z.mod_add, Z.mod_small by lia. reflexivity.
      - rewrite u64_id by lia. rewrite Z.mul_comm, Z.div_add_l, Z.div_small by lia. rewrite Z.add_0_r. apply to_int32_id. lia. }
    destruct W as (W1 & W2 & W3). pose proof (varint_nonempty t _ T) as Lt.
    assert (Hd : forall d, exists c d0, (t ++ v) ++ d = c :: d0)
      by (intros d; destruct t as [|c t0]; [cbn in Lt; lia|]; exists c, ((t0 ++ v) ++ d); reflexivity).
    destruct (lookup s n) as [k|] eqn:K.
    - destruct L as (f & L1 & L2 & L3 & L4 & L5 & L6). exists f. repeat (split; [assumption|]).
      intros l fuel d m F B. rewrite !app_length in F. destruct fuel as [|fuel]; [lia|].
      assert (E : unmarshal_loop fs l (S fuel) ((t ++ v) ++ d) m =
        bind (f_dec f l wt (v ++ d) m) (fun '(m, rest) => unmarshal_loop fs l fuel rest m)).
      { destruct (Hd d) as (c & d0 & E0). cbn [unmarshal_loop]. rewrite E0. rewrite <- E0. rewrite <- app_assoc.
        unfold is_tag in T. rewrite (varint_dec t _ (v ++ d) T). cbn [bind]. rewrite W1, W2.
        rewrite (proj2 (Z.eqb_neq wt 4) W3). rewrite (proj2 (Z.leb_gt n 0)) by lia. rewrite L1. reflexivity. }
      rewrite E. rewrite (L4 wt v l d m V) by (rewrite !zlen_app in *; pose proof (zlen_nonneg t); lia).
      cbn [pred]. destruct (act f wt v m); reflexivity.
    - intros l fuel d m F B. rewrite !app_length in F. destruct fuel as [|fuel]; [lia|].
      destruct (Hd d) as (c & d0 & E0). cbn [unmarshal_loop]. rewrite E0. rewrite <- E0.
      replace (dec_varint ((t ++ v) ++ d)) with (Ok (8 * n + wt, v ++ d))
        by (rewrite <- app_assoc; symmetry; exact (varint_dec t _ (v ++ d) T)).
      cbn [bind]. rewrite W1, W2. rewrite (proj2 (Z.eqb_neq wt 4) W3). rewrite (proj2 (Z.leb_gt n 0)) by lia. rewrite L.
      rewrite (skip_unknown _ t n wt v d T) by (try assumption; lia). cbn [bind pred].
      pose proof (zlen_nonneg (t ++ v)). pose proof (zlen_nonneg d). rewrite (zlen_app (t ++ v) d) in B.
      rewrite (proj2 (Z.ltb_ge _ _)) by lia. rewrite (zlen_app (t ++ v) d). rewrite to_int64_id by lia.
      rewrite (proj2 (Z.ltb_ge _ _)) by lia. rewrite (proj2 (Z.ltb_ge _ _)) by lia.
      f_equal. assert (Z.to_nat (zlen (t ++ v)) = length (t ++ v)) as -> by (unfold zlen; lia).
      rewrite skipn_app, skipn_all, Nat.sub_diag. reflexivity.
  Qed.

  Lemma field_in_effect n f : field_in s n f -> zlen f < 2 ^ 63 -> exists e, effect n e /\ reads_first f e.
  Proof.
    intros (N & t & wt & v & -> & T & V) B. pose proof (field_reads n t wt v N T V) as R.
    destruct (lookup s n) as [k|] eqn:K.
    - destruct R as (f & R1 & R2 & R3 & _ & _ & R4). exists (act f wt v). split; [|exact R4].
      apply (effect_known n f k wt v K R2 R3 V). rewrite zlen_app in B. pose proof (zlen_nonneg t). lia.
    - exists Ok. split; [now apply effect_unknown|exact R].
  Qed.

  Lemma effects_commute n1 e1 n2 e2 m r : effect n1 e1 -> effect n2 e2 -> n1 <> n2 ->
    bind (e1 m) e2 = Ok r <-> bind (e2 m) e1 = Ok r.
  Proof.
    intros H1 H2 N. destruct H1 as [U1|f1 k1 w1 v1 K1 N1 I1 V1 B1]; destruct H2 as [U2|f2 k2 w2 v2 K2 N2 I2 V2 B2].
    - reflexivity.
    - cbn [bind]. destruct (act f2 w2 v2 m); reflexivity.
    - cbn [bind]. destruct (act f1 w1 v1 m); reflexivity.
    - split.
      + apply (Comm f1 k1 f2 k2 I1 I2); [congruence|assumption..].
      + apply (Comm f2 k2 f1 k1 I2 I1); [congruence|assumption..].
  Qed.

  (** A field may be read before the fields of other numbers in front of it. *)
  Lemma read_early n e f : effect n e -> reads_first f e -> forall a, others s n a -> forall b l fuel m r,
    (length (a ++ f ++ b) <= fuel)%nat -> (1 <= length f)%nat -> zlen (a ++ f ++ b) <= l < 2 ^ 63 ->
    unmarshal_loop fs l fuel (a ++ f ++ b) m = Ok r <-> bind (e m) (unmarshal_loop fs l (pred fuel) (a ++ b)) = Ok r.
  Proof.
    intros He Hf. induction 1 as [|n' f' a N F' _ IH]; intros b l fuel m r Fu Lf B.
    - cbn [app] in *. rewrite (Hf l fuel b m) by assumption. reflexivity.
    - rewrite <- !app_assoc in *. rewrite !app_length in Fu. rewrite !zlen_app in B.
      pose proof (zlen_nonneg f'). pose proof (zlen_nonneg a). pose proof (zlen_nonneg f). pose proof (zlen_nonneg b).
      destruct (field_in_effect n' f' F') as (e' & E' & R'); [lia|].
      assert (1 <= length f')%nat by (destruct F' as (_ & t & wt & v & -> & T & _); pose proof (varint_nonempty t _ T); rewrite app_length; lia).
      rewrite (R' l fuel (a ++ f ++ b) m) by (rewrite ?app_length, ?zlen_app; lia).
      assert (Q : forall m1, unmarshal_loop fs l (pred fuel) (f' ++ a ++ b) m1 = bind (e' m1) (unmarshal_loop fs l (pred (pred fuel)) (a ++ b)))
        by (intros m1; apply R'; rewrite ?app_length, ?zlen_app; lia).
      rewrite !bind_ok. split.
      + intros (m1 & E1 & E2). apply IH in E2; [|rewrite ?app_length, ?zlen_app; lia..]. rewrite bind_ok in E2.
        destruct E2 as (m2 & E2 & E3).
        pose proof (proj1 (effects_commute n' e' n e m m2 E' He N)) as C. rewrite !bind_ok in C.
        destruct C as (m3 & C1 & C2); [now exists m1|]. exists m3. split; [exact C1|]. rewrite Q, bind_ok. now exists m2.
      + intros (m1 & E1 & E2). rewrite Q, bind_ok in E2. destruct E2 as (m2 & E2 & E3).
        pose proof (proj2 (effects_commute n' e' n e m m2 E' He N)) as C. rewrite !bind_ok in C.
        destruct C as (m3 & C1 & C2); [now exists m1|]. exists m3. split; [exact C1|].
        apply IH; [rewrite ?app_length, ?zlen_app; lia..|]. rewrite bind_ok. now exists m2.
  Qed.

  Lemma others_at {A} (x y z : list A) : zlen (x ++ y ++ z) = zlen (y ++ x ++ z).
  Proof. rewrite !zlen_app. lia. Qed.

  Lemma newer_loop d d' : newer s d d' -> forall l l' fuel fuel' m r,
    (length d <= fuel)%nat -> (length d' <= fuel')%nat -> zlen d <= l < 2 ^ 63 -> zlen d' <= l' < 2 ^ 63 ->
    unmarshal_loop fs l fuel d m = Ok r <-> unmarshal_loop fs l' fuel' d' m = Ok r.
  Proof.
    intros H. remember s as s0 eqn:Es in H. revert Es.
    induction H as [s0|s0 n f d d' K F H IH|s0 n f a d b F O H IH|s0 n s' t t' p p' x x' a d b K T T' V V' H' _ O H IH];
      intros -> l l' fuel fuel' m r Fu Fu' B B'.
    - destruct fuel, fuel'; reflexivity.
    - rewrite app_length in Fu'. rewrite zlen_app in B'. pose proof (zlen_nonneg d').
      destruct (field_in_effect n f F) as (e & E & R); [lia|].
      assert (1 <= length f)%nat by (destruct F as (_ & t & wt & v & -> & T & _); pose proof (varint_nonempty t _ T); rewrite app_length; lia).
      rewrite (R l' fuel' d' m) by (rewrite ?app_length, ?zlen_app; lia).
      inversion E as [_U Q|f0 k0 wt0 v0 K0 _N _I _V _B Q]; [|congruence]. subst e. cbn [bind].
      apply IH; try reflexivity; pose proof (zlen_nonneg f); lia.
    - rewrite !app_length in *. rewrite !zlen_app in *. pose proof (zlen_nonneg d). pose proof (zlen_nonneg a). pose proof (zlen_nonneg b).
      destruct (field_in_effect n f F) as (e & E & R); [lia|].
      assert (1 <= length f)%nat by (destruct F as (_ & t & wt & v & -> & T & _); pose proof (varint_nonempty t _ T); rewrite app_length; lia).
      rewrite (read_early n e f E R a O b l' fuel' m r) by (rewrite ?app_length, ?zlen_app; lia).
      rewrite (R l fuel d m) by (rewrite ?app_length, ?zlen_app; lia). rewrite !bind_ok.
      assert (Q2 : forall m1, unmarshal_loop fs l (pred fuel) d m1 = Ok r <-> unmarshal_loop fs l' (pred fuel') (a ++ b) m1 = Ok r)
        by (intros m1; apply IH; try reflexivity; pose proof (zlen_nonneg f); rewrite ?app_length, ?zlen_app; lia).
      split; intros (m1 & E1 & E2); exists m1; (split; [exact E1|]); apply Q2; exact E2.
    - rewrite !app_length in *. rewrite !zlen_app in *. pose proof (zlen_nonneg d). pose proof (zlen_nonneg a). pose proof (zlen_nonneg b).
      pose proof (zlen_nonneg t). pose proof (zlen_nonneg t'). pose proof (zlen_nonneg p). pose proof (zlen_nonneg p').
      pose proof (zlen_nonneg x). pose proof (zlen_nonneg x').
      pose proof (varint_nonempty t _ T). pose proof (varint_nonempty t' _ T').
      pose proof (lookup_fits fs s n Fits) as L. rewrite K in L. destruct L as (f & L1 & L2 & L3 & L4 & L5 & L6).
      assert (Vx : value (lookup s n) 2 (p ++ x)) by (rewrite K; now constructor).
      assert (Vx' : value (lookup s n) 2 (p' ++ x')) by (rewrite K; now constructor).
      pose proof (field_reads n t 2 (p ++ x) L3 T Vx) as R. pose proof (field_reads n t' 2 (p' ++ x') L3 T' Vx') as R'.
      rewrite K in R, R', Vx, Vx'. destruct R as (f1 & R1 & _ & _ & _ & _ & R). destruct R' as (f2 & R2 & _ & _ & _ & _ & R').
      rewrite L1 in R1, R2. injection R1 as <-. injection R2 as <-.
      assert (effect n (act f 2 (p' ++ x'))) as E' by (apply (effect_known n f (Message s') 2 _ K L2 L6 Vx'); rewrite zlen_app; lia).
      replace (a ++ t' ++ p' ++ x' ++ b) with (a ++ (t' ++ p' ++ x') ++ b) by (rewrite <- !app_assoc; reflexivity).
      rewrite (read_early n _ _ E' R' a O b l' fuel' m r) by (rewrite ?app_length, ?zlen_app; lia).
      replace (t ++ p ++ x ++ d) with ((t ++ p ++ x) ++ d) by (rewrite <- !app_assoc; reflexivity).
      rewrite (R l fuel d m) by (rewrite ?app_length, ?zlen_app; lia). rewrite !bind_ok. cbn [nested] in L5.
      assert (Q : forall m1, act f 2 (p ++ x) m = Ok m1 <-> act f 2 (p' ++ x') m = Ok m1)
        by (intros m1; apply L5; auto; rewrite zlen_app; lia).
      assert (Q2 : forall m1, unmarshal_loop fs l (pred fuel) d m1 = Ok r <-> unmarshal_loop fs l' (pred fuel') (a ++ b) m1 = Ok r)
        by (intros m1; apply IH; try reflexivity; rewrite ?app_length, ?zlen_app; lia).
      split; intros (m1 & E1 & E2); exists m1; (split; [apply Q; exact E1|]); apply Q2; exact E2.
  Qed.

  Lemma respects_intro : respects s fs.
  Proof.
    intros d d' m r N B B'. unfold unmarshal. apply newer_loop; auto; lia.
  Qed.
End Message.

(** * Every message *)

Lemma all_commute_list {M} (l : list (field M * kind)) :
  Forall (fun x => Forall (fun y => f_num (fst x) <> f_num (fst y) -> commute (fst x) (snd x) (fst y) (snd y)) l) l ->
  all_commute l.
Proof.
  intros H f kf g kg If Ig N. rewrite Forall_forall in H. specialize (H _ If). rewrite Forall_forall in H.
  exact (H _ Ig N).
Qed.

Lemma fits_lens {M S} (f : field M) n k (get : M -> S) set : f_num f = n -> 1 <= n < 2 ^ 29 -> lensed f k get set ->
  match k with Message _ => False | _ => True end -> field_fits f (n, k).
Proof.
  intros N R L K. split; [exact N|]. split; [exact R|]. split; [exact (lensed_framed f k get set L)|]. destruct k; auto. contradiction.
Qed.
Lemma fits_embed {M S T} (f : field M) n s (fs : list (field S)) (get : M -> T) set start put : f_num f = n -> 1 <= n < 2 ^ 29 ->
  embeds f fs get set start put -> respects s fs -> field_fits f (n, Message s).
Proof.
  intros N R E Q. split; [exact N|]. split; [exact R|]. split.
  - exact (lensed_framed f _ get set (embeds_lensed f fs get set start put s E)).
  - exact (embeds_nested f fs get set start put s E Q).
Qed.

Create HintDb wire.
Ltac embed_solve := first [apply embeds_msg | apply embeds_ptr | apply embeds_msgs | apply embeds_ptrs].
Ltac lens_solve := first [apply lens_varint | apply lens_bytes | apply lens_double | apply lens_strings | apply lens_doubles
  | apply lens_enums | eapply embeds_lensed; embed_solve].
Ltac fit_solve := lazymatch goal with
  | |- field_fits _ (_, Message _) => eapply fits_embed; [reflexivity|lia|embed_solve|solve [auto with wire nocore]]
  | |- _ => eapply fits_lens; [reflexivity|lia|lens_solve|exact I]
  end.
Ltac commute_solve := intros N; cbn [fst snd] in N |- *; first [exfalso; apply N; reflexivity
  | eapply lensed_commute; [lens_solve|lens_solve|intros; reflexivity|intros; reflexivity|intros; reflexivity]].
Ltac respects_solve := apply respects_intro; [repeat (apply Forall2_cons; [fit_solve|]); apply Forall2_nil|
  apply all_commute_list; cbn [combine map snd]; repeat (apply Forall_cons; [repeat (apply Forall_cons; [commute_solve|]); apply Forall_nil|]);
  apply Forall_nil].

Lemma r_aggregation_id : respects aggregation_id_schema agg_fields. Proof. respects_solve. Qed.
Lemma r_resolution : respects resolution_schema resolution_fields. Proof. respects_solve. Qed.
Lemma r_retention : respects retention_schema retention_fields. Proof. respects_solve. Qed.
#[export] Hint Resolve r_aggregation_id r_resolution r_retention : wire.
Lemma r_storage_policy : respects storage_policy_schema sp_fields. Proof. respects_solve. Qed.
#[export] Hint Resolve r_storage_policy : wire.
Lemma r_policy : respects policy_schema policy_fields. Proof. respects_solve. Qed.
Lemma r_aggregation_op : respects aggregation_op_schema agg_op_fields. Proof. respects_solve. Qed.
Lemma r_transformation_op : respects transformation_op_schema tf_fields. Proof. respects_solve. Qed.
Lemma r_rollup_op : respects rollup_op_schema rollup_op_fields. Proof. respects_solve. Qed.
#[export] Hint Resolve r_policy r_aggregation_op r_transformation_op r_rollup_op : wire.
Lemma r_pipeline_op : respects pipeline_op_schema op_fields. Proof. respects_solve. Qed.
#[export] Hint Resolve r_pipeline_op : wire.
Lemma r_pipeline : respects pipeline_schema pipeline_fields. Proof. respects_solve. Qed.
Lemma r_applied_rollup : respects applied_rollup_op_schema applied_rollup_fields. Proof. respects_solve. Qed.
#[export] Hint Resolve r_pipeline r_applied_rollup : wire.
Lemma r_applied_op : respects applied_pipeline_op_schema applied_op_fields. Proof. respects_solve. Qed.
#[export] Hint Resolve r_applied_op : wire.
Lemma r_applied : respects applied_pipeline_schema applied_fields. Proof. respects_solve. Qed.
#[export] Hint Resolve r_applied : wire.

Lemma r_mapping_snapshot : respects mapping_rule_snapshot_schema mapping_snapshot_fields. Proof. respects_solve. Qed.
Lemma r_target : respects rollup_target_schema target_v1_fields. Proof. respects_solve. Qed.
Lemma r_target_v2 : respects rollup_target_v2_schema target_v2_fields. Proof. respects_solve. Qed.
#[export] Hint Resolve r_mapping_snapshot r_target r_target_v2 : wire.
Lemma r_rollup_snapshot : respects rollup_rule_snapshot_schema rollup_snapshot_fields. Proof. respects_solve. Qed.
#[export] Hint Resolve r_rollup_snapshot : wire.
Lemma r_mapping_rule : respects mapping_rule_schema (rule_fields mapping_snapshot_fields zero_mapping_snapshot_pb).
Proof. respects_solve. Qed.
Lemma r_rollup_rule : respects rollup_rule_schema (rule_fields rollup_snapshot_fields zero_rollup_snapshot_pb).
Proof. respects_solve. Qed.
#[export] Hint Resolve r_mapping_rule r_rollup_rule : wire.
Lemma r_rule_set : respects rule_set_schema rule_set_fields. Proof. respects_solve. Qed.

Lemma r_namespace_snapshot : respects namespace_snapshot_schema ns_snapshot_fields. Proof. respects_solve. Qed.
#[export] Hint Resolve r_namespace_snapshot : wire.
Lemma r_namespace : respects namespace_schema namespace_fields. Proof. respects_solve. Qed.
#[export] Hint Resolve r_namespace : wire.
Lemma r_namespaces : respects namespaces_schema namespaces_fields. Proof. respects_solve. Qed.

Lemma r_counter : respects counter_schema counter_fields. Proof. respects_solve. Qed.
Lemma r_timer : respects batch_timer_schema timer_fields. Proof. respects_solve. Qed.
Lemma r_gauge : respects gauge_schema gauge_fields. Proof. respects_solve. Qed.
Lemma r_timed : respects timed_metric_schema timed_fields. Proof. respects_solve. Qed.
Lemma r_forwarded : respects forwarded_metric_schema forwarded_fields. Proof. respects_solve. Qed.
#[export] Hint Resolve r_counter r_timer r_gauge r_timed r_forwarded : wire.
Lemma r_pipeline_metadata : respects pipeline_metadata_schema pm_fields. Proof. respects_solve. Qed.
#[export] Hint Resolve r_pipeline_metadata : wire.
Lemma r_metadata : respects metadata_schema md_fields. Proof. respects_solve. Qed.
#[export] Hint Resolve r_metadata : wire.
Lemma r_staged : respects staged_metadata_schema sm_fields. Proof. respects_solve. Qed.
#[export] Hint Resolve r_staged : wire.
Lemma r_stageds : respects staged_metadatas_schema sms_fields. Proof. respects_solve. Qed.
Lemma r_forward_metadata : respects forward_metadata_schema fm_fields. Proof. respects_solve. Qed.
Lemma r_timed_metadata : respects timed_metadata_schema tm_fields. Proof. respects_solve. Qed.
#[export] Hint Resolve r_stageds r_forward_metadata r_timed_metadata : wire.
Lemma r_cm : respects [(1, Message counter_schema); (2, Message staged_metadatas_schema)] cm_fields. Proof. respects_solve. Qed.
Lemma r_bm : respects [(1, Message batch_timer_schema); (2, Message staged_metadatas_schema)] bm_fields. Proof. respects_solve. Qed.
Lemma r_gm : respects [(1, Message gauge_schema); (2, Message staged_metadatas_schema)] gm_fields. Proof. respects_solve. Qed.
Lemma r_fwm : respects [(1, Message forwarded_metric_schema); (2, Message forward_metadata_schema)] fwm_fields. Proof. respects_solve. Qed.
Lemma r_tdm : respects [(1, Message timed_metric_schema); (2, Message timed_metadata_schema)] tdm_fields. Proof. respects_solve. Qed.
#[export] Hint Resolve r_cm r_bm r_gm r_fwm r_tdm : wire.
Lemma r_metric : respects metric_with_metadatas_schema mm_fields. Proof. respects_solve. Qed.
