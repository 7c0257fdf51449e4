(** Facts about the wire primitives of the generated protobuf code and the generic round trip. *)
From Coq Require Import Ascii String NArith ZArith Bool Lia List.
From Verif.Base Require Import Bytes BytesFacts.
From Verif.Model Require Import Transformation ProtoWire.
Import ListNotations.
Local Open Scope Z_scope.

Lemma bz_range a : 0 <= bz a < 256.
Proof. unfold bz. pose proof (N_ascii_bounded a). lia. Qed.

Lemma bz_zb z : 0 <= z < 256 -> bz (zb z) = z.
Proof. intros H. unfold bz, zb. rewrite N_ascii_embedding by lia. lia. Qed.

Lemma zb_bz a : zb (bz a) = a.
Proof. unfold bz, zb. rewrite N2Z.id. apply ascii_N_embedding. Qed.

Lemma zlen_app {A} (x y : list A) : zlen (x ++ y) = zlen x + zlen y.
Proof. unfold zlen. rewrite app_length. lia. Qed.
Lemma zlen_cons {A} (a : A) (x : list A) : zlen (a :: x) = 1 + zlen x.
Proof. unfold zlen. cbn [length]. lia. Qed.
Lemma zlen_nil {A} : zlen (@nil A) = 0.
Proof. reflexivity. Qed.
Lemma zlen_nonneg {A} (x : list A) : 0 <= zlen x.
Proof. unfold zlen. lia. Qed.

Lemma to_int64_id z : - 2 ^ 63 <= z < 2 ^ 63 -> to_int64 z = z.
Proof. intros H. unfold to_int64. rewrite Z.mod_small; lia. Qed.

Lemma to_int64_range z : - 2 ^ 63 <= to_int64 z < 2 ^ 63.
Proof. unfold to_int64. pose proof (Z.mod_pos_bound (z + 2 ^ 63) (2 ^ 64)). lia. Qed.

Lemma to_int64_u64 z : - 2 ^ 63 <= z < 2 ^ 63 -> to_int64 (u64 z) = z.
Proof.
  intros H. unfold to_int64, u64. rewrite Zplus_mod_idemp_l. rewrite Z.mod_small; lia.
Qed.

Lemma to_int32_u64 z : - 2 ^ 31 <= z < 2 ^ 31 -> to_int32 (u64 z) = z.
Proof.
  intros H. rewrite <- (to_int32_id z H) at 2. unfold to_int32, u64.
  replace (2 ^ 64) with (2 ^ 32 * 2 ^ 32) by reflexivity.
  rewrite Z.rem_mul_r by lia.
  replace ((z mod 2 ^ 32 + 2 ^ 32 * (z / 2 ^ 32 mod 2 ^ 32)) mod 2 ^ 32) with (z mod 2 ^ 32)
    by (rewrite Z.mul_comm, Z.mod_add, Z.mod_mod by lia; reflexivity).
  reflexivity.
Qed.

Lemma u64_id z : 0 <= z < 2 ^ 64 -> u64 z = z.
Proof. intros H. unfold u64. rewrite Z.mod_small; lia. Qed.
Lemma u64_range z : 0 <= u64 z < 2 ^ 64.
Proof. unfold u64. apply Z.mod_pos_bound. lia. Qed.
Lemma u32_id z : 0 <= z < 2 ^ 32 -> u32 z = z.
Proof. intros H. unfold u32. rewrite Z.mod_small; lia. Qed.

(** * Varints *)

Lemma get_put_varint k : forall v w acc r,
  0 <= v < 128 ^ Z.of_nat k -> (0 < k)%nat ->
  get_varint k w acc (put_varint k v ++ r) = Ok (acc + v * w, r).
Proof.
  induction k as [|k IH]; intros v w acc r Hv Hk; [lia|].
  cbn [put_varint]. destruct (v <? 128) eqn:E.
  - apply Z.ltb_lt in E. cbn [app get_varint]. rewrite bz_zb by lia.
    rewrite (proj2 (Z.ltb_lt v 128) E), Z.mod_small by lia. reflexivity.
  - apply Z.ltb_ge in E. pose proof (Z.mod_pos_bound v 128). cbn [app get_varint].
    rewrite bz_zb by lia. rewrite (proj2 (Z.ltb_ge _ 128)) by lia.
    replace ((v mod 128 + 128) mod 128) with (v mod 128)
      by (replace (v mod 128 + 128) with (v mod 128 + 1 * 128) by lia;
          rewrite Z.mod_add, Z.mod_mod by lia; reflexivity).
    destruct k as [|k]; [cbn in Hv; lia|].
    rewrite IH; [| |lia].
    + f_equal. f_equal. pose proof (Z.div_mod v 128). nia.
    + rewrite Nat2Z.inj_succ, Z.pow_succ_r in Hv by lia.
      split; [apply Z.div_pos; lia|]. apply Z.div_lt_upper_bound; lia.
Qed.

Lemma dec_enc_varint v r : 0 <= v < 2 ^ 64 -> dec_varint (enc_varint v ++ r) = Ok (v, r).
Proof.
  intros H. unfold dec_varint, enc_varint. rewrite get_put_varint; [|cbn; lia|lia].
  f_equal. f_equal. lia.
Qed.

Lemma put_varint_length k : forall v, 0 <= v -> zlen (put_varint k v) = sov_loop k v.
Proof.
  induction k as [|k IH]; intros v Hv; [reflexivity|]. cbn [put_varint sov_loop].
  destruct (v <? 128) eqn:E.
  - apply Z.ltb_lt in E. rewrite Z.div_small by lia. reflexivity.
  - apply Z.ltb_ge in E. rewrite zlen_cons, IH by (apply Z.div_pos; lia).
    destruct (v / 128 =? 0) eqn:E2; [|reflexivity].
    apply Z.eqb_eq in E2. apply Z.div_small_iff in E2; lia.
Qed.

Lemma enc_varint_length v : 0 <= v -> zlen (enc_varint v) = sov v.
Proof. apply put_varint_length. Qed.

Lemma sov_pos v : 1 <= sov v.
Proof.
  assert (forall k x, 0 <= sov_loop k x) as P.
  { induction k; intros x; cbn [sov_loop]; [lia|]. specialize (IHk (x / 128)). destruct (_ =? _); lia. }
  unfold sov. cbn [sov_loop]. pose proof (P 9%nat (v / 128)). cbn [sov_loop] in H. destruct (v / 128 =? 0); lia.
Qed.

Lemma get_varint_suffix k : forall w acc d v r,
  get_varint k w acc d = Ok (v, r) -> exists p, d = p ++ r /\ p <> [] /\ (length p <= k)%nat.
Proof.
  induction k as [|k IH]; intros w acc d v r H; [discriminate|].
  cbn [get_varint] in H. destruct d as [|b d]; [discriminate|]. destruct (bz b <? 128).
  - injection H as _ <-. exists [b]. repeat split; [discriminate|cbn; lia].
  - apply IH in H as (p & -> & _ & L). exists (b :: p). repeat split; [discriminate|cbn; lia].
Qed.

Lemma dec_varint_suffix d v r : dec_varint d = Ok (v, r) -> exists p, d = p ++ r /\ p <> [].
Proof. intros H. apply get_varint_suffix in H as (p & -> & N & _). eauto. Qed.

Lemma get_varint_no_panic k : forall w acc d, get_varint k w acc d <> Panic.
Proof.
  induction k as [|k IH]; intros w acc d; cbn [get_varint]; [discriminate|].
  destruct d as [|b d]; [discriminate|]. destruct (bz b <? 128); [discriminate|apply IH].
Qed.
Lemma dec_varint_no_panic d : dec_varint d <> Panic.
Proof. apply get_varint_no_panic. Qed.

(** Bytes after the integer do not matter. *)
Lemma get_varint_app k : forall w acc d v r x,
  get_varint k w acc d = Ok (v, r) -> get_varint k w acc (d ++ x) = Ok (v, r ++ x).
Proof.
  induction k as [|k IH]; intros w acc d v r x H; [discriminate|].
  cbn [get_varint] in *. destruct d as [|b d]; [discriminate|]. cbn [app].
  destruct (bz b <? 128); [injection H as <- <-; reflexivity|apply IH, H].
Qed.
Lemma dec_varint_app d v r x : dec_varint d = Ok (v, r) -> dec_varint (d ++ x) = Ok (v, r ++ x).
Proof. apply get_varint_app. Qed.

Lemma get_varint_nonneg k : forall w acc d v r,
  0 <= w -> 0 <= acc -> get_varint k w acc d = Ok (v, r) -> 0 <= v.
Proof.
  induction k as [|k IH]; intros w acc d v r Hw Ha H; [discriminate|].
  cbn [get_varint] in H. destruct d as [|b d]; [discriminate|].
  pose proof (Z.mod_pos_bound (bz b) 128). destruct (bz b <? 128).
  - injection H as <- _. nia.
  - apply IH in H; [exact H|lia|nia].
Qed.
Lemma dec_varint_nonneg d v r : dec_varint d = Ok (v, r) -> 0 <= v.
Proof. apply get_varint_nonneg; lia. Qed.

(** * Fixed width *)

Lemma put_le_length k : forall v, length (put_le k v) = k.
Proof. induction k; intros v; cbn [put_le length]; auto. Qed.

Lemma get_put_le k : forall v r, 0 <= v < 256 ^ Z.of_nat k -> get_le k (put_le k v ++ r) = Some (v, r).
Proof.
  induction k as [|k IH]; intros v r H.
  - cbn in *. f_equal. f_equal. lia.
  - cbn [put_le app get_le]. rewrite Nat2Z.inj_succ, Z.pow_succ_r in H by lia.
    pose proof (Z.mod_pos_bound v 256). pose proof (Z.div_mod v 256).
    rewrite IH by (split; [apply Z.div_pos; lia|apply Z.div_lt_upper_bound; lia]).
    rewrite bz_zb by lia. f_equal. f_equal. lia.
Qed.

Lemma get_le_suffix k : forall d v r, get_le k d = Some (v, r) -> exists p, d = p ++ r /\ length p = k.
Proof.
  induction k as [|k IH]; intros d v r H; cbn [get_le] in H.
  - injection H as _ <-. exists []. auto.
  - destruct d as [|b d]; [discriminate|]. destruct (get_le k d) as [[v' d']|] eqn:E; [|discriminate].
    injection H as _ <-. apply IH in E as (p & -> & L). exists (b :: p). cbn. auto.
Qed.

Lemma double8 v r : 0 <= v < 2 ^ 64 -> get_le 8 (put_le 8 v ++ r) = Some (v, r).
Proof. intros H. apply get_put_le. cbn. lia. Qed.

(** * Fields *)

Definition known {M} (fs : list (field M)) (f : field M) : Prop :=
  1 <= f_num f < 16 /\ find_field fs (f_num f) = Some f.

(** Reading [d] into [m] goes on like reading [r] into [m']. *)
Definition steps {M} (fs : list (field M)) (l : Z) (d : bytes) (m : M) (r : bytes) (m' : M) : Prop :=
  forall fuel, (length d <= fuel)%nat ->
    exists fuel', (length r <= fuel')%nat /\ unmarshal_loop fs l fuel d m = unmarshal_loop fs l fuel' r m'.

Lemma steps_refl {M} (fs : list (field M)) l d m : steps fs l d m d m.
Proof. intros fuel H. eauto. Qed.

Lemma steps_trans {M} (fs : list (field M)) l d m d' m' d'' m'' :
  steps fs l d m d' m' -> steps fs l d' m' d'' m'' -> steps fs l d m d'' m''.
Proof.
  intros H1 H2 fuel F. destruct (H1 fuel F) as (f1 & F1 & ->). destruct (H2 f1 F1) as (f2 & F2 & ->). eauto.
Qed.

Lemma steps_unmarshal {M} (fs : list (field M)) d m m' :
  steps fs (zlen d) d m [] m' -> unmarshal fs d m = Ok m'.
Proof.
  intros H. unfold unmarshal. destruct (H (length d) (le_n _)) as (f & _ & ->). destruct f; reflexivity.
Qed.

Lemma dec_tag num wt r :
  1 <= num < 16 -> 0 <= wt < 8 -> dec_varint (tag num wt ++ r) = Ok (num * 8 + wt, r).
Proof.
  intros Hn Hw. unfold tag, dec_varint. cbn [app get_varint]. rewrite bz_zb by lia.
  rewrite (proj2 (Z.ltb_lt _ 128)) by lia. rewrite Z.mod_small by lia. f_equal. f_equal. lia.
Qed.

Lemma step_field {M} (fs : list (field M)) l (f : field M) wt p m m' r :
  known fs f -> 0 <= wt < 4 ->
  f_dec f l wt p m = Ok (m', r) -> (length r <= length p)%nat ->
  steps fs l (tag (f_num f) wt ++ p) m r m'.
Proof.
  intros [Hn Hf] Hw D L fuel F. destruct fuel as [|fuel]; [cbn in F; lia|].
  exists fuel. split; [cbn in F; lia|].
  cbn [unmarshal_loop tag app]. change (zb (f_num f * 8 + wt) :: p) with (tag (f_num f) wt ++ p).
  rewrite dec_tag by lia. cbn [bind].
  replace ((f_num f * 8 + wt) mod 8) with wt
    by (rewrite Z.add_comm, Z.mod_add, Z.mod_small by lia; reflexivity).
  replace (u64 (f_num f * 8 + wt) / 8) with (f_num f)
    by (rewrite u64_id by lia; rewrite Z.div_add_l, Z.div_small by lia; lia).
  rewrite to_int32_id by lia.
  rewrite (proj2 (Z.eqb_neq wt 4)) by lia. rewrite (proj2 (Z.leb_gt (f_num f) 0)) by lia.
  rewrite Hf, D. reflexivity.
Qed.

Lemma dec_bytes_ok l b r :
  zlen (enc_varint (zlen b) ++ b ++ r) <= l -> l < 2 ^ 63 ->
  dec_bytes l (enc_varint (zlen b) ++ b ++ r) = Ok (b, r).
Proof.
  intros H L. unfold dec_bytes. rewrite !zlen_app in H.
  pose proof (zlen_nonneg b). pose proof (zlen_nonneg r). pose proof (zlen_nonneg (enc_varint (zlen b))).
  rewrite dec_enc_varint by lia. cbn [bind]. rewrite (to_int64_id (zlen b)) by lia.
  rewrite (proj2 (Z.ltb_ge (zlen b) 0)) by lia. rewrite zlen_app.
  rewrite to_int64_id by lia.
  rewrite (proj2 (Z.ltb_ge l _)) by lia. rewrite (proj2 (Z.ltb_ge _ 0)) by lia.
  assert (Z.to_nat (zlen b) = length b) as -> by (unfold zlen; lia).
  rewrite firstn_app, Nat.sub_diag, firstn_all, skipn_app, Nat.sub_diag, skipn_all. cbn [firstn skipn app].
  rewrite app_nil_r. reflexivity.
Qed.

Section Field.
  Context {M : Type} (fs : list (field M)) (l : Z).
  Hypothesis Hl : l < 2 ^ 63.

  Lemma steps_varint num conv (get : M -> Z) set m m0 r :
    known fs (varint_field num conv get set) -> (get m <> 0 -> conv (u64 (get m)) = get m) ->
    steps fs l (f_enc (varint_field num conv get set) m ++ r) m0 r (if get m =? 0 then m0 else set (get m) m0).
  Proof.
    intros K C. cbn [f_enc varint_field]. destruct (get m =? 0) eqn:E; [apply steps_refl|].
    apply Z.eqb_neq in E. rewrite <- app_assoc.
    refine (step_field fs l (varint_field num conv get set) 0 _ _ _ _ K _ _ _); [lia| |].
    - cbn [f_dec varint_field]. rewrite dec_enc_varint by apply u64_range. cbn. rewrite C by exact E. reflexivity.
    - rewrite app_length. lia.
  Qed.

  Lemma steps_bytes num (get : M -> bytes) set m m0 r :
    known fs (bytes_field num get set) ->
    zlen (f_enc (bytes_field num get set) m ++ r) <= l ->
    steps fs l (f_enc (bytes_field num get set) m ++ r) m0 r
      (match get m with [] => m0 | b => set b m0 end).
  Proof.
    intros K Z. cbn [f_enc bytes_field] in *. destruct (get m) as [|a b] eqn:E; [apply steps_refl|].
    rewrite <- !app_assoc in *.
    refine (step_field fs l (bytes_field num get set) 2 _ _ _ _ K _ _ _); [lia| |].
    - cbn [f_dec bytes_field]. rewrite dec_bytes_ok; [reflexivity| |exact Hl].
      rewrite !zlen_app in *. pose proof (zlen_nonneg (tag num 2)). lia.
    - rewrite !app_length. lia.
  Qed.

  Definition nz (v : Z) : Z := if v =? 2 ^ 63 then 0 else v.

  Lemma steps_double num (get : M -> Z) set m m0 r :
    known fs (double_field num get set) -> 0 <= get m < 2 ^ 64 ->
    steps fs l (f_enc (double_field num get set) m ++ r) m0 r
      (if double_is_zero (get m) then m0 else set (nz (get m)) m0).
  Proof.
    intros K R. cbn [f_enc double_field]. destruct (double_is_zero (get m)) eqn:E; [apply steps_refl|].
    rewrite <- app_assoc.
    refine (step_field fs l (double_field num get set) 1 _ _ _ _ K _ _ _); [lia| |].
    - cbn [f_dec double_field]. change (negb (1 =? 1)) with false. cbn match. rewrite double8 by exact R.
      unfold double_is_zero in E. apply orb_false_iff in E as [_ E]. unfold nz. rewrite E. reflexivity.
    - rewrite app_length. lia.
  Qed.

  Lemma dec_packed_ok vs : forall fuel r acc,
    Forall (fun v => 0 <= v < 2 ^ 64) vs -> (length (concat (map (put_le 8) vs) ++ r) < fuel)%nat ->
    dec_packed fuel (zlen vs * 8) (concat (map (put_le 8) vs) ++ r) acc = Ok (acc ++ vs, r).
  Proof.
    induction vs as [|v vs IH]; intros fuel r acc F L.
    - destruct fuel; cbn; rewrite ?app_nil_r; reflexivity.
    - inversion F as [|? ? Hv F']; subst. destruct fuel as [|fuel]; [lia|].
      cbn [map concat]. rewrite <- app_assoc. cbn [dec_packed]. rewrite zlen_cons.
      pose proof (zlen_nonneg vs). rewrite (proj2 (Z.leb_gt _ 0)) by lia.
      rewrite double8 by exact Hv. replace ((1 + zlen vs) * 8 - 8) with (zlen vs * 8) by lia.
      rewrite IH; [rewrite <- app_assoc; reflexivity|exact F'|].
      cbn [map concat] in L. rewrite <- app_assoc, app_length, put_le_length in L. lia.
  Qed.

  Lemma concat_put_le vs : zlen (concat (map (put_le 8) vs)) = zlen vs * 8.
  Proof.
    induction vs as [|v vs IH]; [reflexivity|]. cbn [map concat]. rewrite zlen_app, zlen_cons, IH.
    assert (zlen (put_le 8 v) = 8) as -> by (unfold zlen; rewrite put_le_length; lia). lia.
  Qed.

  Lemma steps_doubles num (get : M -> list Z) set m m0 r :
    known fs (doubles_field num get set) -> Forall (fun v => 0 <= v < 2 ^ 64) (get m) ->
    zlen (f_enc (doubles_field num get set) m ++ r) <= l ->
    steps fs l (f_enc (doubles_field num get set) m ++ r) m0 r
      (match get m with [] => m0 | vs => set (get m0 ++ vs) m0 end).
  Proof.
    intros K F Z. cbn [f_enc doubles_field] in *. destruct (get m) as [|a b] eqn:E; [apply steps_refl|].
    rewrite <- E in *. remember (get m) as vs eqn:V. clear V E.
    rewrite <- !app_assoc in *. rewrite !zlen_app in Z. pose proof (concat_put_le vs) as CL.
    pose proof (zlen_nonneg (tag num 2)). pose proof (zlen_nonneg vs). pose proof (zlen_nonneg r).
    pose proof (zlen_nonneg (enc_varint (zlen vs * 8))).
    refine (step_field fs l (doubles_field num get set) 2 _ _ _ _ K _ _ _); [lia| |].
    - cbn [f_dec doubles_field]. change (2 =? 1) with false. change (2 =? 2) with true. cbn match.
      rewrite dec_enc_varint by lia. cbn [bind]. rewrite to_int64_id by lia.
      rewrite (proj2 (Z.ltb_ge _ 0)) by lia. rewrite zlen_app, CL.
      rewrite to_int64_id by lia.
      rewrite (proj2 (Z.ltb_ge l _)) by lia.
      replace (l - (zlen vs * 8 + zlen r) + zlen vs * 8 - (l - (zlen vs * 8 + zlen r))) with (zlen vs * 8) by lia.
      rewrite dec_packed_ok by (auto; lia). reflexivity.
    - rewrite !app_length. lia.
  Qed.

  (** [s] is read back as [s'] when starting from [z]. *)
  Definition reads {S} (gs : list (field S)) (z s s' : S) : Prop :=
    size gs s = zlen (marshal gs s) /\
    (zlen (marshal gs s) < 2 ^ 63 -> unmarshal gs (marshal gs s) z = Ok s').

  Lemma dec_msg_ok {S} (gs : list (field S)) z s s' r :
    reads gs z s s' -> zlen (enc_varint (size gs s) ++ marshal gs s ++ r) <= l ->
    dec_msg gs l 2 (enc_varint (size gs s) ++ marshal gs s ++ r) z = Ok (s', r).
  Proof.
    intros [Sz U] Z. unfold dec_msg. change (negb (2 =? 2)) with false. cbn match.
    rewrite Sz in *. rewrite dec_bytes_ok by (auto; lia). cbn [bind].
    rewrite !zlen_app in Z. pose proof (zlen_nonneg r). pose proof (zlen_nonneg (enc_varint (zlen (marshal gs s)))).
    rewrite U by lia. reflexivity.
  Qed.

  Lemma steps_msg {S} num (gs : list (field S)) (get : M -> S) set m m0 r s' :
    known fs (msg_field num gs get set) -> reads gs (get m0) (get m) s' ->
    zlen (f_enc (msg_field num gs get set) m ++ r) <= l ->
    steps fs l (f_enc (msg_field num gs get set) m ++ r) m0 r (set s' m0).
  Proof.
    intros K R Z. cbn [f_enc msg_field] in *. unfold enc_msg in *. rewrite <- !app_assoc in *.
    refine (step_field fs l (msg_field num gs get set) 2 _ _ _ _ K _ _ _); [lia| |].
    - cbn [f_dec msg_field]. rewrite (dec_msg_ok gs _ _ _ _ R); [reflexivity|].
      rewrite zlen_app in Z. pose proof (zlen_nonneg (tag num 2)). lia.
    - rewrite !app_length. lia.
  Qed.

  Lemma steps_ptr {S} num (gs : list (field S)) z (get : M -> option S) set m m0 r s s' :
    known fs (ptr_field num gs z get set) -> get m = Some s ->
    reads gs (match get m0 with None => z | Some x => x end) s s' ->
    zlen (f_enc (ptr_field num gs z get set) m ++ r) <= l ->
    steps fs l (f_enc (ptr_field num gs z get set) m ++ r) m0 r (set (Some s') m0).
  Proof.
    intros K E R Z. cbn [f_enc ptr_field] in *. rewrite E in *. unfold enc_msg in *. rewrite <- !app_assoc in *.
    refine (step_field fs l (ptr_field num gs z get set) 2 _ _ _ _ K _ _ _); [lia| |].
    - cbn [f_dec ptr_field]. rewrite (dec_msg_ok gs _ _ _ _ R); [reflexivity|].
      rewrite zlen_app in Z. pose proof (zlen_nonneg (tag num 2)). lia.
    - rewrite !app_length. lia.
  Qed.

  Lemma steps_ptr_none {S} num (gs : list (field S)) z (get : M -> option S) set m m0 r :
    get m = None -> steps fs l (f_enc (ptr_field num gs z get set) m ++ r) m0 r m0.
  Proof. intros E. cbn [f_enc ptr_field]. rewrite E. apply steps_refl. Qed.

  (** Appending the elements one by one. *)
  Lemma steps_msgs_list {S} num (gs : list (field S)) z (get : M -> list S) set
    (Hgs : forall v m, get (set v m) = v) (Hss : forall v w m, set w (set v m) = set w m)
    (Hsg : forall m, set (get m) m = m) :
    known fs (msgs_field num gs z get set) -> forall ss ss' m0 r,
    Forall2 (reads gs z) ss ss' ->
    zlen (concat (map (enc_msg num gs) ss) ++ r) <= l ->
    steps fs l (concat (map (enc_msg num gs) ss) ++ r) m0 r (set (get m0 ++ ss') m0).
  Proof.
    intros K ss ss' m0 r F. revert m0 r.
    induction F as [|s s' ss ss' R F IH]; intros m0 r Z.
    - cbn [map concat app]. rewrite app_nil_r, Hsg. apply steps_refl.
    - cbn [map concat] in *. rewrite <- app_assoc in *. unfold enc_msg at 1 in Z. unfold enc_msg at 1.
      rewrite <- !app_assoc in *. rewrite zlen_app in Z. pose proof (zlen_nonneg (tag num 2)).
      eapply steps_trans.
      + refine (step_field fs l (msgs_field num gs z get set) 2 _ m0 (set (get m0 ++ [s']) m0)
                  (concat (map (enc_msg num gs) ss) ++ r) K _ _ _); [lia| |].
        * cbn [f_dec msgs_field]. rewrite (dec_msg_ok gs _ _ _ _ R); [reflexivity|]. lia.
        * rewrite !app_length. lia.
      + rewrite !zlen_app in Z. pose proof (zlen_nonneg (enc_varint (size gs s))). pose proof (zlen_nonneg (marshal gs s)).
        specialize (IH (set (get m0 ++ [s']) m0) r). rewrite Hgs, Hss, <- app_assoc in IH.
        apply IH. rewrite !zlen_app. lia.
  Qed.

  Lemma steps_msgs {S} num (gs : list (field S)) z (get : M -> list S) set m m0 r ss'
    (Hgs : forall v m, get (set v m) = v) (Hss : forall v w m, set w (set v m) = set w m)
    (Hsg : forall m, set (get m) m = m) :
    known fs (msgs_field num gs z get set) -> Forall2 (reads gs z) (get m) ss' ->
    zlen (f_enc (msgs_field num gs z get set) m ++ r) <= l ->
    steps fs l (f_enc (msgs_field num gs z get set) m ++ r) m0 r (set (get m0 ++ ss') m0).
  Proof. intros K F Z. cbn [f_enc msgs_field] in *. apply (steps_msgs_list num gs z get set); auto. Qed.
End Field.

(** * Sizes *)

Definition sized {M} (f : field M) : Prop := forall m, f_size f m = zlen (f_enc f m).

Lemma size_marshal {M} (fs : list (field M)) : Forall sized fs -> forall m, size fs m = zlen (marshal fs m).
Proof.
  intros F m. unfold size, marshal. induction F as [|f fs H F IH]; [reflexivity|].
  cbn [fold_right map concat]. rewrite zlen_app, H, IH. reflexivity.
Qed.

Lemma tag_len num wt : zlen (tag num wt) = 1.
Proof. reflexivity. Qed.

Lemma sized_varint {M} num conv (get : M -> Z) set : sized (varint_field num conv get set).
Proof.
  intros m. cbn [f_size f_enc varint_field]. destruct (get m =? 0); [reflexivity|].
  rewrite zlen_app, tag_len, enc_varint_length by apply u64_range. reflexivity.
Qed.
Lemma sized_bytes {M} num (get : M -> bytes) set : sized (bytes_field num get set).
Proof.
  intros m. cbn [f_size f_enc bytes_field]. destruct (get m) as [|a b] eqn:E; [reflexivity|].
  rewrite !zlen_app, tag_len, enc_varint_length by apply zlen_nonneg. lia.
Qed.
Lemma sized_double {M} num (get : M -> Z) set : sized (double_field num get set).
Proof. intros m. cbn [f_size f_enc double_field]. destruct (double_is_zero (get m)); reflexivity. Qed.
Lemma sized_doubles {M} num (get : M -> list Z) set : sized (doubles_field num get set).
Proof.
  intros m. cbn [f_size f_enc doubles_field]. destruct (get m) as [|a b] eqn:E; [reflexivity|].
  rewrite !zlen_app, tag_len, concat_put_le, enc_varint_length by (pose proof (zlen_nonneg (a :: b)); lia). lia.
Qed.
Lemma sized_enc_msg {S} num (gs : list (field S)) s : Forall sized gs -> size_msg gs s = zlen (enc_msg num gs s).
Proof.
  intros F. unfold size_msg, enc_msg. rewrite !zlen_app, tag_len, (size_marshal gs F).
  rewrite enc_varint_length by apply zlen_nonneg. lia.
Qed.
Lemma sized_msg {M S} num (gs : list (field S)) (get : M -> S) set : Forall sized gs -> sized (msg_field num gs get set).
Proof. intros F m. apply sized_enc_msg, F. Qed.
Lemma sized_ptr {M S} num (gs : list (field S)) z (get : M -> option S) set :
  Forall sized gs -> sized (ptr_field num gs z get set).
Proof.
  intros F m. cbn [f_size f_enc ptr_field]. destruct (get m); [apply sized_enc_msg, F|reflexivity].
Qed.
Lemma sized_msgs {M S} num (gs : list (field S)) z (get : M -> list S) set :
  Forall sized gs -> sized (msgs_field num gs z get set).
Proof.
  intros F m. cbn [f_size f_enc msgs_field]. induction (get m) as [|s ss IH]; [reflexivity|].
  cbn [fold_right map concat]. rewrite zlen_app, IH, (sized_enc_msg num gs s F). reflexivity.
Qed.
