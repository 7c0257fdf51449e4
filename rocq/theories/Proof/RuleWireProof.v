(** Stored rule sets and namespaces survive the wire. *)
From Coq Require Import Ascii String NArith ZArith Bool Lia List.
From Verif.Base Require Import Bytes BytesFacts Slice.
From Verif.Model Require Import AggType Policy Transformation Pipeline Metadata Rules RuleSetProto Namespace ProtoWire
  Messages RuleWire.
From Verif.Spec Require Import RuleWireSpec.
From Verif.Proof Require Import ProtoWireProof MessagesProof ProtoPure ProtoSafeProof.
Import ListNotations.
Local Open Scope Z_scope.

(** * Enums in packed lists *)

Lemma put_varint_more k : forall n v, (0 < k <= n)%nat -> 0 <= v < 128 ^ Z.of_nat k -> put_varint k v = put_varint n v.
Proof.
  induction k as [|k IH]; intros n v L H; [lia|]. destruct n as [|n]; [lia|]. cbn [put_varint].
  destruct (v <? 128) eqn:E; [reflexivity|]. apply Z.ltb_ge in E. f_equal.
  destruct k as [|k]; [cbn in H; lia|]. apply IH; [lia|]. rewrite Nat2Z.inj_succ, Z.pow_succ_r in H by lia.
  split; [apply Z.div_pos; lia|apply Z.div_lt_upper_bound; lia].
Qed.
Lemma put_enum_eq k : forall v, 0 <= v -> put_enum k v = put_varint k v.
Proof.
  induction k as [|k IH]; intros v H; [reflexivity|]. cbn [put_enum put_varint]. destruct (v <? 128) eqn:E.
  - apply Z.ltb_lt in E. rewrite Z.mod_small by lia. reflexivity.
  - rewrite IH by (apply Z.div_pos; lia). reflexivity.
Qed.
Lemma enc_enum_eq v : code_ok v -> enc_enum v = enc_varint v.
Proof.
  intros H. unfold code_ok in H. unfold enc_enum, enc_varint. rewrite put_enum_eq by lia. apply put_varint_more; [lia|].
  split; [lia|]. apply Z.lt_le_trans with (2 ^ 31); [lia|]. vm_compute. discriminate.
Qed.
Lemma dec_enum v r : code_ok v -> dec_varint (enc_enum v ++ r) = Ok (v, r).
Proof. intros H. rewrite enc_enum_eq by exact H. unfold code_ok in H. apply dec_enc_varint. lia. Qed.
Lemma enc_enum_pos v : 1 <= zlen (enc_enum v).
Proof.
  unfold enc_enum. cbn [put_enum]. destruct (v <? 128); [reflexivity|]. rewrite zlen_cons.
  pose proof (zlen_nonneg (put_enum 4 (v / 128))). cbn [put_enum] in H. lia.
Qed.

Lemma dec_enums_ok vs : forall fuel r acc,
  Forall code_ok vs -> (length (concat (map enc_enum vs) ++ r) < fuel)%nat ->
  dec_enums fuel (zlen (concat (map enc_enum vs))) (concat (map enc_enum vs) ++ r) acc = Ok (acc ++ vs, r).
Proof.
  induction vs as [|v vs IH]; intros fuel r acc F L.
  - destruct fuel; cbn; rewrite ?app_nil_r; reflexivity.
  - inversion F as [|? ? Hv F']; subst. destruct fuel as [|fuel]; [lia|]. cbn [map concat] in *.
    rewrite <- app_assoc in *. cbn [dec_enums]. rewrite zlen_app. pose proof (enc_enum_pos v).
    set (c := concat (map enc_enum vs)) in *. pose proof (zlen_nonneg c).
    rewrite (proj2 (Z.leb_gt _ 0)) by lia. rewrite dec_enum by exact Hv. cbn [bind].
    rewrite (to_int32_id v) by (unfold code_ok in Hv; lia).
    rewrite (zlen_app (enc_enum v) (c ++ r)).
    replace (zlen (enc_enum v) + zlen c - (zlen (enc_enum v) + zlen (c ++ r) - zlen (c ++ r))) with (zlen c) by lia.
    rewrite IH; [rewrite <- app_assoc; reflexivity|exact F'|].
    rewrite app_length in L. unfold zlen in *. lia.
Qed.

Lemma enums_size vs : Forall code_ok vs ->
  fold_right (fun v n => sov (u64 v) + n) 0 vs = zlen (concat (map enc_enum vs)).
Proof.
  induction 1 as [|v vs H F IH]; [reflexivity|]. cbn [fold_right map concat]. rewrite zlen_app, IH, enc_enum_eq by exact H.
  unfold code_ok in H. rewrite u64_id by lia. rewrite enc_varint_length by lia. reflexivity.
Qed.

(** * Sizes at one message *)

Definition sized_at {M} (m : M) (f : field M) : Prop := f_size f m = zlen (f_enc f m).

Lemma sized_all {M} (m : M) f : sized f -> sized_at m f.
Proof. intros H. apply H. Qed.
Lemma size_marshal_at {M} (fs : list (field M)) m : Forall (sized_at m) fs -> size fs m = zlen (marshal fs m).
Proof.
  intros F. unfold size, marshal. induction F as [|f fs H F IH]; [reflexivity|].
  cbn [fold_right map concat]. rewrite zlen_app, H, IH. reflexivity.
Qed.
Lemma reads_at {M} (fs : list (field M)) z m m' :
  Forall (sized_at m) fs ->
  (forall l, l < 2 ^ 63 -> zlen (marshal fs m) <= l -> steps fs l (marshal fs m) z [] m') ->
  reads fs z m m'.
Proof.
  intros F H. split; [apply size_marshal_at, F|]. intros L. apply steps_unmarshal. apply H; lia.
Qed.
Lemma sized_at_msg {S} num (gs : list (field S)) z s s' : reads gs z s s' -> size_msg gs s = zlen (enc_msg num gs s).
Proof.
  intros [H _]. unfold size_msg, enc_msg. rewrite !zlen_app, tag_len, H.
  rewrite enc_varint_length by apply zlen_nonneg. lia.
Qed.
Lemma sized_at_ptr {M S} num (gs : list (field S)) z (get : M -> option S) set m :
  if_set (fun s => reads gs z s s) (get m) -> sized_at m (ptr_field num gs z get set).
Proof.
  intros H. unfold sized_at. cbn [f_size f_enc ptr_field]. destruct (get m) as [s|]; [|reflexivity].
  exact (sized_at_msg num gs z s s H).
Qed.
Lemma sized_at_msgs {M S} num (gs : list (field S)) z (get : M -> list S) set m :
  Forall (fun s => reads gs z s s) (get m) -> sized_at m (msgs_field num gs z get set).
Proof.
  intros H. unfold sized_at. cbn [f_size f_enc msgs_field]. induction H as [|s ss H F IH]; [reflexivity|].
  cbn [fold_right map concat]. rewrite zlen_app, IH, (sized_at_msg num gs z s s H). reflexivity.
Qed.
Lemma sized_at_ptrs {M S} num (gs : list (field S)) z (get : M -> list (option S)) set m :
  each (fun s => reads gs z s s) (get m) -> sized_at m (ptrs_field num gs z get set).
Proof.
  intros H. unfold sized_at. cbn [f_size f_enc ptrs_field]. induction H as [|o ss (s & -> & H) F IH]; [reflexivity|].
  cbn [fold_right map concat]. rewrite zlen_app, IH, (sized_at_msg num gs z s s H). reflexivity.
Qed.
Lemma sized_at_enums {M} num (get : M -> list Z) set m :
  Forall code_ok (get m) -> sized_at m (enums_field num get set).
Proof.
  intros H. unfold sized_at. cbn [f_size f_enc enums_field]. destruct (get m) as [|a b] eqn:E; [reflexivity|].
  rewrite <- E in *. clear a b E. rewrite enums_size by exact H.
  rewrite !zlen_app, tag_len, enc_varint_length by apply zlen_nonneg. lia.
Qed.
Lemma sized_strings {M} num (get : M -> list bytes) set : sized (strings_field num get set).
Proof.
  intros m. cbn [f_size f_enc strings_field]. induction (get m) as [|s ss IH]; [reflexivity|].
  cbn [fold_right map concat]. rewrite !zlen_app, tag_len, enc_varint_length, IH by apply zlen_nonneg. lia.
Qed.

(** * Fields written into a message whose own field is still zero *)
Section Field.
  Context {M : Type} (fs : list (field M)) (l : Z).
  Hypothesis Hl : l < 2 ^ 63.

  Lemma wr_varint num conv (get : M -> Z) set m m0 r :
    known fs (varint_field num conv get set) -> conv (u64 (get m)) = get m -> set 0 m0 = m0 ->
    zlen (f_enc (varint_field num conv get set) m ++ r) <= l ->
    steps fs l (f_enc (varint_field num conv get set) m ++ r) m0 r (set (get m) m0).
  Proof.
    intros K C Z0 _. pose proof (steps_varint fs l num conv get set m m0 r K (fun _ => C)) as H.
    destruct (get m =? 0) eqn:E; [|exact H]. apply Z.eqb_eq in E. rewrite E, Z0. exact H.
  Qed.
  Lemma wr_bytes num (get : M -> bytes) set m m0 r :
    known fs (bytes_field num get set) -> set [] m0 = m0 ->
    zlen (f_enc (bytes_field num get set) m ++ r) <= l ->
    steps fs l (f_enc (bytes_field num get set) m ++ r) m0 r (set (get m) m0).
  Proof.
    intros K Z0 L. pose proof (steps_bytes fs l Hl num get set m m0 r K L) as H.
    destruct (get m) as [|a b]; [|exact H]. rewrite Z0. exact H.
  Qed.
  Lemma wr_ptr {S} num (gs : list (field S)) z (get : M -> option S) set m m0 r :
    known fs (ptr_field num gs z get set) -> if_set (fun s => reads gs z s s) (get m) ->
    get m0 = None -> set None m0 = m0 ->
    zlen (f_enc (ptr_field num gs z get set) m ++ r) <= l ->
    steps fs l (f_enc (ptr_field num gs z get set) m ++ r) m0 r (set (get m) m0).
  Proof.
    intros K R G Z0 L. destruct (get m) as [s|] eqn:E.
    - apply (steps_ptr fs l Hl num gs z get set m m0 r s s K E); [rewrite G; exact R|exact L].
    - rewrite Z0. apply steps_ptr_none, E.
  Qed.
  Lemma wr_enums num (get : M -> list Z) set m m0 r :
    known fs (enums_field num get set) -> Forall code_ok (get m) -> get m0 = [] -> set [] m0 = m0 ->
    zlen (f_enc (enums_field num get set) m ++ r) <= l ->
    steps fs l (f_enc (enums_field num get set) m ++ r) m0 r (set (get m) m0).
  Proof.
    intros K F G Z0 L. cbn [f_enc enums_field] in *. destruct (get m) as [|a b] eqn:E; [rewrite Z0; apply steps_refl|].
    rewrite <- E in *. remember (get m) as vs eqn:V. clear V E. cbv zeta in *.
    rewrite <- !app_assoc in *. rewrite !zlen_app in L. set (c := concat (map enc_enum vs)) in *.
    pose proof (zlen_nonneg (tag num 2)). pose proof (zlen_nonneg c). pose proof (zlen_nonneg r).
    pose proof (zlen_nonneg (enc_varint (zlen c))).
    refine (step_field fs l (enums_field num get set) 2 _ _ _ _ K _ _ _); [lia| |].
    - cbn [f_dec enums_field]. change (2 =? 0) with false. change (2 =? 2) with true. cbn match.
      rewrite dec_enc_varint by lia. cbn [bind]. rewrite to_int64_id by lia.
      rewrite (proj2 (Z.ltb_ge _ 0)) by lia. rewrite (zlen_app c r).
      rewrite to_int64_id by lia. rewrite (proj2 (Z.ltb_ge l _)) by lia.
      replace (l - (zlen c + zlen r) + zlen c - (l - (zlen c + zlen r))) with (zlen c) by lia.
      rewrite G. unfold c. rewrite dec_enums_ok by (auto; lia). reflexivity.
    - rewrite !app_length. lia.
  Qed.

  Lemma wr_strings_list num (get : M -> list bytes) set
    (Hgs : forall v m, get (set v m) = v) (Hss : forall v w m, set w (set v m) = set w m)
    (Hsg : forall m, set (get m) m = m) :
    known fs (strings_field num get set) -> forall ss m0 r,
    zlen (concat (map (fun s => tag num 2 ++ enc_varint (zlen s) ++ s) ss) ++ r) <= l ->
    steps fs l (concat (map (fun s => tag num 2 ++ enc_varint (zlen s) ++ s) ss) ++ r) m0 r (set (get m0 ++ ss) m0).
  Proof.
    intros K. induction ss as [|s ss IH]; intros m0 r L.
    - cbn [map concat app]. rewrite app_nil_r, Hsg. apply steps_refl.
    - cbn [map concat] in *. rewrite <- !app_assoc in *.
      set (c := concat (map (fun s => tag num 2 ++ enc_varint (zlen s) ++ s) ss)) in *.
      rewrite zlen_app in L. pose proof (zlen_nonneg (tag num 2)).
      eapply steps_trans.
      + refine (step_field fs l (strings_field num get set) 2 _ m0 (set (get m0 ++ [s]) m0) (c ++ r) K _ _ _); [lia| |].
        * cbn [f_dec strings_field]. change (negb (2 =? 2)) with false. cbn match.
          rewrite (dec_bytes_ok l s (c ++ r)) by lia. reflexivity.
        * rewrite !app_length. lia.
      + specialize (IH (set (get m0 ++ [s]) m0) r). rewrite Hgs, Hss, <- app_assoc in IH. apply IH.
        rewrite !zlen_app in L. pose proof (zlen_nonneg (enc_varint (zlen s))). pose proof (zlen_nonneg s).
        rewrite zlen_app. lia.
  Qed.
  Lemma wr_strings num (get : M -> list bytes) set m m0 r
    (Hgs : forall v m, get (set v m) = v) (Hss : forall v w m, set w (set v m) = set w m)
    (Hsg : forall m, set (get m) m = m) :
    known fs (strings_field num get set) -> get m0 = [] ->
    zlen (f_enc (strings_field num get set) m ++ r) <= l ->
    steps fs l (f_enc (strings_field num get set) m ++ r) m0 r (set (get m) m0).
  Proof.
    intros K G L. cbn [f_enc strings_field] in *.
    pose proof (wr_strings_list num get set Hgs Hss Hsg K (get m) m0 r L) as H. rewrite G in H. exact H.
  Qed.

  Lemma wr_ptrs_list {S} num (gs : list (field S)) z (get : M -> list (option S)) set
    (Hgs : forall v m, get (set v m) = v) (Hss : forall v w m, set w (set v m) = set w m)
    (Hsg : forall m, set (get m) m = m) :
    known fs (ptrs_field num gs z get set) -> forall ss m0 r,
    each (fun s => reads gs z s s) ss ->
    zlen (concat (map (fun s => match s with None => [] | Some s => enc_msg num gs s end) ss) ++ r) <= l ->
    steps fs l (concat (map (fun s => match s with None => [] | Some s => enc_msg num gs s end) ss) ++ r) m0 r
      (set (get m0 ++ ss) m0).
  Proof.
    intros K ss m0 r F. revert m0 r. induction F as [|o ss (s & -> & R) F IH]; intros m0 r L.
    - cbn [map concat app]. rewrite app_nil_r, Hsg. apply steps_refl.
    - cbn [map concat] in *.
      set (c := concat (map (fun s => match s with None => [] | Some s => enc_msg num gs s end) ss)) in *.
      unfold enc_msg in *. rewrite <- !app_assoc in *. rewrite zlen_app in L. pose proof (zlen_nonneg (tag num 2)).
      eapply steps_trans.
      + refine (step_field fs l (ptrs_field num gs z get set) 2 _ m0 (set (get m0 ++ [Some s]) m0) (c ++ r) K _ _ _); [lia| |].
        * cbn [f_dec ptrs_field]. rewrite (dec_msg_ok l Hl gs _ _ _ _ R); [reflexivity|]. lia.
        * rewrite !app_length. lia.
      + specialize (IH (set (get m0 ++ [Some s]) m0) r). rewrite Hgs, Hss, <- app_assoc in IH. apply IH.
        rewrite !zlen_app in L. pose proof (zlen_nonneg (enc_varint (size gs s))). pose proof (zlen_nonneg (marshal gs s)).
        rewrite zlen_app. lia.
  Qed.
  Lemma wr_ptrs {S} num (gs : list (field S)) z (get : M -> list (option S)) set m m0 r
    (Hgs : forall v m, get (set v m) = v) (Hss : forall v w m, set w (set v m) = set w m)
    (Hsg : forall m, set (get m) m = m) :
    known fs (ptrs_field num gs z get set) -> each (fun s => reads gs z s s) (get m) -> get m0 = [] ->
    zlen (f_enc (ptrs_field num gs z get set) m ++ r) <= l ->
    steps fs l (f_enc (ptrs_field num gs z get set) m ++ r) m0 r (set (get m) m0).
  Proof.
    intros K F G L. cbn [f_enc ptrs_field] in *.
    pose proof (wr_ptrs_list num gs z get set Hgs Hss Hsg K (get m) m0 r F L) as H. rewrite G in H. exact H.
  Qed.
End Field.

(** * Messages *)

Ltac wr_conv := lazymatch goal with
  | |- to_int64 _ = _ => apply to_int64_u64; assumption
  | |- to_int32 _ = _ => apply to_int32_u64; assumption
  | |- conv_bool (u64 (b2z ?b)) = _ => destruct b; reflexivity
  | |- conv_bool (u64 (b2z (_ ?b))) = _ => destruct b; reflexivity
  | |- _ => match goal with b : bool |- _ => destruct b; reflexivity end
  end.
Ltac wr_rec := first [reflexivity | (intros []; reflexivity)].
Ltac wr_norm := lazymatch goal with |- steps ?fs ?l ?d ?m0 ?r ?m => let m1 := eval lazy in m0 in change (steps fs l d m1 r m) end.
Ltac wr_steps := repeat lazymatch goal with
  | |- steps _ _ (marshal (varint_field _ _ _ _ :: _) _) _ _ _ => step @wr_varint; [wr_conv|reflexivity|wr_norm]
  | |- steps _ _ (marshal (bytes_field _ _ _ :: _) _) _ _ _ => step @wr_bytes; [reflexivity|wr_norm]
  | |- steps _ _ (marshal (ptr_field _ _ _ _ _ :: _) _) _ _ _ => step @wr_ptr; [reflexivity|reflexivity|wr_norm]
  | |- steps _ _ (marshal (enums_field _ _ _ :: _) _) _ _ _ => step @wr_enums; [reflexivity|reflexivity|wr_norm]
  | |- steps _ _ (marshal (strings_field _ _ _ :: _) _) _ _ _ => step @wr_strings; [wr_rec|wr_rec|wr_rec|reflexivity|wr_norm]
  | |- steps _ _ (marshal (ptrs_field _ _ _ _ _ :: _) _) _ _ _ => step @wr_ptrs; [wr_rec|wr_rec|wr_rec|reflexivity|wr_norm]
  end.

Lemma each_impl {A} (P Q : A -> Prop) l : (forall a, P a -> Q a) -> each P l -> each Q l.
Proof. intros H. apply Forall_impl. intros o (a & -> & Ha). eauto. Qed.
Lemma if_set_impl {A} (P Q : A -> Prop) o : (forall a, P a -> Q a) -> if_set P o -> if_set Q o.
Proof. intros H. destruct o; cbn; auto. Qed.

Lemma rw_sp m : sp_typed m -> reads sp_fields empty_sp_pb m m.
Proof.
  intros [H1 H2]. apply reads_sp. split; [destruct (spp_resolution m); [exact H1|exact I]|].
  destruct (spp_retention m); [exact H2|exact I].
Qed.

Lemma rw_policy m : policy_typed code_ok m -> reads policy_fields zero_policy_pb m m.
Proof.
  intros [H1 H2]. pose proof (if_set_impl _ _ _ rw_sp H1) as R1. apply reads_at.
  - repeat constructor; [apply sized_at_ptr, R1|apply sized_at_enums, H2].
  - intros l Hl L. unfold policy_fields at 2. destruct m as [a b]; cbn [pp_storage pp_types] in *.
    wr_steps. fin. reflexivity.
Qed.

Lemma rw_agg_op z : int32 z -> reads agg_op_fields 0 z z.
Proof.
  intros H. apply reads_at; [repeat constructor; apply sized_all, sized_varint|]. intros l Hl L.
  unfold agg_op_fields at 2. wr_steps. fin. reflexivity.
Qed.
Lemma rw_rollup_op m : Forall code_ok (rop_types m) -> reads rollup_op_fields zero_rollup_op_pb m m.
Proof.
  intros H. apply reads_at.
  - repeat constructor; [apply sized_all, sized_bytes|apply sized_all, sized_strings|apply sized_at_enums, H].
  - intros l Hl L. unfold rollup_op_fields at 2. destruct m as [a b c]; cbn [rop_name rop_tags rop_types] in *.
    wr_steps. fin. reflexivity.
Qed.
Ltac sz_done := first [apply sized_all, sized_varint | apply sized_all, sized_bytes | apply sized_all, sized_strings
  | (apply sized_at_ptr; assumption) | (apply sized_at_enums; assumption) | (apply sized_at_ptrs; assumption)
  | (apply sized_at_msgs; assumption)].

Lemma rw_op m : op_typed code_ok m -> reads op_fields zero_op_pb m m.
Proof.
  intros (H1 & H2 & H3 & H4). pose proof (if_set_impl _ _ _ rw_agg_op H2) as R2.
  pose proof (if_set_impl _ _ _ reads_tf H3) as R3. pose proof (if_set_impl _ _ _ rw_rollup_op H4) as R4.
  destruct m as [a b c d]; cbn [opp_type opp_agg opp_tf opp_rollup] in *. apply reads_at.
  - repeat constructor; sz_done.
  - intros l Hl L. unfold op_fields at 2. wr_steps. fin. reflexivity.
Qed.
Lemma rw_pipeline m : Forall (op_typed code_ok) m -> reads pipeline_fields [] m m.
Proof.
  intros H. pose proof (Forall_impl _ rw_op H) as R. apply reads_at; [repeat constructor; sz_done|].
  intros l Hl L. unfold pipeline_fields at 2. step @steps_msgs; [auto|auto|auto|apply Forall2_diag, R|]. fin. reflexivity.
Qed.
Lemma rw_mapping_snapshot m :
  mapping_snapshot_typed code_ok m -> reads mapping_snapshot_fields zero_mapping_snapshot_pb m m.
Proof.
  intros (H1 & H2 & H3 & H4 & H5 & H6). pose proof (each_impl _ _ _ rw_policy H2) as R2.
  pose proof (each_impl _ _ _ rw_sp H5) as R5.
  destruct m as [name tomb cut filt pols at_ by_ types sps drop]. cbn in H1, H3, H4, H6, R2, R5. clear H2 H5. apply reads_at.
  - repeat constructor; sz_done.
  - intros l Hl L. unfold mapping_snapshot_fields at 2. wr_steps. fin. destruct tomb; reflexivity.
Qed.
Lemma rw_target_v1 m : target_v1_typed code_ok m -> reads target_v1_fields zero_target_v1_pb m m.
Proof.
  intros H. pose proof (each_impl _ _ _ rw_policy H) as R. destruct m as [a b c]. cbn in R. clear H. apply reads_at.
  - repeat constructor; sz_done.
  - intros l Hl L. unfold target_v1_fields at 2. wr_steps. fin. reflexivity.
Qed.
Lemma rw_target_v2 m : target_v2_typed code_ok m -> reads target_v2_fields zero_target_v2_pb m m.
Proof.
  intros [H1 H2]. pose proof (if_set_impl _ _ _ rw_pipeline H1) as R1. pose proof (each_impl _ _ _ rw_sp H2) as R2.
  destruct m as [a b]. cbn in R1, R2. clear H1 H2. apply reads_at.
  - repeat constructor; sz_done.
  - intros l Hl L. unfold target_v2_fields at 2. wr_steps. fin. reflexivity.
Qed.
Lemma rw_rollup_snapshot m :
  rollup_snapshot_typed code_ok m -> reads rollup_snapshot_fields zero_rollup_snapshot_pb m m.
Proof.
  intros (H1 & H2 & H3 & H4). pose proof (each_impl _ _ _ rw_target_v1 H2) as R2.
  pose proof (each_impl _ _ _ rw_target_v2 H4) as R4.
  destruct m as [name tomb cut filt ts at_ by_ ts2]. cbn in H1, H3, R2, R4. clear H2 H4. apply reads_at.
  - repeat constructor; sz_done.
  - intros l Hl L. unfold rollup_snapshot_fields at 2. wr_steps. fin. destruct tomb; reflexivity.
Qed.
Lemma rw_rule {S} (fs : list (field S)) z (P : S -> Prop) (H : forall s, P s -> reads fs z s s) m :
  rule_typed P m -> reads (rule_fields fs z) zero_rule_pb m m.
Proof.
  intros T. pose proof (each_impl _ _ _ H T) as R. destruct m as [a b]. cbn in R. clear T. apply reads_at.
  - repeat constructor; sz_done.
  - intros l Hl L. unfold rule_fields at 2. wr_steps. fin. reflexivity.
Qed.
Lemma rw_rule_set m : rule_set_typed code_ok m -> reads rule_set_fields zero_rule_set_pb m m.
Proof.
  intros (H1 & H2 & H3 & H4 & H5).
  pose proof (each_impl _ _ _ (rw_rule _ _ _ rw_mapping_snapshot) H4) as R4.
  pose proof (each_impl _ _ _ (rw_rule _ _ _ rw_rollup_snapshot) H5) as R5.
  destruct m as [a b c d tomb e f g h]. cbn in H1, H2, H3, R4, R5. clear H4 H5. apply reads_at.
  - repeat constructor; sz_done.
  - intros l Hl L. unfold rule_set_fields at 2. wr_steps. fin. destruct tomb; reflexivity.
Qed.

Lemma rw_ns_snapshot m :
  int32 (nssp_version m) /\ int64 (nssp_at m) -> reads ns_snapshot_fields zero_ns_snapshot_pb m m.
Proof.
  intros [H1 H2]. destruct m as [a tomb c d]. cbn in H1, H2. apply reads_at.
  - repeat constructor; sz_done.
  - intros l Hl L. unfold ns_snapshot_fields at 2. wr_steps. fin. destruct tomb; reflexivity.
Qed.
Lemma rw_namespace m : each (fun s => int32 (nssp_version s) /\ int64 (nssp_at s)) (nsp_snapshots m) ->
  reads namespace_fields zero_namespace_pb m m.
Proof.
  intros H. pose proof (each_impl _ _ _ rw_ns_snapshot H) as R. destruct m as [a b]. cbn in R. clear H. apply reads_at.
  - repeat constructor; sz_done.
  - intros l Hl L. unfold namespace_fields at 2. wr_steps. fin. reflexivity.
Qed.
Lemma rw_namespaces m : namespaces_typed m -> reads namespaces_fields [] m m.
Proof.
  intros H. pose proof (each_impl _ _ _ rw_namespace H) as R. clear H. apply reads_at.
  - repeat constructor; sz_done.
  - intros l Hl L. unfold namespaces_fields at 2. wr_steps. fin. reflexivity.
Qed.

(** * No panics *)

Lemma dec_enums_safe : forall fuel n d acc, (length d < fuel)%nat -> dec_ok d (dec_enums fuel n d acc).
Proof.
  induction fuel as [|fuel IH]; intros n d acc F; [lia|]. cbn [dec_enums].
  destruct (n <=? 0); [apply dec_ok_self|]. apply dec_ok_bind; [apply dec_varint_ok|]. intros v x p E D.
  apply IH. apply dec_varint_shorter in D. unfold zlen in D. lia.
Qed.
Lemma safe_enums {M} num (get : M -> list Z) set : safe (enums_field num get set).
Proof.
  intros V l wt d m V8 Sm Ld L. cbn [enums_field f_dec]. destruct (wt =? 0).
  { apply dec_ok_bind; [apply dec_varint_ok|]. intros. apply dec_ok_self. }
  destruct (wt =? 2); [|exact I]. apply dec_ok_bind; [apply dec_varint_ok|]. intros v x p E D.
  destruct (_ <? 0); [exact I|]. destruct (l <? _); [exact I|].
  apply dec_ok_bind; [apply dec_enums_safe; lia|]. intros. apply dec_ok_self.
Qed.
Lemma safe_strings {M} num (get : M -> list bytes) set : safe (strings_field num get set).
Proof.
  intros V l wt d m V8 Sm Ld L. cbn [strings_field f_dec]. destruct (negb _); [exact I|].
  apply dec_ok_bind; [exact (dec_bytes_safe V l d V8 Sm Ld L)|]. intros. apply dec_ok_self.
Qed.
Lemma safe_ptrs {M S} num (fs : list (field S)) z (get : M -> list (option S)) set :
  Forall safe fs -> safe (ptrs_field num fs z get set).
Proof.
  intros Fs V l wt d m V8 Sm Ld L. cbn [ptrs_field f_dec].
  apply dec_ok_bind; [exact (dec_msg_safe fs V l wt d _ Fs V8 Sm Ld L)|]. intros. apply dec_ok_self.
Qed.
Ltac safe_rule_fields := repeat constructor;
  repeat first [apply safe_varint | apply safe_bytes | apply safe_enums | apply safe_strings
    | apply safe_ptr | apply safe_msgs | apply safe_ptrs | assumption].

Lemma safe_sp : Forall safe sp_fields.
Proof.
  assert (Forall safe resolution_fields) by (unfold resolution_fields; safe_rule_fields).
  assert (Forall safe retention_fields) by (unfold retention_fields; safe_rule_fields).
  unfold sp_fields. safe_rule_fields.
Qed.
Lemma safe_rule_set : Forall safe rule_set_fields.
Proof.
  pose proof safe_sp.
  assert (Forall safe policy_fields) by (unfold policy_fields; safe_rule_fields).
  assert (Forall safe agg_op_fields) by (unfold agg_op_fields; safe_rule_fields).
  assert (Forall safe tf_fields) by (unfold tf_fields; safe_rule_fields).
  assert (Forall safe rollup_op_fields) by (unfold rollup_op_fields; safe_rule_fields).
  assert (Forall safe op_fields) by (unfold op_fields; safe_rule_fields).
  assert (Forall safe pipeline_fields) by (unfold pipeline_fields; safe_rule_fields).
  assert (Forall safe mapping_snapshot_fields) by (unfold mapping_snapshot_fields; safe_rule_fields).
  assert (Forall safe target_v1_fields) by (unfold target_v1_fields; safe_rule_fields).
  assert (Forall safe target_v2_fields) by (unfold target_v2_fields; safe_rule_fields).
  assert (Forall safe rollup_snapshot_fields) by (unfold rollup_snapshot_fields; safe_rule_fields).
  assert (Forall safe (rule_fields mapping_snapshot_fields zero_mapping_snapshot_pb)) by (unfold rule_fields; safe_rule_fields).
  assert (Forall safe (rule_fields rollup_snapshot_fields zero_rollup_snapshot_pb)) by (unfold rule_fields; safe_rule_fields).
  unfold rule_set_fields. safe_rule_fields.
Qed.
Lemma safe_namespaces : Forall safe namespaces_fields.
Proof.
  assert (Forall safe ns_snapshot_fields) by (unfold ns_snapshot_fields; safe_rule_fields).
  assert (Forall safe namespace_fields) by (unfold namespace_fields; safe_rule_fields).
  unfold namespaces_fields. safe_rule_fields.
Qed.

(** * Sizes suffice, whatever the codes *)

Definition fits_at {M} (m : M) (f : field M) : Prop := zlen (f_enc f m) <= f_size f m.

Lemma fits_all {M} (m : M) f : sized f -> fits_at m f.
Proof. intros H. unfold fits_at. rewrite H. lia. Qed.
Lemma fits_marshal {M} (fs : list (field M)) m : Forall (fits_at m) fs -> zlen (marshal fs m) <= size fs m.
Proof.
  intros F. unfold size, marshal. induction F as [|f fs H F IH]; [cbn; lia|].
  cbn [fold_right map concat]. rewrite zlen_app. unfold fits_at in H. lia.
Qed.
Lemma fits_msg {S} num (gs : list (field S)) s : zlen (marshal gs s) <= size gs s -> zlen (enc_msg num gs s) <= size_msg gs s.
Proof.
  intros H. unfold size_msg, enc_msg. pose proof (zlen_nonneg (marshal gs s)).
  rewrite !zlen_app, tag_len, enc_varint_length by lia. lia.
Qed.
Lemma fits_ptr {M S} num (gs : list (field S)) z (get : M -> option S) set m :
  if_set (fun s => zlen (marshal gs s) <= size gs s) (get m) -> fits_at m (ptr_field num gs z get set).
Proof.
  intros H. unfold fits_at. cbn [f_size f_enc ptr_field]. destruct (get m) as [s|]; [|reflexivity].
  apply fits_msg, H.
Qed.
Lemma fits_msgs {M S} num (gs : list (field S)) z (get : M -> list S) set m :
  Forall (fun s => zlen (marshal gs s) <= size gs s) (get m) -> fits_at m (msgs_field num gs z get set).
Proof.
  intros H. unfold fits_at. cbn [f_size f_enc msgs_field]. induction H as [|s ss H F IH]; [cbn; lia|].
  cbn [fold_right map concat]. rewrite zlen_app. pose proof (fits_msg num gs s H). lia.
Qed.
Lemma fits_ptrs {M S} num (gs : list (field S)) z (get : M -> list (option S)) set m :
  each (fun s => zlen (marshal gs s) <= size gs s) (get m) -> fits_at m (ptrs_field num gs z get set).
Proof.
  intros H. unfold fits_at. cbn [f_size f_enc ptrs_field]. induction H as [|o ss (s & -> & H) F IH]; [cbn; lia|].
  cbn [fold_right map concat]. rewrite zlen_app. pose proof (fits_msg num gs s H). lia.
Qed.
Lemma sov_mono x y : 0 <= x <= y -> sov x <= sov y.
Proof.
  unfold sov. generalize 10%nat as k. intros k. revert x y. induction k as [|k IH]; intros x y H; [reflexivity|].
  cbn [sov_loop]. pose proof (Z.div_le_mono x y 128 ltac:(lia) ltac:(lia)) as D. pose proof (Z.div_pos x 128 ltac:(lia) ltac:(lia)).
  specialize (IH (x / 128) (y / 128) ltac:(lia)).
  assert (0 <= sov_loop k (y / 128)) by (clear; generalize (y / 128); induction k as [|k IH]; intros z; cbn [sov_loop]; [lia|];
    specialize (IH (z / 128)); destruct (_ =? 0); lia).
  destruct (x / 128 =? 0) eqn:E1, (y / 128 =? 0) eqn:E2; try lia.
Qed.
Lemma enum_fits v : int32 v -> zlen (enc_enum v) <= sov (u64 v).
Proof.
  intros H. destruct (Z.lt_ge_cases v 0) as [N|N].
  - assert (zlen (enc_enum v) = 1) as ->.
    { unfold enc_enum. cbn [put_enum]. rewrite (proj2 (Z.ltb_lt v 128)) by lia. reflexivity. }
    apply sov_pos.
  - unfold int32 in H. rewrite enc_enum_eq by (unfold code_ok; lia). rewrite u64_id by lia. rewrite enc_varint_length by lia. lia.
Qed.
Lemma fits_enums {M} num (get : M -> list Z) set m : Forall int32 (get m) -> fits_at m (enums_field num get set).
Proof.
  intros H. unfold fits_at. cbn [f_size f_enc enums_field]. destruct (get m) as [|a b] eqn:E; [reflexivity|].
  rewrite <- E in *. clear a b E. cbv zeta.
  assert (zlen (concat (map enc_enum (get m))) <= fold_right (fun v n => sov (u64 v) + n) 0 (get m)) as L.
  { induction H as [|v vs H F IH]; [cbn; lia|]. cbn [fold_right map concat]. rewrite zlen_app. pose proof (enum_fits v H). lia. }
  set (c := concat (map enc_enum (get m))) in *. pose proof (zlen_nonneg c).
  rewrite !zlen_app, tag_len, enc_varint_length by lia. pose proof (sov_mono (zlen c) _ (conj H0 L)). lia.
Qed.
Ltac fit_done := first [apply fits_all, sized_varint | apply fits_all, sized_bytes | apply fits_all, sized_strings
  | (apply fits_ptr; assumption) | (apply fits_enums; assumption) | (apply fits_ptrs; assumption)
  | (apply fits_msgs; assumption)].
Ltac fit := apply fits_marshal; repeat constructor; fit_done.

Lemma fit_sp m : zlen (marshal sp_fields m) <= size sp_fields m.
Proof. rewrite (size_marshal sp_fields sized_sp m). lia. Qed.
Lemma each_any {A} (P Q : A -> Prop) l : each P l -> (forall a, Q a) -> each Q l.
Proof. intros H K. exact (each_impl _ _ _ (fun a _ => K a) H). Qed.
Lemma if_any {A} (Q : A -> Prop) o : (forall a, Q a) -> if_set Q o.
Proof. intros K. destruct o; cbn; auto. Qed.
Lemma fit_policy m : policy_typed int32 m -> zlen (marshal policy_fields m) <= size policy_fields m.
Proof. intros [_ H]. pose proof (if_any _ (pp_storage m) fit_sp). fit. Qed.
Lemma fit_rollup_op m : Forall int32 (rop_types m) -> zlen (marshal rollup_op_fields m) <= size rollup_op_fields m.
Proof. intros H. fit. Qed.
Lemma fit_agg_op m : zlen (marshal agg_op_fields m) <= size agg_op_fields m.
Proof. fit. Qed.
Lemma fit_tf m : zlen (marshal tf_fields m) <= size tf_fields m.
Proof. fit. Qed.
Lemma fit_op m : op_typed int32 m -> zlen (marshal op_fields m) <= size op_fields m.
Proof.
  intros (_ & _ & _ & H). pose proof (if_any _ (opp_agg m) fit_agg_op). pose proof (if_any _ (opp_tf m) fit_tf).
  pose proof (if_set_impl _ _ _ fit_rollup_op H). fit.
Qed.
Lemma fit_pipeline m : Forall (op_typed int32) m -> zlen (marshal pipeline_fields m) <= size pipeline_fields m.
Proof. intros H. pose proof (Forall_impl _ fit_op H). fit. Qed.
Lemma fit_mapping_snapshot m : mapping_snapshot_typed int32 m ->
  zlen (marshal mapping_snapshot_fields m) <= size mapping_snapshot_fields m.
Proof.
  intros (_ & H1 & _ & H2 & H3 & _). pose proof (each_impl _ _ _ fit_policy H1). pose proof (each_any _ _ _ H3 fit_sp). fit.
Qed.
Lemma fit_target_v1 m : target_v1_typed int32 m -> zlen (marshal target_v1_fields m) <= size target_v1_fields m.
Proof. intros H. pose proof (each_impl _ _ _ fit_policy H). fit. Qed.
Lemma fit_target_v2 m : target_v2_typed int32 m -> zlen (marshal target_v2_fields m) <= size target_v2_fields m.
Proof.
  intros [H1 H2]. pose proof (if_set_impl _ _ _ fit_pipeline H1). pose proof (each_any _ _ _ H2 fit_sp). fit.
Qed.
Lemma fit_rollup_snapshot m : rollup_snapshot_typed int32 m ->
  zlen (marshal rollup_snapshot_fields m) <= size rollup_snapshot_fields m.
Proof.
  intros (_ & H1 & _ & H2). pose proof (each_impl _ _ _ fit_target_v1 H1). pose proof (each_impl _ _ _ fit_target_v2 H2). fit.
Qed.
Lemma fit_rule {S} (fs : list (field S)) z (P : S -> Prop) (H : forall s, P s -> zlen (marshal fs s) <= size fs s) m :
  rule_typed P m -> zlen (marshal (rule_fields fs z) m) <= size (rule_fields fs z) m.
Proof. intros T. pose proof (each_impl _ _ _ H T). fit. Qed.
Lemma fit_rule_set m : rule_set_typed int32 m -> zlen (marshal rule_set_fields m) <= size rule_set_fields m.
Proof.
  intros (_ & _ & _ & H1 & H2).
  pose proof (each_impl _ _ _ (fit_rule _ zero_mapping_snapshot_pb _ fit_mapping_snapshot) H1).
  pose proof (each_impl _ _ _ (fit_rule _ zero_rollup_snapshot_pb _ fit_rollup_snapshot) H2). fit.
Qed.

Lemma each_no_nil {A} (P : A -> Prop) f l : (forall a, P a -> f a = true) -> each P l -> no_nil f l = true.
Proof. intros H F. unfold no_nil. apply forallb_forall. unfold each in F. rewrite Forall_forall in F. intros o Ho. destruct (F o Ho) as (a & -> & Ha). auto. Qed.
Lemma mapping_snapshot_nn c m : mapping_snapshot_typed c m -> mapping_snapshot_no_nil m = true.
Proof.
  intros (_ & H1 & _ & _ & H2 & _). unfold mapping_snapshot_no_nil.
  rewrite (each_no_nil _ leaf _ (fun _ _ => eq_refl) H1), (each_no_nil _ leaf _ (fun _ _ => eq_refl) H2). reflexivity.
Qed.
Lemma rollup_snapshot_nn c m : rollup_snapshot_typed c m -> rollup_snapshot_no_nil m = true.
Proof.
  intros (_ & H1 & _ & H2). unfold rollup_snapshot_no_nil.
  rewrite (each_no_nil _ (fun t => no_nil leaf (t1p_policies t)) _ (fun t T => each_no_nil _ leaf _ (fun _ _ => eq_refl) T) H1).
  rewrite (each_no_nil _ (fun t => no_nil leaf (t2p_sps t)) _ (fun t T => each_no_nil _ leaf _ (fun _ _ => eq_refl) (proj2 T)) H2).
  reflexivity.
Qed.
Lemma rule_set_nn c m : rule_set_typed c m -> rule_set_no_nil m = true.
Proof.
  intros (_ & _ & _ & H1 & H2). unfold rule_set_no_nil.
  rewrite (each_no_nil _ (rule_no_nil mapping_snapshot_no_nil) _
    (fun t T => each_no_nil _ mapping_snapshot_no_nil _ (mapping_snapshot_nn c) T) H1).
  rewrite (each_no_nil _ (rule_no_nil rollup_snapshot_no_nil) _
    (fun t T => each_no_nil _ rollup_snapshot_no_nil _ (rollup_snapshot_nn c) T) H2).
  reflexivity.
Qed.
Lemma namespaces_nn m : namespaces_typed m -> namespaces_no_nil m = true.
Proof.
  intros H. exact (each_no_nil _ (fun n => no_nil leaf (nsp_snapshots n)) _
    (fun t T => each_no_nil _ leaf _ (fun _ _ => eq_refl) T) H).
Qed.

Lemma marshal_rule_set_ok m : rule_set_typed int32 m -> marshal_rule_set m = Ok (marshal rule_set_fields m).
Proof.
  intros H. unfold marshal_rule_set, marshal_checked. rewrite (rule_set_nn _ _ H). cbn [negb].
  rewrite (proj2 (Z.ltb_ge _ _) (fit_rule_set m H)). reflexivity.
Qed.
Lemma marshal_namespaces_ok m : namespaces_typed m -> marshal_namespaces m = Ok (marshal namespaces_fields m).
Proof.
  intros H. unfold marshal_namespaces, marshal_checked. rewrite (namespaces_nn _ H). cbn [negb].
  rewrite (proj1 (rw_namespaces m H)), Z.ltb_irrefl. reflexivity.
Qed.

(** Weakening the condition on codes. *)
Lemma Forall_mono {A} (P Q : A -> Prop) l : (forall a, P a -> Q a) -> Forall P l -> Forall Q l.
Proof. intros H. now apply Forall_impl. Qed.
Lemma rule_set_typed_mono (c1 c2 : Z -> Prop) m : (forall z, c1 z -> c2 z) -> rule_set_typed c1 m -> rule_set_typed c2 m.
Proof.
  intros K (H1 & H2 & H3 & H4 & H5).
  assert (P : forall p, policy_typed c1 p -> policy_typed c2 p).
  { intros p [A1 A2]. split; [exact A1|exact (Forall_mono _ _ _ K A2)]. }
  repeat split; try apply H1; try apply H2; try apply H3.
  - refine (each_impl _ _ _ _ H4). intros r. apply each_impl. intros s (A1 & A2 & A3 & A4 & A5 & A6).
    repeat split; try apply A1; try apply A3; try apply A6; [exact (each_impl _ _ _ P A2)|exact (Forall_mono _ _ _ K A4)|exact A5].
  - refine (each_impl _ _ _ _ H5). intros r. apply each_impl. intros s (A1 & A2 & A3 & A4).
    repeat split; try apply A1; try apply A3; [exact (each_impl _ _ _ (fun t => each_impl _ _ _ P) A2)|].
    refine (each_impl _ _ _ _ A4). intros t [T1 T2]. split; [|exact T2]. refine (if_set_impl _ _ _ _ T1).
    intros l. apply Forall_mono. intros o (O1 & O2 & O3 & O4). repeat split; try apply O1; try apply O2; try apply O3.
    refine (if_set_impl _ _ _ _ O4). intros q. apply Forall_mono, K.
Qed.

(** * What [Proto] produces *)

Lemma type_proto_code t z : type_proto t = Some z -> code_ok z /\ int32 z.
Proof.
  unfold type_proto. set (s := to_int32 t). destruct ((0 <=? s) && (s <=? 22)) eqn:E; [|discriminate]. intros [= <-].
  apply andb_prop in E as [E1 E2]. apply Z.leb_le in E1, E2. unfold code_ok, int32. lia.
Qed.
Lemma types_proto_codes ts zs : types_proto ts = Some zs -> Forall code_ok zs.
Proof.
  intros H. refine (map_opt_Forall type_proto (fun _ => True) code_ok ts zs _ _ H).
  - intros a c _ E. apply (type_proto_code a c E).
  - apply Forall_forall. auto.
Qed.
Lemma sp_proto_typed p pb : sp_fits p -> sp_proto p = Some pb -> sp_typed pb.
Proof.
  intros [H1 H2]. unfold sp_proto, sp_to_proto, resolution_to_proto.
  destruct (unit_value (r_precision (sp_resolution p))) as [v|] eqn:E; [|discriminate]. intros [= <-].
  apply unit_value_range in E. split; cbn; [split; [exact H1|unfold int64; lia]|exact H2].
Qed.
Lemma each_some {A} (P : A -> Prop) l : Forall P l -> each P (map Some l).
Proof. induction 1; constructor; eauto. Qed.
Lemma sps_proto_typed l pbs : Forall sp_fits l -> sps_proto l = Some pbs -> each sp_typed (map Some pbs).
Proof. intros F H. apply each_some. exact (map_opt_Forall sp_proto sp_fits sp_typed l pbs sp_proto_typed F H). Qed.
Lemma op_proto_typed a pb : op_proto a = Some pb -> op_typed code_ok pb.
Proof.
  unfold op_proto. destruct (op_kind a =? AggregationOp).
  { destruct (type_proto (op_agg a)) as [z|] eqn:E; [|discriminate]. intros [= <-]. apply type_proto_code in E as [_ E].
    repeat split; cbn; try apply E; unfold int32; lia. }
  destruct (op_kind a =? TransformationOp).
  { destruct (tf_to_proto (op_tf a)) as [z|] eqn:E; [|discriminate]. intros [= <-]. apply tf_range in E.
    repeat split; cbn; try apply E; unfold int32; lia. }
  destruct (op_kind a =? RollupOp); [|discriminate].
  destruct (rollup_op_proto (op_rollup a)) as [r|] eqn:E; [|discriminate]. intros [= <-].
  repeat split; cbn; try (unfold int32; lia). unfold rollup_op_proto in E.
  destruct (decompress (ro_agg (op_rollup a))) as [ts err]. destruct err; [discriminate|].
  destruct (types_proto ts) as [zs|] eqn:Z; [|discriminate]. injection E as <-. exact (types_proto_codes _ _ Z).
Qed.
Lemma pipeline_proto_typed p pb : pipeline_proto p = Some pb -> Forall (op_typed code_ok) pb.
Proof.
  intros H. refine (map_opt_Forall op_proto (fun _ => True) _ p pb (fun a c _ => op_proto_typed a c) _ H).
  apply Forall_forall. auto.
Qed.
Lemma mapping_proto_typed s pb : mapping_numbers s -> mapping_snapshot_proto s = Some pb -> mapping_snapshot_typed code_ok pb.
Proof.
  intros (H1 & H2 & H3). unfold mapping_snapshot_proto. destruct (decompress _) as [ts err]. destruct err; [discriminate|].
  destruct (types_proto ts) as [zs|] eqn:E1; [|discriminate].
  destruct (sps_proto (mb_sps (sn_body s))) as [sps|] eqn:E2; [|discriminate]. intros H.
  assert (int32 (to_int32 (mb_drop (sn_body s)))) as D by apply to_int32_range.
  remember (to_int32 (mb_drop (sn_body s))) as dr eqn:X. clear X. injection H as <-.
  split; [exact H1|]. split; [constructor|]. split; [exact H2|]. split; [exact (types_proto_codes _ _ E1)|].
  split; [exact (sps_proto_typed _ _ H3 E2)|exact D].
Qed.
Lemma target_proto_typed t pb : Forall sp_fits (tg_sps t) -> target_proto t = Some pb -> target_v2_typed code_ok pb.
Proof.
  intros H. unfold target_proto. destruct (pipeline_proto (tg_pipeline t)) as [p|] eqn:E1; [|discriminate].
  destruct (sps_proto (tg_sps t)) as [sps|] eqn:E2; [|discriminate]. intros [= <-].
  split; [exact (pipeline_proto_typed _ _ E1)|exact (sps_proto_typed _ _ H E2)].
Qed.
Lemma rollup_proto_typed s pb : rollup_numbers s -> rollup_snapshot_proto s = Some pb -> rollup_snapshot_typed code_ok pb.
Proof.
  intros (H1 & H2 & H3). unfold rollup_snapshot_proto. destruct (map_opt target_proto (sn_body s)) as [ts|] eqn:E; [|discriminate].
  intros [= <-]. split; [exact H1|]. split; [constructor|]. split; [exact H2|]. apply each_some.
  exact (map_opt_Forall _ _ _ _ _ target_proto_typed H3 E).
Qed.
Lemma rules_proto_typed {S P} (write : snapshot P -> option S) (num : snapshot P -> Prop) (T : S -> Prop) l pbs :
  (forall s pb, num s -> write s = Some pb -> T pb) ->
  (forall r s, In r l -> In s (ru_snapshots r) -> num s) ->
  map_opt (rule_proto write) l = Some pbs -> each (rule_typed T) (map Some pbs).
Proof.
  intros W N H. apply each_some.
  refine (map_opt_Forall (rule_proto write) (fun r => Forall num (ru_snapshots r)) _ l pbs _ _ H).
  - intros r pb F E. unfold rule_proto in E. destruct (map_opt write (ru_snapshots r)) as [ss|] eqn:E2; [|discriminate].
    injection E as <-. apply each_some. exact (map_opt_Forall write num T _ _ W F E2).
  - apply Forall_forall. intros r Hr. apply Forall_forall. intros s. apply N, Hr.
Qed.
Lemma rule_set_proto_typed rs pb : numbers_fit rs -> rule_set_proto rs = Some pb -> rule_set_typed code_ok pb.
Proof.
  intros (H1 & H2 & H3 & H4 & H5). unfold rule_set_proto.
  destruct (map_opt (rule_proto mapping_snapshot_proto) (rs_mapping rs)) as [ms|] eqn:E1; [|discriminate].
  destruct (map_opt (rule_proto rollup_snapshot_proto) (rs_rollup rs)) as [rr|] eqn:E2; [|discriminate]. intros [= <-].
  split; [exact H1|]. split; [exact H2|]. split; [exact H3|].
  split; [exact (rules_proto_typed _ _ _ _ _ mapping_proto_typed H4 E1)|exact (rules_proto_typed _ _ _ _ _ rollup_proto_typed H5 E2)].
Qed.
Lemma namespaces_proto_typed x : ns_times_fit x -> namespaces_typed (namespaces_proto x).
Proof.
  intros H. unfold namespaces_typed, namespaces_proto, each. rewrite Forall_map. apply Forall_forall. intros n Hn.
  eexists. split; [reflexivity|]. cbn. rewrite Forall_map. apply Forall_forall. intros s Hs. eexists. split; [reflexivity|].
  cbn [nssp_version nssp_at ns_snapshot_proto]. split; [apply to_int32_range|exact (H n s Hn Hs)].
Qed.

(** * Nil elements *)

Lemma no_nil_iff {A} (deep : A -> bool) (inside : A -> Prop) l :
  (forall x, deep x = true <-> ~ inside x) -> (no_nil deep l = true <-> ~ nil_or inside l).
Proof.
  intros D. unfold no_nil, nil_or. rewrite forallb_forall. split.
  - intros H [N|(x & I & X)].
    + specialize (H None N). discriminate.
    + specialize (H (Some x) I). apply D in H. contradiction.
  - intros H [x|] I.
    + apply D. intros X. apply H. right. exists x. split; assumption.
    + exfalso. apply H. left. exact I.
Qed.
Lemma leaf_iff {A} (x : A) : leaf x = true <-> ~ nothing_inside x.
Proof. unfold leaf, nothing_inside. tauto. Qed.
Lemma both_iff (a b : bool) (P Q : Prop) : (a = true <-> ~ P) -> (b = true <-> ~ Q) -> (a && b = true <-> ~ (P \/ Q)).
Proof. intros A B. rewrite andb_true_iff, A, B. tauto. Qed.
Lemma rule_set_no_nil_iff m : rule_set_no_nil m = true <-> ~ rule_set_has_nil m.
Proof.
  apply both_iff; apply no_nil_iff; intros r; apply no_nil_iff; intros s; apply both_iff; apply no_nil_iff; intros x;
    first [apply leaf_iff | apply no_nil_iff; intros y; apply leaf_iff].
Qed.
Lemma namespaces_no_nil_iff m : namespaces_no_nil m = true <-> ~ namespaces_has_nil m.
Proof. apply no_nil_iff; intros r; apply no_nil_iff; intros s; apply leaf_iff. Qed.
