(** What the generated code writes means what was written. *)
From Coq Require Import Ascii String NArith ZArith Bool Arith Lia List.
From Verif.Base Require Import Bytes BytesFacts.
From Verif.Proof Require Import ProtoWireProof MessagesProof ProtoSafeProof RuleWireProof WireProof WireWritten WireMeaning
  WireMeaningFields WireMeaningParts WireMeaningMessages.
From Verif.Model Require Import Policy Transformation Pipeline Metadata Rules RuleSetProto Namespace ProtoWire Messages
  RuleWire.
From Verif.Spec Require Import RuleWireSpec WireSpec WireMeaningSpec.
Import ListNotations.
Local Open Scope Z_scope.

(** The bytes are fields of one part, whatever follows, and each can be read into any message. *)
Definition encodes {M} (tab : list (Z * shape)) (p : part M) (b : bytes) : Prop :=
  zlen b < 2 ^ 63 -> exists l, (forall d l', parsed tab d l' -> parsed tab (b ++ d) (l ++ l')) /\
    Forall (fun x => fst x = p_num p /\ forall a, exists y, p_step p (snd x) a y) l.
Definition written {M} (fs : list (field M)) (ps : parts M) (m : M) : Prop :=
  zlen (marshal fs m) < 2 ^ 63 ->
  exists l, parsed (table_of ps) (marshal fs m) l /\ forall s0, exists s, runs ps l s0 s.

Lemma tag_is n wt : 1 <= n < 16 -> 0 <= wt < 8 -> tag_of (tag n wt) n wt.
Proof.
  intros N W. exists (8 * n + wt). split; [exact (tag_varint n wt N W)|]. split.
  - rewrite Z.add_comm, Z.mul_comm, Z.mod_add by lia. symmetry. apply Z.mod_small. lia.
  - rewrite (Z.mod_small (8 * n + wt) (2 ^ 64)) by lia. replace ((8 * n + wt) / 8) with n.
    + unfold signed. rewrite Z.mod_small by lia. rewrite (proj2 (Z.ltb_lt n (2 ^ (32 - 1)))) by lia. reflexivity.
    + apply (Z.div_unique_pos (8 * n + wt) 8 n wt); lia.
Qed.

Section Encodes.
  Context {M : Type} (tab : list (Z * shape)).
  Implicit Types p : part M.

  Lemma encodes_none p : encodes tab p [].
  Proof. intros _. exists []. split; [auto|constructor]. Qed.
  Lemma encodes_app p b c : encodes tab p b -> encodes tab p c -> encodes tab p (b ++ c).
  Proof.
    intros B C L. rewrite zlen_app in L. pose proof (zlen_nonneg b). pose proof (zlen_nonneg c).
    destruct B as (l1 & P1 & F1); [lia|]. destruct C as (l2 & P2 & F2); [lia|]. exists (l1 ++ l2). split.
    - intros d l' H'. rewrite <- !app_assoc. apply P1, P2, H'.
    - apply Forall_app. auto.
  Qed.
  Lemma encodes_concat {A} p (w : A -> bytes) l : (forall a, In a l -> encodes tab p (w a)) -> encodes tab p (concat (map w l)).
  Proof.
    induction l as [|a l IH]; intros H; cbn [map concat]; [apply encodes_none|].
    apply encodes_app; [apply H; left; reflexivity|]. apply IH. intros x I. apply H. right. exact I.
  Qed.
  Lemma encodes_one p wt v it : 1 <= p_num p < 16 -> shape_of tab (p_num p) = Some (p_shape p) ->
    holds (p_shape p) wt v it -> (forall a, exists y, p_step p it a y) -> encodes tab p (tag (p_num p) wt ++ v).
  Proof.
    intros N Sh H St _. exists [(p_num p, it)]. split; [|constructor; [auto|constructor]].
    intros d l' P. rewrite <- app_assoc. cbn [app].
    refine (parsed_known tab (tag (p_num p) wt) (p_num p) wt (p_shape p) v it d l' _ ltac:(lia) Sh H P).
    apply tag_is; [exact N|]. destruct H; lia.
  Qed.
  Lemma announces_enc n : 0 <= n < 2 ^ 63 -> announces (enc_varint n) n.
  Proof. intros H. exists n. split; [apply enc_varint_varint; lia|]. rewrite Z.mod_small by lia. lia. Qed.
  Lemma encodes_block p b : 1 <= p_num p < 16 -> shape_of tab (p_num p) = Some (p_shape p) -> p_shape p = ABlock ->
    (zlen b < 2 ^ 63 -> forall a, exists y, p_step p (Block b) a y) -> encodes tab p (tag (p_num p) 2 ++ enc_varint (zlen b) ++ b).
  Proof.
    intros N Sh K St L. pose proof (block_bound (p_num p) b L) as Lb. pose proof (zlen_nonneg b).
    refine (encodes_one p 2 _ (Block b) N Sh _ (St Lb) L). rewrite K. apply holds_block. apply announces_enc. unfold zlen in *. lia.
  Qed.

  Lemma e_int {T} num conv (get' : M -> Z) set' (g : Z -> T) (get : M -> T) set m : 1 <= num < 16 -> shape_of tab num = Some AnInt ->
    encodes tab (int_part num g get set) (f_enc (varint_field num conv get' set') m).
  Proof.
    intros N Sh. cbn [f_enc varint_field]. destruct (get' m =? 0); [apply encodes_none|].
    apply (encodes_one (int_part num g get set) 0 _ (Number (u64 (get' m))) N Sh).
    - apply holds_int. apply enc_varint_varint. apply u64_range.
    - intros a. exists (g (u64 (get' m))). exists (u64 (get' m)). auto.
  Qed.
  Lemma a_double_put v : a_double (little_endian (put_le 8 v)) (put_le 8 v).
  Proof. split; [apply put_le_length|reflexivity]. Qed.
  Lemma e_double num (get : M -> Z) set m : 1 <= num < 16 -> shape_of tab num = Some ADouble ->
    encodes tab (double_part num get set) (f_enc (double_field num get set) m).
  Proof.
    intros N Sh. cbn [f_enc double_field]. destruct (double_is_zero (get m)); [apply encodes_none|].
    apply (encodes_one (double_part num get set) 1 _ (Eight (little_endian (put_le 8 (get m)))) N Sh).
    - apply holds_double, a_double_put.
    - intros a. eexists. reflexivity.
  Qed.
  Lemma e_bytes num (get : M -> bytes) set m : 1 <= num < 16 -> shape_of tab num = Some ABlock ->
    encodes tab (bytes_part num get set) (f_enc (bytes_field num get set) m).
  Proof.
    intros N Sh. cbn [f_enc bytes_field]. destruct (get m) as [|c b]; [apply encodes_none|].
    apply (encodes_block (bytes_part num get set) _ N Sh eq_refl). intros _ a. eexists. reflexivity.
  Qed.
  Lemma e_strings num (get : M -> list bytes) set m : 1 <= num < 16 -> shape_of tab num = Some ABlock ->
    encodes tab (strings_part num get set) (f_enc (strings_field num get set) m).
  Proof.
    intros N Sh. cbn [f_enc strings_field]. apply encodes_concat. intros b _.
    apply (encodes_block (strings_part num get set) _ N Sh eq_refl). intros _ a. exists (a ++ [b]), b. auto.
  Qed.
  (** Elements that are not empty fill the announced length exactly. *)
  Lemma packed_all (element : Z -> bytes -> Prop) vs ds : Forall2 element vs ds -> Forall (fun d => d <> []) ds ->
    packed element (zlen (concat ds)) vs (concat ds).
  Proof.
    intros F Ne. exists ds. split; [reflexivity|]. split; [exact F|]. split; [unfold zlen; lia|].
    intros before last ->. rewrite concat_app. cbn [concat]. rewrite app_nil_r. unfold zlen. rewrite app_length.
    apply Forall_app in Ne as [_ Ne]. inversion Ne as [|x y N _]; subst. destruct last; [congruence|cbn [length]; lia].
  Qed.
  Lemma e_doubles num (get : M -> list Z) set m : 1 <= num < 16 -> shape_of tab num = Some SomeDoubles ->
    encodes tab (list_part num SomeDoubles get set) (f_enc (doubles_field num get set) m).
  Proof.
    intros N Sh. cbn [f_enc doubles_field]. destruct (get m) as [|v vs]; [apply encodes_none|].
    set (ws := v :: vs). rewrite <- concat_put_le. intros L. pose proof (block_bound num _ L) as Lb.
    refine (encodes_one (list_part num SomeDoubles get set) 2 _ (Several (map (fun v => little_endian (put_le 8 v)) ws)) N Sh _ _ L).
    - eapply holds_doubles; [apply announces_enc; split; [apply zlen_nonneg|exact Lb]|].
      apply packed_all.
      + clear. induction ws as [|w ws IH]; constructor; [apply a_double_put|exact IH].
      + apply Forall_map, Forall_forall. intros x _ E. pose proof (put_le_length 8 x) as Q. rewrite E in Q. discriminate.
    - intros a. eexists. eexists. split; reflexivity.
  Qed.
  Lemma e_enums num (get : M -> list Z) set m : 1 <= num < 16 -> shape_of tab num = Some SomeEnums -> Forall code_ok (get m) ->
    encodes tab (list_part num SomeEnums get set) (f_enc (enums_field num get set) m).
  Proof.
    intros N Sh. cbn [f_enc enums_field]. destruct (get m) as [|v vs]; intros Ok; [apply encodes_none|].
    set (ws := v :: vs) in *. intros L. cbv zeta in L. pose proof (block_bound num _ L) as Lb.
    refine (encodes_one (list_part num SomeEnums get set) 2 _ (Several ws) N Sh _ _ L).
    - cbv zeta. eapply holds_enums; [apply announces_enc; split; [apply zlen_nonneg|exact Lb]|].
      apply packed_all.
      + clearbody ws. clear - Ok. induction Ok as [|w ws Hw Ok IH]; constructor; [|exact IH].
        exists w. unfold code_ok in Hw. rewrite enc_enum_eq by exact Hw. split; [apply enc_varint_varint; lia|].
        unfold signed. rewrite Z.mod_small by lia. rewrite (proj2 (Z.ltb_lt w (2 ^ (32 - 1)))) by lia. reflexivity.
      + apply Forall_map, Forall_forall. intros x _ E. pose proof (enc_enum_pos x) as Q. rewrite E in Q. cbn in Q. lia.
    - intros a. eexists. eexists. split; reflexivity.
  Qed.

  (** Embedded messages *)
  Lemma e_msg {S T} num (fs : list (field S)) (ps : parts S) (get : M -> T) (set : T -> M -> M) start put x :
    1 <= num < 16 -> shape_of tab num = Some ABlock -> size fs x = zlen (marshal fs x) -> written fs ps x ->
    encodes tab (msg_part num ps get set start put) (enc_msg num fs x).
  Proof.
    intros N Sh Sz W. unfold enc_msg. rewrite Sz. apply (encodes_block (msg_part num ps get set start put) _ N Sh eq_refl).
    intros L a. destruct (W L) as (l & P & R). destruct (R (start a)) as (s & Rs).
    exists (put a s). exists (marshal fs x), l, s. auto.
  Qed.
  Lemma e_value {S} num (fs : list (field S)) ps (get : M -> S) set m : 1 <= num < 16 -> shape_of tab num = Some ABlock ->
    size fs (get m) = zlen (marshal fs (get m)) -> written fs ps (get m) ->
    encodes tab (value_part num ps get set) (f_enc (msg_field num fs get set) m).
  Proof. intros. cbn [f_enc msg_field]. unfold value_part. apply e_msg; assumption. Qed.
  Lemma e_ptr {S} num (fs : list (field S)) ps zero (get : M -> option S) set m : 1 <= num < 16 -> shape_of tab num = Some ABlock ->
    if_set (fun x => size fs x = zlen (marshal fs x)) (get m) -> if_set (written fs ps) (get m) ->
    encodes tab (ptr_part num ps zero get set) (f_enc (ptr_field num fs zero get set) m).
  Proof.
    intros N Sh. cbn [f_enc ptr_field]. destruct (get m) as [x|]; cbn [if_set]; intros Sz W; [|apply encodes_none].
    unfold ptr_part. apply e_msg; assumption.
  Qed.
  Lemma e_msgs {S} num (fs : list (field S)) ps zero (get : M -> list S) set m : 1 <= num < 16 -> shape_of tab num = Some ABlock ->
    Forall (fun x => size fs x = zlen (marshal fs x)) (get m) -> Forall (written fs ps) (get m) ->
    encodes tab (msgs_part num ps zero get set) (f_enc (msgs_field num fs zero get set) m).
  Proof.
    intros N Sh Sz W. cbn [f_enc msgs_field]. rewrite Forall_forall in Sz, W. apply encodes_concat. intros x I.
    unfold msgs_part. apply e_msg; auto.
  Qed.
  Lemma e_ptrs {S} num (fs : list (field S)) ps zero (get : M -> list (option S)) set m : 1 <= num < 16 ->
    shape_of tab num = Some ABlock ->
    each (fun x => size fs x = zlen (marshal fs x)) (get m) -> each (written fs ps) (get m) ->
    encodes tab (ptrs_part num ps zero get set) (f_enc (ptrs_field num fs zero get set) m).
  Proof.
    intros N Sh Sz W. cbn [f_enc ptrs_field]. unfold each in *. rewrite Forall_forall in Sz, W. apply encodes_concat. intros o I.
    destruct (Sz o I) as (x & -> & Ex). destruct (W _ I) as (y & Ey & Wy). injection Ey as <-.
    unfold ptrs_part. apply e_msg; auto.
  Qed.
End Encodes.

(** * Whole messages *)

Inductive encoded {M} (tab : list (Z * shape)) (m : M) : list (field M) -> parts M -> Prop :=
| encoded_nil : encoded tab m [] pnil
| encoded_cons f p fs ps : encodes tab p (f_enc f m) -> encoded tab m fs ps -> encoded tab m (f :: fs) (pcons p ps).

Lemma encoded_written {M} (fs : list (field M)) ps m : encoded (table_of ps) m fs ps -> written fs ps m.
Proof.
  intros E. 
  assert (forall tab all, encoded tab m fs ps -> (forall p, part_in p ps -> part_in p all) -> zlen (marshal fs m) < 2 ^ 63 ->
    exists l, parsed tab (marshal fs m) l /\ forall s0, exists s, runs all l s0 s) as G.
  { clear E. intros tab all E. induction E as [|f p fs ps H E IH]; intros Sub L.
    - exists []. split; [constructor|]. intros s0. exists s0. constructor.
    - unfold marshal in *. cbn [map concat] in *. rewrite zlen_app in L.
      pose proof (zlen_nonneg (f_enc f m)). pose proof (zlen_nonneg (concat (map (fun f => f_enc f m) fs))).
      destruct IH as (l2 & P2 & R2); [intros q I; apply Sub; right; exact I|lia|].
      destruct H as (l1 & P1 & F1); [lia|]. exists (l1 ++ l2). split; [apply P1, P2|].
      clear P1 P2. induction F1 as [|[n it] l1 [En St] F1 IH1]; [exact R2|]. intros s0. cbn [fst snd] in *. subst n.
      destruct (St (p_get p s0)) as (y & Sy). destruct (IH1 (p_set p y s0)) as (s & R). exists s.
      exact (runs_cons all p it y _ s0 s (Sub p (or_introl eq_refl)) Sy R). }
  intros L. apply (G (table_of ps) ps E); [auto|exact L].
Qed.

(** What is written is read as what was written, by the encoding guide's rules, if it is so by the generated code. *)
Lemma written_reads {M} (k : message M) fs ps zero m m' : good fs ps -> meant k ps zero -> written fs ps m ->
  zlen (marshal fs m) < 2 ^ 63 -> unmarshal fs (marshal fs m) zero = Ok m' -> WireMeaningSpec.reads k (marshal fs m) m'.
Proof.
  intros [F Nd] Me W L U. destruct (W L) as (l & P & R). destruct (R zero) as (s & Rs).
  rewrite (unmarshal_writes fs ps _ l zero s F Nd P Rs L) in U. injection U as ->.
  destruct Me as [Et Me]. exists l. split; [rewrite Et; exact P|]. apply (Me l m' (parsed_typed _ _ _ P)), Rs.
Qed.

(** * The messages of a stream: whatever their values *)

Lemma if_all {A} (P : A -> Prop) o : (forall a, P a) -> if_set P o.
Proof. intros H. destruct o; cbn; auto. Qed.
Lemma forall_all {A} (P : A -> Prop) l : (forall a, P a) -> Forall P l.
Proof. intros H. apply Forall_forall. auto. Qed.

Ltac one_encoded := first
  [ apply e_int; [lia|reflexivity] | apply e_double; [lia|reflexivity] | apply e_bytes; [lia|reflexivity]
  | apply e_strings; [lia|reflexivity] | apply e_doubles; [lia|reflexivity]
  | apply e_enums; [lia|reflexivity|assumption]
  | apply e_value; [lia|reflexivity|solve [auto with sized]|solve [auto with written]]
  | apply e_ptr; [lia|reflexivity|solve [auto with sized]|solve [auto with written]]
  | apply e_msgs; [lia|reflexivity|solve [auto with sized]|solve [auto with written]]
  | apply e_ptrs; [lia|reflexivity|solve [auto with sized]|solve [auto with written]] ].
Ltac is_written := apply encoded_written; repeat (constructor; [one_encoded|]); constructor.
Create HintDb written.
Create HintDb sized.
#[local] Hint Resolve if_all forall_all : written sized.

Lemma z_agg m : size agg_fields m = zlen (marshal agg_fields m). Proof. apply size_marshal, sized_agg. Qed.
Lemma z_resolution m : size resolution_fields m = zlen (marshal resolution_fields m). Proof. apply size_marshal, sized_resolution. Qed.
Lemma z_retention m : size retention_fields m = zlen (marshal retention_fields m). Proof. apply size_marshal, sized_retention. Qed.
Lemma z_sp m : size sp_fields m = zlen (marshal sp_fields m). Proof. apply size_marshal, sized_sp. Qed.
Lemma z_tf m : size tf_fields m = zlen (marshal tf_fields m). Proof. apply size_marshal, sized_tf. Qed.
Lemma z_applied_rollup m : size applied_rollup_fields m = zlen (marshal applied_rollup_fields m).
Proof. apply size_marshal, sized_applied_rollup. Qed.
Lemma z_applied_op m : size applied_op_fields m = zlen (marshal applied_op_fields m). Proof. apply size_marshal, sized_applied_op. Qed.
Lemma z_applied m : size applied_fields m = zlen (marshal applied_fields m). Proof. apply size_marshal, sized_applied. Qed.
Lemma z_pm m : size pm_fields m = zlen (marshal pm_fields m). Proof. apply size_marshal, sized_pm. Qed.
Lemma z_md m : size md_fields m = zlen (marshal md_fields m). Proof. apply size_marshal, sized_md. Qed.
Lemma z_sm m : size sm_fields m = zlen (marshal sm_fields m). Proof. apply size_marshal, sized_sm. Qed.
Lemma z_sms m : size sms_fields m = zlen (marshal sms_fields m). Proof. apply size_marshal, sized_sms. Qed.
Lemma z_fm m : size fm_fields m = zlen (marshal fm_fields m). Proof. apply size_marshal, sized_fm. Qed.
Lemma z_tm m : size tm_fields m = zlen (marshal tm_fields m). Proof. apply size_marshal, sized_tm. Qed.
Lemma z_counter m : size counter_fields m = zlen (marshal counter_fields m). Proof. apply size_marshal, sized_counter. Qed.
Lemma z_timer m : size timer_fields m = zlen (marshal timer_fields m). Proof. apply size_marshal, sized_timer. Qed.
Lemma z_gauge m : size gauge_fields m = zlen (marshal gauge_fields m). Proof. apply size_marshal, sized_gauge. Qed.
Lemma z_timed m : size timed_fields m = zlen (marshal timed_fields m). Proof. apply size_marshal, sized_timed. Qed.
Lemma z_forwarded m : size forwarded_fields m = zlen (marshal forwarded_fields m). Proof. apply size_marshal, sized_forwarded. Qed.
Lemma z_cm m : size cm_fields m = zlen (marshal cm_fields m). Proof. apply size_marshal, sized_cm. Qed.
Lemma z_bm m : size bm_fields m = zlen (marshal bm_fields m). Proof. apply size_marshal, sized_bm. Qed.
Lemma z_gm m : size gm_fields m = zlen (marshal gm_fields m). Proof. apply size_marshal, sized_gm. Qed.
Lemma z_fwm m : size fwm_fields m = zlen (marshal fwm_fields m). Proof. apply size_marshal, sized_fwm. Qed.
Lemma z_tdm m : size tdm_fields m = zlen (marshal tdm_fields m). Proof. apply size_marshal, sized_tdm. Qed.
#[local] Hint Resolve z_agg z_resolution z_retention z_sp z_tf z_applied_rollup z_applied_op z_applied z_pm z_md z_sm z_sms z_fm z_tm
  z_counter z_timer z_gauge z_timed z_forwarded z_cm z_bm z_gm z_fwm z_tdm : sized.

Lemma w_agg m : written agg_fields agg_parts m. Proof. is_written. Qed.
Lemma w_resolution m : written resolution_fields resolution_parts m. Proof. is_written. Qed.
Lemma w_retention m : written retention_fields retention_parts m. Proof. is_written. Qed.
#[local] Hint Resolve w_agg w_resolution w_retention : written.
Lemma w_sp m : written sp_fields sp_parts m. Proof. is_written. Qed.
Lemma w_tf m : written tf_fields tf_parts m. Proof. is_written. Qed.
Lemma w_applied_rollup m : written applied_rollup_fields applied_rollup_parts m. Proof. is_written. Qed.
#[local] Hint Resolve w_sp w_tf w_applied_rollup : written.
Lemma w_applied_op m : written applied_op_fields applied_op_parts m. Proof. is_written. Qed.
#[local] Hint Resolve w_applied_op : written.
Lemma w_applied m : written applied_fields applied_parts m. Proof. is_written. Qed.
#[local] Hint Resolve w_applied : written.
Lemma w_pm m : written pm_fields pm_parts m. Proof. is_written. Qed.
#[local] Hint Resolve w_pm : written.
Lemma w_md m : written md_fields md_parts m. Proof. is_written. Qed.
#[local] Hint Resolve w_md : written.
Lemma w_sm m : written sm_fields sm_parts m. Proof. is_written. Qed.
#[local] Hint Resolve w_sm : written.
Lemma w_sms m : written sms_fields sms_parts m. Proof. is_written. Qed.
Lemma w_fm m : written fm_fields fm_parts m. Proof. is_written. Qed.
Lemma w_tm m : written tm_fields tm_parts m. Proof. is_written. Qed.
Lemma w_counter m : written counter_fields counter_parts m. Proof. is_written. Qed.
Lemma w_timer m : written timer_fields timer_parts m. Proof. is_written. Qed.
Lemma w_gauge m : written gauge_fields gauge_parts m. Proof. is_written. Qed.
Lemma w_timed m : written timed_fields timed_parts m. Proof. is_written. Qed.
Lemma w_forwarded m : written forwarded_fields forwarded_parts m. Proof. is_written. Qed.
#[local] Hint Resolve w_sms w_fm w_tm w_counter w_timer w_gauge w_timed w_forwarded : written.
Lemma w_cm m : written cm_fields cm_parts m. Proof. is_written. Qed.
Lemma w_bm m : written bm_fields bm_parts m. Proof. is_written. Qed.
Lemma w_gm m : written gm_fields gm_parts m. Proof. is_written. Qed.
Lemma w_fwm m : written fwm_fields fwm_parts m. Proof. is_written. Qed.
Lemma w_tdm m : written tdm_fields tdm_parts m. Proof. is_written. Qed.
#[local] Hint Resolve w_cm w_bm w_gm w_fwm w_tdm : written.
Lemma w_mm m : written mm_fields mm_parts m. Proof. is_written. Qed.

(** * Rule sets and namespaces *)

(** Both halves at once: the sizes agree and the bytes are fields that can be read. *)
Lemma rw_sized {M} (fs : list (field M)) z m : ProtoWireProof.reads fs z m m -> size fs m = zlen (marshal fs m).
Proof. intros [E _]. exact E. Qed.

Lemma w_policy m : policy_typed code_ok m -> written policy_fields policy_parts m.
Proof. intros [H1 H2]. is_written. Qed.
Lemma w_agg_op m : written agg_op_fields agg_op_parts m. Proof. is_written. Qed.
Lemma w_rollup_op m : Forall code_ok (rop_types m) -> written rollup_op_fields rollup_op_parts m.
Proof. intros H. is_written. Qed.
Lemma z_policy m : policy_typed code_ok m -> size policy_fields m = zlen (marshal policy_fields m).
Proof. intros H. exact (rw_sized _ _ _ (rw_policy m H)). Qed.
Lemma z_agg_op m : int32 m -> size agg_op_fields m = zlen (marshal agg_op_fields m).
Proof. intros H. exact (rw_sized _ _ _ (rw_agg_op m H)). Qed.
Lemma z_rollup_op m : Forall code_ok (rop_types m) -> size rollup_op_fields m = zlen (marshal rollup_op_fields m).
Proof. intros H. exact (rw_sized _ _ _ (rw_rollup_op m H)). Qed.
Lemma w_op m : op_typed code_ok m -> written op_fields op_parts m.
Proof.
  intros (H1 & H2 & H3 & H4). pose proof (if_set_impl _ _ _ z_agg_op H2). pose proof (if_set_impl _ _ _ z_rollup_op H4).
  pose proof (if_set_impl _ _ _ w_rollup_op H4). pose proof w_agg_op. is_written.
Qed.
Lemma z_op m : op_typed code_ok m -> size op_fields m = zlen (marshal op_fields m).
Proof. intros H. exact (rw_sized _ _ _ (rw_op m H)). Qed.
Lemma w_pipeline m : Forall (op_typed code_ok) m -> written pipeline_fields pipeline_parts m.
Proof. intros H. pose proof (Forall_impl _ z_op H). pose proof (Forall_impl _ w_op H). is_written. Qed.
Lemma z_pipeline m : Forall (op_typed code_ok) m -> size pipeline_fields m = zlen (marshal pipeline_fields m).
Proof. intros H. exact (rw_sized _ _ _ (rw_pipeline m H)). Qed.
Lemma w_mapping_snapshot m : mapping_snapshot_typed code_ok m -> written mapping_snapshot_fields mapping_snapshot_parts m.
Proof.
  intros (H1 & H2 & H3 & H4 & H5 & H6). pose proof (each_impl _ _ _ z_policy H2). pose proof (each_impl _ _ _ w_policy H2).
  pose proof (each_impl _ _ _ (fun x _ => z_sp x) H5). pose proof (each_impl _ _ _ (fun x _ => w_sp x) H5). is_written.
Qed.
Lemma z_mapping_snapshot m : mapping_snapshot_typed code_ok m -> size mapping_snapshot_fields m = zlen (marshal mapping_snapshot_fields m).
Proof. intros H. exact (rw_sized _ _ _ (rw_mapping_snapshot m H)). Qed.
Lemma w_target_v1 m : target_v1_typed code_ok m -> written target_v1_fields target_v1_parts m.
Proof. intros H. pose proof (each_impl _ _ _ z_policy H). pose proof (each_impl _ _ _ w_policy H). is_written. Qed.
Lemma z_target_v1 m : target_v1_typed code_ok m -> size target_v1_fields m = zlen (marshal target_v1_fields m).
Proof. intros H. exact (rw_sized _ _ _ (rw_target_v1 m H)). Qed.
Lemma w_target_v2 m : target_v2_typed code_ok m -> written target_v2_fields target_v2_parts m.
Proof.
  intros [H1 H2]. pose proof (if_set_impl _ _ _ z_pipeline H1). pose proof (if_set_impl _ _ _ w_pipeline H1).
  pose proof (each_impl _ _ _ (fun x _ => z_sp x) H2). pose proof (each_impl _ _ _ (fun x _ => w_sp x) H2). is_written.
Qed.
Lemma z_target_v2 m : target_v2_typed code_ok m -> size target_v2_fields m = zlen (marshal target_v2_fields m).
Proof. intros H. exact (rw_sized _ _ _ (rw_target_v2 m H)). Qed.
Lemma w_rollup_snapshot m : rollup_snapshot_typed code_ok m -> written rollup_snapshot_fields rollup_snapshot_parts m.
Proof.
  intros (H1 & H2 & H3 & H4). pose proof (each_impl _ _ _ z_target_v1 H2). pose proof (each_impl _ _ _ w_target_v1 H2).
  pose proof (each_impl _ _ _ z_target_v2 H4). pose proof (each_impl _ _ _ w_target_v2 H4). is_written.
Qed.
Lemma w_rule {S} (fs : list (field S)) ps z (P : S -> Prop) : (forall s, P s -> ProtoWireProof.reads fs z s s) ->
  (forall s, P s -> written fs ps s) -> forall m, rule_typed P m -> written (rule_fields fs z) (rule_parts ps z) m.
Proof.
  intros Z W m T. pose proof (each_impl _ _ _ (fun s H => rw_sized _ _ _ (Z s H)) T). pose proof (each_impl _ _ _ W T). is_written.
Qed.
Lemma w_rule_set m : rule_set_typed code_ok m -> written rule_set_fields rule_set_parts m.
Proof.
  intros (H1 & H2 & H3 & H4 & H5).
  pose proof (each_impl _ _ _ (fun r H => rw_sized _ _ _ (rw_rule _ _ _ rw_mapping_snapshot r H)) H4).
  pose proof (each_impl _ _ _ (fun r H => rw_sized _ _ _ (rw_rule _ _ _ rw_rollup_snapshot r H)) H5).
  pose proof (each_impl _ _ _ (w_rule _ _ _ _ rw_mapping_snapshot w_mapping_snapshot) H4).
  pose proof (each_impl _ _ _ (w_rule _ _ _ _ rw_rollup_snapshot w_rollup_snapshot) H5). is_written.
Qed.
Lemma w_ns_snapshot m : written ns_snapshot_fields ns_snapshot_parts m. Proof. is_written. Qed.
Lemma w_namespace m : each (fun s => int32 (nssp_version s) /\ int64 (nssp_at s)) (nsp_snapshots m) ->
  written namespace_fields namespace_parts m.
Proof.
  intros H. pose proof (each_impl _ _ _ (fun s K => rw_sized _ _ _ (rw_ns_snapshot s K)) H).
  pose proof (each_impl _ _ _ (fun s _ => w_ns_snapshot s) H). is_written.
Qed.
Lemma w_namespaces m : namespaces_typed m -> written namespaces_fields namespaces_parts m.
Proof.
  intros H. pose proof (each_impl _ _ _ (fun s K => rw_sized _ _ _ (rw_namespace s K)) H).
  pose proof (each_impl _ _ _ w_namespace H). is_written.
Qed.
