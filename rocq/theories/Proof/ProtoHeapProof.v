(** The encoders, relinquished buffers and the pool never share an array; what an operation does. *)
From Coq Require Import Ascii String NArith ZArith Bool Arith Lia Permutation List.
From Verif.Base Require Import Bytes BytesFacts Slice SliceFacts.
From Verif.Model Require Import AggType Policy Transformation Pipeline Metadata ProtoWire Messages ProtoStream.
From Verif.Spec Require Import PolicySpec MetadataSpec ProtoStreamSpec.
From Verif.Proof Require Import ProtoWireProof MessagesProof ProtoPure ProtoFrameProof.
Import ListNotations.
Local Open Scope Z_scope.

Definition opt_list {A} (o : option A) : list A := match o with None => [] | Some a => [a] end.

(** ** One buffer against the rest of the world *)

Definition wf (keep : list nat) (buf : option nat) (h : heap) : Prop :=
  NoDup (opt_list buf ++ keep ++ h_free h) /\ Forall (fun a => a < h_next h)%nat (opt_list buf ++ keep ++ h_free h).
Definition same_on (keep : list nat) (h h' : heap) : Prop := forall a, In a keep -> h_data h' a = h_data h a.

Lemma same_on_refl keep h : same_on keep h h.
Proof. intros a _. reflexivity. Qed.
Lemma same_on_trans keep h1 h2 h3 : same_on keep h1 h2 -> same_on keep h2 h3 -> same_on keep h1 h3.
Proof. intros A C a I. rewrite C, A; auto. Qed.
Lemma same_on_incl k1 k2 h h' : incl k1 k2 -> same_on k2 h h' -> same_on k1 h h'.
Proof. intros I S a Ha. apply S, I, Ha. Qed.

Lemma wf_perm keep keep' buf h : Permutation keep keep' -> wf keep buf h -> wf keep' buf h.
Proof.
  intros P [N F].
  assert (Permutation (opt_list buf ++ keep ++ h_free h) (opt_list buf ++ keep' ++ h_free h)) as Q
    by (apply Permutation_app_head, Permutation_app_tail, P).
  split; [exact (Permutation_NoDup Q N)|]. rewrite Forall_forall in *. intros a Ha. apply F.
  exact (Permutation_in _ (Permutation_sym Q) Ha).
Qed.

(** Moving the buffer itself among the things kept. *)
Lemma wf_keep keep buf h : wf keep buf h <-> wf (opt_list buf ++ keep) None h.
Proof. unfold wf. cbn [opt_list app]. rewrite <- app_assoc. reflexivity. Qed.

Lemma wf_put keep pool buf h : wf keep buf h -> wf keep None (put_buf pool buf h).
Proof.
  intros [N F]. destruct buf as [a|]; [|exact (conj N F)].
  cbn [opt_list app] in N, F. unfold put_buf. destruct pool.
  - unfold wf, h_put. cbn [opt_list app h_free h_next].
    assert (Permutation (a :: keep ++ h_free h) (keep ++ a :: h_free h)) as Q by apply Permutation_middle.
    split; [exact (Permutation_NoDup Q N)|]. rewrite Forall_forall in *. intros x Hx. apply F.
    exact (Permutation_in _ (Permutation_sym Q) Hx).
  - inversion N; inversion F; subst. split; auto.
Qed.
Lemma put_data pool buf h a : h_data (put_buf pool buf h) a = h_data h a.
Proof. unfold put_buf, h_put. destruct buf; [destruct pool|]; reflexivity. Qed.
Lemma put_next pool buf h : h_next (put_buf pool buf h) = h_next h.
Proof. unfold put_buf, h_put. destruct buf; [destruct pool|]; reflexivity. Qed.

Lemma zlen_zeros n : zlen (zeros n) = Z.max n 0.
Proof. unfold zlen, zeros. rewrite repeat_length. lia. Qed.

Lemma h_new_ok keep d h a h' : wf keep None h -> h_new d h = (a, h') ->
  wf keep (Some a) h' /\ same_on keep h h' /\ h_data h' a = d /\ ~ In a keep.
Proof.
  intros [N F] E. unfold h_new in E. injection E as <- <-. cbn [opt_list app] in *.
  assert (~ In (h_next h) (keep ++ h_free h)) as NI.
  { intros I. rewrite Forall_forall in F. specialize (F _ I). lia. }
  split; [split|split; [|split]].
  - cbn [opt_list app h_free]. constructor; assumption.
  - cbn [opt_list app h_free h_next]. constructor; [lia|]. eapply Forall_impl; [|exact F]. cbn; intros; lia.
  - intros x Hx. cbn [h_data]. destruct (Nat.eqb_spec x (h_next h)) as [->|]; [|reflexivity].
    exfalso. apply NI, in_or_app. auto.
  - cbn [h_data]. now rewrite Nat.eqb_refl.
  - intros I. apply NI, in_or_app. auto.
Qed.

Lemma h_get_ok keep t c h a h' : wf keep None h -> h_get t c h = (a, h') ->
  wf keep (Some a) h' /\ same_on keep h h' /\ t <= zlen (h_data h' a) /\ ~ In a keep.
Proof.
  intros W E.
  assert (forall d, t <= zlen d -> h_new d h = (a, h') ->
    wf keep (Some a) h' /\ same_on keep h h' /\ t <= zlen (h_data h' a) /\ ~ In a keep) as New.
  { intros d Hd En. destruct (h_new_ok keep d h a h' W En) as (A & C & D & G). rewrite D. auto. }
  assert (t <= zlen (zeros t)) as Z0 by (rewrite zlen_zeros; lia).
  unfold h_get in E. destruct c as [junk|k].
  - destruct (t <=? zlen junk) eqn:L; [apply Z.leb_le in L; exact (New junk L E)|exact (New _ Z0 E)].
  - destruct (nth_error (h_free h) k) as [x|] eqn:Nk; [|exact (New _ Z0 E)].
    destruct (t <=? zlen (h_data h x)) eqn:L; [|exact (New _ Z0 E)].
    apply Z.leb_le in L. apply pair_equal_spec in E as [<- <-]. clear New Z0.
    apply nth_error_split in Nk as (l1 & l2 & Hf & Hk). destruct W as [N F]. cbn [opt_list app] in N, F.
    assert (firstn k (h_free h) ++ skipn (S k) (h_free h) = l1 ++ l2) as R.
    { rewrite Hf. subst k. rewrite firstn_app, firstn_all, Nat.sub_diag. cbn [firstn]. rewrite app_nil_r. f_equal.
      change (l1 ++ x :: l2) with (l1 ++ [x] ++ l2). rewrite app_assoc.
      replace (S (length l1)) with (length (l1 ++ [x])) by (rewrite app_length; cbn; lia).
      rewrite skipn_app, skipn_all, Nat.sub_diag. reflexivity. }
    assert (Permutation (keep ++ h_free h) (x :: keep ++ l1 ++ l2)) as Q.
    { rewrite Hf. rewrite !app_assoc. symmetry. apply Permutation_middle. }
    assert (NoDup (x :: keep ++ l1 ++ l2)) as N' by exact (Permutation_NoDup Q N).
    rewrite R. unfold wf. cbn [opt_list app h_free h_next h_data]. repeat split; auto.
    + rewrite Forall_forall in *. intros y Hy. apply F. exact (Permutation_in _ (Permutation_sym Q) Hy).
    + inversion N'; subst. intros I. apply H1, in_or_app. auto.
Qed.

Lemma allocate_ok keep pool t c h a h' : wf keep None h -> allocate pool t c h = (a, h') ->
  wf keep (Some a) h' /\ same_on keep h h' /\ t <= zlen (h_data h' a) /\ ~ In a keep.
Proof.
  intros W E. unfold allocate in E. destruct pool; [exact (h_get_ok keep t c h a h' W E)|].
  destruct (h_new_ok keep _ h a h' W E) as (A & C & D & G). rewrite D, zlen_zeros. repeat split; auto; try apply A; lia.
Qed.

Lemma splice_length old off d : (off + length d <= length old)%nat -> length (splice old off d) = length old.
Proof. intros H. unfold splice. rewrite !app_length, firstn_length, skipn_length. lia. Qed.
Lemma splice_prefix old off d : (off + length d <= length old)%nat ->
  firstn (off + length d) (splice old off d) = firstn off old ++ d.
Proof.
  intros H. unfold splice. rewrite app_assoc, firstn_app.
  assert (length (firstn off old ++ d) = off + length d)%nat as L by (rewrite app_length, firstn_length; lia).
  rewrite firstn_all2 by lia. rewrite L, Nat.sub_diag, firstn_O, app_nil_r. reflexivity.
Qed.

Lemma wf_write keep buf a off d h : wf keep buf h -> wf keep buf (h_write a off d h).
Proof. intros W. exact W. Qed.
Lemma write_same keep a off d h : ~ In a keep -> same_on keep h (h_write a off d h).
Proof.
  intros N x Hx. cbn [h_write h_data]. destruct (Nat.eqb_spec x a) as [->|]; [contradiction|reflexivity].
Qed.
Lemma write_at a off d h : h_data (h_write a off d h) a = splice (h_data h a) (Z.to_nat off) d.
Proof. cbn [h_write h_data]. now rewrite Nat.eqb_refl. Qed.

Lemma wf_not_kept keep a h : wf keep (Some a) h -> ~ In a keep.
Proof. intros [N _] I. inversion N; subst. apply H1, in_or_app. auto. Qed.

Definition old_data (h : heap) (buf : option nat) : bytes := match buf with None => [] | Some a => h_data h a end.

Lemma ensure_ok keep buf pool t c h buf' h' :
  wf keep buf h -> 0 < t -> ensure_buffer buf pool t c h = (buf', h') ->
  exists a, buf' = Some a /\ wf keep (Some a) h' /\ same_on keep h h' /\ t <= zlen (h_data h' a) /\
    exists junk, h_data h' a = old_data h buf ++ junk.
Proof.
  intros W T E. unfold ensure_buffer in E. destruct (t <=? buf_len h buf) eqn:L.
  - apply Z.leb_le in L. injection E as <- <-. destruct buf as [a|]; [|cbn in L; lia].
    exists a. repeat split; auto; try apply W. exists []. cbn. now rewrite app_nil_r.
  - apply Z.leb_gt in L.
    destruct (allocate pool (Z.max t (buf_len h buf * 2)) c h) as [a h1] eqn:Al. injection E as <- <-.
    apply wf_keep in W.
    destruct (allocate_ok _ _ _ _ _ _ _ W Al) as (W1 & S1 & L1 & N1).
    assert (match buf with None => [] | Some b => h_data h1 b end = old_data h buf) as O.
    { destruct buf as [b|]; [|reflexivity]. apply S1. cbn. auto. }
    rewrite O.
    assert (length (old_data h buf) <= length (h_data h1 a))%nat as Le.
    { unfold buf_len, old_data in *. destruct buf as [b|]; [|cbn; lia]. unfold zlen in *. lia. }
    exists a. split; [reflexivity|].
    assert (incl keep (opt_list buf ++ keep)) as Ik by (intros x Hx; apply in_or_app; auto).
    split; [|split; [|split]].
    + apply wf_keep. apply wf_put. apply wf_write with (a := a) (off := 0) (d := old_data h buf) in W1.
      apply wf_keep in W1. apply wf_keep.
      eapply wf_perm; [|exact W1]. cbn [opt_list app].
      destruct buf as [b|]; cbn [opt_list app]; [apply perm_swap|apply Permutation_refl].
    + intros x Hx. rewrite put_data. rewrite (write_same keep a 0 (old_data h buf) h1); [|firstorder|exact Hx].
      apply S1, Ik, Hx.
    + rewrite put_data, write_at. unfold zlen. rewrite splice_length by (cbn; lia). unfold zlen in L1. lia.
    + rewrite put_data, write_at. unfold splice. cbn [Z.to_nat firstn app Nat.add].
      eexists. reflexivity.
Qed.

(** ** Encoding *)

Lemma put_varint_short k : forall n v, 0 <= v < 128 ^ Z.of_nat k -> (0 < k)%nat -> (length (put_varint n v) <= k)%nat.
Proof.
  induction k as [|k IH]; intros n v Hv Hk; [lia|]. destruct n as [|n]; [cbn; lia|]. cbn [put_varint].
  destruct (v <? 128) eqn:E; [cbn; lia|]. apply Z.ltb_ge in E. cbn [length].
  destruct k as [|k]; [cbn in Hv; lia|]. apply le_n_S. apply IH; [|lia].
  rewrite Nat2Z.inj_succ, Z.pow_succ_r in Hv by lia.
  set (P := 128 ^ Z.of_nat (S k)) in *. clearbody P. split; [apply Z.div_pos; lia|apply Z.div_lt_upper_bound; lia].
Qed.

Lemma prefix_short n : 0 <= n < 2 ^ 34 -> zlen (enc_varint (zigzag n)) <= 5.
Proof.
  intros H. unfold zlen, enc_varint, zigzag. rewrite (proj2 (Z.ltb_ge n 0)) by lia.
  pose proof (put_varint_short 5 10 (2 * n)) as P.
  change (128 ^ Z.of_nat 5) with (2 ^ 35) in P. specialize (P ltac:(lia) ltac:(lia)). lia.
Qed.

Definition enc_ok (h : heap) (e : encoder) : Prop :=
  0 <= e_used e <= buf_len h (e_buf e) /\ e_max e < 2 ^ 34.

Lemma enc_bytes_old h e : enc_ok h e -> enc_bytes h e = firstn (Z.to_nat (e_used e)) (old_data h (e_buf e)) /\
  zlen (enc_bytes h e) = e_used e.
Proof.
  intros [U _]. unfold enc_bytes, old_data, buf_len in *. destruct (e_buf e); cbn.
  - split; [reflexivity|]. unfold zlen in *. rewrite firstn_length. lia.
  - rewrite firstn_nil. split; [reflexivity|]. cbn. lia.
Qed.

Lemma enc_mm_ok keep pb c e h :
  wf keep (e_buf e) h -> enc_ok h e ->
  if e_max e <? size mm_fields pb then enc_mm pb c e h = EncErr e h
  else exists e' h', enc_mm pb c e h = EncOk e' h' /\ wf keep (e_buf e') h' /\ same_on keep h h' /\
    enc_ok h' e' /\ e_max e' = e_max e /\ enc_bytes h' e' = enc_bytes h e ++ frame pb.
Proof.
  intros W O. unfold enc_mm. destruct (e_max e <? size mm_fields pb) eqn:L; [reflexivity|].
  apply Z.ltb_ge in L. pose proof O as [U M].
  destruct (enc_bytes_old h e O) as [Old Len].
  set (sz := size mm_fields pb) in *. assert (0 <= sz) as P by (unfold sz; rewrite mm_size; apply zlen_nonneg).
  destruct (ensure_buffer (e_buf e) (e_pool e) (e_used e + (max_size_bytes + sz)) c h) as [buf h1] eqn:En.
  unfold max_size_bytes in En.
  assert (0 < e_used e + (5 + sz)) as T0 by lia.
  destruct (ensure_ok keep _ _ _ _ _ _ _ W T0 En) as (a & -> & W1 & S1 & L1 & junk & J).
  pose proof (prefix_short sz ltac:(lia)) as P5. set (p := enc_varint (zigzag sz)) in *.
  pose proof (zlen_nonneg p) as P0.
  rewrite (proj2 (Z.ltb_ge _ _)) by lia.
  assert (zlen (marshal mm_fields pb) = sz) as Sz by (unfold sz; now rewrite mm_size).
  set (body := marshal mm_fields pb) in *.
  assert (length (h_data (h_write a (e_used e) p h1) a) = length (h_data h1 a)) as Lw.
  { rewrite write_at. apply splice_length. unfold zlen in *. lia. }
  rewrite (proj2 (Z.ltb_ge _ _)) by (unfold zlen in *; lia).
  set (h2 := h_write a (e_used e) p h1) in *.
  eexists _, _. split; [reflexivity|]. cbn [with_buf e_buf e_max e_used].
  assert (~ In a keep) as Na by exact (wf_not_kept keep a h1 W1).
  assert (firstn (Z.to_nat (e_used e)) (h_data h1 a) = enc_bytes h e) as Pre.
  { rewrite Old, J, firstn_app.
    assert (Z.to_nat (e_used e) <= length (old_data h (e_buf e)))%nat as Hl.
    { unfold old_data, buf_len, zlen in *. destruct (e_buf e); cbn in *; lia. }
    replace (Z.to_nat (e_used e) - length (old_data h (e_buf e)))%nat with 0%nat by lia.
    rewrite firstn_O, app_nil_r. reflexivity. }
  assert (length (splice (h_data h2 a) (Z.to_nat (e_used e + zlen p)) body) = length (h_data h1 a)) as Lw2.
  { rewrite splice_length; [exact Lw|]. rewrite Lw. unfold zlen in *. lia. }
  split; [exact W1|]. split; [|split; [|split; [reflexivity|]]].
  - refine (same_on_trans _ _ _ _ S1 _).
    exact (same_on_trans _ _ _ _ (write_same keep a _ _ h1 Na) (write_same keep a _ _ h2 Na)).
  - split; [|exact M]. cbn [with_buf e_buf e_used buf_len]. rewrite write_at.
    assert (forall x : bytes, length x = length (h_data h1 a) -> zlen x = zlen (h_data h1 a)) as Zl
      by (intros x Hx; unfold zlen; congruence).
    rewrite (Zl _ Lw2). pose proof (zlen_nonneg body). lia.
  - unfold enc_bytes at 1. cbn [with_buf e_buf e_used]. rewrite write_at.
    replace (Z.to_nat (e_used e + zlen p + zlen body)) with (Z.to_nat (e_used e + zlen p) + length body)%nat
      by (unfold zlen in *; lia).
    rewrite splice_prefix by (rewrite Lw; unfold zlen in *; lia).
    unfold h2. rewrite write_at.
    replace (Z.to_nat (e_used e + zlen p)) with (Z.to_nat (e_used e) + length p)%nat by (unfold zlen in *; lia).
    rewrite splice_prefix by (unfold zlen in *; lia).
    rewrite Pre. unfold frame. fold sz. fold p. fold body. now rewrite app_assoc.
Qed.

Definition encodable (u : union_of list) (max : Z) (f : bytes) : Prop :=
  exists m pb, selected u = Some m /\ mm_of m = Some pb /\ size mm_fields pb <= max /\ f = frame pb.

Lemma encodable_fun u max f f' : encodable u max f -> encodable u max f' -> f = f'.
Proof. intros (m & pb & A & C & _ & ->) (m' & pb' & A' & C' & _ & ->). congruence. Qed.

Lemma enc_message_ok keep u c e h :
  wf keep (e_buf e) h -> enc_ok h e ->
  (exists e' h' f, enc_message u c e h = EncOk e' h' /\ encodable u (e_max e) f /\ wf keep (e_buf e') h' /\
     same_on keep h h' /\ enc_ok h' e' /\ e_max e' = e_max e /\ enc_bytes h' e' = enc_bytes h e ++ f) \/
  (exists e', enc_message u c e h = EncErr e' h /\ (forall f, ~ encodable u (e_max e) f) /\ same_but_reused e e').
Proof.
  intros W O. pose proof (enc_message_pure u c e h) as Pu.
  destruct (selected u) as [m|] eqn:Se.
  2:{ right. exists e. split; [exact Pu|]. split; [|repeat split]. intros f (m & pb & A & _). congruence. }
  destruct (mm_of m) as [pb|] eqn:Mm.
  2:{ right. exists e. split; [exact Pu|]. split; [|repeat split]. intros f (m' & pb & A & C & _). congruence. }
  destruct Pu as (e1 & Sb & ->). pose proof Sb as (Q1 & Q2 & Q3 & Q4 & Q5).
  assert (enc_ok h e1) as O1 by (unfold enc_ok in *; now rewrite Q3, Q4, Q5).
  assert (wf keep (e_buf e1) h) as W1 by now rewrite Q4.
  pose proof (enc_mm_ok keep pb c e1 h W1 O1) as R. rewrite Q3 in R.
  assert (enc_bytes h e1 = enc_bytes h e) as Eb by (unfold enc_bytes; now rewrite Q4, Q5).
  destruct (e_max e <? size mm_fields pb) eqn:L.
  - right. exists e1. split; [exact R|]. split; [|exact Sb]. apply Z.ltb_lt in L.
    intros f (m' & pb' & A & C & D & _). assert (pb' = pb) by congruence. subst. lia.
  - left. apply Z.ltb_ge in L. destruct R as (e' & h' & E & W' & S' & O' & M' & B').
    exists e', h', (frame pb). rewrite <- Eb. repeat split; auto; try apply W'; try apply O'.
    exists m, pb. auto.
Qed.

Lemma reset_ok keep d c e h e' h' :
  wf keep (e_buf e) h -> e_max e < 2 ^ 34 -> enc_reset d c e h = (e', h') ->
  wf keep (e_buf e') h' /\ same_on keep h h' /\ enc_ok h' e' /\ e_max e' = e_max e /\ enc_bytes h' e' = d.
Proof.
  intros W M E. unfold enc_reset in E.
  destruct (allocate (e_pool e) (Z.max (e_init e) (zlen d)) c (put_buf (e_pool e) (e_buf e) h)) as [a h1] eqn:Al.
  injection E as <- <-. apply wf_put with (pool := e_pool e) in W.
  destruct (allocate_ok _ _ _ _ _ _ _ W Al) as (W1 & S1 & L1 & N1).
  assert (0 + length d <= length (h_data h1 a))%nat as Le by (unfold zlen in L1; lia).
  cbn [with_buf e_buf e_max e_used]. split; [exact W1|]. split; [|split; [|split; [reflexivity|]]].
  - intros x Hx. rewrite (write_same keep a 0 d h1 N1 x Hx), (S1 x Hx). apply put_data.
  - split; [|exact M]. cbn [with_buf e_buf e_used buf_len]. rewrite write_at. unfold zlen.
    rewrite splice_length by exact Le. pose proof (zlen_nonneg d). unfold zlen in *. lia.
  - unfold enc_bytes. cbn [with_buf e_buf e_used]. rewrite write_at. unfold zlen. rewrite Nat2Z.id.
    change (length d) with (0 + length d)%nat at 1. change (Z.to_nat 0) with 0%nat.
    rewrite splice_prefix by exact Le. reflexivity.
Qed.

Lemma new_ok pool init max c h e h' keep :
  wf keep None h -> max < 2 ^ 34 -> new_encoder pool init max c h = (e, h') ->
  wf keep (e_buf e) h' /\ same_on keep h h' /\ enc_ok h' e /\ e_max e = max /\ enc_bytes h' e = [].
Proof. intros W M E. exact (reset_ok keep [] c (blank_encoder pool init max) h e h' W M E). Qed.

Lemma alone_encodable u max f : max < 2 ^ 34 -> (alone u max f <-> encodable u max f).
Proof.
  intros M. unfold alone.
  destruct (new_encoder false 0 max (Fresh []) empty_heap) as [e h] eqn:N.
  assert (wf [] None empty_heap) as W0 by (split; constructor).
  destruct (new_ok _ _ _ _ _ _ _ [] W0 M N) as (W & _ & O & Mx & B).
  destruct (enc_message_ok [] u (Fresh []) e h W O) as [(e1 & h1 & f1 & E & En & _ & _ & _ & _ & B1)|(e1 & E & Ne & _)];
    rewrite Mx in *.
  - rewrite B in B1. cbn [app] in B1. split.
    + intros (e' & h' & E' & F). rewrite E in E'. injection E' as <- <-. congruence.
    + intros En'. exists e1, h1. split; [exact E|]. rewrite B1. exact (encodable_fun u max _ _ En En').
  - split; [intros (e' & h' & E' & _); congruence|]. intros En. destruct (Ne f En).
Qed.
