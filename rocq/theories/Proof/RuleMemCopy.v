(** Clones and new values show what they should, all of it in new memory. *)
From Coq Require Import Ascii String Arith NArith ZArith Bool Lia List.
From Verif.Proof Require Import MemProof.
From Verif.Base Require Import Bytes Mem.
From Verif.Model Require Import AggType Policy Transformation Pipeline Metadata Filter MetricID Rules RuleSet
  RuleMem.
From Verif.Spec Require Import RuleMemSpec.
Import ListNotations.
Open Scope nat_scope.

Lemma struct_shown m0 ts vs m : all_shown m0 ts vs m -> shown m0 (TStruct ts) (VStruct vs) m.
Proof. intros (f & H & Hw). exists f. split; [constructor; exact H|exact Hw]. Qed.
Lemma all_shown_cons m0 t ts v vs m :
  shown m0 t v m -> all_shown m0 ts vs m -> all_shown m0 (t :: ts) (v :: vs) m.
Proof.
  intros (f & H & Hf) (g & K & Hg). exists (f ++ g). split; [constructor; assumption|].
  apply within_app. auto.
Qed.
Lemma all_shown_nil m0 m : all_shown m0 [] [] m.
Proof. exists []. split; constructor. Qed.
Lemma atom_shown m0 a m : shown m0 (TAtom a) (VAtom a) m.
Proof. exists []. split; constructor. Qed.
Lemma nil_shown m0 m : shown m0 (TList []) VNil m.
Proof. exists []. split; constructor. Qed.

Ltac flat := unfold t_int, t_str, t_bool, t_id, VInt, VStr, VBool in *.
Ltac inv_shows := flat; repeat match goal with
  | H : shows_all _ _ (_ :: _) _ |- _ => inversion H; clear H; subst
  | H : shows_all _ _ [] _ |- _ => inversion H; clear H; subst
  | H : shows _ _ (TAtom _) _ |- _ => inversion H; clear H; subst
  | H : shows _ _ (TStruct _) _ |- _ => inversion H; clear H; subst
  end; cbn [app] in *.
Ltac all_atoms := flat; repeat first
  [ apply all_shown_cons | apply all_shown_nil | apply atom_shown | apply nil_shown | assumption ].

(** * Copies *)

Lemma bytes_copy_shown s v g m :
  shows m v (t_bytes s) g -> below (m_next m) g -> makes (bytes_copy v) m (shown m (t_bytes s)).
Proof.
  intros H Hb. unfold bytes_copy, t_bytes. eapply copy_slice_shown; [|exact H|exact Hb].
  intros x w f m1 _ Hs _. exact (ret_atom_shown _ _ _ _ Hs).
Qed.

Lemma sps_copy_shown l v g m :
  shows m v (t_sps l) g -> below (m_next m) g -> makes (sps_copy v) m (shown m (t_sps l)).
Proof.
  intros H Hb. unfold sps_copy, t_sps. eapply copy_slice_shown; [|exact H|exact Hb].
  intros x w f m1 _ Hs _. exact (ret_atom_shown _ _ _ _ Hs).
Qed.

Lemma array_copy_shown l v g m :
  shows m v (TList (map t_bytes l)) g -> below (m_next m) g ->
  makes (array_copy v) m (shown m (TList (map t_bytes l))).
Proof.
  intros H Hb. unfold array_copy. eapply copy_slice_shown; [|exact H|exact Hb].
  intros x w f m1 _ Hs Hb1. exact (bytes_copy_shown _ _ _ _ Hs Hb1).
Qed.

Lemma rollup_op_copy_shown r v g m :
  shows m v (t_rollup_op r) g -> below (m_next m) g ->
  makes (rollup_op_copy v) m (shown m (t_rollup_op (rollup_op_clone r))).
Proof.
  unfold t_rollup_op at 1. intros H Hb. inv_shows. cbn [rollup_op_copy].
  repeat match goal with H : below _ (_ ++ _) |- _ => apply below_app in H; destruct H end.
  match goal with H : shows m ?v (t_bytes _) ?g |- _ =>
    eapply makes_bind; [apply (bytes_copy_shown _ v g m H); assumption|] end.
  intros n' m1 Ho1 Hn.
  match goal with H : shows m ?v (TList (map t_bytes _)) ?g, Hb : below _ ?g |- _ =>
    eapply makes_bind; [apply (array_copy_shown _ v g m1 (shows_old _ _ _ _ _ Ho1 Hb H)
                                  (below_old _ _ _ Hb (proj1 Ho1)))|] end.
  intros t' m2 Ho2 Ht. apply makes_ret. unfold t_rollup_op, rollup_op_clone. cbn [ro_name ro_tags ro_agg].
  apply struct_shown. pose proof (shown_later _ _ _ _ _ Ho1 Ho2 Hn).
  pose proof (shown_earlier _ _ _ _ _ Ho1 Ht). all_atoms.
Qed.

Lemma zero_rollup_shown m0 m : shown m0 (t_rollup_op empty_rollup_op) zero_rollup m.
Proof. unfold t_rollup_op, zero_rollup. cbn [empty_rollup_op ro_name ro_tags ro_agg map t_bytes].
  apply struct_shown. all_atoms. Qed.

Lemma op_copy_shown o v g m :
  shows m v (t_op o) g -> below (m_next m) g -> makes (op_copy v) m (shown m (t_op (op_clone o))).
Proof.
  unfold t_op at 1. intros H Hb. inv_shows. cbn [op_copy].
  pose proof (zero_rollup_shown m m) as Hz.
  unfold t_op, op_clone. cbn [op_kind op_agg op_tf op_rollup].
  destruct (op_kind o =? AggregationOp)%Z eqn:E1.
  { apply Z.eqb_eq in E1. rewrite E1. cbn [Z.eqb Pos.eqb AggregationOp TransformationOp RollupOp].
    apply makes_ret. apply struct_shown. unfold zero_tf. all_atoms. }
  destruct (op_kind o =? TransformationOp)%Z eqn:E2.
  { apply Z.eqb_eq in E2. rewrite E2. cbn [Z.eqb Pos.eqb AggregationOp TransformationOp RollupOp].
    apply makes_ret. apply struct_shown. unfold zero_agg. all_atoms. }
  destruct (op_kind o =? RollupOp)%Z eqn:E3.
  { match goal with H : shows m ?v (t_rollup_op _) ?g |- _ =>
      eapply makes_bind; [apply (rollup_op_copy_shown _ v g m H)|] end.
    { repeat match goal with H : below _ (_ ++ _) |- _ => apply below_app in H; destruct H end. assumption. }
    intros ro m1 Ho Hr. apply makes_ret. apply struct_shown. unfold zero_agg, zero_tf. all_atoms. }
  apply makes_ret. apply struct_shown. unfold zero_agg, zero_tf. all_atoms.
Qed.

Lemma target_copy_shown t v g m :
  shows m v (t_target t) g -> below (m_next m) g -> makes (target_copy v) m (shown m (t_target (target_clone t))).
Proof.
  unfold t_target at 1. intros H Hb. inv_shows. cbn [target_copy].
  repeat match goal with H : below _ (_ ++ _) |- _ => apply below_app in H; destruct H end.
  unfold pipeline_copy.
  match goal with H : shows m ?v (TList (map t_op _)) ?g |- _ =>
    eapply makes_bind; [eapply (copy_slice_shown op_copy t_op (fun o => t_op (op_clone o)) _
       (fun x v g m _ Hs Hb => op_copy_shown x v g m Hs Hb) v g m H); assumption|] end.
  intros p' m1 Ho1 Hp.
  match goal with H : shows m ?v (t_sps _) ?g, Hb : below _ ?g |- _ =>
    eapply makes_bind; [apply (sps_copy_shown _ v g m1 (shows_old _ _ _ _ _ Ho1 Hb H)
                                  (below_old _ _ _ Hb (proj1 Ho1)))|] end.
  intros s' m2 Ho2 Hs. apply makes_ret. unfold t_target, target_clone, pipeline_clone. cbn [tg_pipeline tg_sps].
  rewrite map_map. apply struct_shown. pose proof (shown_later _ _ _ _ _ Ho1 Ho2 Hp).
  pose proof (shown_earlier _ _ _ _ _ Ho1 Hs). all_atoms.
Qed.

Lemma mbody_copy_shown b v g m :
  shows m v (t_mbody b) g -> below (m_next m) g -> makes (mbody_copy v) m (shown m (t_mbody (mb_clone b))).
Proof.
  unfold t_mbody at 1. intros H Hb. inv_shows. cbn [mbody_copy].
  repeat match goal with H : below _ (_ ++ _) |- _ => apply below_app in H; destruct H end.
  match goal with H : shows m ?v (t_sps _) ?g |- _ =>
    eapply makes_bind; [apply (sps_copy_shown _ v g m H); assumption|] end.
  intros s' m1 Ho1 Hs. apply makes_ret. unfold t_mbody, mb_clone. cbn [mb_agg mb_sps mb_drop].
  apply struct_shown. all_atoms.
Qed.

Lemma rbody_copy_shown b v g m :
  shows m v (t_rbody b) g -> below (m_next m) g -> makes (rbody_copy v) m (shown m (t_rbody (targets_clone b))).
Proof.
  unfold t_rbody, targets_clone, rbody_copy. intros H Hb. rewrite map_map.
  exact (copy_slice_shown target_copy t_target (fun t => t_target (target_clone t)) b
    (fun x v g m _ Hs Hb => target_copy_shown x v g m Hs Hb) v g m H Hb).
Qed.

(** * New values *)

Lemma atoms_shown {A} (f : A -> atom) (l : list A) m0 m :
  all_shown m0 (map (fun x => TAtom (f x)) l) (map (fun x => VAtom (f x)) l) m.
Proof. induction l as [|x l IH]; cbn [map]; all_atoms. Qed.

Lemma new_bytes_shown s m : makes (new_bytes s) m (shown m (t_bytes s)).
Proof. apply make_slice_shown; [apply old_refl|]. apply atoms_shown. Qed.
Lemma new_sps_shown l m : makes (new_sps l) m (shown m (t_sps l)).
Proof. apply make_slice_shown; [apply old_refl|]. apply atoms_shown. Qed.

Lemma new_op_shown o m : makes (new_op o) m (shown m (t_op o)).
Proof.
  unfold new_op. eapply makes_bind; [apply new_bytes_shown|]. intros n m1 Ho1 Hn.
  eapply makes_bind; [apply (each_new new_bytes t_bytes _ new_bytes_shown)|]. intros ts m2 Ho2 Hts.
  eapply makes_bind; [apply (make_slice_shown m1 m2 _ _ Ho2 Hts)|]. intros ts' m3 Ho3 Hts'.
  apply makes_ret. pose proof (shown_later _ _ _ _ _ Ho1 (old_trans _ _ _ Ho2 Ho3) Hn).
  pose proof (shown_earlier _ _ _ _ _ Ho1 Hts').
  unfold t_op, t_rollup_op. apply struct_shown. all_atoms. apply struct_shown. all_atoms.
Qed.

Lemma new_target_shown t m : makes (new_target t) m (shown m (t_target t)).
Proof.
  unfold new_target. eapply makes_bind; [apply (each_new new_op t_op _ new_op_shown)|]. intros ops m1 Ho1 Hops.
  eapply makes_bind; [apply (make_slice_shown m m1 _ _ Ho1 Hops)|]. intros p m2 Ho2 Hp.
  eapply makes_bind; [apply new_sps_shown|]. intros s m3 Ho3 Hs. apply makes_ret.
  pose proof (shown_later _ _ _ _ _ (old_trans _ _ _ Ho1 Ho2) Ho3 Hp).
  pose proof (shown_earlier _ _ _ _ _ (old_trans _ _ _ Ho1 Ho2) Hs).
  unfold t_target. apply struct_shown. all_atoms.
Qed.

Lemma new_mbody_shown b m : makes (new_mbody b) m (shown m (t_mbody b)).
Proof.
  unfold new_mbody. eapply makes_bind; [apply new_sps_shown|]. intros s m1 Ho Hs. apply makes_ret.
  unfold t_mbody. apply struct_shown. all_atoms.
Qed.
Lemma new_rbody_shown b m : makes (new_rbody b) m (shown m (t_rbody b)).
Proof.
  unfold new_rbody. eapply makes_bind; [apply (each_new new_target t_target _ new_target_shown)|].
  intros l m1 Ho Hl. exact (make_slice_shown m m1 _ _ Ho Hl).
Qed.

Lemma new_snapshot_shown {P} (nb : P -> prog val) (tb : P -> tree) :
  (forall b m, makes (nb b) m (shown m (tb b))) ->
  forall s m, makes (new_snapshot nb s) m (shown m (t_snapshot tb s)).
Proof.
  intros Hn s m. unfold new_snapshot. eapply makes_bind; [apply Hn|]. intros b m1 Ho Hb.
  apply new_obj_shown; [exact Ho|]. all_atoms.
Qed.

Section Snapshot.
  Context {P : Type} (bc : val -> prog val) (cl : P -> P) (tb : P -> tree).
  Context (bc_shown : forall b v g m, shows m v (tb b) g -> below (m_next m) g ->
                        makes (bc v) m (shown m (tb (cl b)))).

  (** the fields of a snapshot behind a pointer *)
  Lemma snapshot_fields s v g m :
    shows m v (t_snapshot tb s) g ->
    exists p b gb, v = VPtr p /\
      m_at m p = [VStr (sn_name s); VBool (sn_tomb s); VInt (sn_cutover s); VAtom (AFilter (sn_filter s));
                  VStr (sn_raw s); b; VInt (sn_at s); VStr (sn_by s)] /\
      shows m b (tb (sn_body s)) gb /\ g = Whole p :: gb.
  Proof.
    unfold t_snapshot. intro H. inversion H as [| | |p ts f Hall|]; subst.
    remember (m_at m p) as cells eqn:Ec. inv_shows. 
    match goal with Hb : shows m ?b (tb _) ?gb |- _ => exists p, b, gb end.
    rewrite !app_nil_r. repeat split; first [assumption | symmetry; assumption | reflexivity].
  Qed.

  Definition snapshot_cells (s : snapshot P) (b : val) : list val :=
    [VStr (sn_name s); VBool (sn_tomb s); VInt (sn_cutover s); VAtom (AFilter (sn_filter s)); VStr (sn_raw s); b;
     VInt (sn_at s); VStr (sn_by s)].

  Lemma snapshot_copy_shown s v g m :
    shows m v (t_snapshot tb s) g -> below (m_next m) g ->
    makes (snapshot_copy bc v) m (fun cells m' => exists b, cells = snapshot_cells s b /\
                                                    shown m (tb (cl (sn_body s))) b m').
  Proof.
    intros H Hb. destruct (snapshot_fields _ _ _ _ H) as (p & b & gb & -> & E & Hs & ->).
    unfold snapshot_copy. eapply makes_read; [cbn [deref]; rewrite E; reflexivity|]. cbn [bind].
    eapply makes_bind; [apply (bc_shown _ _ _ _ Hs); inversion Hb; assumption|].
    intros b' m1 Ho Hb'. apply makes_ret. exists b'. split; [reflexivity|exact Hb'].
  Qed.

  Lemma snapshot_clone_shown s v g m :
    shows m v (t_snapshot tb s) g -> below (m_next m) g ->
    makes (bind (snapshot_copy bc v) (fun c => new_obj c)) m (shown m (t_snapshot tb (snapshot_clone cl s))).
  Proof.
    intros H Hb. eapply makes_bind; [exact (snapshot_copy_shown _ _ _ _ H Hb)|].
    intros c m1 Ho (b & -> & Hbs). apply new_obj_shown; [exact Ho|].
    unfold snapshot_cells, snapshot_clone. cbn [sn_name sn_tomb sn_cutover sn_filter sn_raw sn_body sn_at sn_by].
    all_atoms.
  Qed.
End Snapshot.
