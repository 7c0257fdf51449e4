(** Reading memory: a program that computes what a value shows, for use in examples, and the fact that a
    value shows at most one rule set. *)
From Coq Require Import Ascii String Arith NArith ZArith Bool Lia List.
From Verif.Proof Require Import MemProof RuleMemWorld.
From Verif.Base Require Import Bytes Mem.
From Verif.Model Require Import AggType Policy Transformation Pipeline Metadata Filter MetricID Rules RuleSet
  RuleMem.
From Verif.Spec Require Import RuleMemSpec.
Import ListNotations.
Open Scope nat_scope.

Fixpoint read_all (rd : val -> option (tree * list look)) (vs : list val) : option (list tree * list look) :=
  match vs with
  | [] => Some ([], [])
  | v :: vs' => match rd v, read_all rd vs' with
                | Some (t, f), Some (ts, fs) => Some (t :: ts, f ++ fs)
                | _, _ => None
                end
  end.
Fixpoint read (fuel : nat) (m : memory) (v : val) : option (tree * list look) :=
  match fuel with
  | O => None
  | S k =>
      match v with
      | VAtom a => Some (TAtom a, [])
      | VNil => Some (TList [], [])
      | VStruct l => option_map (fun x => (TStruct (fst x), snd x)) (read_all (read k m) l)
      | VPtr p => option_map (fun x => (TRef (fst x), Whole p :: snd x)) (read_all (read k m) (m_at m p))
      | VSlice a off len _ =>
          if off + len <=? length (m_at m a)
          then option_map (fun x => (TList (fst x), Upto a (off + len) :: snd x))
                 (read_all (read k m) (firstn len (skipn off (m_at m a))))
          else None
      end
  end.

Lemma read_shows m : forall fuel v t f, read fuel m v = Some (t, f) -> shows m v t f.
Proof.
  induction fuel as [|k IH]; intros v t f H; [discriminate|]. cbn [read] in H.
  assert (forall vs ts fs, read_all (read k m) vs = Some (ts, fs) -> shows_all m vs ts fs) as Ha.
  { induction vs as [|x vs IHvs]; intros ts fs E; cbn [read_all] in E.
    - injection E as <- <-. constructor.
    - destruct (read k m x) as [[t1 f1]|] eqn:E1; [|discriminate].
      destruct (read_all (read k m) vs) as [[t2 f2]|] eqn:E2; [|discriminate]. injection E as <- <-.
      constructor; [exact (IH _ _ _ E1)|exact (IHvs _ _ eq_refl)]. }
  destruct v as [a| |p|a off len cap|l].
  - injection H as <- <-. constructor.
  - injection H as <- <-. constructor.
  - destruct (read_all (read k m) (m_at m p)) as [[ts fs]|] eqn:E; [|discriminate]. injection H as <- <-.
    constructor. exact (Ha _ _ _ E).
  - destruct (off + len <=? length (m_at m a)) eqn:El; [|discriminate]. apply Nat.leb_le in El.
    destruct (read_all (read k m) (firstn len (skipn off (m_at m a)))) as [[ts fs]|] eqn:E; [|discriminate].
    injection H as <- <-. constructor; [exact El|exact (Ha _ _ _ E)].
  - destruct (read_all (read k m) l) as [[ts fs]|] eqn:E; [|discriminate]. injection H as <- <-.
    constructor. exact (Ha _ _ _ E).
Qed.

(** * Actions as programs, for examples *)

Inductive action :=
| Load (rs : rule_set) | Clone (i : nat) | Edit (i : nat) (c : call) (um : update_meta) (grow : nat -> nat)
| Look (i : nat) | Own (b : body) | Activate (i : nat) (t : Z).

Definition act (a : action) (x : world * state) : option (world * state) :=
  let '(w, s) := x in
  match a with
  | Load rs =>
      match new_set rs (w_mem w) with
      | Some (v, m') => Some (mk_world m' (w_sets w ++ [v]) (w_views w) (w_active w),
                              mk_state (s_sets s ++ [rs]) (s_views s) (s_active s))
      | None => None
      end
  | Clone i =>
      match nth_error (w_sets w) i, nth_error (s_sets s) i with
      | Some v, Some rs =>
          match set_copy v (w_mem w) with
          | Some (v', m') => Some (mk_world m' (w_sets w ++ [v']) (w_views w) (w_active w),
                                   mk_state (s_sets s ++ [rule_set_clone rs]) (s_views s) (s_active s))
          | None => None
          end
      | _, _ => None
      end
  | Edit i c um grow =>
      match nth_error (w_sets w) i, nth_error (s_sets s) i, call_in_memory (w_views w) c,
            call_on_values (map vs_body (s_views s)) c with
      | Some v, Some rs, Some ce, Some e =>
          match edit_set grow v ce um (w_mem w) with
          | Some (_, m') =>
              Some (mk_world m' (w_sets w) (w_views w) (w_active w),
                    mk_state (set_nth i (fst (run_edit rs e um)) (s_sets s)) (give (call_view c) (s_views s))
                      (map (disturb i) (s_active s)))
          | None => None
          end
      | _, _, _, _ => None
      end
  | Look i =>
      match nth_error (w_sets w) i, nth_error (s_sets s) i with
      | Some v, Some rs =>
          match set_views v (w_mem w) with
          | Some ((mv, rv), m') =>
              Some (mk_world m' (w_sets w) (w_views w ++ map view_body (concat mv) ++ map view_body (concat rv)) (w_active w),
                    mk_state (s_sets s) (s_views s ++ map (fun b => mk_vs b false) (all_views rs)) (s_active s))
          | None => None
          end
      | _, _ => None
      end
  | Own b =>
      match new_view_body b (w_mem w) with
      | Some (v, m') => Some (mk_world m' (w_sets w) (w_views w ++ [v]) (w_active w),
                              mk_state (s_sets s) (s_views s ++ [mk_vs b false]) (s_active s))
      | None => None
      end
  | Activate i t =>
      match nth_error (w_sets w) i, nth_error (s_sets s) i with
      | Some v, Some rs =>
          match set_active v t (w_mem w) with
          | Some ((ms, rr), m') =>
              Some (mk_world m' (w_sets w) (w_views w) (w_active w ++ [(ms, rr)]),
                    mk_state (s_sets s) (s_views s)
                      (s_active s ++ [mk_ac i (existsb (waiting t) (rs_mapping rs) || existsb (waiting t) (rs_rollup rs))
                                        (Some (as_mapping (active_set rs t), as_rollup (active_set rs t)))]))
          | None => None
          end
      | _, _ => None
      end
  end.

Lemma act_acts a w s w' s' : act a (w, s) = Some (w', s') -> acts w s w' s'.
Proof.
  destruct a as [rs|i|i c um grow|i|b|i t]; cbn [act]; intro H.
  - destruct (new_set rs (w_mem w)) as [[v m']|] eqn:E; [|discriminate]. injection H as <- <-. exact (acts_load w s rs v m' E).
  - destruct (nth_error (w_sets w) i) as [v|] eqn:E1; [|discriminate].
    destruct (nth_error (s_sets s) i) as [rs|] eqn:E2; [|discriminate].
    destruct (set_copy v (w_mem w)) as [[v' m']|] eqn:E; [|discriminate]. injection H as <- <-.
    exact (acts_clone w s i v rs v' m' E1 E2 E).
  - destruct (nth_error (w_sets w) i) as [v|] eqn:E1; [|discriminate].
    destruct (nth_error (s_sets s) i) as [rs|] eqn:E2; [|discriminate].
    destruct (call_in_memory (w_views w) c) as [ce|] eqn:E3; [|discriminate].
    destruct (call_on_values (map vs_body (s_views s)) c) as [e|] eqn:E4; [|discriminate].
    destruct (edit_set grow v ce um (w_mem w)) as [[b m']|] eqn:E; [|discriminate]. injection H as <- <-.
    exact (acts_edit w s i v rs c ce e um grow b m' E1 E2 E3 E4 E).
  - destruct (nth_error (w_sets w) i) as [v|] eqn:E1; [|discriminate].
    destruct (nth_error (s_sets s) i) as [rs|] eqn:E2; [|discriminate].
    destruct (set_views v (w_mem w)) as [[[mv rv] m']|] eqn:E; [|discriminate]. injection H as <- <-.
    exact (acts_look w s i v rs mv rv m' E1 E2 E).
  - destruct (new_view_body b (w_mem w)) as [[v m']|] eqn:E; [|discriminate]. injection H as <- <-. exact (acts_own w s b v m' E).
  - destruct (nth_error (w_sets w) i) as [v|] eqn:E1; [|discriminate].
    destruct (nth_error (s_sets s) i) as [rs|] eqn:E2; [|discriminate].
    destruct (set_active v t (w_mem w)) as [[[ms rr] m']|] eqn:E; [|discriminate]. injection H as <- <-.
    exact (acts_activate w s i v rs t ms rr m' E1 E2 E).
Qed.

Fixpoint perform (l : list action) (x : world * state) : option (world * state) :=
  match l with
  | [] => Some x
  | a :: l' => match act a x with Some y => perform l' y | None => None end
  end.

Lemma perform_reached l : forall w s w' s', reached w s -> perform l (w, s) = Some (w', s') -> reached w' s'.
Proof.
  induction l as [|a l IH]; intros w s w' s' Hr H; cbn [perform] in H.
  - injection H as <- <-. exact Hr.
  - destruct (act a (w, s)) as [[w1 s1]|] eqn:E; [|discriminate].
    exact (IH w1 s1 w' s' (reached_more _ _ _ _ Hr (act_acts _ _ _ _ _ E)) H).
Qed.

(** * A value shows at most one rule set *)

Lemma map_inj {A C} (f : A -> C) : (forall x y, f x = f y -> x = y) -> forall l l', map f l = map f l' -> l = l'.
Proof.
  intro Hf. induction l as [|x l IH]; intros [|y l'] H; try discriminate; [reflexivity|].
  cbn [map] in H. injection H as H1 H2. rewrite (Hf _ _ H1), (IH _ H2). reflexivity.
Qed.
Lemma t_bytes_inj a b : t_bytes a = t_bytes b -> a = b.
Proof. intro H. injection H as H. apply (map_inj _ (fun x y (E : TAtom (AByte x) = TAtom (AByte y)) => ltac:(congruence)) _ _ H). Qed.
Lemma t_sps_inj a b : t_sps a = t_sps b -> a = b.
Proof. intro H. injection H as H. apply (map_inj _ (fun x y (E : TAtom (APolicy x) = TAtom (APolicy y)) => ltac:(congruence)) _ _ H). Qed.
Lemma t_op_inj a b : t_op a = t_op b -> a = b.
Proof.
  destruct a as [k1 a1 f1 [n1 g1 i1]], b as [k2 a2 f2 [n2 g2 i2]]. unfold t_op, t_rollup_op.
  cbn [op_kind op_agg op_tf op_rollup ro_name ro_tags ro_agg]. intro H. injection H as <- <- <- Hn Hg <-.
  assert (n1 = n2) as -> by (apply t_bytes_inj; unfold t_bytes; congruence).
  assert (g1 = g2) as -> by (exact (map_inj _ t_bytes_inj _ _ Hg)). reflexivity.
Qed.
Lemma t_target_inj a b : t_target a = t_target b -> a = b.
Proof.
  destruct a as [p1 s1], b as [p2 s2]. unfold t_target. cbn [tg_pipeline tg_sps]. intro H. injection H as H1 H2.
  rewrite (map_inj _ t_op_inj _ _ H1). assert (s1 = s2) as -> by (apply t_sps_inj; unfold t_sps; congruence). reflexivity.
Qed.
Lemma t_mbody_inj a b : t_mbody a = t_mbody b -> a = b.
Proof.
  destruct a as [i1 s1 d1], b as [i2 s2 d2]. unfold t_mbody. cbn [mb_agg mb_sps mb_drop]. intro H. injection H as <- H2 <-.
  assert (s1 = s2) as -> by (apply t_sps_inj; unfold t_sps; congruence). reflexivity.
Qed.
Lemma t_rbody_inj a b : t_rbody a = t_rbody b -> a = b.
Proof. intro H. injection H as H. exact (map_inj _ t_target_inj _ _ H). Qed.

Section Inj.
  Context {P : Type} (tb : P -> tree) (tb_inj : forall a b, tb a = tb b -> a = b).
  Lemma t_snapshot_inj a b : t_snapshot tb a = t_snapshot tb b -> a = b.
  Proof.
    destruct a as [a1 a2 a3 a4 a5 a6 a7 a8], b as [b1 b2 b3 b4 b5 b6 b7 b8]. unfold t_snapshot. cbn [sn_name sn_tomb sn_cutover sn_filter sn_raw sn_body sn_at sn_by].
    intro H. injection H as E1 E2 E3 E4 E5 E6 E7 E8. apply tb_inj in E6. congruence.
  Qed.
  Lemma t_rule_inj a b : t_rule tb a = t_rule tb b -> a = b.
  Proof.
    destruct a as [a1 a2], b as [b1 b2]. unfold t_rule. cbn [ru_uuid ru_snapshots]. intro H. injection H as <- H.
    rewrite (map_inj _ t_snapshot_inj _ _ H). reflexivity.
  Qed.
  Lemma t_rules_inj a b : t_rules tb a = t_rules tb b -> a = b.
  Proof. intro H. injection H as H. exact (map_inj _ t_rule_inj _ _ H). Qed.
End Inj.

Lemma t_set_inj a b : t_set a = t_set b -> a = b.
Proof.
  destruct a as [a1 a2 a3 a4 a5 a6 a7 a8 a9 a10 a11 a12 a13], b as [b1 b2 b3 b4 b5 b6 b7 b8 b9 b10 b11 b12 b13].
  unfold t_set.
  cbn [rs_uuid rs_version rs_namespace rs_created_at rs_updated_at rs_updated_by rs_tomb rs_cutover rs_mapping rs_rollup
       rs_opts rs_new_id rs_is_rollup]. unfold t_bytes, t_rules. intro H.
  injection H as E1 E2 E3 E4 E5 E6 E7 E8 E9 E10 E11 E12 E13.
  assert (a3 = b3) by (apply t_bytes_inj; unfold t_bytes; congruence).
  assert (a9 = b9) by (apply (t_rules_inj t_mbody t_mbody_inj); unfold t_rules; congruence).
  assert (a10 = b10) by (apply (t_rules_inj t_rbody t_rbody_inj); unfold t_rules; congruence).
  congruence.
Qed.
