(** Proofs for C90: calls that use pooled tag iterators do not disturb each other. *)
From Verif.Proof Require Import TagProof EncPoolProof.
From Coq Require Import Ascii String Arith Bool Lia List.
From Verif.Base Require Import Bytes BytesFacts.
From Verif.Model Require Import MetricID Filter Rules TagPool.
From Verif.Spec Require Import TagPoolSpec.
Import ListNotations.

(** ** One iterator *)
Lemma iterate_fuel fuel s : length s <= fuel -> iterate_tags fuel s = sorted_tags s.
Proof.
  intros L. destruct (tag_section_exists s) as (ps & e & T). unfold sorted_tags.
  now rewrite (iterate_tags_ok _ _ _ T fuel L), (iterate_tags_ok _ _ _ T (length s) (le_n _)).
Qed.

Lemma sorted_tags_nil : sorted_tags [] = ([], false).
Proof. reflexivity. Qed.

Lemma sorted_tags_step s : s <> [] ->
  sorted_tags s =
  match index_byte tag_name_splitter s with
  | None => ([], true)
  | Some i =>
      let after := skipn (S i) s in
      match index_byte tag_pair_splitter after with
      | None => ([(firstn i s, after)], false)
      | Some j => let (ps, e) := sorted_tags (skipn (S j) after) in ((firstn i s, firstn j after) :: ps, e)
      end
  end.
Proof.
  intros N. unfold sorted_tags at 1. destruct s as [|c s]; [now destruct N|]. set (t := c :: s). change (length t) with (S (length s)). cbn [iterate_tags].
  destruct t as [|c' t'] eqn:T; [discriminate T|]. injection T as <- <-.
  destruct (index_byte tag_name_splitter (c :: s)) as [i|] eqn:I; [|reflexivity]. cbv zeta.
  destruct (index_byte tag_pair_splitter (skipn (S i) (c :: s))) as [j|] eqn:J; [|reflexivity].
  rewrite iterate_fuel; [reflexivity|]. rewrite !skipn_length. cbn [length]. lia.
Qed.

(** What an iterator has still to give. *)
Definition remaining (t : tag_iter) : list (bytes * bytes) * bool := sorted_tags (skipn (t_idx t) (t_pairs t)).

Lemma skip_skip {A} (l : list A) a b : skipn b (skipn a l) = skipn (a + b) l.
Proof. revert l. induction a as [|a IH]; intros l; [reflexivity|]. destruct l as [|x l]; [now rewrite !skipn_nil|]. apply IH. Qed.

Lemma next_true t t' : titer_next t = (true, t') -> t_err t = false ->
  t_err t' = false /\ t_pairs t' = t_pairs t /\ t_pooled t' = t_pooled t /\ t_idx t < t_idx t' /\ t_idx t < length (t_pairs t) /\
  exists ps e, remaining t = ((t_name t', t_value t') :: ps, e) /\ remaining t' = (ps, e).
Proof.
  unfold titer_next, remaining. intros H E. rewrite E in H. cbn [orb] in H.
  destruct (Nat.leb_spec (length (t_pairs t)) (t_idx t)) as [L|L]; [discriminate H|].
  set (s := skipn (t_idx t) (t_pairs t)) in *.
  assert (Ls : length s = length (t_pairs t) - t_idx t) by (unfold s; apply skipn_length).
  assert (Ns : s <> []) by (intros Z; rewrite Z in Ls; cbn [length] in Ls; lia).
  destruct (index_byte tag_name_splitter s) as [i|] eqn:I; [|discriminate H]. cbv zeta in H.
  assert (Ia : skipn (t_idx t + i + 1) (t_pairs t) = skipn (S i) s) by (unfold s; rewrite skip_skip; f_equal; lia).
  rewrite Ia in H. pose proof (index_byte_some _ _ _ I) as (_ & _ & Li).
  rewrite (sorted_tags_step s Ns), I. cbv zeta.
  destruct (index_byte tag_pair_splitter (skipn (S i) s)) as [j|] eqn:J; injection H as <-; cbn [t_err t_pairs t_pooled t_idx t_name t_value].
  - repeat split; try lia; try exact E.
    replace (t_idx t + i - t_idx t) with i by lia. replace (t_idx t + i + 1 + j - (t_idx t + i + 1)) with j by lia.
    replace (skipn (t_idx t + i + 1 + j + 1) (t_pairs t)) with (skipn (S j) (skipn (S i) s)) by (unfold s; rewrite !skip_skip; f_equal; lia).
    destruct (sorted_tags (skipn (S j) (skipn (S i) s))) as [ps e]. now exists ps, e.
  - repeat split; try lia; try exact E. exists [], false.
    replace (t_idx t + i - t_idx t) with i by lia. rewrite (skipn_all2 (n := length (t_pairs t) + 1)) by lia. split; [|apply sorted_tags_nil].
    assert (F : firstn (length (t_pairs t) - (t_idx t + i + 1)) (skipn (S i) s) = skipn (S i) s) by (apply firstn_all2; rewrite skipn_length; lia).
    exact (f_equal (fun z => ([(firstn i s, z)], false)) (eq_sym F)).
Qed.

Lemma next_false t t' : titer_next t = (false, t') -> t_err t = false ->
  t_pairs t' = t_pairs t /\ t_pooled t' = t_pooled t /\ remaining t = ([], t_err t').
Proof.
  unfold titer_next, remaining. intros H E. rewrite E in H. cbn [orb] in H.
  destruct (Nat.leb_spec (length (t_pairs t)) (t_idx t)) as [L|L].
  { injection H as <-. rewrite skipn_all2 by exact L. rewrite E. repeat split; reflexivity. }
  destruct (index_byte tag_name_splitter (skipn (t_idx t) (t_pairs t))) as [i|] eqn:I; [discriminate H|]. injection H as <-. cbn [t_err t_pairs t_pooled].
  repeat split. rewrite sorted_tags_step, I; [reflexivity|]. intros Z. apply (f_equal (@length _)) in Z. rewrite skipn_length in Z. cbn [length] in Z. lia.
Qed.

(** ** One call *)
Definition rest (l : local) (y : list (bytes * bytes) * bool) : result :=
  match l with
  | LValue n => AValue (find_tag n (fst y))
  | LRollup => AnAnswer (existsb (fun p => beqb (fst p) (fst rollup_tag_pair) && beqb (snd p) (snd rollup_tag_pair)) (fst y))
  | LPasses op fs => AnAnswer (tags_loop op fs (fst y) (snd y))
  | LTarget tags acc => SomePairs (option_map (fun ps => acc ++ ps) (match_tags (fst y) tags))
  | LAll acc => AllPairs (acc ++ fst y) (snd y)
  end.

Lemma alone_rest k tags : alone k tags = rest (start_local k) (sorted_tags tags).
Proof.
  unfold alone. destruct (sorted_tags tags) as [ps e] eqn:E. destruct k; cbn [start_local rest fst snd]; try reflexivity.
  - unfold is_rollup_id. now rewrite E.
  - destruct (match_tags ps tags0); reflexivity.
Qed.

(** What a call is going to return. *)
Definition outcome (d : todo) (t : tag_iter) : result :=
  match d with
  | CallNext l => rest l (remaining t)
  | CallCurrent l => rest l ((t_name t, t_value t) :: fst (remaining t), snd (remaining t))
  | CallErr l => after_err l (t_err t)
  | Finish r => r
  end.
Definition going (d : todo) : bool := match d with CallNext _ | CallCurrent _ => true | _ => false end.

Lemma after_next_true l t t' : titer_next t = (true, t') -> t_err t = false -> outcome (after_next l true) t' = rest l (remaining t).
Proof.
  intros H E. destruct (next_true _ _ H E) as (E' & _ & _ & _ & _ & ps & e & R & R'). rewrite R.
  destruct l as [n| |op fs|tags acc|acc]; cbn [after_next andb]; try (cbn [outcome]; rewrite R'; reflexivity).
  - destruct fs as [|f fs]; cbn [outcome]; [|rewrite R'; reflexivity]. rewrite E'. cbn [after_err rest fst snd orb tags_loop]. now destruct (is_disj op).
  - destruct tags as [|tag tags]; cbn [outcome]; [|rewrite R'; reflexivity].
    cbn [target_result rest match_tags fst option_map]. now rewrite app_nil_r.
Qed.

Lemma after_next_false l t t' : titer_next t = (false, t') -> t_err t = false -> outcome (after_next l false) t' = rest l (remaining t).
Proof.
  intros H E. destruct (next_false _ _ H E) as (_ & _ & R). rewrite R.
  destruct l as [n| |op fs|tags acc|acc]; cbn [after_next andb outcome rest fst snd]; try reflexivity.
  - destruct tags; cbn [target_result match_tags option_map]; [now rewrite app_nil_r|reflexivity].
  - cbn [after_err]. now rewrite app_nil_r.
Qed.

Lemma after_current_ok l t : t_err t = false -> outcome (after_current l (t_name t) (t_value t)) t = outcome (CallCurrent l) t.
Proof.
  intros E. cbn [outcome]. destruct (remaining t) as [ps e] eqn:R. cbn [fst snd].
  destruct l as [n| |op fs|tags acc|acc]; cbn [after_current rest fst snd].
  - cbn [find_tag]. destruct (beqb n (t_name t)); cbn [outcome]; [reflexivity|]. now rewrite R.
  - cbn [existsb fst snd]. destruct (beqb (t_name t) (fst rollup_tag_pair) && beqb (t_value t) (snd rollup_tag_pair)); cbn [outcome orb]; [reflexivity|]. now rewrite R.
  - cbn [tags_loop]. destruct fs as [|[fname g] gs].
    { cbn [outcome after_err]. rewrite E. cbn [orb]. now destruct (is_disj op). }
    assert (C : forall (h : filter) hs,
      outcome (if matches h (t_value t) && is_disj op then Finish (AnAnswer true)
               else if negb (matches h (t_value t)) && is_conj op then Finish (AnAnswer false) else CallNext (LPasses op hs)) t =
      AnAnswer (if matches h (t_value t) && is_disj op then true
                else if negb (matches h (t_value t)) && is_conj op then false else tags_loop op hs ps e)).
    { intros h hs. destruct (matches h (t_value t) && is_disj op); [reflexivity|]. destruct (negb (matches h (t_value t)) && is_conj op); [reflexivity|].
      cbn [outcome]. rewrite R. reflexivity. }
    destruct (bcompare (t_name t) fname); cbv zeta; [apply C|cbn [outcome]; rewrite R; reflexivity|].
    destruct (is_conj op) eqn:K; [reflexivity|]. destruct (skip_below (t_name t) gs) as [|[hname h] hs]; [reflexivity|].
    specialize (C h hs). rewrite ?K in C. destruct (bcompare (t_name t) hname); [exact C|cbn [outcome]; rewrite R; reflexivity|exact C].
  - destruct tags as [|tag tags]; cbn [match_tags option_map target_result outcome]; [now rewrite app_nil_r|].
    destruct (bcompare (t_name t) tag); cbn [outcome rest]; rewrite ?R; cbn [fst snd option_map]; try reflexivity.
    destruct (match_tags ps tags) as [qs|]; cbn [option_map]; [|reflexivity]. now rewrite <- app_assoc.
  - cbn [outcome]. rewrite R. cbn [rest fst snd]. now rewrite <- app_assoc.
Qed.

(** ** Everything *)
Definition holds (x : call) : bool := match c_place x with BeforeGet | HasReturned _ => false | _ => true end.
Lemma uses_holds x a : uses x a <-> holds x = true /\ c_iter x = a.
Proof. unfold uses, holds. destruct (c_place x); intuition congruence. Qed.

Definition call_ok (f : nat -> tag_iter) (x : call) : Prop :=
  match c_place x with
  | BeforeGet | BeforeReset => True
  | Doing d => outcome d (f (c_iter x)) = alone (c_kind x) (c_tags x) /\ t_pairs (f (c_iter x)) = c_tags x /\ (going d = true -> t_err (f (c_iter x)) = false)
  | HasReturned r => r = alone (c_kind x) (c_tags x)
  end.

Record inv (w : world) : Prop := mk_inv {
  v_nodup : NoDup (g_pool w);
  v_pool : forall a, In a (g_pool w) -> a < g_iters w;
  v_uses : forall c x, nth_error (g_calls w) c = Some x -> holds x = true -> c_iter x < g_iters w /\ ~ In (c_iter x) (g_pool w);
  v_one : forall c d x y, nth_error (g_calls w) c = Some x -> nth_error (g_calls w) d = Some y -> holds x = true -> holds y = true -> c_iter x = c_iter y -> c = d;
  v_ok : forall c x, nth_error (g_calls w) c = Some x -> call_ok (g_iter w) x }.

Lemma inv_empty : inv empty_world.
Proof. constructor; cbn; intros; try (now destruct c); try contradiction; try constructor. Qed.

Lemma nth_set l : forall c d x, nth_error (set_call l c x) d = if Nat.eqb d c then match nth_error l d with Some _ => Some x | None => None end else nth_error l d.
Proof.
  induction l as [|y l IH]; intros [|c] [|d] x; cbn [set_call nth_error Nat.eqb]; try reflexivity.
  - now destruct (Nat.eqb d c).
  - apply IH.
Qed.

Lemma call_ok_frame f f' x : (holds x = true -> f' (c_iter x) = f (c_iter x)) -> call_ok f x -> call_ok f' x.
Proof. unfold call_ok, holds. destruct (c_place x); intros H K; try exact K. now rewrite H. Qed.

(** A call moves on and changes no iterator of the others. *)
Lemma move_inv w c x a p f n pool :
  inv w -> nth_error (g_calls w) c = Some x ->
  (forall d y, d <> c -> nth_error (g_calls w) d = Some y -> holds y = true -> f (c_iter y) = g_iter w (c_iter y) /\ ~ In (c_iter y) pool) ->
  g_iters w <= n -> NoDup pool -> (forall b, In b pool -> b < n) ->
  let x' := mk_call (c_kind x) (c_tags x) (c_pooled x) a p in
  (holds x' = true -> a < n /\ ~ In a pool /\ forall d y, d <> c -> nth_error (g_calls w) d = Some y -> holds y = true -> c_iter y <> a) ->
  call_ok f x' -> inv (move w c x a p f n pool).
Proof.
  intros V E O Ln N P x' H K.
  assert (G : forall d y, nth_error (g_calls (move w c x a p f n pool)) d = Some y -> (d = c /\ y = x') \/ (d <> c /\ nth_error (g_calls w) d = Some y)).
  { intros d y Z. unfold move in Z. cbn [g_calls] in Z. rewrite nth_set in Z. destruct (Nat.eqb_spec d c) as [->|D]; [|now right].
    rewrite E in Z. injection Z as <-. now left. }
  constructor; cbn [move g_pool g_iters g_iter]; [exact N|exact P| | |].
  - intros d y Z U. destruct (G d y Z) as [(-> & ->)|(D & Y)]; [now destruct (H U) as (? & ? & _)|].
    destruct (v_uses w V d y Y U) as (L & _). split; [lia|]. exact (proj2 (O d y D Y U)).
  - intros d e y z Z1 Z2 U1 U2 Q. destruct (G d y Z1) as [(-> & ->)|(D & Y)]; destruct (G e z Z2) as [(-> & ->)|(D' & Y')]; [reflexivity| | |].
    + destruct (proj2 (proj2 (H U1)) e z D' Y' U2). now symmetry.
    + now destruct (proj2 (proj2 (H U2)) d y D Y U1).
    + exact (v_one w V d e y z Y Y' U1 U2 Q).
  - intros d y Z. destruct (G d y Z) as [(-> & ->)|(D & Y)]; [exact K|].
    apply (call_ok_frame (g_iter w)); [|exact (v_ok w V d y Y)]. intros U. exact (proj1 (O d y D Y U)).
Qed.

Lemma put_other f a t b : b <> a -> put_titer f a t b = f b.
Proof. intros N. unfold put_titer. now destruct (Nat.eqb_spec b a). Qed.
Lemma put_same f a t : put_titer f a t a = t.
Proof. unfold put_titer. now rewrite Nat.eqb_refl. Qed.

Lemma give_back_in w a keep b : In b (give_back w a keep) -> In b (g_pool w) \/ b = a.
Proof. unfold give_back. destruct (t_pooled (g_iter w a) && keep); [|now left]. intros H. apply in_app_or in H as [H|[H|[]]]; [now left|right; now symmetry]. Qed.

Lemma step_inv w e : inv w -> (forall c keep, e <> CloseAgain c keep) -> inv (step w e).
Proof.
  intros V N. destruct e as [k tags pooled|c i keep|c keep]; [| |now destruct (N c keep)].
  - assert (G : forall d y, nth_error (g_calls w ++ [mk_call k tags pooled 0 BeforeGet]) d = Some y ->
      nth_error (g_calls w) d = Some y \/ (holds y = false /\ c_place y = BeforeGet)).
    { intros d y Z. destruct (Nat.lt_ge_cases d (length (g_calls w))) as [L|L]; [left; now rewrite nth_error_app1 in Z|right].
      rewrite nth_error_app2 in Z by exact L. destruct (d - length (g_calls w)) as [|[|m]]; [injection Z as <-; now split|discriminate Z|discriminate Z]. }
    constructor; cbn [step g_pool g_iters g_calls g_iter].
    + exact (v_nodup w V).
    + exact (v_pool w V).
    + intros d y Z U. destruct (G d y Z) as [Y|(Y & _)]; [exact (v_uses w V d y Y U)|congruence].
    + intros d e y z Z1 Z2 U1 U2 Q. destruct (G d y Z1) as [Y|(Y & _)]; [|congruence]. destruct (G e z Z2) as [Y'|(Y' & _)]; [|congruence].
      exact (v_one w V d e y z Y Y' U1 U2 Q).
    + intros d y Z. destruct (G d y Z) as [Y|(_ & Y)]; [exact (v_ok w V d y Y)|]. unfold call_ok. now rewrite Y.
  - cbn [step]. destruct (nth_error (g_calls w) c) as [x|] eqn:E; [|exact V]. cbv zeta. pose proof (v_ok w V c x E) as K.
    assert (Own : holds x = true -> c_iter x < g_iters w /\ ~ In (c_iter x) (g_pool w) /\
      forall d y, d <> c -> nth_error (g_calls w) d = Some y -> holds y = true -> c_iter y <> c_iter x).
    { intros U. destruct (v_uses w V c x E U) as (L & I). split; [exact L|]. split; [exact I|]. intros d y D Y U' Q. apply D. exact (v_one w V d c y x Y E U' U Q). }
    assert (Oth : forall t d y, holds x = true -> d <> c -> nth_error (g_calls w) d = Some y -> holds y = true ->
      put_titer (g_iter w) (c_iter x) t (c_iter y) = g_iter w (c_iter y) /\ ~ In (c_iter y) (g_pool w)).
    { intros t d y U D Y U'. split; [apply put_other; now apply (proj2 (proj2 (Own U)) d y)|]. exact (proj2 (v_uses w V d y Y U')). }
    assert (Oth0 : forall d y, d <> c -> nth_error (g_calls w) d = Some y -> holds y = true ->
      g_iter w (c_iter y) = g_iter w (c_iter y) /\ ~ In (c_iter y) (g_pool w)).
    { intros d y D Y U'. split; [reflexivity|]. exact (proj2 (v_uses w V d y Y U')). }
    unfold call_ok in K. destruct (c_place x) as [| |[l|l|l|r]|r] eqn:P.
    + destruct (if c_pooled x then nth_error (g_pool w) i else None) as [b|] eqn:B.
      * destruct (c_pooled x); [|discriminate B]. destruct (drop_nth_nodup i (g_pool w) b B (v_nodup w V)) as (N1 & N2). unfold Verif.Model.EncPool.drop_nth in N1, N2.
        assert (Ib : In b (g_pool w)) by now apply nth_error_In in B.
        assert (Sub : forall z, In z (firstn i (g_pool w) ++ skipn (S i) (g_pool w)) -> In z (g_pool w)) by (intros z; apply (in_drop_nth i (g_pool w))).
        apply (move_inv w c x); try assumption; try lia.
        -- intros d y D Y U. split; [reflexivity|]. intros Z. exact (proj2 (v_uses w V d y Y U) (Sub _ Z)).
        -- intros z Z. apply (v_pool w V). now apply Sub.
        -- intros _. split; [now apply (v_pool w V)|]. split; [exact N2|]. intros d y D Y U Q. apply (proj2 (v_uses w V d y Y U)). now rewrite Q.
      * apply (move_inv w c x); try assumption; try lia.
        -- intros d y D Y U. destruct (v_uses w V d y Y U) as (L & Z). split; [apply put_other; lia|exact Z].
        -- exact (v_nodup w V).
        -- intros z Z. apply (v_pool w V) in Z. lia.
        -- intros _. split; [lia|]. split; [intros Z; apply (v_pool w V) in Z; lia|]. intros d y D Y U Q. destruct (v_uses w V d y Y U) as (L & _). lia.
    + assert (U : holds x = true) by (unfold holds; now rewrite P). apply (move_inv w c x); try assumption; try lia.
      * intros d y D Y U'. exact (Oth _ d y U D Y U').
      * exact (v_nodup w V).
      * exact (v_pool w V).
      * intros _. exact (Own U).
      * unfold call_ok. cbn [c_place c_iter c_kind c_tags]. rewrite put_same. split; [|now split]. cbn [outcome]. now rewrite alone_rest.
    + assert (U : holds x = true) by (unfold holds; now rewrite P). destruct K as (K1 & K2 & K3). specialize (K3 eq_refl). cbn [outcome] in K1.
      destruct (titer_next (g_iter w (c_iter x))) as [more t'] eqn:T. apply (move_inv w c x); try assumption; try lia.
      * intros d y D Y U'. exact (Oth _ d y U D Y U').
      * exact (v_nodup w V).
      * exact (v_pool w V).
      * intros _. exact (Own U).
      * unfold call_ok. cbn [c_place c_iter c_kind c_tags]. rewrite put_same. destruct more.
        -- destruct (next_true _ _ T K3) as (E' & Q & _). rewrite (after_next_true l _ _ T K3). split; [exact K1|]. split; [congruence|]. now intros _.
        -- destruct (next_false _ _ T K3) as (Q & _). rewrite (after_next_false l _ _ T K3). split; [exact K1|]. split; [congruence|].
           destruct l; cbn [after_next andb going]; discriminate.
    + assert (U : holds x = true) by (unfold holds; now rewrite P). destruct K as (K1 & K2 & K3). specialize (K3 eq_refl). apply (move_inv w c x); try assumption; try lia.
      * exact (v_nodup w V).
      * exact (v_pool w V).
      * intros _. exact (Own U).
      * unfold call_ok. cbn [c_place c_iter c_kind c_tags]. rewrite (after_current_ok l _ K3). split; [exact K1|]. split; [exact K2|]. now intros _.
    + assert (U : holds x = true) by (unfold holds; now rewrite P). destruct K as (K1 & K2 & _). apply (move_inv w c x); try assumption; try lia.
      * exact (v_nodup w V).
      * exact (v_pool w V).
      * intros _. exact (Own U).
      * unfold call_ok. cbn [c_place c_iter c_kind c_tags outcome going]. split; [exact K1|]. split; [exact K2|discriminate].
    + assert (U : holds x = true) by (unfold holds; now rewrite P). destruct K as (K1 & _). destruct (Own U) as (L & I & O). apply (move_inv w c x); try assumption; try lia.
      * intros d y D Y U'. destruct (Oth (titer_cleared (g_iter w (c_iter x))) d y U D Y U') as (Z1 & Z2). split; [exact Z1|].
        intros Z. apply give_back_in in Z as [Z|Z]; [now apply Z2|]. exact (O d y D Y U' Z).
      * unfold give_back. destruct (t_pooled (g_iter w (c_iter x)) && keep); [|exact (v_nodup w V)].
        rewrite <- (rev_involutive (g_pool w ++ [c_iter x])). apply NoDup_rev. rewrite rev_unit. constructor; [now rewrite <- in_rev|].
        apply NoDup_rev. exact (v_nodup w V).
      * intros b Z. apply give_back_in in Z as [Z| ->]; [now apply (v_pool w V)|exact L].
      * discriminate.
    + exact V.
Qed.

Lemma run_inv l : forall w, inv w -> no_second_close l -> inv (run w l).
Proof.
  induction l as [|e l IH]; intros w V N; [exact V|]. cbn [run]. apply IH; [|intros c keep Z; apply (N c keep); now right].
  apply step_inv; [exact V|]. intros c keep ->. apply (N c keep). now left.
Qed.

(** ** Calls return *)
Definition left (x : call) (t : tag_iter) : nat :=
  match c_place x with
  | BeforeGet => 2 * length (c_tags x) + 6
  | BeforeReset => 2 * length (c_tags x) + 5
  | Doing (CallNext _) => 2 * (length (c_tags x) - t_idx t) + 4
  | Doing (CallCurrent _) => 2 * (length (c_tags x) - t_idx t) + 5
  | Doing (CallErr _) => 2
  | Doing (Finish _) => 1
  | HasReturned _ => 0
  end.

Lemma left_frame x t t' : (holds x = true -> t' = t) -> left x t' = left x t.
Proof. unfold left, holds. destruct (c_place x) as [| |[l|l|l|r]|r]; intros H; try reflexivity; now rewrite H. Qed.

Lemma step_other w e c x : inv w -> nth_error (g_calls w) c = Some x -> (forall d keep, e <> CloseAgain d keep) -> (forall i keep, e <> Go c i keep) ->
  nth_error (g_calls (step w e)) c = Some x /\ (holds x = true -> g_iter (step w e) (c_iter x) = g_iter w (c_iter x)).
Proof.
  intros V E N M. destruct e as [k tags pooled|d i keep|d keep]; [| |now destruct (N d keep)].
  - cbn [step g_calls g_iter]. split; [|reflexivity]. rewrite nth_error_app1; [exact E|]. apply nth_error_Some. congruence.
  - assert (D : c <> d) by (intros ->; now apply (M i keep)). cbn [step]. destruct (nth_error (g_calls w) d) as [y|] eqn:Y; [|now split]. cbv zeta.
    assert (S : forall a p f n pool, nth_error (g_calls (move w d y a p f n pool)) c = Some x).
    { intros a p f n pool. unfold move. cbn [g_calls]. rewrite nth_set. now rewrite (proj2 (Nat.eqb_neq c d) D). }
    assert (O : holds y = true -> holds x = true -> c_iter x <> c_iter y).
    { intros U U' Q. apply D. exact (v_one w V c d x y E Y U' U Q). }
    destruct (c_place y) as [| |[l|l|l|r]|r] eqn:P.
    + destruct (if c_pooled y then nth_error (g_pool w) i else None) as [b|]; (split; [apply S|]); cbn [move g_iter]; intros U; [reflexivity|].
      apply put_other. destruct (v_uses w V c x E U). lia.
    + split; [apply S|]. intros U. cbn [move g_iter]. apply put_other. apply O; [unfold holds; now rewrite P|exact U].
    + destruct (titer_next (g_iter w (c_iter y))) as [more t']. split; [apply S|]. intros U. cbn [move g_iter]. apply put_other. apply O; [unfold holds; now rewrite P|exact U].
    + split; [apply S|reflexivity].
    + split; [apply S|reflexivity].
    + split; [apply S|]. intros U. cbn [move g_iter]. apply put_other. apply O; [unfold holds; now rewrite P|exact U].
    + now split.
Qed.

Lemma step_turn w c x i keep : inv w -> nth_error (g_calls w) c = Some x ->
  exists x', nth_error (g_calls (step w (Go c i keep))) c = Some x' /\ c_kind x' = c_kind x /\ c_tags x' = c_tags x /\
    left x' (g_iter (step w (Go c i keep)) (c_iter x')) <= left x (g_iter w (c_iter x)) - 1.
Proof.
  intros V E. cbn [step]. rewrite E. cbv zeta. pose proof (v_ok w V c x E) as K. unfold call_ok in K.
  assert (S : forall a p f n pool, nth_error (g_calls (move w c x a p f n pool)) c = Some (mk_call (c_kind x) (c_tags x) (c_pooled x) a p)).
  { intros a p f n pool. unfold move. cbn [g_calls]. now rewrite nth_set, Nat.eqb_refl, E. }
  destruct (c_place x) as [| |[l|l|l|r]|r] eqn:P.
  - destruct (if c_pooled x then nth_error (g_pool w) i else None) as [b|]; eexists; (split; [apply S|]); repeat split; unfold left; cbn [c_place c_tags]; rewrite P; lia.
  - eexists. split; [apply S|]. repeat split. unfold left. cbn [c_place c_tags c_iter move g_iter]. rewrite P, put_same. cbn [titer_reset t_idx]. lia.
  - destruct K as (_ & K2 & K3). specialize (K3 eq_refl). destruct (titer_next (g_iter w (c_iter x))) as [more t'] eqn:T. eexists. split; [apply S|]. repeat split.
    unfold left. cbn [c_place c_tags c_iter move g_iter]. rewrite P, put_same. destruct more.
    + destruct (next_true _ _ T K3) as (_ & Q & _ & L1 & L2 & _). rewrite K2 in L2.
      destruct l as [n| |op [|f fs]|[|tag tags] acc|acc]; cbn [after_next andb]; lia.
    + destruct l as [n| |op [|f fs]|[|tag tags] acc|acc]; cbn [after_next andb]; lia.
  - eexists. split; [apply S|]. repeat split. unfold left. cbn [c_place c_tags c_iter move g_iter]. rewrite P.
    set (t := g_iter w (c_iter x)). destruct (after_current l (t_name t) (t_value t)) as [l'|l'|l'|r'] eqn:A; try lia. exfalso.
    destruct l as [n| |op fs|tags acc|acc]; cbn [after_current] in A.
    + destruct (beqb n (t_name t)); discriminate A.
    + destruct (beqb (t_name t) (fst rollup_tag_pair) && beqb (t_value t) (snd rollup_tag_pair)); discriminate A.
    + destruct fs as [|[fname g] gs]; [discriminate A|]. cbv zeta in A. destruct (bcompare (t_name t) fname).
      * destruct (matches g (t_value t) && is_disj op); [discriminate A|]. destruct (negb (matches g (t_value t)) && is_conj op); discriminate A.
      * discriminate A.
      * destruct (is_conj op); [discriminate A|]. destruct (skip_below (t_name t) gs) as [|[hname h] hs]; [discriminate A|].
        destruct (bcompare (t_name t) hname); [|discriminate A|].
        -- destruct (matches h (t_value t) && is_disj op); [discriminate A|]. destruct (negb (matches h (t_value t)) && _); discriminate A.
        -- destruct (matches h (t_value t) && is_disj op); [discriminate A|]. destruct (negb (matches h (t_value t)) && _); discriminate A.
    + destruct tags as [|tag tags]; [discriminate A|]. destruct (bcompare (t_name t) tag); discriminate A.
    + discriminate A.
  - eexists. split; [apply S|]. repeat split. unfold left. cbn [c_place]. rewrite P. lia.
  - eexists. split; [apply S|]. repeat split. unfold left. cbn [c_place]. rewrite P. lia.
  - exists x. split; [exact E|]. repeat split. unfold left. rewrite P. lia.
Qed.

Lemma run_turns l : forall w c x, inv w -> no_second_close l -> nth_error (g_calls w) c = Some x ->
  exists x', nth_error (g_calls (run w l)) c = Some x' /\ c_kind x' = c_kind x /\ c_tags x' = c_tags x /\
    left x' (g_iter (run w l) (c_iter x')) <= left x (g_iter w (c_iter x)) - turns c l.
Proof.
  induction l as [|e l IH]; intros w c x V N E.
  { exists x. cbn [run]. repeat split; [exact E|]. change (turns c []) with 0. lia. }
  assert (Ne : forall d keep, e <> CloseAgain d keep) by (intros d keep ->; apply (N d keep); now left).
  assert (Nl : no_second_close l) by (intros d keep Z; apply (N d keep); now right).
  pose proof (step_inv w e V Ne) as V'. cbn [run].
  assert (Other : (forall i keep, e <> Go c i keep) -> turns c (e :: l) = turns c l ->
    exists x', nth_error (g_calls (run (step w e) l)) c = Some x' /\ c_kind x' = c_kind x /\ c_tags x' = c_tags x /\
      left x' (g_iter (run (step w e) l) (c_iter x')) <= left x (g_iter w (c_iter x)) - turns c (e :: l)).
  { intros M T. destruct (step_other w e c x V E Ne M) as (E' & F). destruct (IH _ c x V' Nl E') as (x' & H1 & H2 & H3 & H4).
    exists x'. repeat split; try assumption. rewrite T, <- (left_frame x (g_iter w (c_iter x)) _ F). exact H4. }
  destruct e as [k tags pooled|d i keep|d keep]; [apply Other; [discriminate|reflexivity]| |now destruct (Ne d keep)].
  destruct (Nat.eqb_spec d c) as [->|D].
  - destruct (step_turn w c x i keep V E) as (x1 & E1 & A1 & A2 & A3). destruct (IH _ c x1 V' Nl E1) as (x' & H1 & H2 & H3 & H4).
    exists x'. split; [exact H1|]. split; [congruence|]. split; [congruence|].
    assert (T : turns c (Go c i keep :: l) = S (turns c l)) by (unfold turns; cbn [List.filter]; rewrite Nat.eqb_refl; reflexivity). lia.
  - apply Other; [intros i' keep' Z; injection Z as Z _ _; congruence|]. unfold turns. cbn [List.filter]. now rewrite (proj2 (Nat.eqb_neq d c) D).
Qed.

Lemma left_zero x t : left x t = 0 -> exists r, c_place x = HasReturned r.
Proof. unfold left. destruct (c_place x) as [| |[l|l|l|r]|r]; intros H; try lia. now exists r. Qed.

Lemma left_start x t : left x t <= 2 * length (c_tags x) + 6.
Proof. unfold left. destruct (c_place x) as [| |[l|l|l|r]|r]; lia. Qed.
