(** Rule sets in memory: what a program that holds rule sets, views and active sets sees.  Each theorem is
    stated with the vocabulary of [Spec/RuleMemSpec.v]. *)
From Coq Require Import Ascii String Arith NArith ZArith Bool Lia Permutation Sorting.Sorted List.
From Verif.Proof Require Import MemProof RuleMemViews RuleMemFresh RuleMemWorld RuleMemRead.
From Verif.Base Require Import Bytes Mem.
From Verif.Model Require Import AggType Policy Transformation Pipeline Metadata Filter MetricID Rules RuleSet
  RuleMem.
From Verif.Spec Require Import RuleMemSpec.
From Verif.Props Require Import RulesProps EditProps.
Import ListNotations.
Open Scope nat_scope.

(** ** C77: rule sets, views and active sets do not disturb each other *)

(** Whatever was loaded, cloned, edited, looked at, written to and activated, in any order: every rule set
    is what its own edits made of it. *)
Theorem C77_sets w s i v rs : reached w s ->
  nth_error (w_sets w) i = Some v -> nth_error (s_sets s) i = Some rs -> exists f, shows (w_mem w) v (t_set rs) f.
Proof.
  intros H H1 H2. destruct (reached_ok w s H) as (n & SS & FF & GG & HH & I).
  exact (RuleMemSets.set_shows _ _ _ _ _ (proj1 (i_set _ _ _ _ _ _ _ _ _ _ _ _ I i v rs (conj H1 H2)))).
Qed.
Print Assumptions C77_sets.

(** Every view is what it was when it was handed out, or what its holder last wrote into it. *)
Theorem C77_views w s j v b : reached w s ->
  nth_error (w_views w) j = Some v -> nth_error (s_views s) j = Some b ->
  exists f, shows (w_mem w) v (t_body (vs_body b)) f.
Proof.
  intros H H1 H2. destruct (reached_ok w s H) as (n & SS & FF & GG & HH & I).
  exists (GG j). exact (proj1 (i_view _ _ _ _ _ _ _ _ _ _ _ _ I j v b (conj H1 H2))).
Qed.
Print Assumptions C77_views.

(** Every active set has the rules it had when it was taken; unless it was taken when a rule was not in
    effect yet and its rule set was edited since. *)
Theorem C77_active w s k a c mr rl : reached w s ->
  nth_error (w_active w) k = Some a -> nth_error (s_active s) k = Some c -> ac_rules c = Some (mr, rl) ->
  (exists f, shows (w_mem w) (fst a) (t_rules t_mbody mr) f) /\
  (exists f, shows (w_mem w) (snd a) (t_rules t_rbody rl) f).
Proof.
  intros H H1 H2 E. destruct (reached_ok w s H) as (n & SS & FF & GG & HH & I).
  destruct (i_act _ _ _ _ _ _ _ _ _ _ _ _ I k a c (conj H1 H2)) as (_ & K). destruct (K mr rl E) as [(f & g & _ & Hf & Hg) _].
  split; [exists f; exact Hf|exists g; exact Hg].
Qed.
Print Assumptions C77_active.

(** The two accounts speak of the same things. *)
Theorem C77_same_things w s : reached w s ->
  length (w_sets w) = length (s_sets s) /\ length (w_views w) = length (s_views s) /\
  length (w_active w) = length (s_active s).
Proof.
  intros H. destruct (reached_ok w s H) as (n & SS & FF & GG & HH & I). exact (i_len _ _ _ _ _ _ _ _ _ _ _ _ I).
Qed.
Print Assumptions C77_same_things.

(** A value shows one rule set at most, so the above leaves nothing open. *)
Theorem C77_shows_one m v rs rs' f f' : shows m v (t_set rs) f -> shows m v (t_set rs') f' -> rs = rs'.
Proof. intros H H'. exact (t_set_inj _ _ (proj1 (shows_det _ _ _ _ _ _ H H'))). Qed.
Print Assumptions C77_shows_one.

(** No call panics, and an edit succeeds exactly if the edit of the plain value does. *)
Theorem C77_edit_result w s i v rs c ce e um grow : reached w s ->
  nth_error (w_sets w) i = Some v -> nth_error (s_sets s) i = Some rs ->
  call_in_memory (w_views w) c = Some ce -> call_on_values (map vs_body (s_views s)) c = Some e ->
  exists m', edit_set grow v ce um (w_mem w) = Some (snd (run_edit rs e um), m').
Proof.
  intros H H1 H2 Hc He. destruct (reached_ok w s H) as (n & SS & FF & GG & HH & I).
  destruct (edit_goes _ _ _ _ _ _ _ _ _ _ _ _ i v rs c ce e um grow I (conj H1 H2) Hc He) as (m' & G & S' & F' & E & _).
  exists m'. exact E.
Qed.
Print Assumptions C77_edit_result.

Theorem C77_no_panic w s i v rs t b rs' : reached w s ->
  nth_error (w_sets w) i = Some v -> nth_error (s_sets s) i = Some rs ->
  (exists x, set_copy v (w_mem w) = Some x) /\ (exists x, set_views v (w_mem w) = Some x) /\
  (exists x, set_active v t (w_mem w) = Some x) /\ (exists x, new_view_body b (w_mem w) = Some x) /\
  (exists x, new_set rs' (w_mem w) = Some x).
Proof.
  intros H H1 H2. destruct (reached_ok w s H) as (n & SS & FF & GG & HH & I).
  destruct (i_set _ _ _ _ _ _ _ _ _ _ _ _ I i v rs (conj H1 H2)) as [A W].
  destruct (set_copy_made _ _ _ _ _ A W) as (x1 & y1 & E1 & _).
  destruct (set_views_chained _ _ _ _ _ A W) as (x2 & y2 & E2 & _).
  destruct (set_active_seen _ _ _ _ _ t A W) as (x3 & y3 & E3 & _).
  destruct (new_view_body_shown b (w_mem w)) as (x4 & y4 & E4 & _).
  destruct (new_set_made rs' (w_mem w)) as (x5 & y5 & E5 & _). repeat split; eexists; eassumption.
Qed.
Print Assumptions C77_no_panic.

(** For instance: a clone and its original can be edited independently. *)
Theorem C77_clone w s i v rs v' m1 c ce e um grow : reached w s ->
  nth_error (w_sets w) i = Some v -> nth_error (s_sets s) i = Some rs ->
  set_copy v (w_mem w) = Some (v', m1) ->
  call_in_memory (w_views w) c = Some ce -> call_on_values (map vs_body (s_views s)) c = Some e ->
  (exists m2 f f', edit_set grow v' ce um m1 = Some (snd (run_edit (rule_set_clone rs) e um), m2) /\
     shows m2 v (t_set rs) f /\ shows m2 v' (t_set (fst (run_edit (rule_set_clone rs) e um))) f') /\
  (exists m2 f f', edit_set grow v ce um m1 = Some (snd (run_edit rs e um), m2) /\
     shows m2 v (t_set (fst (run_edit rs e um))) f /\ shows m2 v' (t_set (rule_set_clone rs)) f').
Proof.
  intros H H1 H2 Ecl Hc He.
  pose proof (reached_more _ _ _ _ H (acts_clone w s i v rs v' m1 H1 H2 Ecl)) as Hr.
  match type of Hr with reached ?x ?y => set (w1 := x) in *; set (s1 := y) in * end.
  destruct (C77_same_things w s H) as [Hlen _].
  assert (i < length (w_sets w)) as Hi by (apply nth_error_Some; congruence).
  assert (nth_error (w_sets w ++ [v']) i = Some v) as L1 by (rewrite nth_error_app1 by exact Hi; exact H1).
  assert (nth_error (s_sets s ++ [rule_set_clone rs]) i = Some rs) as L2 by (rewrite nth_error_app1 by lia; exact H2).
  assert (nth_error (w_sets w ++ [v']) (length (w_sets w)) = Some v') as L3
    by (rewrite nth_error_app2 by lia; rewrite Nat.sub_diag; reflexivity).
  assert (nth_error (s_sets s ++ [rule_set_clone rs]) (length (w_sets w)) = Some (rule_set_clone rs)) as L4
    by (rewrite Hlen, nth_error_app2 by lia; rewrite Nat.sub_diag; reflexivity).
  split.
  - destruct (C77_edit_result w1 s1 _ _ _ c ce e um grow Hr L3 L4 Hc He) as (m2 & E).
    pose proof (reached_more _ _ _ _ Hr (acts_edit w1 s1 _ _ _ c ce e um grow _ m2 L3 L4 Hc He E)) as Hr2.
    destruct (C77_sets _ _ i v rs Hr2 L1) as (f & Hf).
    { cbn [s_sets]. rewrite nth_set_nth. rewrite (proj2 (Nat.eqb_neq _ _)) by lia. exact L2. }
    destruct (C77_sets _ _ (length (w_sets w)) v' (fst (run_edit (rule_set_clone rs) e um)) Hr2 L3) as (f' & Hf').
    { cbn [s_sets s1]. rewrite nth_set_nth, Nat.eqb_refl, L4. reflexivity. }
    exists m2, f, f'. auto.
  - destruct (C77_edit_result w1 s1 _ _ _ c ce e um grow Hr L1 L2 Hc He) as (m2 & E).
    pose proof (reached_more _ _ _ _ Hr (acts_edit w1 s1 _ _ _ c ce e um grow _ m2 L1 L2 Hc He E)) as Hr2.
    destruct (C77_sets _ _ i v (fst (run_edit rs e um)) Hr2 L1) as (f & Hf).
    { cbn [s_sets s1]. rewrite nth_set_nth, Nat.eqb_refl, L2. reflexivity. }
    destruct (C77_sets _ _ (length (w_sets w)) v' (rule_set_clone rs) Hr2 L3) as (f' & Hf').
    { cbn [s_sets]. rewrite nth_set_nth. rewrite (proj2 (Nat.eqb_neq _ _)) by lia. exact L4. }
    exists m2, f, f'. auto.
Qed.
Print Assumptions C77_clone.

(** A program: load, add rules from two views, clone, edit both, look, take active sets, edit again. *)
Definition view_edit (id name : string) (view : nat) : rule_edit nat := mk_re (B id) (B name) (B "env:prod") view.
Definition program : list action :=
  [Load empty_set; Own (OfMapping (mk_mb 0%N [sp 1 1] 0%Z)); Own (OfRollup [mk_target [roll "new" [B "dc"] 0%N] [sp 2 1]]);
   Edit 0 (CAddMapping (B "u1") (view_edit "" "a" 0)) (at_time 1) (fun n => n);
   Clone 0;
   Edit 0 (CAddRollup (B "u2") (view_edit "" "b" 1)) (at_time 2) (fun n => n);
   Edit 1 (CDeleteMapping (B "u1")) (at_time 3) (fun n => n);
   Look 0; Activate 0 100%Z;
   Edit 0 (CUpdateMapping (view_edit "u1" "c" 0)) (at_time 4) (fun n => n);
   Edit 0 (CDeleteRollup (B "u2")) (at_time 5) (fun n => n)].
Definition after_program : world * state :=
  match perform program (empty_world, empty_state) with Some x => x | None => (empty_world, empty_state) end.

Lemma after_program_reached : reached (fst after_program) (snd after_program).
Proof.
  unfold after_program.
  assert (match perform program (empty_world, empty_state) with Some _ => true | None => false end = true) as E by (vm_compute; reflexivity).
  destruct (perform program (empty_world, empty_state)) as [[w s]|] eqn:Ep; [|discriminate].
  exact (perform_reached program _ _ _ _ reached_start Ep).
Qed.

Example C77_nonvacuous :
  reached (fst after_program) (snd after_program) /\
  (exists rs1 rs2, s_sets (snd after_program) = [rs1; rs2] /\ length (rs_mapping rs1) = 1 /\ length (rs_rollup rs1) = 1 /\
     map (fun r => length (ru_snapshots r)) (rs_mapping rs1) = [2] /\ map (fun r => length (ru_snapshots r)) (rs_rollup rs1) = [2] /\
     length (rs_mapping rs2) = 1 /\ rs_rollup rs2 = []) /\
  map vs_given (s_views (snd after_program)) = [true; true; false; false] /\
  (exists c mr rl, s_active (snd after_program) = [c] /\ ac_waiting c = false /\ ac_rules c = Some (mr, rl) /\
     map (fun r => length (ru_snapshots r)) mr = [1] /\ map (fun r => length (ru_snapshots r)) rl = [1]).
Proof.
  split; [exact after_program_reached|]. split; [|split].
  - eexists _, _. split; [vm_compute; reflexivity|]. repeat split; vm_compute; reflexivity.
  - vm_compute. reflexivity.
  - eexists _, _, _. split; [vm_compute; reflexivity|]. repeat split; vm_compute; reflexivity.
Qed.

(** The two ways in which memory is shared after all.

    A view that was given to a rule set is part of it: the caller must not write to it any more.  Here the
    caller replaces the storage policy in the view it has passed to AddMappingRule, and the rule set has
    the new policy (rules/ruleset.go 344-376, rules/mapping.go 340-364: the slice is stored as it is). *)
Definition given : world * state :=
  match perform (firstn 4 program) (empty_world, empty_state) with Some x => x | None => (empty_world, empty_state) end.
Lemma given_reached : reached (fst given) (snd given).
Proof.
  unfold given.
  assert (match perform (firstn 4 program) (empty_world, empty_state) with Some _ => true | None => false end = true) as E by (vm_compute; reflexivity).
  destruct (perform (firstn 4 program) (empty_world, empty_state)) as [[w s]|] eqn:Ep; [|discriminate].
  exact (perform_reached (firstn 4 program) _ _ _ _ reached_start Ep).
Qed.

Definition array_of (v : val) : nat := match v with VStruct [_; VSlice a _ _ _; _] => a | _ => 0 end.

Example C77_given_view_is_shared : exists w s set view rs m' rs' f f' g',
  reached w s /\ nth_error (w_sets w) 0 = Some set /\ nth_error (s_sets s) 0 = Some rs /\
  nth_error (w_views w) 0 = Some view /\ nth_error (s_views s) 0 = Some (mk_vs (OfMapping (mk_mb 0%N [sp 1 1] 0%Z)) true) /\
  shows (w_mem w) view (t_mbody (mk_mb 0%N [sp 1 1] 0%Z)) f /\
  (forall p, ~ In p (map addr f) -> m_at m' p = m_at (w_mem w) p) /\
  shows m' view (t_mbody (mk_mb 0%N [sp 9 9] 0%Z)) f' /\
  shows m' set (t_set rs') g' /\ rs' <> rs /\
  map (fun r => map (fun s => mb_sps (sn_body s)) (ru_snapshots r)) (rs_mapping rs') = [[[sp 9 9]]].
Proof.
  pose (w := fst given). pose (s := snd given).
  pose (set := nth 0 (w_sets w) VNil). pose (view := nth 0 (w_views w) VNil).
  pose (m' := put (array_of view) [VAtom (APolicy (sp 9 9))] (w_mem w)).
  pose (rs' := fst (run_edit empty_set (AddMapping (B "u1") (mk_re (B "") (B "a") (B "env:prod") (mk_mb 0%N [sp 9 9] 0%Z))) (at_time 1))).
  assert (exists f, read 9 (w_mem w) view = Some (t_mbody (mk_mb 0%N [sp 1 1] 0%Z), f) /\ In (array_of view) (map addr f)) as (f & Ef & Hin).
  { eexists. split; [vm_compute; reflexivity|]. vm_compute. auto. }
  assert (exists f', read 9 m' view = Some (t_mbody (mk_mb 0%N [sp 9 9] 0%Z), f')) as (f' & Ef').
  { eexists. vm_compute. reflexivity. }
  assert (exists g', read 20 m' set = Some (t_set rs', g')) as (g' & Eg').
  { eexists. vm_compute. reflexivity. }
  exists w, s, set, view, (nth 0 (s_sets s) empty_set), m', rs', f, f', g'. split; [exact given_reached|].
  split; [vm_compute; reflexivity|]. split; [vm_compute; reflexivity|]. split; [vm_compute; reflexivity|].
  split; [vm_compute; reflexivity|]. split; [exact (read_shows _ _ _ _ _ Ef)|]. split.
  { intros p Hp. unfold m', put. cbn [m_at]. destruct (Nat.eqb p (array_of view)) eqn:E; [|reflexivity].
    apply Nat.eqb_eq in E. subst p. contradiction. }
  split; [exact (read_shows _ _ _ _ _ Ef')|]. split; [exact (read_shows _ _ _ _ _ Eg')|]. split; [|vm_compute; reflexivity].
  intro E. apply (f_equal (fun r => map (fun x => map (fun s => mb_sps (sn_body s)) (ru_snapshots x)) (rs_mapping r))) in E.
  vm_compute in E. discriminate.
Qed.

(** An active set that was taken while a rule was not in effect yet has that rule itself, not a copy of its
    header (rules/mapping.go 311-322, rules/rollup.go 273-281): an edit of the rule set shows in the active
    set. *)
Definition waiting_program : list action := firstn 4 program ++ [Activate 0 0%Z].
Definition edited_after : list action := waiting_program ++ [Edit 0 (CDeleteMapping (B "u1")) (at_time 3) (fun n => n)].
Definition state_after (l : list action) : world * state :=
  match perform l (empty_world, empty_state) with Some x => x | None => (empty_world, empty_state) end.

Example C77_waiting_active_is_shared :
  reached (fst (state_after waiting_program)) (snd (state_after waiting_program)) /\
  reached (fst (state_after edited_after)) (snd (state_after edited_after)) /\
  exists a mr mr' f f',
    w_active (fst (state_after waiting_program)) = [a] /\ w_active (fst (state_after edited_after)) = [a] /\
    shows (w_mem (fst (state_after waiting_program))) (fst a) (t_rules t_mbody mr) f /\
    shows (w_mem (fst (state_after edited_after))) (fst a) (t_rules t_mbody mr') f' /\
    map (fun r => length (ru_snapshots r)) mr = [1] /\ map (fun r => length (ru_snapshots r)) mr' = [2].
Proof.
  assert (forall l, match perform l (empty_world, empty_state) with Some _ => true | None => false end = true ->
    reached (fst (state_after l)) (snd (state_after l))) as Hr.
  { intros l H. unfold state_after. destruct (perform l (empty_world, empty_state)) as [[w s]|] eqn:Ep; [|discriminate].
    exact (perform_reached l _ _ _ _ reached_start Ep). }
  split; [apply Hr; vm_compute; reflexivity|]. split; [apply Hr; vm_compute; reflexivity|].
  pose (a := nth 0 (w_active (fst (state_after waiting_program))) (VNil, VNil)).
  pose (mr := rs_mapping (nth 0 (s_sets (snd (state_after waiting_program))) empty_set)).
  pose (mr' := rs_mapping (nth 0 (s_sets (snd (state_after edited_after))) empty_set)).
  assert (exists f, read 20 (w_mem (fst (state_after waiting_program))) (fst a) = Some (t_rules t_mbody mr, f)) as (f & Ef).
  { eexists. vm_compute. reflexivity. }
  assert (exists f, read 20 (w_mem (fst (state_after edited_after))) (fst a) = Some (t_rules t_mbody mr', f)) as (f' & Ef').
  { eexists. vm_compute. reflexivity. }
  exists a, mr, mr', f, f'. split; [vm_compute; reflexivity|]. split; [vm_compute; reflexivity|].
  split; [exact (read_shows _ _ _ _ _ Ef)|]. split; [exact (read_shows _ _ _ _ _ Ef')|].
  split; vm_compute; reflexivity.
Qed.
