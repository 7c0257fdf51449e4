(** Editing and matching in one memory: what a program sees that edits rule sets, takes active sets, matches
    against them and keeps the results.  Each theorem is stated with the vocabulary of
    [Spec/ServeMemSpec.v]. *)
From Coq Require Import Ascii String Arith NArith ZArith Bool Lia Permutation Sorting.Sorted List.
From Verif.Proof Require Import MemProof MemSep RuleMemWorld RuleMemRead ServeMemProof ServeMemLives.
From Verif.Base Require Import Bytes Mem.
From Verif.Model Require Import AggType Policy Transformation Pipeline Metadata Filter MetricID Rules RuleSet
  RuleMem MatchMem.
From Verif.Spec Require Import RuleMemSpec MatchMemSpec ServeMemSpec.
From Verif.Props Require Import RulesProps EditProps MatchMemProps.
Import ListNotations.
Open Scope nat_scope.

(** ** C82: editing and matching do not disturb each other *)

(** Whatever was loaded, cloned, edited, looked at, written to, activated and matched, in any order: every
    result whose holder has not written into it is what it was when it was returned. *)
Theorem C82_results g G w s hs k h r : lives g G w s hs ->
  nth_error hs k = Some h -> h_is h = Some r -> shows (w_mem w) (h_val h) (t_result r) (h_looks h).
Proof.
  intros H Hk Hr. destruct (lives_alive _ _ _ _ _ H) as (n & SS & FF & GG & HH & A).
  exact (proj2 (proj2 (a_held _ _ _ _ _ _ _ _ _ _ A k h Hk)) r Hr).
Qed.
Print Assumptions C82_results.

(** Every match against an active set with the rules of [a] ends without a panic and gives the answer that
    [a] demands, in memory of its own. *)
Theorem C82_matches g G w s hs k r a grow q : lives g G w s hs -> active_at w s k r a ->
  exists v m' f, ask g grow (in_memory a r, q) (w_mem w) = Some (v, m') /\ shows m' v (t_result (answer a q)) f /\
    nothing_changed (w_mem w) m' /\ own_or_global (w_mem w) m' G f.
Proof.
  intros H Hk. destruct (lives_alive _ _ _ _ _ H) as (n & SS & FF & GG & HH & A).
  exact (C81_match (w_mem w) g G grow (in_memory a r) a q (a_globals _ _ _ _ _ _ _ _ _ _ A)
           (active_in_memory _ _ _ _ _ _ _ _ _ _ _ _ _ A Hk)).
Qed.
Print Assumptions C82_matches.

(** So an active set that was taken when all rules were in effect goes on giving the answers of the rule set
    as it was then, whatever happens later to the rule set, its clones and views, and to results. *)
Theorem C82_frozen g G w s hs i v rs t ms rr m1 w' s' hs' grow q : lives g G w s hs ->
  nth_error (w_sets w) i = Some v -> nth_error (s_sets s) i = Some rs ->
  existsb (waiting t) (rs_mapping rs) = false -> existsb (waiting t) (rs_rollup rs) = false ->
  set_active v t (w_mem w) = Some ((ms, rr), m1) ->
  let w1 := mk_world m1 (w_sets w) (w_views w) (w_active w ++ [(ms, rr)]) in
  let s1 := mk_state (s_sets s) (s_views s)
              (s_active s ++ [mk_ac i false (Some (as_mapping (active_set rs t), as_rollup (active_set rs t)))]) in
  later g G w1 s1 hs w' s' hs' ->
  exists x m' f, ask g grow (in_memory (active_set rs t) (ms, rr), q) (w_mem w') = Some (x, m') /\
    shows m' x (t_result (answer (active_set rs t) q)) f.
Proof.
  intros H H1 H2 W1 W2 E w1 s1 L.
  pose proof (acts_activate w s i v rs t ms rr m1 H1 H2 E) as Ha. rewrite W1, W2 in Ha. cbn [orb] in Ha. fold w1 s1 in Ha.
  assert (lives g G w' s' hs') as H'.
  { destruct H as (m & Hg & Hl). exists m. split; [exact Hg|].
    exact (later_trans _ _ _ _ _ _ _ _ _ _ _ (later_more _ _ _ _ _ _ _ _ _ _ _ Hl (step_act _ _ _ _ _ _ _ Ha)) L). }
  assert (length (w_active w) = length (s_active s)) as Hlen.
  { destruct (lives_alive _ _ _ _ _ H) as (n & SS & FF & GG & HH & A).
    exact (proj2 (proj2 (i_len _ _ _ _ _ _ _ _ _ _ _ _ (a_inv _ _ _ _ _ _ _ _ _ _ A)))). }
  destruct (later_keeps_active g G w1 s1 hs w' s' hs' (length (w_active w)) (ms, rr)
              (mk_ac i false (Some (as_mapping (active_set rs t), as_rollup (active_set rs t)))) L eq_refl) as [K1 K2].
  { unfold w1. cbn [w_active]. rewrite nth_error_app2, Nat.sub_diag by lia. reflexivity. }
  { unfold s1. cbn [s_active]. rewrite Hlen, nth_error_app2, Nat.sub_diag by lia. reflexivity. }
  destruct (C82_matches g G w' s' hs' (length (w_active w)) (ms, rr) (active_set rs t) grow q H') as (x & m' & f & E1 & E2 & _).
  { split; [exact K1|]. eexists. split; [exact K2|]. reflexivity. }
  exists x, m', f. auto.
Qed.
Print Assumptions C82_frozen.

(** Rule sets, views and active sets are as in C77, in spite of the matches and of what holders write into
    results. *)
Theorem C82_sets g G w s hs i v rs : lives g G w s hs ->
  nth_error (w_sets w) i = Some v -> nth_error (s_sets s) i = Some rs -> exists f, shows (w_mem w) v (t_set rs) f.
Proof.
  intros H H1 H2. destruct (lives_alive _ _ _ _ _ H) as (n & SS & FF & GG & HH & A).
  exact (RuleMemSets.set_shows _ _ _ _ _ (proj1 (i_set _ _ _ _ _ _ _ _ _ _ _ _ (a_inv _ _ _ _ _ _ _ _ _ _ A) i v rs (conj H1 H2)))).
Qed.
Print Assumptions C82_sets.
Theorem C82_views g G w s hs j v b : lives g G w s hs ->
  nth_error (w_views w) j = Some v -> nth_error (s_views s) j = Some b ->
  exists f, shows (w_mem w) v (t_body (vs_body b)) f.
Proof.
  intros H H1 H2. destruct (lives_alive _ _ _ _ _ H) as (n & SS & FF & GG & HH & A).
  exists (GG j). exact (proj1 (i_view _ _ _ _ _ _ _ _ _ _ _ _ (a_inv _ _ _ _ _ _ _ _ _ _ A) j v b (conj H1 H2))).
Qed.
Print Assumptions C82_views.
Theorem C82_edit_result g G w s hs i v rs c ce e um grow : lives g G w s hs ->
  nth_error (w_sets w) i = Some v -> nth_error (s_sets s) i = Some rs ->
  call_in_memory (w_views w) c = Some ce -> call_on_values (map vs_body (s_views s)) c = Some e ->
  exists m', edit_set grow v ce um (w_mem w) = Some (snd (run_edit rs e um), m').
Proof.
  intros H H1 H2 Hc He. destruct (lives_alive _ _ _ _ _ H) as (n & SS & FF & GG & HH & A).
  destruct (edit_goes _ _ _ _ _ _ _ _ _ _ _ _ i v rs c ce e um grow (a_inv _ _ _ _ _ _ _ _ _ _ A) (conj H1 H2) Hc He) as (m' & G' & S' & F' & E & _).
  exists m'. exact E.
Qed.
Print Assumptions C82_edit_result.

(** *** An example *)

(** The rules of C81 are loaded and activated at 12; the program matches, edits the rules, matches again with
    the same active set, and then applies the drop policies to the first result in place. *)
Definition c82_set : rule_set :=
  mk_rs (B "set") 1 (B "ns") 0 0 (B "") false 0 (as_mapping c81_set) (as_rollup c81_set) m3_opts new_rollup_id is_rollup_id.
Definition c82_start : option (globals * memory) :=
  (d <- store (t_pms drop_pipeline_metadatas) ;; e <- store (t_pms [default_pipeline_metadata]) ;; ret (mk_globals d e))
    (mk_mem (fun _ => []) 0).
Definition c82_g := match c82_start with Some (g, _) => g | None => mk_globals VNil VNil end.
Definition c82_m := match c82_start with Some (_, m) => m | None => mk_mem (fun _ => []) 0 end.
Definition c82_G : list look :=
  match read 20 c82_m (g_drop c82_g), read 20 c82_m (g_default c82_g) with
  | Some (_, f1), Some (_, f2) => f1 ++ f2
  | _, _ => []
  end.
Lemma c82_globals : globals_are c82_m c82_g c82_G.
Proof.
  assert (exists a b c d f1 f2, g_drop c82_g = VSlice a b 1 1 /\ g_default c82_g = VSlice c d 1 1 /\
    read 20 c82_m (g_drop c82_g) = Some (t_pms drop_pipeline_metadatas, f1) /\
    read 20 c82_m (g_default c82_g) = Some (t_pms [default_pipeline_metadata], f2) /\ c82_G = f1 ++ f2 /\
    forallb (fun l => addr l <? m_next c82_m) c82_G = true) as (a & b & c & d & f1 & f2 & E1 & E2 & H1 & H2 & E3 & H3).
  { eexists _, _, _, _, _, _. split; [vm_compute; reflexivity|]. split; [vm_compute; reflexivity|]. split; [vm_compute; reflexivity|].
    split; [vm_compute; reflexivity|]. split; vm_compute; reflexivity. }
  exists a, b, c, d, f1, f2. split; [exact E1|]. split; [exact E2|]. split; [exact (read_shows _ _ _ _ _ H1)|].
  split; [exact (read_shows _ _ _ _ _ H2)|]. split; [exact E3|]. rewrite forallb_forall in H3. apply Forall_forall. intros l Hl.
  apply Nat.ltb_lt. exact (H3 l Hl).
Qed.

Definition c82_first : list action := [Load c82_set; Activate 0 25%Z].
Definition c82_edits : list action :=
  [Own (OfMapping (mk_mb 0%N [sp 7 7] 0%Z)); Look 0;
   Edit 0 (CUpdateMapping (mk_re (B "a") (B "new") (B "env:prod") 0)) (at_time 30) (fun _ => 0);
   Edit 0 (CDeleteRollup (B "r")) (at_time 31) (fun _ => 0)].
Definition run_from (l : list action) (x : world * state) : world * state :=
  match perform l x with Some y => y | None => x end.
Definition c82_a : active_ruleset := active_set c82_set 25.
Definition ask_from (w : world) : val * memory :=
  match nth_error (w_active w) 0 with
  | Some r => match ask c82_g (fun _ => 0) (in_memory c82_a r, Forward metric 26 40) (w_mem w) with
              | Some y => y | None => (VNil, w_mem w) end
  | None => (VNil, w_mem w)
  end.
Definition c82_1 := run_from c82_first (mk_world c82_m [] [] [], empty_state).
Definition c82_ask1 := ask_from (fst c82_1).
Definition c82_2 := run_from c82_edits (with_memory (fst c82_1) (snd c82_ask1), snd c82_1).
Definition c82_ask2 := ask_from (fst c82_2).

Lemma perform_later g G hs l : forall w s w' s', perform l (w, s) = Some (w', s') -> later g G w s hs w' s' hs.
Proof.
  induction l as [|a l IH]; intros w s w' s' H; cbn [perform] in H.
  - injection H as <- <-. apply later_same.
  - destruct (act a (w, s)) as [[w1 s1]|] eqn:E; [|discriminate].
    exact (later_trans _ _ _ _ _ _ _ _ _ _ _
             (later_more _ _ _ _ _ _ _ _ _ _ _ (later_same _ _ _ _ _) (step_act _ _ _ _ _ _ _ (act_acts _ _ _ _ _ E)))
             (IH w1 s1 w' s' H)).
Qed.
Lemma story g G m l1 w1 s1 r1 a grow q v1 m1 t1 f1 l2 w2 s2 r2 v2 m2 t2 f2 :
  globals_are m g G -> perform l1 (mk_world m [] [] [], empty_state) = Some (w1, s1) -> active_at w1 s1 0 r1 a ->
  ask g grow (in_memory a r1, q) (w_mem w1) = Some (v1, m1) -> shows m1 v1 t1 f1 ->
  perform l2 (with_memory w1 m1, s1) = Some (w2, s2) -> active_at w2 s2 0 r2 a ->
  ask g grow (in_memory a r2, q) (w_mem w2) = Some (v2, m2) -> shows m2 v2 t2 f2 ->
  lives g G (with_memory w2 (wiped (m_next m) f1 m2)) s2
    [mk_held v1 f1 None; mk_held v2 f2 (Some (answer a q))].
Proof.
  intros Hg P1 A1 E1 S1 P2 A2 E2 S2. exists m. split; [exact Hg|].
  pose proof (perform_later g G [] l1 _ _ _ _ P1) as L1.
  pose proof (later_more _ _ _ _ _ _ _ _ _ _ _ L1 (step_match g G w1 s1 [] 0 r1 a grow q v1 m1 t1 f1 A1 E1 S1)) as L2.
  cbn [app] in L2.
  pose proof (later_trans _ _ _ _ _ _ _ _ _ _ _ L2 (perform_later g G [mk_held v1 f1 (Some (answer a q))] l2 _ _ _ _ P2)) as L3.
  pose proof (later_more _ _ _ _ _ _ _ _ _ _ _ L3 (step_match g G w2 s2 _ 0 r2 a grow q v2 m2 t2 f2 A2 E2 S2)) as L4.
  cbn [app] in L4.
  refine (later_more _ _ _ _ _ _ _ _ _ _ _ L4 (step_write g G (with_memory w2 m2) s2
    [mk_held v1 f1 (Some (answer a q)); mk_held v2 f2 (Some (answer a q))] 0 (mk_held v1 f1 (Some (answer a q))) (wiped (m_next m) f1 m2) eq_refl _)).
  cbn [h_looks with_memory w_mem]. split; [apply Nat.le_refl|]. intros p _ Hp. unfold wiped. cbn [m_at].
  destruct (existsb _ f1) eqn:E; [|reflexivity]. apply existsb_exists in E. destruct E as (k & Hk & E). apply andb_prop in E. destruct E as [K1 K2].
  apply Nat.eqb_eq in K1. apply Nat.leb_le in K2. specialize (Hp k Hk K1).
  destruct Hg as (b & c & d & e & f3 & f4 & _ & _ & _ & _ & _ & HG). pose proof (proj1 (Forall_forall _ _) HG k Hp) as K. cbn beta in K. lia.
Qed.

Definition c82_r1 := nth 0 (w_active (fst c82_1)) (VNil, VNil).
Definition c82_r2 := nth 0 (w_active (fst c82_2)) (VNil, VNil).
Definition c82_read (m : memory) (v : val) : tree * list look := match read 20 m v with Some x => x | None => (TList [], []) end.

Lemma c82_active1 : active_at (fst c82_1) (snd c82_1) 0 c82_r1 c82_a.
Proof. split; [vm_compute; reflexivity|]. eexists. split; vm_compute; reflexivity. Qed.
Lemma c82_active2 : active_at (fst c82_2) (snd c82_2) 0 c82_r2 c82_a.
Proof. split; [vm_compute; reflexivity|]. eexists. split; vm_compute; reflexivity. Qed.
Lemma run_from_is l x : match perform l x with Some _ => true | None => false end = true -> perform l x = Some (run_from l x).
Proof. unfold run_from. destruct (perform l x); [reflexivity|discriminate]. Qed.
Lemma ask_from_is w r : nth_error (w_active w) 0 = Some r ->
  match ask c82_g (fun _ => 0) (in_memory c82_a r, Forward metric 26 40) (w_mem w) with Some _ => true | None => false end = true ->
  ask c82_g (fun _ => 0) (in_memory c82_a r, Forward metric 26 40) (w_mem w) = Some (ask_from w).
Proof. unfold ask_from. intros ->. destruct (ask _ _ _ _); [reflexivity|discriminate]. Qed.
Lemma read_is m v : match read 20 m v with Some _ => true | None => false end = true ->
  shows m v (fst (c82_read m v)) (snd (c82_read m v)).
Proof. unfold c82_read. destruct (read 20 m v) as [[t f]|] eqn:E; [|discriminate]. intros _. exact (read_shows _ _ _ _ _ E). Qed.

Definition c82_f1 := snd (c82_read (snd c82_ask1) (fst c82_ask1)).
Definition c82_f2 := snd (c82_read (snd c82_ask2) (fst c82_ask2)).

(** The story goes through; the rule set is another one afterwards, and so are the answers that it gives. *)
Example C82_nonvacuous :
  lives c82_g c82_G (with_memory (fst c82_2) (wiped (m_next c82_m) c82_f1 (snd c82_ask2))) (snd c82_2)
    [mk_held (fst c82_ask1) c82_f1 None; mk_held (fst c82_ask2) c82_f2 (Some (answer c82_a (Forward metric 26 40)))] /\
  existsb (waiting 25) (rs_mapping c82_set) = false /\ existsb (waiting 25) (rs_rollup c82_set) = false /\
  (exists rs, s_sets (snd c82_2) = [rs] /\ map (fun r => length (ru_snapshots r)) (rs_mapping rs) = [2; 2] /\
     map (fun r => length (ru_snapshots r)) (rs_rollup rs) = [2] /\
     mr_news (answer (active_set rs 60) (Forward metric 61 70)) = []) /\
  map (fun s => length (sm_pipelines s)) (mr_existing (answer c82_a (Forward metric 26 40))) = [2] /\
  length (mr_news (answer c82_a (Forward metric 26 40))) = 1.
Proof.
  split.
  - refine (story c82_g c82_G c82_m c82_first (fst c82_1) (snd c82_1) c82_r1 c82_a (fun _ => 0) (Forward metric 26 40)
      (fst c82_ask1) (snd c82_ask1) (fst (c82_read (snd c82_ask1) (fst c82_ask1))) c82_f1 c82_edits (fst c82_2) (snd c82_2) c82_r2
      (fst c82_ask2) (snd c82_ask2) (fst (c82_read (snd c82_ask2) (fst c82_ask2))) c82_f2 c82_globals _ c82_active1 _ _ _ c82_active2 _ _).
    + rewrite <- surjective_pairing. apply run_from_is. vm_compute. reflexivity.
    + rewrite <- surjective_pairing. apply ask_from_is; [exact (proj1 c82_active1)|vm_compute; reflexivity].
    + apply read_is. vm_compute. reflexivity.
    + rewrite <- surjective_pairing. apply run_from_is. vm_compute. reflexivity.
    + rewrite <- surjective_pairing. apply ask_from_is; [exact (proj1 c82_active2)|vm_compute; reflexivity].
    + apply read_is. vm_compute. reflexivity.
  - split; [vm_compute; reflexivity|]. split; [vm_compute; reflexivity|]. split; [|split; vm_compute; reflexivity].
    eexists. split; [vm_compute; reflexivity|]. split; [vm_compute; reflexivity|]. split; vm_compute; reflexivity.
Qed.
