(** Programs that hold rule sets, views, active sets and match results: the invariant. *)
From Coq Require Import Ascii String Arith NArith ZArith Bool Lia Permutation List.
From Verif.Props Require Import MatchMemProps.
From Verif.Proof Require Import MemProof MemSep RuleMemWorld ServeMemProof.
From Verif.Base Require Import Bytes Mem.
From Verif.Model Require Import AggType Policy Transformation Pipeline Metadata Filter MetricID Rules RuleSet
  RuleMem MatchMem.
From Verif.Spec Require Import RuleMemSpec MatchMemSpec ServeMemSpec.
Import ListNotations.
Open Scope nat_scope.

Definition own_looks (U : nat -> Prop) (G f : list look) : Prop :=
  forall l, In l f -> In l G \/ (~ U (addr l) /\ ~ In (addr l) (map addr G)).
Definition separate (G f f' : list look) : Prop :=
  forall l l', In l f -> In l' f' -> addr l = addr l' -> In l G /\ In l' G.

Record alive (g : globals) (G : list look) (w : world) (s : state) (hs : list held)
    (n : nat) (SS : nat -> list item) (FF GG HH : nat -> list look) : Prop := mk_alive {
  a_inv : inv n (w_mem w) (w_sets w) (s_sets s) (w_views w) (s_views s) (w_active w) (s_active s) SS FF GG HH;
  a_globals : globals_are (w_mem w) g G;
  a_low : below n G;
  a_free : forall p, In p (map addr G) -> ~ used (length (w_sets w)) (length (w_views w)) (length (w_active w)) SS FF GG HH p;
  a_held : forall k h, nth_error hs k = Some h ->
    below n (h_looks h) /\
    own_looks (used (length (w_sets w)) (length (w_views w)) (length (w_active w)) SS FF GG HH) G (h_looks h) /\
    forall r, h_is h = Some r -> shows (w_mem w) (h_val h) (t_result r) (h_looks h);
  a_apart : forall k k' h h', k <> k' -> nth_error hs k = Some h -> nth_error hs k' = Some h' ->
    separate G (h_looks h) (h_looks h') }.

Lemma globals_frame m m' g G : globals_are m g G -> m_next m <= m_next m' ->
  (forall p, In p (map addr G) -> m_at m' p = m_at m p) -> globals_are m' g G.
Proof.
  intros (a & b & c & d & f1 & f2 & E1 & E2 & H1 & H2 & -> & Hb) Hn Hp. exists a, b, c, d, f1, f2.
  split; [exact E1|]. split; [exact E2|]. split; [|split; [|split; [reflexivity|]]].
  - apply (shows_frame _ _ _ _ _ H1). apply agree_all_same. intros p H. apply Hp. rewrite map_app. apply in_or_app. auto.
  - apply (shows_frame _ _ _ _ _ H2). apply agree_all_same. intros p H. apply Hp. rewrite map_app. apply in_or_app. auto.
  - eapply Forall_impl; [|exact Hb]. cbn beta. intros l Hl. lia.
Qed.

Lemma active_in_memory g G w s hs n SS FF GG HH k r a :
  alive g G w s hs n SS FF GG HH -> active_at w s k r a -> active_is (w_mem w) (in_memory a r) a.
Proof.
  intros A (H1 & c & H2 & E). pose proof (a_inv _ _ _ _ _ _ _ _ _ _ A) as I.
  destruct (i_act _ _ _ _ _ _ _ _ _ _ _ _ I k r c (conj H1 H2)) as (Bd & K).
  destruct (K _ _ E) as [(f & f' & Eh & Hf & Hf') _].
  do 5 (split; [reflexivity|]). exists f, f'. split; [exact Hf|]. split; [exact Hf'|].
  rewrite <- Eh. exact (below_old _ _ _ Bd (i_bound _ _ _ _ _ _ _ _ _ _ _ _ I)).
Qed.

Lemma start_alive g G m : globals_are m g G ->
  exists n SS FF GG HH, alive g G (mk_world m [] [] []) empty_state [] n SS FF GG HH.
Proof.
  intro Hg.
  exists (m_next m), (fun _ => []), (fun _ => []), (fun _ => []), (fun _ => []).
    assert (forall p, ~ used 0 0 0 (fun _ => []) (fun _ => []) (fun _ => []) (fun _ => []) p) as Hu.
    { intros p [(i & Hi & _)|[(i & Hi & _)|[(i & Hi & _)|(i & Hi & _)]]]; lia. }
    constructor; cbn [w_mem w_sets w_views w_active length].
    + constructor; cbn [empty_state s_sets s_views s_active length]; auto.
      * intros i v R [E _]. destruct i; discriminate.
      * intros i E. lia.
      * intros i j E. lia.
      * intros i v b [E _]. destruct i; discriminate.
      * intros i v b [E _]. destruct i; discriminate.
      * intros i v b [E _]. destruct i; discriminate.
    + exact Hg.
    + destruct Hg as (? & ? & ? & ? & ? & ? & K). apply K.
    + intros p _. apply Hu.
    + intros [|k]; discriminate.
    + intros [|k]; discriminate.
Qed.

Lemma step_alive g G w s hs w2 s2 hs2 : step g G w s hs w2 s2 hs2 ->
  (exists n SS FF GG HH, alive g G w s hs n SS FF GG HH) -> exists n SS FF GG HH, alive g G w2 s2 hs2 n SS FF GG HH.
Proof.
  intros H IH.
  destruct H as [w s hs w' s' Ha|w s hs k r a grow q v m' t f Hk Ea Hs|w s hs k h m' Hk Hw].
  - destruct IH as (n & SS & FF & GG & HH & [A1 A2 A3 A4 A5 A6]).
    destruct (acts_confined n w s w' s' SS FF GG HH A1 Ha) as (n' & SS' & FF' & GG' & HH' & I' & Hn & Hm & Hu & Hp).
    exists n', SS', FF', GG', HH'.
    assert (forall p, p < n -> ~ used (length (w_sets w)) (length (w_views w)) (length (w_active w)) SS FF GG HH p ->
      ~ used (length (w_sets w')) (length (w_views w')) (length (w_active w')) SS' FF' GG' HH' p) as Hu'.
    { intros p Hlt Hno Hyes. destruct (Hu p Hyes); [contradiction|lia]. }
    assert (forall p, In p (map addr G) -> p < n) as HG.
    { intros p Hin. apply in_map_iff in Hin. destruct Hin as (l & <- & Hl). exact (below_in _ _ _ A3 Hl). }
    constructor.
    + exact I'.
    + apply (globals_frame (w_mem w)); [exact A2|exact Hm|]. intros p Hin. apply Hp; [exact (HG p Hin)|exact (A4 p Hin)].
    + exact (below_old _ _ _ A3 Hn).
    + intros p Hin. apply Hu'; [exact (HG p Hin)|exact (A4 p Hin)].
    + intros k h Ek. destruct (A5 k h Ek) as (B1 & B2 & B3). split; [exact (below_old _ _ _ B1 Hn)|]. split.
      * intros l Hl. destruct (B2 l Hl) as [Q|[Q1 Q2]]; [left; exact Q|right]. split; [|exact Q2]. apply Hu'; [exact (below_in _ _ _ B1 Hl)|exact Q1].
      * intros r Er. apply (shows_frame _ _ _ _ _ (B3 r Er)). apply agree_all_same. intros p Hin.
        apply in_map_iff in Hin. destruct Hin as (l & <- & Hl). apply Hp; [exact (below_in _ _ _ B1 Hl)|].
        destruct (B2 l Hl) as [Q|[Q1 Q2]]; [exact (A4 _ (in_map addr _ _ Q))|exact Q1].
    + exact A6.
  - destruct IH as (n & SS & FF & GG & HH & A). pose proof (active_in_memory _ _ _ _ _ _ _ _ _ _ _ _ _ A Hk) as Hact.
    destruct A as [A1 A2 A3 A4 A5 A6]. pose proof (i_bound _ _ _ _ _ _ _ _ _ _ _ _ A1) as Hb.
    destruct (C81_match (w_mem w) g G grow (in_memory a r) a q A2 Hact) as (v' & m'' & f' & E' & Hs' & (Hn & Hp) & Ho).
    rewrite Ea in E'. injection E' as <- <-. destruct (shows_det _ _ _ _ _ _ Hs' Hs) as [Et Ef]. subst t f'.
    exists (m_next m'), SS, FF, GG, HH.
    assert (forall p, used (length (w_sets w)) (length (w_views w)) (length (w_active w)) SS FF GG HH p -> p < n) as Hu.
    { intros p Hin. exact (used_low _ _ _ _ _ _ _ _ _ _ _ _ _ A1 Hin). }
    assert (forall p, In p (map addr G) -> p < n) as HG.
    { intros p Hin. apply in_map_iff in Hin. destruct Hin as (l & <- & Hl). exact (below_in _ _ _ A3 Hl). }
    constructor; cbn [with_memory w_mem w_sets w_views w_active].
    + apply (inv_bump n); [|lia|lia]. exact (inv_old _ _ _ _ _ _ _ _ _ _ _ _ _ A1 (conj Hn Hp)).
    + exact (globals_kept _ _ _ _ A2 Hn Hp).
    + exact (below_old _ _ _ A3 (Nat.le_trans _ _ _ Hb Hn)).
    + exact A4.
    + intros j h Ej. destruct (Nat.lt_ge_cases j (length hs)) as [Hj|Hj].
      * rewrite nth_error_app1 in Ej by exact Hj. destruct (A5 j h Ej) as (B1 & B2 & B3).
        split; [exact (below_old _ _ _ B1 (Nat.le_trans _ _ _ Hb Hn))|]. split; [exact B2|]. intros r' Er.
        exact (shows_old _ _ _ _ _ (conj Hn Hp) (below_old _ _ _ B1 Hb) (B3 r' Er)).
      * rewrite nth_error_app2 in Ej by exact Hj. destruct (j - length hs) as [|?]; [|destruct n0; discriminate].
        cbn [nth_error] in Ej. injection Ej as <-. cbn [h_looks h_is h_val]. split; [|split].
        -- apply Forall_forall. intros l Hl. destruct (proj1 (Forall_forall _ _) Ho l Hl) as [Q|Q]; [lia|].
           pose proof (below_in _ _ _ A3 Q). lia.
        -- intros l Hl. destruct (proj1 (Forall_forall _ _) Ho l Hl) as [Q|Q]; [|left; exact Q]. right. split.
           ++ intro K. pose proof (Hu _ K). lia.
           ++ intro K. pose proof (HG _ K). lia.
        -- intros r' Er. injection Er as <-. exact Hs'.
    + assert (forall j h, nth_error hs j = Some h -> separate G (h_looks h) f) as Hsep.
      { intros j h Ej l l' Hl Hl' El. destruct (A5 j h Ej) as (B1 & B2 & _). pose proof (below_in _ _ _ B1 Hl).
        destruct (proj1 (Forall_forall _ _) Ho l' Hl') as [Q|Q]; [lia|]. split; [|exact Q].
        destruct (B2 l Hl) as [Q'|[_ Q']]; [exact Q'|]. exfalso. apply Q'. rewrite El. exact (in_map addr _ _ Q). }
      assert (forall j h, nth_error (hs ++ [mk_held v f (Some (answer a q))]) j = Some h ->
        (j < length hs /\ nth_error hs j = Some h) \/ (j = length hs /\ h_looks h = f)) as Hcase.
      { intros j h Ej. destruct (Nat.lt_ge_cases j (length hs)) as [Hj|Hj].
        - left. rewrite nth_error_app1 in Ej by exact Hj. auto.
        - right. assert (j < length (hs ++ [mk_held v f (Some (answer a q))])) as Hlt by (apply nth_error_Some; congruence).
          rewrite app_length in Hlt. cbn [length] in Hlt. assert (j = length hs) as -> by lia. split; [reflexivity|].
          rewrite nth_error_app2 in Ej by lia. rewrite Nat.sub_diag in Ej. cbn [nth_error] in Ej. injection Ej as <-. reflexivity. }
      intros j j' h h' Hne Ej Ej'. destruct (Hcase j h Ej) as [[L1 E1]|[L1 E1]], (Hcase j' h' Ej') as [[L2 E2]|[L2 E2]].
      * exact (A6 j j' h h' Hne E1 E2).
      * rewrite E2. exact (Hsep j h E1).
      * rewrite E1. intros l l' Hl Hl' El. destruct (Hsep j' h' E2 l' l Hl' Hl (eq_sym El)). auto.
      * lia.
  - destruct IH as (n & SS & FF & GG & HH & [A1 A2 A3 A4 A5 A6]). pose proof (i_bound _ _ _ _ _ _ _ _ _ _ _ _ A1) as Hb.
    destruct Hw as [Hn Hp]. destruct (A5 k h Hk) as (C1 & C2 & _).
    exists n, SS, FF, GG, HH.
    assert (forall j h', nth_error (set_nth k (mk_held (h_val h) (h_looks h) None) hs) j = Some h' ->
      (j <> k /\ nth_error hs j = Some h') \/ (j = k /\ h_looks h' = h_looks h /\ h_is h' = None)) as Hcase.
    { intros j h' Ej. rewrite nth_set_nth in Ej. destruct (Nat.eqb k j) eqn:Ekj.
      - apply Nat.eqb_eq in Ekj. subst j. rewrite Hk in Ej. cbn [option_map] in Ej. injection Ej as <-. right. auto.
      - apply Nat.eqb_neq in Ekj. left. auto. }
    constructor; cbn [with_memory w_mem w_sets w_views w_active].
    + apply (inv_frame n (w_mem w)); [exact A1|exact Hn|]. intros p Hu. apply Hp.
      * pose proof (used_low _ _ _ _ _ _ _ _ _ _ _ _ _ A1 Hu). lia.
      * intros l Hl El. destruct (C2 l Hl) as [Q|[Q _]]; [exact Q|]. rewrite El in Q. contradiction.
    + apply (globals_frame (w_mem w)); [exact A2|exact Hn|]. intros p Hin. apply Hp.
      * apply in_map_iff in Hin. destruct Hin as (l & <- & Hl). pose proof (below_in _ _ _ A3 Hl). lia.
      * intros l Hl El. destruct (C2 l Hl) as [Q|[_ Q]]; [exact Q|]. rewrite El in Q. contradiction.
    + exact A3.
    + exact A4.
    + intros j h' Ej. destruct (Hcase j h' Ej) as [[Hne E1]|(-> & E1 & E2)].
      * destruct (A5 j h' E1) as (B1 & B2 & B3). split; [exact B1|]. split; [exact B2|]. intros r Er.
        apply (shows_frame _ _ _ _ _ (B3 r Er)). apply agree_all_same. intros p Hin.
        apply in_map_iff in Hin. destruct Hin as (l & <- & Hl). apply Hp.
        -- pose proof (below_in _ _ _ B1 Hl). lia.
        -- intros l' Hl' El. exact (proj1 (A6 k j h h' (not_eq_sym Hne) Hk E1 l' l Hl' Hl El)).
      * rewrite E1, E2. split; [exact C1|]. split; [exact C2|]. discriminate.
    + intros j j' h1 h2 Hne Ej Ej'. destruct (Hcase j h1 Ej) as [[L1 E1]|(L1 & E1 & _)], (Hcase j' h2 Ej') as [[L2 E2]|(L2 & E2 & _)].
      * exact (A6 j j' h1 h2 Hne E1 E2).
      * subst j'. rewrite E2. exact (A6 j k h1 h L1 E1 Hk).
      * subst j. rewrite E1. exact (A6 k j' h h2 (not_eq_sym L2) Hk E2).
      * lia.
Qed.

Theorem lives_alive g G w s hs : lives g G w s hs -> exists n SS FF GG HH, alive g G w s hs n SS FF GG HH.
Proof.
  intros (m & Hg & H). induction H as [|w1 s1 hs1 w2 s2 hs2 H IH Hs].
  - exact (start_alive g G m Hg).
  - exact (step_alive _ _ _ _ _ _ _ _ Hs IH).
Qed.

(** An active set all of whose rules were in effect keeps its entry. *)
Lemma step_keeps_active g G w s hs w' s' hs' k r c : step g G w s hs w' s' hs' -> ac_waiting c = false ->
  nth_error (w_active w) k = Some r -> nth_error (s_active s) k = Some c ->
  nth_error (w_active w') k = Some r /\ nth_error (s_active s') k = Some c.
Proof.
  intros H Hc H1 H2. destruct H as [w s hs w' s' Ha|w s hs k' r' a grow q v m' t f Hk Ea Hs|w s hs k' h m' Hk Hw]; [|auto|auto].
  assert (forall A (l l' : list A) x, nth_error l k = Some x -> nth_error (l ++ l') k = Some x) as Happ.
  { intros A l l' x E. rewrite nth_error_app1; [exact E|]. apply nth_error_Some. congruence. }
  destruct Ha; cbn [w_active s_active] in *; auto.
  split; [exact H1|]. rewrite nth_error_map, H2. cbn [option_map]. unfold disturb. rewrite Hc, andb_false_r. reflexivity.
Qed.
Lemma later_keeps_active g G w s hs w' s' hs' k r c : later g G w s hs w' s' hs' -> ac_waiting c = false ->
  nth_error (w_active w) k = Some r -> nth_error (s_active s) k = Some c ->
  nth_error (w_active w') k = Some r /\ nth_error (s_active s') k = Some c.
Proof.
  intros H Hc H1 H2. induction H as [|w1 s1 hs1 w2 s2 hs2 H IH Hs]; [auto|].
  exact (step_keeps_active _ _ _ _ _ _ _ _ _ _ _ Hs Hc (proj1 IH) (proj2 IH)).
Qed.
Lemma later_trans g G w s hs w1 s1 hs1 w2 s2 hs2 :
  later g G w s hs w1 s1 hs1 -> later g G w1 s1 hs1 w2 s2 hs2 -> later g G w s hs w2 s2 hs2.
Proof. intros H K. induction K as [|w3 s3 hs3 w4 s4 hs4 K IH Hs]; [exact H|]. exact (later_more _ _ _ _ _ _ _ _ _ _ _ IH Hs). Qed.
