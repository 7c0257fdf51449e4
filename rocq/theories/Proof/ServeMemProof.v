(** Rule sets, views, active sets and match results in one memory. *)
From Coq Require Import Ascii String Arith NArith ZArith Bool Lia Permutation List.
From Verif.Spec Require MatchMemSpec.
From Verif.Proof Require Import MemProof MemSep RuleMemCopy RuleMemRules RuleMemKinds RuleMemSets RuleMemFresh
  RuleMemViews RuleMemWorld.
From Verif.Base Require Import Bytes Mem.
From Verif.Model Require Import AggType Policy Transformation Pipeline Metadata Filter MetricID Rules RuleSet
  RuleMem.
From Verif.Spec Require Import RuleMemSpec.
Import ListNotations.
Open Scope nat_scope.

(** The addresses that rule sets, views and active sets use. *)
Definition used (ns nv na : nat) (SS : nat -> list item) (FF GG HH : nat -> list look) (p : nat) : Prop :=
  (exists i, i < ns /\ In p (addrs (SS i))) \/ (exists i, i < ns /\ In p (map addr (FF i))) \/
  (exists j, j < nv /\ In p (map addr (GG j))) \/ (exists k, k < na /\ In p (map addr (HH k))).

Lemma inv_bump n n' m sets Rs views vss actv acs SS FF GG HH :
  inv n m sets Rs views vss actv acs SS FF GG HH -> n <= n' -> n' <= m_next m ->
  inv n' m sets Rs views vss actv acs SS FF GG HH.
Proof.
  intros I H H'. destruct I as [I1 I2 I3 I4 I5 I6 I7 I8]. constructor; auto.
  - intros i Hi. destruct (I4 i Hi) as [A C]. split; [|exact (below_old _ _ _ C H)]. revert A. apply Forall_impl. intros x. lia.
  - intros j v b Hj. destruct (I6 j v b Hj) as (A & C & D). split; [exact A|]. split; [exact (below_old _ _ _ C H)|exact D].
  - intros k a c Hk. destruct (I8 k a c Hk) as (A & C). split; [exact (below_old _ _ _ A H)|exact C].
Qed.

Lemma used_low n m sets Rs views vss actv acs SS FF GG HH p :
  inv n m sets Rs views vss actv acs SS FF GG HH ->
  used (length sets) (length views) (length actv) SS FF GG HH p -> p < n.
Proof.
  intros I H. destruct (i_len _ _ _ _ _ _ _ _ _ _ _ _ I) as (L1 & L2 & L3).
  destruct H as [(i & Hi & H)|[(i & Hi & H)|[(j & Hj & H)|(k & Hk & H)]]].
  - exact (low_items _ _ _ (proj1 (i_low _ _ _ _ _ _ _ _ _ _ _ _ I i Hi)) H).
  - apply in_map_iff in H. destruct H as (l & <- & H). exact (below_in _ _ _ (proj2 (i_low _ _ _ _ _ _ _ _ _ _ _ _ I i Hi)) H).
  - apply in_map_iff in H. destruct H as (l & <- & H).
    destruct (nth_error views j) as [v|] eqn:E1; [|apply nth_error_None in E1; lia].
    destruct (nth_error vss j) as [b|] eqn:E2; [|apply nth_error_None in E2; lia].
    exact (below_in _ _ _ (proj1 (proj2 (i_view _ _ _ _ _ _ _ _ _ _ _ _ I j v b (conj E1 E2)))) H).
  - apply in_map_iff in H. destruct H as (l & <- & H).
    destruct (nth_error actv k) as [v|] eqn:E1; [|apply nth_error_None in E1; lia].
    destruct (nth_error acs k) as [b|] eqn:E2; [|apply nth_error_None in E2; lia].
    exact (below_in _ _ _ (proj1 (i_act _ _ _ _ _ _ _ _ _ _ _ _ I k v b (conj E1 E2))) H).
Qed.

(** What happens elsewhere in memory does not matter. *)
Lemma inv_frame n m m' sets Rs views vss actv acs SS FF GG HH :
  inv n m sets Rs views vss actv acs SS FF GG HH -> m_next m <= m_next m' ->
  (forall p, used (length sets) (length views) (length actv) SS FF GG HH p -> m_at m' p = m_at m p) ->
  inv n m' sets Rs views vss actv acs SS FF GG HH.
Proof.
  intros I Hn Hm. destruct I as [I1 I2 I3 I4 I5 I6 I7 I8]. constructor; auto.
  - lia.
  - intros i v R H. pose proof (at2_lt _ _ _ _ _ H) as Hi. destruct (I3 i v R H) as [A (W1 & W2 & W3 & W4)]. split.
    + apply (set_at_frame m); [exact A| |].
      * intros p Hp. apply Hm. left. eauto.
      * apply agree_all_same. intros p Hp. apply Hm. right. left. eauto.
    + split; [exact W1|]. split; [|split; [exact (below_old _ _ _ W3 Hn)|exact W4]]. revert W2. apply Forall_impl. intros x. lia.
  - intros j v b H. pose proof (at2_lt _ _ _ _ _ H) as Hj. destruct (I6 j v b H) as (A & Bd & C). split; [|auto].
    apply (shows_frame _ _ _ _ _ A). apply agree_all_same. intros p Hp. apply Hm. right. right. left. eauto.
  - intros k a c H. pose proof (at2_lt _ _ _ _ _ H) as Hk. destruct (I8 k a c H) as (Bd & K). split; [exact Bd|]. intros mr rl E.
    destruct (K mr rl E) as [A C]. split; [|exact C].
    apply (shown_active_frame _ _ _ _ _ _ A). apply agree_all_same. intros p Hp. apply Hm. right. right. right. eauto.
Qed.

Lemma inv_views_where m vs bs : forall n n' sets Rs views vss actv acs SS FF GG HH,
  inv n m sets Rs views vss actv acs SS FF GG HH -> chain m n vs (map t_body bs) n' -> n' <= m_next m ->
  exists GG', inv n' m sets Rs (views ++ vs) (vss ++ map (fun b => mk_vs b false) bs) actv acs SS FF GG' HH /\
    n <= n' /\ forall j, j < length (views ++ vs) -> GG' j = GG j /\ j < length views \/ Forall (fun l => n <= addr l) (GG' j).
Proof.
  revert bs. induction vs as [|v vs IH]; intros bs n n' sets Rs views vss actv acs SS FF GG HH I H Hn'.
  - inversion H as [k E1 E2 E3|]; subst. destruct bs; [|discriminate]. cbn [map]. rewrite !app_nil_r. exists GG.
    split; [exact I|]. auto.
  - destruct bs as [|b bs]; [inversion H|]. cbn [map] in H. inversion H as [|k v' t g n1 vs' ts n2 H1 H2 Hk H3]; subst.
    pose proof (chain_le _ _ _ _ _ H3).
    destruct (IH bs n1 n' sets Rs (views ++ [v]) (vss ++ [mk_vs b false]) actv acs SS FF (upd GG (length views) g) HH
                (inv_view n n1 m sets Rs views vss actv acs SS FF GG HH v b g I H1 H2 Hk ltac:(lia)) H3 Hn') as (GG' & I' & Hle & Hw).
    exists GG'. rewrite <- !app_assoc in I'. split; [exact I'|]. split; [lia|].
    intros j Hj. destruct (Hw j) as [[E Hj']|K].
    + rewrite <- app_assoc. exact Hj.
    + rewrite app_length in Hj'. cbn [length] in Hj'. destruct (Nat.eq_dec j (length views)) as [->|Hne].
      * right. rewrite E, upd_same. revert H2. apply Forall_impl. intros l. lia.
      * left. rewrite E, upd_other by exact Hne. split; [reflexivity|lia].
    + right. revert K. apply Forall_impl. intros l. lia.
Qed.

(** An action writes only to memory that is in use, and uses only what was in use or is new. *)
Lemma acts_confined n w s w' s' SS FF GG HH :
  inv n (w_mem w) (w_sets w) (s_sets s) (w_views w) (s_views s) (w_active w) (s_active s) SS FF GG HH ->
  acts w s w' s' ->
  exists n' SS' FF' GG' HH',
    inv n' (w_mem w') (w_sets w') (s_sets s') (w_views w') (s_views s') (w_active w') (s_active s') SS' FF' GG' HH' /\
    n <= n' /\ m_next (w_mem w) <= m_next (w_mem w') /\
    (forall p, used (length (w_sets w')) (length (w_views w')) (length (w_active w')) SS' FF' GG' HH' p ->
       used (length (w_sets w)) (length (w_views w)) (length (w_active w)) SS FF GG HH p \/ n <= p) /\
    (forall p, p < n -> ~ used (length (w_sets w)) (length (w_views w)) (length (w_active w)) SS FF GG HH p ->
       m_at (w_mem w') p = m_at (w_mem w) p).
Proof.
  intros I H. pose proof (i_bound _ _ _ _ _ _ _ _ _ _ _ _ I) as Hb0.
  assert (forall m' S F v R, old (w_mem w) m' -> set_at m' v R S F -> new_since (m_next (w_mem w)) m' S F ->
    exists n' SS' FF' GG' HH',
      inv n' m' (w_sets w ++ [v]) (s_sets s ++ [R]) (w_views w) (s_views s) (w_active w) (s_active s) SS' FF' GG' HH' /\
      n <= n' /\ m_next (w_mem w) <= m_next m' /\
      (forall p, used (length (w_sets w ++ [v])) (length (w_views w)) (length (w_active w)) SS' FF' GG' HH' p ->
         used (length (w_sets w)) (length (w_views w)) (length (w_active w)) SS FF GG HH p \/ n <= p) /\
      (forall p, p < n -> ~ used (length (w_sets w)) (length (w_views w)) (length (w_active w)) SS FF GG HH p ->
         m_at m' p = m_at (w_mem w) p)) as Hset.
  { intros m' S F v R Ho A N. pose proof (new_since_earlier _ _ _ _ _ N Hb0) as N'.
    exists (m_next m'), (upd SS (length (w_sets w)) S), (upd FF (length (w_sets w)) F), GG, HH.
    split; [exact (inv_set n _ _ _ _ _ _ _ _ _ _ _ _ _ _ _ (inv_old _ _ _ _ _ _ _ _ _ _ _ _ _ I Ho) A N')|].
    pose proof (proj1 Ho). split; [lia|]. split; [exact (proj1 Ho)|]. split; [|intros p Hp _; apply (proj2 Ho); lia].
    destruct N' as (_ & NS & NF). intros p Hp. rewrite app_length in Hp. cbn [length] in Hp.
    destruct Hp as [(i & Hi & Hp)|[(i & Hi & Hp)|[Hp|Hp]]].
    - destruct (Nat.eq_dec i (length (w_sets w))) as [->|Hne].
      + rewrite upd_same in Hp. right. exact (high_items _ _ _ NS Hp).
      + rewrite upd_other in Hp by exact Hne. left. left. exists i. split; [lia|exact Hp].
    - destruct (Nat.eq_dec i (length (w_sets w))) as [->|Hne].
      + rewrite upd_same in Hp. right. apply in_map_iff in Hp. destruct Hp as (l & <- & Hl). exact (proj1 (within_in _ _ _ _ NF Hl)).
      + rewrite upd_other in Hp by exact Hne. left. right. left. exists i. split; [lia|exact Hp].
    - left. right. right. left. exact Hp.
    - left. right. right. right. exact Hp. }
  destruct H as [w s rs v m' E|w s i v rs v' m' H1 H2 E|w s i v rs c ce e um grow b m' H1 H2 Hc He E
    |w s i v rs mv rv m' H1 H2 E|w s b v m' E|w s j v b f m' b' f' H1 H2 Hs Hn Hm Hs' Hinc|w s i v rs t ms rr m' H1 H2 E];
    cbn [w_mem w_sets w_views w_active s_sets s_views s_active] in *.
  - destruct (new_set_made rs (w_mem w)) as (v' & m'' & E' & Ho & (S & F & A & N)). rewrite E in E'. injection E' as <- <-.
    exact (Hset m' S F v rs Ho A N).
  - destruct (i_set _ _ _ _ _ _ _ _ _ _ _ _ I i v rs (conj H1 H2)) as [A W].
    destruct (set_copy_made _ _ _ _ _ A W) as (v'' & m'' & E' & Ho & (S & F & A' & N)). rewrite E in E'. injection E' as <- <-.
    exact (Hset m' S F v' (rule_set_clone rs) Ho A' N).
  - clear Hset. destruct (edit_goes _ _ _ _ _ _ _ _ _ _ _ _ i v rs c ce e um grow I (conj H1 H2) Hc He)
      as (m'' & G & S' & F' & E' & A' & W' & Ev & HG). rewrite E in E'. injection E' as _ <-.
    assert (i < length (w_sets w)) as Hlt by (apply nth_error_Some; congruence).
    exists (m_next m'), (upd SS i S'), (upd FF i F'), GG, HH.
    split; [exact (inv_edit n _ m' _ _ _ _ _ _ SS FF GG HH i v rs _ S' F' G _ I (conj H1 H2) A' W' Ev HG)|].
    destruct Ev as (K & Es & X). pose proof (proj1 K). split; [lia|]. split; [exact (proj1 K)|]. split.
    + intros p [(k & Hk & Hp)|[(k & Hk & Hp)|[Hp|Hp]]].
      * destruct (Nat.eq_dec k i) as [->|Hne].
        -- rewrite upd_same in Hp. destruct (evolves_addr _ _ _ _ Es Hp) as [Q|Q]; [right; lia|]. left. left. eauto.
        -- rewrite upd_other in Hp by exact Hne. left. left. eauto.
      * destruct (Nat.eq_dec k i) as [->|Hne].
        -- rewrite upd_same in Hp. apply in_map_iff in Hp. destruct Hp as (l & <- & Hl). destruct (X l Hl) as [Q|[Q|Q]].
           ++ left. right. left. exists i. split; [exact Hk|]. exact (in_map addr _ _ Q).
           ++ destruct (HG l Q) as (j & _ & Hj & Q'). left. right. right. left. exists j. split; [exact Hj|]. exact (in_map addr _ _ Q').
           ++ right. lia.
        -- rewrite upd_other in Hp by exact Hne. left. right. left. eauto.
      * left. right. right. left. exact Hp.
      * left. right. right. right. exact Hp.
    + intros p Hp Hu. apply (proj2 K p); [lia|]. intro Hin. apply Hu. left. eauto.
  - clear Hset. destruct (i_set _ _ _ _ _ _ _ _ _ _ _ _ I i v rs (conj H1 H2)) as [A W].
    destruct (set_views_chained _ _ _ _ _ A W) as (vs & m'' & E' & Ho & (n' & Hch & Hle)). rewrite E in E'. injection E' as <- <-.
    destruct (chain_skip _ n _ _ _ _ Hb0 Hch) as (n2 & Hch' & Hle').
    destruct (inv_views_where m' _ _ n n2 _ _ _ _ _ _ _ _ _ _ (inv_old _ _ _ _ _ _ _ _ _ _ _ _ _ I Ho) Hch' ltac:(lia)) as (GG' & I' & Hnn & Hw).
    exists n2, SS, FF, GG', HH. split; [exact I'|]. split; [exact Hnn|]. split; [exact (proj1 Ho)|].
    split; [|intros p Hp _; apply (proj2 Ho); lia].
    intros p [Hp|[Hp|[(j & Hj & Hp)|Hp]]].
    + left. left. exact Hp.
    + left. right. left. exact Hp.
    + destruct (Hw j Hj) as [[Eg Hj']|Q].
      * rewrite Eg in Hp. left. right. right. left. eauto.
      * right. apply in_map_iff in Hp. destruct Hp as (l & <- & Hl). exact (proj1 (Forall_forall _ _) Q l Hl).
    + left. right. right. right. exact Hp.
  - clear Hset. destruct (new_view_body_shown b (w_mem w)) as (v' & m'' & E' & Ho & (g & Hs & Wg)). rewrite E in E'. injection E' as <- <-.
    exists (m_next m'), SS, FF, (upd GG (length (w_views w)) g), HH.
    pose proof (proj1 Ho) as Hb'. pose proof (within_wider _ _ _ _ _ Wg Hb0 (le_n _)) as Wg'.
    split; [apply (inv_view n); [exact (inv_old _ _ _ _ _ _ _ _ _ _ _ _ _ I Ho)|exact Hs|exact Wg'|lia|lia]|].
    split; [lia|]. split; [exact Hb'|]. split; [|intros p Hp _; apply (proj2 Ho); lia].
    intros p [Hp|[Hp|[(j & Hj & Hp)|Hp]]].
    + left. left. exact Hp.
    + left. right. left. exact Hp.
    + destruct (Nat.eq_dec j (length (w_views w))) as [->|Hne].
      * rewrite upd_same in Hp. right. apply in_map_iff in Hp. destruct Hp as (l & <- & Hl). exact (proj1 (within_in _ _ _ _ Wg' Hl)).
      * rewrite upd_other in Hp by exact Hne. rewrite app_length in Hj. cbn [length] in Hj. left. right. right. left. exists j. split; [lia|exact Hp].
    + left. right. right. right. exact Hp.
  - clear Hset. destruct (i_view _ _ _ _ _ _ _ _ _ _ _ _ I j v _ (conj H1 H2)) as (A & _ & _). cbn [vs_body] in A.
    destruct (shows_det _ _ _ _ _ _ A Hs) as [_ Ef]. subst f.
    assert (j < length (w_views w)) as Hlt by (apply nth_error_Some; congruence).
    exists n, SS, FF, (upd GG j f'), HH.
    split; [exact (inv_write n _ m' _ _ _ _ _ _ SS FF GG HH j v b b' f' I (conj H1 H2) Hn Hm Hs' Hinc)|].
    split; [lia|]. split; [lia|]. split.
    + intros p [Hp|[Hp|[(k & Hk & Hp)|Hp]]].
      * left. left. exact Hp.
      * left. right. left. exact Hp.
      * left. right. right. left. destruct (Nat.eq_dec k j) as [->|Hne].
        -- rewrite upd_same in Hp. exists j. split; [exact Hk|]. exact (Hinc p Hp).
        -- rewrite upd_other in Hp by exact Hne. eauto.
      * left. right. right. right. exact Hp.
    + intros p Hp Hu. apply Hm. intro Hin. apply Hu. right. right. left. eauto.
  - clear Hset. destruct (i_set _ _ _ _ _ _ _ _ _ _ _ _ I i v rs (conj H1 H2)) as [A W].
    destruct (set_active_seen _ _ _ _ _ t A W) as (x & m'' & E' & Ho & (f & g & Hf & Hg & Hb & Hl)).
    rewrite E in E'. injection E' as <- <-.
    assert (i < length (w_sets w)) as Hlt by (apply nth_error_Some; congruence).
    exists (m_next m'), SS, FF, GG, (upd HH (length (w_active w)) (f ++ g)).
    assert (forall l, In l (f ++ g) -> seen n (SS i) (FF i) (existsb (waiting t) (rs_mapping rs) || existsb (waiting t) (rs_rollup rs)) l) as Hl'.
    { intros l Hin. apply (seen_wider (m_next (w_mem w)) n (SS i) (SS i) (FF i) (FF i) _ _ l (Hl l Hin)); auto using incl_refl. }
    split.
    + apply (inv_active n) with (v := v) (R := rs); [exact (inv_old _ _ _ _ _ _ _ _ _ _ _ _ _ I Ho)|exact (conj H1 H2)| |exact Hb|exact Hl'].
      exists f, g. auto.
    + pose proof (proj1 Ho). split; [lia|]. split; [exact (proj1 Ho)|]. split; [|intros p Hp _; apply (proj2 Ho); lia].
      intros p [Hp|[Hp|[Hp|(k & Hk & Hp)]]].
      * left. left. exact Hp.
      * left. right. left. exact Hp.
      * left. right. right. left. exact Hp.
      * destruct (Nat.eq_dec k (length (w_active w))) as [->|Hne].
        -- rewrite upd_same in Hp. apply in_map_iff in Hp. destruct Hp as (l & <- & Hin).
           destruct (Hl' l Hin) as [Q|[Q|[(x & y & -> & Q)|[_ Q]]]].
           ++ right. exact Q.
           ++ left. right. left. exists i. split; [exact Hlt|]. exact (in_map addr _ _ Q).
           ++ left. left. exists i. split; [exact Hlt|]. exact (in_map iaddr _ _ Q).
           ++ left. left. exists i. split; [exact Hlt|exact Q].
        -- rewrite upd_other in Hp by exact Hne. rewrite app_length in Hk. cbn [length] in Hk.
           left. right. right. right. exists k. split; [lia|exact Hp].
Qed.
