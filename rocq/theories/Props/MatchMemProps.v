(** Matching in memory: what a program that matches against active rule sets and keeps the results sees.
    Each theorem is stated with the vocabulary of [Spec/MatchMemSpec.v]. *)
From Coq Require Import Ascii String Arith NArith ZArith Bool Lia Permutation Sorting.Sorted List.
From Verif.Proof Require Import MemProof RuleMemRead MatchMemSep MatchMemForward MatchMemReverse.
From Verif.Base Require Import Bytes Mem.
From Verif.Model Require Import AggType Policy Transformation Pipeline Metadata Filter MetricID Rules RuleSet
  RuleMem MatchMem.
From Verif.Spec Require Import RuleMemSpec MatchMemSpec.
From Verif.Props Require Import RulesProps.
Import ListNotations.
Open Scope nat_scope.

(** ** C81: a match changes nothing, and its result belongs to the caller *)

(** A forward or reverse match with the rules in memory ends without a panic, and the result is the one that
    the rules demand.  No memory that existed before is written to: neither the rules nor the package
    variables nor earlier results.  The result consists of new memory and of the package variables. *)
Theorem C81_match : forall m g G grow x a q,
  globals_are m g G -> active_is m x a ->
  exists v m' f,
    ask g grow (x, q) m = Some (v, m') /\ shows m' v (t_result (answer a q)) f /\
    nothing_changed m m' /\ own_or_global m m' G f.
Proof.
  intros m g G grow x a q Hg Ha.
  assert (Forall (fun l => addr l < m_next m) G) as HG by (destruct Hg as (? & ? & ? & ? & ? & ? & K); apply K).
  destruct q as [id from to|id from to mt t multi opts]; unfold ask, answer; cbn [fst snd].
  - destruct (forward_run m G HG g Hg x a Ha grow id from to) as (v & m' & W & F & E & _ & (Hold & _) & _ & _ & f & Hs & Ho).
    exists v, m', f. auto.
  - destruct (reverse_run m G HG g Hg x a Ha mt t opts grow id from to multi) as (v & m' & W & F & E & _ & (Hold & _) & _ & _ & f & Hs & Ho).
    exists v, m', f. auto.
Qed.
Print Assumptions C81_match.

Lemma globals_kept m m' g G : globals_are m g G -> m_next m <= m_next m' ->
  (forall p, p < m_next m -> m_at m' p = m_at m p) -> globals_are m' g G.
Proof.
  intros (a & b & c & d & f1 & f2 & E1 & E2 & H1 & H2 & -> & Hb) Hn Hp. exists a, b, c, d, f1, f2.
  apply Forall_app in Hb as Hb2. destruct Hb2 as [Hb1 Hb2].
  split; [exact E1|]. split; [exact E2|]. split; [|split; [|split; [reflexivity|]]].
  - exact (shows_old m m' _ _ _ (conj Hn Hp) Hb1 H1).
  - exact (shows_old m m' _ _ _ (conj Hn Hp) Hb2 H2).
  - eapply Forall_impl; [|exact Hb]. cbn beta. intros l Hl. lia.
Qed.
Lemma active_kept m m' x a : active_is m x a -> m_next m <= m_next m' ->
  (forall p, p < m_next m -> m_at m' p = m_at m p) -> active_is m' x a.
Proof.
  intros (E1 & E2 & E3 & E4 & E5 & f1 & f2 & H1 & H2 & Hb) Hn Hp.
  apply Forall_app in Hb as Hb2. destruct Hb2 as [Hb1 Hb2].
  split; [exact E1|]. split; [exact E2|]. split; [exact E3|]. split; [exact E4|]. split; [exact E5|]. exists f1, f2.
  split; [exact (shows_old m m' _ _ _ (conj Hn Hp) Hb1 H1)|]. split; [exact (shows_old m m' _ _ _ (conj Hn Hp) Hb2 H2)|].
  eapply Forall_impl; [|exact Hb]. cbn beta. intros l Hl. lia.
Qed.

(** After any number of matches, with any active rule sets, every result is still what it was when it was
    returned, and no two results share memory other than the package variables. *)
Theorem C81_history : forall g G grow l m,
  globals_are m g G -> (forall x a q, In (x, a, q) l -> active_is m x a) ->
  exists vs m' fs,
    each (ask g grow) (map (fun e => (fst (fst e), snd e)) l) m = Some (vs, m') /\
    nothing_changed m m' /\ answers m m' G l vs fs /\ length vs = length l /\ length fs = length l /\ apart G fs.
Proof.
  intros g G grow. induction l as [|[[x a] q] l IH]; intros m Hg Hl.
  { exists [], m, []. split; [reflexivity|]. split; [split; auto|]. split; [intros [|i]; discriminate|]. split; [reflexivity|].
    split; [reflexivity|]. intros [|i] j; discriminate. }
  destruct (C81_match m g G grow x a q Hg (Hl x a q (or_introl eq_refl))) as (v & m1 & f & E1 & Hs & (Hn1 & Hp1) & Ho).
  destruct (IH m1) as (vs & m' & fs & E2 & (Hn2 & Hp2) & Han & L1 & L2 & Hap).
  { exact (globals_kept m m1 g G Hg Hn1 Hp1). }
  { intros y b r Hin. exact (active_kept m m1 y b (Hl y b r (or_intror Hin)) Hn1 Hp1). }
  assert (Forall (fun l => addr l < m_next m) G) as HG by (destruct Hg as (? & ? & ? & ? & ? & ? & K); apply K).
  assert (below (m_next m1) f) as Hbf.
  { eapply Forall_impl; [|exact Ho]. intros k [K|K]; [lia|]. pose proof (proj1 (Forall_forall _ _) HG k K) as Hlt. cbn beta in Hlt. lia. }
  exists (v :: vs), m', (f :: fs). split.
  { cbn [map each fst snd]. unfold bind at 1. rewrite E1. unfold bind at 1. rewrite E2. reflexivity. }
  split; [split; [lia|]; intros p Hp; rewrite Hp2 by lia; apply Hp1; exact Hp|].
  assert (forall i fi, nth_error fs i = Some fi -> forall k, In k fi -> m_next m1 <= addr k \/ In k G) as Hnew.
  { intros i fi Ei k Hk. assert (i < length l) as Hi by (rewrite <- L2; apply nth_error_Some; congruence).
    apply nth_error_Some in Hi. destruct (nth_error l i) as [[[y b] r]|] eqn:El; [|congruence].
    destruct (Han i y b r El) as (v' & f' & _ & Ef & _ & Ho'). rewrite Ei in Ef. injection Ef as <-.
    destruct (proj1 (Forall_forall _ _) Ho' k Hk); [left; lia|right; assumption]. }
  assert (forall i fi, nth_error fs i = Some fi -> forall k l, In k f -> In l fi -> addr k = addr l -> In k G /\ In l G) as Hcross.
  { intros i fi Ei k l' Hk Hl' E. pose proof (proj1 (Forall_forall _ _) Hbf k Hk) as Hlt. cbn beta in Hlt.
    destruct (Hnew i fi Ei l' Hl') as [K|K]; [lia|]. split; [|exact K].
    pose proof (proj1 (Forall_forall _ _) HG l' K) as Hlt2. cbn beta in Hlt2.
    destruct (proj1 (Forall_forall _ _) Ho k Hk) as [K2|K2]; [lia|exact K2]. }
  split; [|split; [cbn [length]; lia|split; [cbn [length]; lia|]]].
  - intros [|i] y b r E.
    + cbn [nth_error] in E. injection E as <- <- <-. exists v, f. split; [reflexivity|]. split; [reflexivity|]. split.
      * exact (shows_old m1 m' _ _ _ (conj Hn2 Hp2) Hbf Hs).
      * eapply Forall_impl; [|exact Ho]. intros k [K|K]; [left; lia|right; exact K].
    + cbn [nth_error] in *. destruct (Han i y b r E) as (v' & f' & Ev & Ef & Hs' & Ho'). exists v', f'. split; [exact Ev|]. split; [exact Ef|].
      split; [exact Hs'|]. eapply Forall_impl; [|exact Ho']. intros k [K|K]; [left; lia|right; exact K].
  - intros [|i] [|j] fi fj Hij Ei Ej k l' Hk Hl' E; cbn [nth_error] in *.
    + congruence.
    + injection Ei as <-. exact (Hcross j fj Ej k l' Hk Hl' E).
    + injection Ej as <-. destruct (Hcross i fi Ei l' k Hl' Hk (eq_sym E)). auto.
    + exact (Hap i j fi fj ltac:(congruence) Ei Ej k l' Hk Hl' E).
Qed.
Print Assumptions C81_history.

(** What the caller then does to one result, as long as it leaves the package variables alone, does not show
    in any other result, nor in the rules: later matches give the same answers. *)
Theorem C81_independent : forall g G l m m' vs fs i fi m'',
  globals_are m g G -> nothing_changed m m' -> answers m m' G l vs fs -> apart G fs ->
  length fs = length l -> nth_error fs i = Some fi -> written_within m' m'' G fi ->
  globals_are m'' g G /\ (forall x a, active_is m x a -> active_is m'' x a) /\
  (forall j x a q, j <> i -> nth_error l j = Some (x, a, q) ->
     exists v f, nth_error vs j = Some v /\ shows m'' v (t_result (answer a q)) f).
Proof.
  intros g G l m m' vs fs i fi m'' Hg (Hn & Hp) Han Hap Len Ei (Hn2 & Hp2).
  assert (Forall (fun l => addr l < m_next m) G) as HG by (destruct Hg as (? & ? & ? & ? & ? & ? & K); apply K).
  assert (forall k, In k fi -> m_next m <= addr k \/ In k G) as Hfi.
  { assert (i < length l) as Hi by (rewrite <- Len; apply nth_error_Some; congruence).
    apply nth_error_Some in Hi. destruct (nth_error l i) as [[[y b] r]|] eqn:El; [|congruence].
    destruct (Han i y b r El) as (v' & f' & _ & Ef & _ & Ho'). rewrite Ei in Ef. injection Ef as <-.
    intros k Hk. destruct (proj1 (Forall_forall _ _) Ho' k Hk); [left; lia|right; assumption]. }
  assert (forall p, p < m_next m -> m_at m'' p = m_at m p) as Hold.
  { intros p Hlt. rewrite <- (Hp p Hlt). apply Hp2; [lia|]. intros k Hk <-. destruct (Hfi k Hk); [lia|assumption]. }
  split; [apply (globals_kept m m'' g G Hg); [lia|exact Hold]|].
  split; [intros x a Ha; apply (active_kept m m'' x a Ha); [lia|exact Hold]|].
  intros j x a q Hij El. destruct (Han j x a q El) as (v & f & Ev & Ef & Hs & Ho). exists v, f. split; [exact Ev|].
  apply (shows_frame m' m'' _ _ _ Hs). apply agree_all_same. intros p Hpf. apply in_map_iff in Hpf. destruct Hpf as (k & <- & Hk).
  apply Hp2.
  - destruct (proj1 (Forall_forall _ _) Ho k Hk) as [K|K]; [lia|]. pose proof (proj1 (Forall_forall _ _) HG k K) as Hlt. cbn beta in Hlt. lia.
  - intros k' Hk' E. exact (proj1 (Hap i j fi f (not_eq_sym Hij) Ei Ef k' k Hk' Hk E)).
Qed.
Print Assumptions C81_independent.

(** *** An example *)

(** Put a plain value into memory. *)
Fixpoint store (t : tree) : prog val :=
  let all := fix all (l : list tree) : prog (list val) :=
    match l with [] => ret [] | t :: l' => v <- store t ;; vs <- all l' ;; ret (v :: vs) end in
  match t with
  | TAtom a => ret (VAtom a)
  | TStruct l => vs <- all l ;; ret (VStruct vs)
  | TList [] => ret VNil
  | TList l => vs <- all l ;; make_slice vs
  | TRef l => vs <- all l ;; fun m => Some (VPtr (m_next m), mk_mem (m_at (put (m_next m) vs m)) (S (m_next m)))
  end.

(** Requests from production are dropped from 10 to 20; before and after there are pipelines. *)
Definition c81_set : active_ruleset :=
  set_of [mk_rule (B "a") [msnap false 5 (tag_is "env" "prod") [sp 1 2] 0];
          mk_rule (B "d") [msnap false 10 (tag_is "env" "prod") [] 1; msnap true 20 (tag_is "env" "prod") [] 0]] ex_rollups.

Definition c81_start : option (globals * mem_active * memory) :=
  match (d <- store (t_pms drop_pipeline_metadatas) ;; e <- store (t_pms [default_pipeline_metadata]) ;;
         x <- store (t_rules t_mbody (as_mapping c81_set)) ;; y <- store (t_rules t_rbody (as_rollup c81_set)) ;;
         ret (mk_globals d e, mk_ma (as_version c81_set) x y (as_cutovers c81_set) (as_opts c81_set) (as_new_id c81_set) (as_is_rollup c81_set)))
        (mk_mem (fun _ => []) 0) with
  | Some ((g, x), m) => Some (g, x, m)
  | None => None
  end.
Definition c81_g := match c81_start with Some (g, _, _) => g | None => mk_globals VNil VNil end.
Definition c81_x := match c81_start with Some (_, x, _) => x | None => mk_ma 0 VNil VNil [] m3_opts (fun _ _ => []) (fun _ _ => false) end.
Definition c81_m := match c81_start with Some (_, _, m) => m | None => mk_mem (fun _ => []) 0 end.
Definition c81_G : list look :=
  match read 20 c81_m (g_drop c81_g), read 20 c81_m (g_default c81_g) with
  | Some (_, f1), Some (_, f2) => f1 ++ f2
  | _, _ => []
  end.

Lemma c81_globals : globals_are c81_m c81_g c81_G.
Proof.
  assert (exists a b c d f1 f2, g_drop c81_g = VSlice a b 1 1 /\ g_default c81_g = VSlice c d 1 1 /\
    read 20 c81_m (g_drop c81_g) = Some (t_pms drop_pipeline_metadatas, f1) /\
    read 20 c81_m (g_default c81_g) = Some (t_pms [default_pipeline_metadata], f2) /\ c81_G = f1 ++ f2 /\
    forallb (fun l => addr l <? m_next c81_m) c81_G = true) as (a & b & c & d & f1 & f2 & E1 & E2 & H1 & H2 & E3 & H3).
  { eexists _, _, _, _, _, _. split; [vm_compute; reflexivity|]. split; [vm_compute; reflexivity|]. split; [vm_compute; reflexivity|].
    split; [vm_compute; reflexivity|]. split; vm_compute; reflexivity. }
  exists a, b, c, d, f1, f2. split; [exact E1|]. split; [exact E2|]. split; [exact (read_shows _ _ _ _ _ H1)|].
  split; [exact (read_shows _ _ _ _ _ H2)|]. split; [exact E3|]. rewrite forallb_forall in H3. apply Forall_forall. intros l Hl.
  apply Nat.ltb_lt. exact (H3 l Hl).
Qed.
Lemma c81_active : active_is c81_m c81_x c81_set.
Proof.
  assert (exists f1 f2, read 20 c81_m (ma_mapping c81_x) = Some (t_rules t_mbody (as_mapping c81_set), f1) /\
    read 20 c81_m (ma_rollup c81_x) = Some (t_rules t_rbody (as_rollup c81_set), f2) /\
    forallb (fun l => addr l <? m_next c81_m) (f1 ++ f2) = true) as (f1 & f2 & H1 & H2 & H3).
  { eexists _, _. split; [vm_compute; reflexivity|]. split; vm_compute; reflexivity. }
  split; [reflexivity|]. split; [reflexivity|]. split; [reflexivity|]. split; [reflexivity|]. split; [reflexivity|]. exists f1, f2.
  split; [exact (read_shows _ _ _ _ _ H1)|]. split; [exact (read_shows _ _ _ _ _ H2)|]. rewrite forallb_forall in H3. apply Forall_forall. intros l Hl.
  apply Nat.ltb_lt. exact (H3 l Hl).
Qed.

Definition c81_query : query := Forward metric 15 30.
Definition c81_reverse : query := Reverse metric 6 30 CounterMetric 7%Z false new_types_options.

(** The hypotheses are met; the forward match from 15 on has a dropping stage and one after it, and one new
    ID; the reverse match has several stages too. *)
Example C81_nonvacuous :
  globals_are c81_m c81_g c81_G /\ active_is c81_m c81_x c81_set /\
  map (fun s => (sm_cutover s, length (sm_pipelines s))) (mr_existing (answer c81_set c81_query)) = [(10%Z, 1); (20%Z, 2)] /\
  map (fun e => length (snd e)) (mr_news (answer c81_set c81_query)) = [2] /\
  map sm_cutover (mr_existing (answer c81_set c81_reverse)) = [5; 10; 20]%Z.
Proof.
  split; [exact c81_globals|]. split; [exact c81_active|]. split; [vm_compute; reflexivity|]. split; vm_compute; reflexivity.
Qed.

(** The hypotheses of [C81_independent] are met when two matches were made and the first result is wiped out. *)
Definition wiped (n : nat) (f : list look) (m : memory) : memory :=
  mk_mem (fun p => if existsb (fun l => Nat.eqb (addr l) p && (n <=? p)) f then [] else m_at m p) (m_next m).
Lemma wiped_met : forall g G m x a q x' a' q', globals_are m g G -> active_is m x a -> active_is m x' a' ->
  exists vs m' fs fi,
  nothing_changed m m' /\ answers m m' G [(x, a, q); (x', a', q')] vs fs /\ apart G fs /\ length fs = 2 /\
  nth_error fs 0 = Some fi /\ written_within m' (wiped (m_next m) fi m') G fi.
Proof.
  intros g G m x a q x' a' q' HG Ha Ha'.
  destruct (C81_history g G (fun n => n) [(x, a, q); (x', a', q')] m HG) as (vs & m' & fs & _ & H1 & H2 & _ & H3 & H4).
  { intros y b r [E|[E|[]]]; injection E as <- <- _; assumption. }
  destruct fs as [|fi fs]; [discriminate|]. exists vs, m', (fi :: fs), fi. split; [exact H1|]. split; [exact H2|]. split; [exact H4|].
  split; [exact H3|]. split; [reflexivity|]. split; [apply Nat.le_refl|]. intros p _ Hp. unfold wiped. cbn [m_at].
  destruct (existsb _ fi) eqn:E; [|reflexivity]. apply existsb_exists in E. destruct E as (k & Hk & E). apply andb_prop in E. destruct E as [E1 E2].
  apply Nat.eqb_eq in E1. apply Nat.leb_le in E2. specialize (Hp k Hk E1).
  destruct HG as (c & d & e & f & f1 & f2 & _ & _ & _ & _ & _ & HG). pose proof (proj1 (Forall_forall _ _) HG k Hp) as K. cbn beta in K. lia.
Qed.
Example C81_independent_nonvacuous : exists vs m' fs fi,
  nothing_changed c81_m m' /\ answers c81_m m' c81_G [(c81_x, c81_set, c81_query); (c81_x, c81_set, c81_reverse)] vs fs /\
  apart c81_G fs /\ length fs = 2 /\ nth_error fs 0 = Some fi /\ written_within m' (wiped (m_next c81_m) fi m') c81_G fi.
Proof. exact (wiped_met c81_g c81_G c81_m c81_x c81_set c81_query c81_x c81_set c81_reverse c81_globals c81_active c81_active). Qed.

(** What a caller must not do with a result that somebody else holds too, such as the matcher's cache:
    StagedMetadatas.ApplyOrRemoveDropPolicies (metadata/metadata.go:427-478) removes stages by moving the
    others within the array, so that the result it was applied to is another one afterwards. *)
Lemma some_is {A} (o : option A) (d : A) : match o with Some _ => true | None => false end = true ->
  o = Some (match o with Some x => x | None => d end).
Proof. destruct o; [reflexivity|discriminate]. Qed.

Definition c81_run := match ask c81_g (fun _ => 0) (c81_x, c81_query) c81_m with Some r => r | None => (VNil, c81_m) end.
Definition c81_existing : val := match fst c81_run with VStruct [_; _; e; _] => e | _ => VNil end.
Definition c81_dropped :=
  match stages_drop_in_place c81_g c81_existing (snd c81_run) with
  | Some r => r | None => ((VNil, RemovedIneffectiveDropPolicies), c81_m) end.
Definition c81_last : staged_metadata := nth 1 (mr_existing (answer c81_set c81_query)) empty_staged_metadata.

Example C81_apply_drop_writes :
  ask c81_g (fun _ => 0) (c81_x, c81_query) c81_m = Some c81_run /\
  (exists f, shows (snd c81_run) (fst c81_run) (t_result (answer c81_set c81_query)) f) /\
  (exists a b d, fst c81_run = VStruct [a; b; c81_existing; d]) /\
  stages_drop_in_place c81_g c81_existing (snd c81_run) = Some c81_dropped /\
  (exists f, shows (snd c81_dropped) (fst c81_run)
     (t_result (mk_mr (as_version c81_set) (mr_expire (answer c81_set c81_query)) [c81_last; c81_last]
                  (mr_news (answer c81_set c81_query)))) f) /\
  mr_existing (answer c81_set c81_query) <> [c81_last; c81_last].
Proof.
  split; [apply some_is; vm_compute; reflexivity|]. split.
  { assert (exists f, read 20 (snd c81_run) (fst c81_run) = Some (t_result (answer c81_set c81_query), f)) as (f & E)
      by (eexists; vm_compute; reflexivity). exists f. exact (read_shows _ _ _ _ _ E). }
  split; [eexists _, _, _; vm_compute; reflexivity|].
  split; [apply some_is; vm_compute; reflexivity|]. split.
  { assert (exists f, read 20 (snd c81_dropped) (fst c81_run) =
      Some (t_result (mk_mr (as_version c81_set) (mr_expire (answer c81_set c81_query)) [c81_last; c81_last]
                  (mr_news (answer c81_set c81_query))), f)) as (f & E)
      by (eexists; vm_compute; reflexivity). exists f. exact (read_shows _ _ _ _ _ E). }
  intro E. apply (f_equal (map sm_cutover)) in E. vm_compute in E. discriminate.
Qed.
