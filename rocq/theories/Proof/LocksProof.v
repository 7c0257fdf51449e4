(** Proofs for C86: locks are taken in one order, so some goroutine can always go on. *)
From Coq Require Import Arith Bool Lia Wf_nat List.
From Verif.Model Require Import Locks.
From Verif.Spec Require Import LocksSpec.
Import ListNotations.

Definition level (l : lock) : nat :=
  match l with NsValue => 0 | Ns => 1 | RsValue _ => 2 | CacheLock => 3 | Rs _ => 4 | ListLock => 5 end.

Definition below (n : nat) (held : list (lock * bool)) : Prop := forall h, In h held -> level (fst h) < n.

Definition is_close (i : instr) : nat := match i with ICloseChannel => 1 | _ => 0 end.
Definition is_wait (i : instr) : nat := match i with IWaitWorkers => 1 | _ => 0 end.
Definition cl (k : list instr) : nat := list_sum (map is_close k).
Definition wt (k : list instr) : nat := list_sum (map is_wait k).
Definition is_special (i : instr) : nat :=
  match i with IIfClosed _ _ | ICloseChannel | IWaitWorkers => 1 | _ => 0 end.
Definition sp (k : list instr) : nat := list_sum (map is_special k).

(** The lock that protects a location. *)
Definition guard (x : location) : lock :=
  match x with
  | LNamespaces | LToDelete | LClosed | LMap _ => CacheLock
  | LList => ListLock
  | LRules => Ns
  | LRuleSet o => Rs o
  end.

Definition has_lock (held : list (lock * bool)) (l : lock) (w : bool) : Prop :=
  In (l, true) held \/ (w = false /\ In (l, false) held).

(** [allowed held v a v']: access [a] is allowed with the locks [held]; [v] says whether the variable for the map can be used
    before, [v'] after. *)
Definition allowed (held : list (lock * bool)) (v : bool) (a : access) (v' : bool) : Prop :=
  match a with
  | Touch x w => has_lock held (guard x) w /\ (forall m, x <> LMap m) /\ v' = v
  | FindMap _ => has_lock held CacheLock false /\ v' = true
  | TouchMap w => has_lock held CacheLock w /\ v = true /\ v' = true
  | DetachMap _ => has_lock held CacheLock true /\ v' = false
  | InstallMap _ => has_lock held CacheLock true /\ v' = true
  | TakeMaps => has_lock held CacheLock true /\ v' = false
  | ReadTaken _ => v' = v
  end.

(** Whether the variable for the map is used before it is set. *)
Fixpoint uses (k : list instr) : bool :=
  match k with
  | [] => false
  | IAccess (TouchMap _) :: _ => true
  | IAccess (FindMap _) :: _ | IAccess (InstallMap _) :: _ => false
  | _ :: k => uses k
  end.

Definition released (l : lock) (v : bool) : bool := if lock_eqb l CacheLock then false else v.

Inductive ok : list (lock * bool) -> bool -> list instr -> Prop :=
| ok_nil : ok [] false []
| ok_lock held v l k : below (level l) held -> (l = CacheLock -> v = false) -> ok ((l, true) :: held) v k -> ok held v (ILock l :: k)
| ok_rlock held v l k : below (level l) held -> (l = CacheLock -> v = false) -> ok ((l, false) :: held) v k -> ok held v (IRLock l :: k)
| ok_unlock held v l k : ok held (released l v) k -> ok ((l, true) :: held) v (IUnlock l :: k)
| ok_runlock held v l k : ok held (released l v) k -> ok ((l, false) :: held) v (IRUnlock l :: k)
| ok_ne held v k : ok held v k -> ok held v (INotifyEviction :: k)
| ok_nd held v k : ok held v k -> ok held v (INotifyDeletion :: k)
| ok_if held v y n : ok held v y -> ok held v n -> In (CacheLock, true) held -> uses y = false -> uses n = false ->
    cl y = 0 -> wt y = 0 -> cl n = 1 -> wt n <= 1 -> ok held v [IIfClosed y n]
| ok_close : ok [] false [ICloseChannel; IWaitWorkers]
| ok_wait : ok [] false [IWaitWorkers]
| ok_access held v v' a k : allowed held v a v' -> ok held v' k -> ok held v (IAccess a :: k).

Lemma lock_eqb_eq a b : lock_eqb a b = true <-> a = b.
Proof.
  destruct a, b; cbn [lock_eqb]; try (split; congruence); rewrite Nat.eqb_eq; split; congruence.
Qed.
Lemma lock_eqb_refl a : lock_eqb a a = true.
Proof. now apply lock_eqb_eq. Qed.

Lemma list_sum_cons x a : list_sum (x :: a) = x + list_sum a.
Proof. reflexivity. Qed.

Lemma cl_app a b : cl (a ++ b) = cl a + cl b.
Proof. unfold cl. now rewrite map_app, list_sum_app. Qed.
Lemma wt_app a b : wt (a ++ b) = wt a + wt b.
Proof. unfold wt. now rewrite map_app, list_sum_app. Qed.
Lemma sp_app a b : sp (a ++ b) = sp a + sp b.
Proof. unfold sp. now rewrite map_app, list_sum_app. Qed.
Lemma cl_cons i k : cl (i :: k) = is_close i + cl k.
Proof. reflexivity. Qed.
Lemma wt_cons i k : wt (i :: k) = is_wait i + wt k.
Proof. reflexivity. Qed.
Lemma sp_cons i k : sp (i :: k) = is_special i + sp k.
Proof. reflexivity. Qed.
Lemma cl_sp k : cl k <= sp k.
Proof. induction k as [|x k IH]; [reflexivity|]. rewrite cl_cons, sp_cons. destruct x; cbn [is_close is_special]; lia. Qed.
Lemma wt_sp k : wt k <= sp k.
Proof. induction k as [|x k IH]; [reflexivity|]. rewrite wt_cons, sp_cons. destruct x; cbn [is_wait is_special]; lia. Qed.

(** Blocks: code that takes locks of some level and above, and gives them up.  [inner] blocks run with the cache's lock. *)
Definition block (n : nat) (c : list instr) : Prop :=
  (forall held k, below n held -> ok held false k -> ok held false (c ++ k)) /\ sp c = 0.
Definition free (n : nat) (c : list instr) : Prop :=
  (forall held v k, below n held -> ok held v k -> ok held v (c ++ k)) /\ sp c = 0.
Definition inner (w v v' : bool) (c : list instr) : Prop :=
  (forall held k, In (CacheLock, w) held -> below 4 held -> ok held v' k -> ok held v (c ++ k)) /\ sp c = 0.

Lemma below_le n m held : n <= m -> below n held -> below m held.
Proof. intros L H h I. specialize (H h I). lia. Qed.
Lemma below_cons n l w held : level l < n -> below n held -> below n ((l, w) :: held).
Proof. intros L H h [<-|I]; [exact L|now apply H]. Qed.

Lemma free_block n c : free n c -> block n c.
Proof. intros (H & S). split; [|exact S]. intros held k. apply H. Qed.
Lemma free_inner w v c : free 4 c -> inner w v v c.
Proof. intros (H & S). split; [|exact S]. intros held k _. apply H. Qed.
Lemma free_le n m c : m <= n -> free n c -> free m c.
Proof. intros L (H & R). split; [|exact R]. intros held v k B. apply H. now apply (below_le m). Qed.
Lemma block_le n m c : m <= n -> block n c -> block m c.
Proof. intros L (H & R). split; [|exact R]. intros held k B. apply H. now apply (below_le m). Qed.

Lemma block_nil n : block n [].
Proof. split; [|reflexivity]. intros held k _ H. exact H. Qed.
Lemma inner_nil w v : inner w v v [].
Proof. split; [|reflexivity]. intros held k _ _ H. exact H. Qed.
Lemma block_app n a b : block n a -> block n b -> block n (a ++ b).
Proof.
  intros (Ha & Ca) (Hb & Cb). split.
  - intros held k L H. rewrite <- app_assoc. apply Ha; [exact L|]. now apply Hb.
  - rewrite sp_app. lia.
Qed.
Lemma inner_app w v v1 v2 a b : inner w v v1 a -> inner w v1 v2 b -> inner w v v2 (a ++ b).
Proof.
  intros (Ha & Ca) (Hb & Cb). split.
  - intros held k I L H. rewrite <- app_assoc. apply Ha; [exact I|exact L|]. now apply Hb.
  - rewrite sp_app. lia.
Qed.
Lemma block_concat n cs : (forall c, In c cs -> block n c) -> block n (concat cs).
Proof.
  induction cs as [|c cs IH]; intros H; cbn [concat]; [apply block_nil|].
  apply block_app; [apply H; now left|]. apply IH. intros d D. apply H. now right.
Qed.

Lemma released_other l v : l <> CacheLock -> released l v = v.
Proof. unfold released. destruct l; try reflexivity. intros H. now contradiction H. Qed.

(** A lock other than the cache's, with an access it allows. *)
Lemma free_locked n l x w : n <= level l -> l <> CacheLock -> guard x = l -> (forall m, x <> LMap m) ->
  free n [ILock l; IAccess (Touch x w); IUnlock l].
Proof.
  intros L N G M. split; [|reflexivity]. intros held v k B K. cbn [app].
  constructor; [now apply (below_le n)|now intros Z|].
  apply ok_access with (v' := v).
  - cbn [allowed]. rewrite G. split; [left; now left|]. split; [exact M|reflexivity].
  - constructor. rewrite released_other by exact N. exact K.
Qed.
Lemma free_rlocked n l x : n <= level l -> l <> CacheLock -> guard x = l -> (forall m, x <> LMap m) ->
  free n [IRLock l; IAccess (Touch x false); IRUnlock l].
Proof.
  intros L N G M. split; [|reflexivity]. intros held v k B K. cbn [app].
  constructor; [now apply (below_le n)|now intros Z|].
  apply ok_access with (v' := v).
  - cbn [allowed]. rewrite G. split; [right; split; [reflexivity|now left]|]. split; [exact M|reflexivity].
  - constructor. rewrite released_other by exact N. exact K.
Qed.

(** A block within a lock of lower level. *)
Lemma block_locked n l c : n <= level l -> l <> CacheLock -> block (S (level l)) c -> block n ([ILock l] ++ c ++ [IUnlock l]).
Proof.
  intros L N (H & C). split.
  - intros held k B K. cbn [app]. constructor; [now apply (below_le n)|reflexivity|].
    rewrite <- app_assoc. apply H; [|cbn [app]; constructor; rewrite released_other by exact N; exact K].
    apply below_cons; [lia|]. apply (below_le n); [lia|exact B].
  - rewrite !sp_app, C. reflexivity.
Qed.

(** An inner block within the cache's lock. *)
Lemma inner_locked c v : inner true false v c -> block 3 ([ILock CacheLock] ++ c ++ [IUnlock CacheLock]).
Proof.
  intros (H & C). split.
  - intros held k B K. cbn [app]. constructor; [exact B|reflexivity|].
    rewrite <- app_assoc. apply H; [now left| |cbn [app]; constructor; exact K].
    apply below_cons; [cbn [level]; lia|]. apply (below_le 3); [lia|exact B].
  - rewrite !sp_app, C. reflexivity.
Qed.
Lemma inner_rlocked c v : inner false false v c -> block 3 ([IRLock CacheLock] ++ c ++ [IRUnlock CacheLock]).
Proof.
  intros (H & C). split.
  - intros held k B K. cbn [app]. constructor; [exact B|reflexivity|].
    rewrite <- app_assoc. apply H; [now left| |cbn [app]; constructor; exact K].
    apply below_cons; [cbn [level]; lia|]. apply (below_le 3); [lia|exact B].
  - rewrite !sp_app, C. reflexivity.
Qed.

Lemma has_lock_any held l w w' : In (l, w) held -> (w = false -> w' = false) -> has_lock held l w'.
Proof. intros I H. destruct w; [now left|right]. split; [now apply H|exact I]. Qed.

Lemma inner_access w v v' a : (forall held, In (CacheLock, w) held -> allowed held v a v') -> inner w v v' [IAccess a].
Proof. intros H. split; [|reflexivity]. intros held k I _ K. cbn [app]. apply ok_access with (v' := v'); [now apply H|exact K]. Qed.
Lemma inner_find w v n : inner w v true [IAccess (FindMap n)].
Proof. apply inner_access. intros held I. split; [|reflexivity]. now apply (has_lock_any held CacheLock w). Qed.
Lemma inner_read w : inner w true true [IAccess (TouchMap false)].
Proof. apply inner_access. intros held I. split; [|split; reflexivity]. now apply (has_lock_any held CacheLock w). Qed.
Lemma inner_write : inner true true true [IAccess (TouchMap true)].
Proof. apply inner_access. intros held I. split; [|split; reflexivity]. now left. Qed.
Lemma inner_detach v n : inner true v false [IAccess (DetachMap n)].
Proof. apply inner_access. intros held I. split; [|reflexivity]. now left. Qed.
Lemma inner_install v n : inner true v true [IAccess (InstallMap n)].
Proof. apply inner_access. intros held I. split; [|reflexivity]. now left. Qed.
Lemma inner_ne w v : inner w v v [INotifyEviction].
Proof. split; [|reflexivity]. intros held k _ _ H. now constructor. Qed.
Lemma inner_nd w v : inner w v v [INotifyDeletion].
Proof. split; [|reflexivity]. intros held k _ _ H. now constructor. Qed.

Ltac lv := cbn [level]; lia.

Lemma free_list : free 5 list_code.
Proof. apply free_locked; [lv|discriminate|reflexivity|discriminate]. Qed.
Lemma inner_list w v : inner w v v list_code.
Proof. apply free_inner. apply (free_le 5); [lia|apply free_list]. Qed.
Lemma free_read n o : n <= 4 -> free n (read_rule_set o).
Proof. intros L. apply free_rlocked; [lv|discriminate|reflexivity|discriminate]. Qed.
Lemma block_read n o : n <= 4 -> block n (read_rule_set o).
Proof. intros L. now apply free_block, free_read. Qed.
Lemma block_write n o : n <= 4 -> block n (write_rule_set o).
Proof. intros L. apply free_block, free_locked; [lv|discriminate|reflexivity|discriminate]. Qed.
Lemma inner_replace v n : inner true v true (replace_code n).
Proof.
  apply (inner_app true v false true [IAccess (DetachMap n)]); [apply inner_detach|].
  apply (inner_app true false false true [INotifyDeletion]); [apply inner_nd|apply inner_install].
Qed.
Lemma inner_invalidate n a : inner true true true (invalidate_code n a).
Proof.
  unfold invalidate_code. destruct a; [apply inner_replace|].
  apply (inner_app true true true true [IAccess (TouchMap false); IAccess (TouchMap true)]); [|apply inner_list].
  apply (inner_app true true true true [IAccess (TouchMap false)]); [apply inner_read|apply inner_write].
Qed.
Lemma inner_set n e o a f : inner true true true (set_code n e o a f).
Proof.
  unfold set_code. apply (inner_app true true true true); [destruct e; [apply inner_invalidate|apply inner_nil]|].
  apply (inner_app true true true true); [apply free_inner, free_read; lia|].
  apply (inner_app true true true true); [apply inner_write|].
  apply (inner_app true true true true); [apply inner_list|]. destruct f; [apply inner_ne|apply inner_nil].
Qed.
Lemma inner_try n f set w : (set = true -> w = true) -> inner w false true (try_get_code n f set).
Proof.
  intros W. unfold try_get_code. apply (inner_app w false true true); [apply inner_find|].
  destruct f as [|p|e o a fl]; [apply inner_nil| |]; (apply (inner_app w true true true); [apply inner_read|]).
  - destruct p; [apply inner_list|apply inner_nil].
  - destruct set; [rewrite (W eq_refl); apply inner_set|apply inner_nil].
Qed.
Lemma block_forward n f1 f2 : block 3 (forward_code n f1 f2).
Proof.
  unfold forward_code. rewrite (app_assoc (try_get_code n f1 false)), (app_assoc [IRLock CacheLock]).
  apply block_app; [apply (inner_rlocked _ true), inner_try; discriminate|].
  destruct f1; try apply block_nil. apply (inner_locked _ true), inner_try. reflexivity.
Qed.
Lemma block_register n p : block 3 (register_code n p).
Proof.
  apply (inner_locked ([IAccess (FindMap n)] ++ (if p then replace_code n else [IAccess (InstallMap n)])) true).
  apply (inner_app true false true true); [apply inner_find|]. destruct p; [apply inner_replace|apply inner_install].
Qed.
Lemma block_refresh n p : block 3 (refresh_code n p).
Proof.
  apply (inner_locked ([IAccess (FindMap n)] ++ (if p then replace_code n else [])) true).
  apply (inner_app true false true true); [apply inner_find|]. destruct p; [apply inner_replace|apply inner_nil].
Qed.
Lemma block_unregister n p : block 3 (unregister_code n p).
Proof.
  unfold unregister_code. destruct p.
  - apply (inner_locked ([IAccess (FindMap n)] ++ [IAccess (DetachMap n); INotifyDeletion]) false).
    apply (inner_app true false true false); [apply inner_find|].
    apply (inner_app true true false false [IAccess (DetachMap n)]); [apply inner_detach|apply inner_nd].
  - apply (inner_locked [IAccess (FindMap n)] true). apply inner_find.
Qed.

Lemma ok_evicted ns held v k : In (CacheLock, true) held -> (forall v', ok held v' k) ->
  ok held v (concat (map (fun n => [IAccess (FindMap n); IAccess (TouchMap true)]) ns) ++ k).
Proof.
  intros I. revert v. induction ns as [|n ns IH]; intros v K; cbn [map concat app]; [apply K|].
  apply ok_access with (v' := true); [split; [now left|reflexivity]|].
  apply ok_access with (v' := true); [split; [now left|split; reflexivity]|]. now apply IH.
Qed.
Lemma sp_concat {A} (f : A -> list instr) l : (forall x, sp (f x) = 0) -> sp (concat (map f l)) = 0.
Proof. intros H. induction l as [|x l IH]; [reflexivity|]. cbn [map concat]. now rewrite sp_app, H, IH. Qed.
Lemma block_evict ns : block 3 (evict_code ns).
Proof.
  split.
  - intros held k B K. unfold evict_code. cbn [app]. constructor; [exact B|reflexivity|].
    constructor; [apply below_cons; [lv|apply (below_le 3); [lv|exact B]]|reflexivity|].
    apply ok_access with (v' := false); [split; [left; now left|split; [discriminate|reflexivity]]|].
    rewrite <- app_assoc. apply ok_evicted; [right; now left|]. intros v'. cbn [app]. constructor. constructor. exact K.
  - unfold evict_code. rewrite !sp_app, sp_concat; reflexivity.
Qed.

Lemma ok_deleted xs held k : below 5 held -> ok held false k ->
  ok ((ListLock, true) :: held) false
    (concat (map (fun x : nat * bool => [IAccess (ReadTaken (fst x)); IAccess (Touch LList true)] ++
       (if snd x then [IUnlock ListLock; ILock ListLock] else [])) xs) ++ IUnlock ListLock :: k).
Proof.
  intros B K. induction xs as [|[i p] xs IH]; cbn [map concat fst snd].
  - cbn [app]. constructor. exact K.
  - cbn [app]. apply ok_access with (v' := false); [reflexivity|].
    apply ok_access with (v' := false); [split; [left; now left|split; [discriminate|reflexivity]]|].
    destruct p; [|exact IH]. cbn [app]. constructor. cbn [released lock_eqb]. constructor; [exact B|reflexivity|exact IH].
Qed.
Lemma block_delete xs : block 3 (delete_code xs).
Proof.
  split.
  - intros held k B K. unfold delete_code. cbn [app]. constructor; [exact B|reflexivity|].
    apply ok_access with (v' := false); [split; [left; now left|split; [discriminate|reflexivity]]|].
    destruct xs as [xs|]; cbn [app]; [|constructor; exact K].
    apply ok_access with (v' := false); [split; [left; now left|reflexivity]|].
    constructor. constructor; [apply (below_le 3); [lv|exact B]|reflexivity|].
    rewrite <- app_assoc. apply ok_deleted; [apply (below_le 3); [lv|exact B]|exact K].
  - unfold delete_code. destruct xs as [xs|]; [|reflexivity]. rewrite !sp_app, sp_concat; [reflexivity|].
    intros [i []]; reflexivity.
Qed.
Lemma block_value n o v : block 3 (rule_set_value_code n o v).
Proof.
  apply block_app; [apply block_write; lv|]. destruct v as [|p]; [apply block_nil|].
  apply block_app; [apply block_write; lv|apply block_refresh].
Qed.
Lemma block_update m n o v : m <= 2 -> block m (rule_set_update_code n o v).
Proof. intros L. apply (block_locked m (RsValue o)); [lv|discriminate|]. destruct v; [apply block_value|apply block_nil]. Qed.

Definition inside (c : list instr) : Prop :=
  (forall held k, In (Ns, true) held -> below 2 held -> ok held false k -> ok held false (c ++ k)) /\ sp c = 0.
Lemma inside_block c : block 2 c -> inside c.
Proof. intros (H & S). split; [|exact S]. intros held k _. apply H. Qed.
Lemma inside_app a b : inside a -> inside b -> inside (a ++ b).
Proof.
  intros (Ha & Ca) (Hb & Cb). split.
  - intros held k I L H. rewrite <- app_assoc. apply Ha; [exact I|exact L|]. now apply Hb.
  - rewrite sp_app. lia.
Qed.
Lemma inside_concat cs : (forall c, In c cs -> inside c) -> inside (concat cs).
Proof.
  induction cs as [|c cs IH]; intros H; cbn [concat]; [apply inside_block, block_nil|].
  apply inside_app; [apply H; now left|]. apply IH. intros d D. apply H. now right.
Qed.
Lemma inside_touch w : inside [IAccess (Touch LRules w)].
Proof.
  split; [|reflexivity]. intros held k I _ K. cbn [app]. apply ok_access with (v' := false); [|exact K].
  split; [now left|split; [discriminate|reflexivity]].
Qed.
Lemma inside_locked n c : n <= 1 -> inside c -> block n ([ILock Ns] ++ c ++ [IUnlock Ns]).
Proof.
  intros L (H & C). split.
  - intros held k B K. cbn [app]. constructor; [apply (below_le n); [lv|exact B]|discriminate|].
    rewrite <- app_assoc. apply H; [now left| |cbn [app]; constructor; exact K].
    apply below_cons; [lv|]. apply (below_le n); [lia|exact B].
  - rewrite !sp_app, C. reflexivity.
Qed.

Lemma inside_entry e : inside (entry_code e).
Proof.
  unfold entry_code. apply inside_app; [apply inside_touch|].
  apply inside_block. apply block_app; [destruct (en_version e); [apply block_read; lia|apply block_nil]|].
  apply block_app; [apply block_update; lia|].
  destruct (en_new e); [apply (block_le 3); [lia|apply block_register]|apply block_nil].
Qed.
Lemma inside_sweep x : inside (sweep_code x).
Proof.
  assert (R : forall o, inside (read_rule_set o)) by (intros o; apply inside_block, block_read; lia).
  unfold sweep_code. apply inside_app; [apply inside_touch|].
  destruct x as [|o|o|n o p].
  - apply inside_block, block_nil.
  - apply R.
  - apply inside_app; apply R.
  - apply inside_app; [apply R|]. apply inside_app; [apply R|]. apply inside_app; [apply R|].
    apply inside_app; [apply inside_block, (block_le 3); [lia|apply block_unregister]|].
    apply inside_app; [apply inside_touch|]. apply inside_block, block_update. lia.
Qed.
Lemma block_ns_update v : block 0 (namespaces_update_code v).
Proof.
  apply (block_locked 0 NsValue); [lv|discriminate|]. destruct v as [v|]; [|apply block_nil].
  apply block_app; [apply free_block, free_locked; [lv|discriminate|reflexivity|discriminate]|].
  destruct v as [[es xs]|]; [|apply block_nil].
  rewrite (app_assoc (concat (map entry_code es))). apply inside_locked; [lv|].
  apply inside_app; apply inside_concat; intros c I; apply in_map_iff in I as (x & <- & _); [apply inside_entry|apply inside_sweep].
Qed.
Lemma block_ns_read o : block 0 (namespaces_read_code o).
Proof.
  apply block_app; [apply free_block, free_rlocked; [lv|discriminate|reflexivity|discriminate]|].
  destruct o; [apply block_read; lia|apply block_nil].
Qed.
Lemma block_ns_close xs : block 0 (namespaces_close_code xs).
Proof.
  apply block_app; [apply block_ns_update|].
  assert (C : block 2 (concat (map (fun x : nat * nat => rule_set_update_code (fst x) (snd x) None) xs))).
  { apply block_concat. intros c I. apply in_map_iff in I as (o & <- & _). apply block_update. lv. }
  destruct C as (H & S). split.
  - intros held k B K. cbn [app]. constructor; [apply (below_le 0); [lv|exact B]|discriminate|].
    apply ok_access with (v' := false); [split; [right; split; [reflexivity|now left]|split; [discriminate|reflexivity]]|].
    rewrite <- app_assoc. apply H; [apply below_cons; [lv|apply (below_le 0); [lia|exact B]]|]. cbn [app]. constructor. exact K.
  - rewrite !sp_app, S. reflexivity.
Qed.

Lemma ok_block n c : block n c -> ok [] false c.
Proof. intros (H & _). rewrite <- (app_nil_r c). apply H; [intros h []|constructor]. Qed.

Lemma ok_close_code : ok [] false close_code.
Proof.
  unfold close_code. constructor; [intros h []|reflexivity|]. constructor; try reflexivity; [| |now left].
  - repeat constructor.
  - repeat constructor.
Qed.

Lemma code_ok c : ok [] false (code_of c) /\ cl (code_of c) = 0 /\ wt (code_of c) = 0.
Proof.
  assert (Bl : forall n k, block n k -> ok [] false k /\ cl k = 0 /\ wt k = 0).
  { intros n k B. split; [now apply (ok_block n)|]. destruct B as (_ & B). pose proof (cl_sp k). pose proof (wt_sp k). lia. }
  destruct c as [n f1 f2|n p|n p|n p| |o|xs|v|n o v|xs]; cbn [code_of].
  - apply (Bl 3), block_forward.
  - apply (Bl 3), block_register.
  - apply (Bl 3), block_refresh.
  - apply (Bl 3), block_unregister.
  - split; [apply ok_close_code|]. split; reflexivity.
  - apply (Bl 0), block_ns_read.
  - apply (Bl 0), block_ns_close.
  - apply (Bl 0), block_ns_update.
  - apply (Bl 2), block_update. lia.
  - destruct (block_ns_close xs) as (H & C). pose proof (cl_sp (namespaces_close_code xs)). pose proof (wt_sp (namespaces_close_code xs)).
    rewrite cl_app, wt_app. change (cl close_code) with 0. change (wt close_code) with 0.
    split; [|lia]. apply H; [intros h []|apply ok_close_code].
Qed.

Lemma ok_nil_inv held v : ok held v [] -> held = [] /\ v = false.
Proof. inversion 1; auto. Qed.
Lemma ok_lock_inv held v l k : ok held v (ILock l :: k) -> below (level l) held /\ (l = CacheLock -> v = false) /\ ok ((l, true) :: held) v k.
Proof. inversion 1; auto. Qed.
Lemma ok_rlock_inv held v l k : ok held v (IRLock l :: k) -> below (level l) held /\ (l = CacheLock -> v = false) /\ ok ((l, false) :: held) v k.
Proof. inversion 1; auto. Qed.
Lemma ok_unlock_inv held v l k : ok held v (IUnlock l :: k) -> exists h, held = (l, true) :: h /\ ok h (released l v) k.
Proof. inversion 1; eauto. Qed.
Lemma ok_runlock_inv held v l k : ok held v (IRUnlock l :: k) -> exists h, held = (l, false) :: h /\ ok h (released l v) k.
Proof. inversion 1; eauto. Qed.
Lemma ok_if_inv held v y n k : ok held v (IIfClosed y n :: k) -> k = [] /\ ok held v y /\ ok held v n /\ In (CacheLock, true) held /\
  uses y = false /\ uses n = false /\ cl y = 0 /\ wt y = 0 /\ cl n = 1 /\ wt n <= 1.
Proof. inversion 1; subst; repeat (split; [first [reflexivity|assumption]|]). assumption. Qed.
Lemma ok_close_inv held v k : ok held v (ICloseChannel :: k) -> held = [] /\ v = false /\ k = [IWaitWorkers].
Proof. inversion 1; auto. Qed.
Lemma ok_wait_inv held v k : ok held v (IWaitWorkers :: k) -> held = [] /\ v = false /\ k = [].
Proof. inversion 1; auto. Qed.
Lemma ok_ne_inv held v k : ok held v (INotifyEviction :: k) -> ok held v k.
Proof. inversion 1; auto. Qed.
Lemma ok_nd_inv held v k : ok held v (INotifyDeletion :: k) -> ok held v k.
Proof. inversion 1; auto. Qed.
Lemma ok_access_inv held v a k : ok held v (IAccess a :: k) -> exists v', allowed held v a v' /\ ok held v' k.
Proof. inversion 1; eauto. Qed.

(** * The invariant *)
Definition b2n (b : bool) : nat := if b then 1 else 0.
Definition total (g : thread -> nat) (s : system) : nat := list_sum (map g (s_threads s)).

Record inv (s : system) : Prop := {
  i_ok : forall t, In t (s_threads s) -> exists v, ok (t_held t) v (t_code t);
  i_pending : forall t, In t (s_threads s) -> t_pending t = true -> exists l k, t_code t = ILock l :: k;
  i_gone : forall t, In t (s_threads s) -> t_gone t = true -> t_code t = [] /\ s_channel_closed s = true;
  i_wait : forall t, In t (s_threads s) -> wt (t_code t) <= cl (t_code t) + b2n (s_channel_closed s);
  i_close : total (fun t => cl (t_code t)) s + b2n (s_channel_closed s) <= b2n (s_closed s);
  i_caller : forall t, In t (s_threads s) -> t_kind t = Caller -> t_gone t = false;
  i_worker : forall t, In t (s_threads s) -> t_kind t <> Caller -> sp (t_code t) = 0;
  i_settled : s_closed s = true ->
     total (fun t => cl (t_code t)) s + b2n (s_channel_closed s) = 1 }.

Lemma nth_split_at {A} (l : list A) i t : nth_error l i = Some t -> l = firstn i l ++ t :: skipn (S i) l /\ i < length l.
Proof.
  revert i. induction l as [|x l IH]; intros [|i] E; try discriminate E.
  - cbn in E. injection E as ->. split; [reflexivity|cbn [length]; lia].
  - cbn [nth_error] in E. destruct (IH i E) as (F & L). split; [|cbn [length]; lia].
    cbn [firstn skipn app]. f_equal. exact F.
Qed.

Lemma set_threads s i t : s_threads (set_thread s i t) = firstn i (s_threads s) ++ t :: skipn (S i) (s_threads s).
Proof. reflexivity. Qed.

Lemma in_set s i t t' x : nth_error (s_threads s) i = Some t ->
  In x (s_threads (set_thread s i t')) -> x = t' \/ In x (s_threads s).
Proof.
  intros E I. rewrite set_threads in I. apply in_app_or in I as [I|[<-|I]].
  - right. destruct (nth_split_at _ _ _ E) as (F & _). rewrite F. apply in_or_app. now left.
  - now left.
  - right. destruct (nth_split_at _ _ _ E) as (F & _). rewrite F. apply in_or_app. right. now right.
Qed.

Lemma total_set g s i t t' : nth_error (s_threads s) i = Some t ->
  total g (set_thread s i t') + g t = total g s + g t'.
Proof.
  intros E. destruct (nth_split_at _ _ _ E) as (F & _). unfold total. rewrite set_threads.
  rewrite F at 3. rewrite !map_app, !list_sum_app. cbn [map]. rewrite !list_sum_cons. lia.
Qed.

Lemma total_in g s t : In t (s_threads s) -> g t <= total g s.
Proof.
  unfold total. induction (s_threads s) as [|x l IH]; intros []; cbn [map]; rewrite list_sum_cons.
  - subst. lia.
  - specialize (IH H). lia.
Qed.

(** A change of one goroutine keeps the invariant. *)
Lemma inv_change s i t t' e d c cc mm :
  inv s -> nth_error (s_threads s) i = Some t ->
  (exists v, ok (t_held t') v (t_code t')) ->
  (t_pending t' = true -> exists l k, t_code t' = ILock l :: k) ->
  (t_gone t' = true -> t_code t' = [] /\ cc = true) ->
  wt (t_code t') <= cl (t_code t') + b2n cc ->
  (s_channel_closed s = true -> cc = true) ->
  (forall T, T + cl (t_code t) = total (fun t => cl (t_code t)) s + cl (t_code t') ->
     T + b2n cc <= b2n c /\ (c = true -> T + b2n cc = 1)) ->
  t_kind t' = t_kind t ->
  (t_kind t = Caller -> t_gone t' = false) ->
  (t_kind t <> Caller -> sp (t_code t') = 0) ->
  inv (mk_system (s_threads (set_thread s i t')) e d c cc mm).
Proof.
  intros I E Ok Pe Go Wa Cc Cl Ki Ca Wo.
  assert (Mono : b2n (s_channel_closed s) <= b2n cc).
  { destruct (s_channel_closed s); [rewrite (Cc eq_refl)|]; cbn; lia. }
  pose proof (total_set (fun t => cl (t_code t)) s i t t' E) as TS. cbv beta in TS.
  destruct (Cl _ TS) as (C1 & C2).
  constructor; cbn [s_threads s_channel_closed s_closed].
  - intros x X. apply (in_set _ _ t) in X as [->|X]; [exact Ok|now apply (i_ok s I)|exact E].
  - intros x X. apply (in_set _ _ t) in X as [->|X]; [exact Pe|now apply (i_pending s I)|exact E].
  - intros x X. apply (in_set _ _ t) in X as [->|X]; [exact Go| |exact E].
    intros G. destruct (i_gone s I x X G) as (A & B). split; [exact A|now apply Cc].
  - intros x X. apply (in_set _ _ t) in X as [->|X]; [exact Wa| |exact E].
    pose proof (i_wait s I x X). lia.
  - exact C1.
  - intros x X. apply (in_set _ _ t) in X as [->|X]; [rewrite Ki; exact Ca|now apply (i_caller s I)|exact E].
  - intros x X. apply (in_set _ _ t) in X as [->|X]; [rewrite Ki; exact Wo|now apply (i_worker s I)|exact E].
  - exact C2.
Qed.

Lemma give_up_head l w held : give_up l w ((l, w) :: held) = Some held.
Proof. cbn [give_up]. rewrite lock_eqb_refl, Bool.eqb_reflx. reflexivity. Qed.

Lemma set_thread_same s i t :
  mk_system (s_threads (set_thread s i t)) (s_evict s) (s_delete s) (s_closed s) (s_channel_closed s) (s_maps s) = set_thread s i t.
Proof. reflexivity. Qed.

Lemma set_thread_eta s i t :
  set_thread s i t = mk_system (s_threads (set_thread s i t)) (s_evict s) (s_delete s) (s_closed s) (s_channel_closed s) (s_maps s).
Proof. reflexivity. Qed.

(** The simple steps: the code shrinks, nothing is closed. *)
Lemma inv_simple s i t held x k e d lo mm : inv s -> nth_error (s_threads s) i = Some t -> t_code t = x :: k ->
  is_close x = 0 -> is_wait x = 0 -> is_special x = 0 -> (exists v, ok held v k) ->
  inv (mk_system (s_threads (set_thread s i (mk_thread (t_kind t) held false k (t_gone t) lo))) e d (s_closed s) (s_channel_closed s) mm).
Proof.
  intros I E C X1 X2 X3 Ok.
  pose proof (nth_error_In _ _ E) as In.
  assert (G : t_gone t = false).
  { destruct (t_gone t) eqn:G; [|reflexivity]. destruct (i_gone s I t In G) as (Z & _). rewrite C in Z. discriminate Z. }
  apply (inv_change s i t); cbn [t_held t_code t_pending t_gone t_kind]; try assumption.
  - discriminate.
  - rewrite G. discriminate.
  - pose proof (i_wait s I t In) as W. rewrite C, wt_cons, cl_cons in W. lia.
  - now intros ->.
  - intros T HT. rewrite C, cl_cons in HT. pose proof (i_close s I). split; [lia|]. intros Z. pose proof (i_settled s I Z). lia.
  - reflexivity.
  - intros _. exact G.
  - intros K. pose proof (i_worker s I t In K) as A. rewrite C, sp_cons in A. lia.
Qed.

Lemma inv_run s i : inv s -> run s i <> Panics /\ forall s', run s i = Steps s' -> inv s'.
Proof.
  intros I. unfold run. destruct (nth_error (s_threads s) i) as [t|] eqn:E; [|split; discriminate].
  pose proof (nth_error_In _ _ E) as In. destruct (i_ok s I t In) as (v & Ok).
  cbv zeta.
  destruct (t_code t) as [|x k] eqn:C; [split; discriminate|].
  assert (G : t_gone t = false).
  { destruct (t_gone t) eqn:G; [|reflexivity]. destruct (i_gone s I t In G) as (Z & _). rewrite C in Z. discriminate Z. }
  destruct x as [a|l|l|l|l| | |y n| |].
  - (* IAccess *)
    destruct (ok_access_inv _ _ _ _ Ok) as (v' & Al & Ok'). destruct (accessed a (s_maps s) (t_local t)) as [d lv].
    split; [discriminate|]. intros s' Es. injection Es as <-.
    apply (inv_simple s i t _ (IAccess a)); try assumption; try reflexivity. eauto.
  - (* ILock *)
    destruct (t_pending t) eqn:P.
    + destruct (existsb _ _); [split; discriminate|]. split; [discriminate|]. intros s' Es. injection Es as <-.
      rewrite set_thread_eta. apply (inv_simple s i t _ (ILock l)); try assumption; try reflexivity.
      destruct (ok_lock_inv _ _ _ _ Ok) as (_ & _ & Ok'). eauto.
    + destruct (_ || _); [split; discriminate|]. split; [discriminate|]. intros s' Es. injection Es as <-.
      rewrite set_thread_eta. apply (inv_change s i t); cbn [t_held t_code t_pending t_gone t_kind]; try assumption.
      * eauto.
      * intros _. eauto.
      * rewrite G. discriminate.
      * rewrite <- C. apply (i_wait s I t In).
      * now intros ->.
      * intros T HT. rewrite <- C in HT. pose proof (i_close s I). split; [lia|]. intros Z. pose proof (i_settled s I Z). lia.
      * reflexivity.
      * intros _. exact G.
      * rewrite <- C. apply (i_worker s I t In).
  - (* IUnlock *)
    destruct (ok_unlock_inv _ _ _ _ Ok) as (h & Eh & Ok'). rewrite Eh, give_up_head.
    split; [discriminate|]. intros s' Es. injection Es as <-.
    rewrite set_thread_eta. apply (inv_simple s i t _ (IUnlock l)); try assumption; try reflexivity. eauto.
  - (* IRLock *)
    destruct (_ || _); [split; discriminate|]. split; [discriminate|]. intros s' Es. injection Es as <-.
    rewrite set_thread_eta. apply (inv_simple s i t _ (IRLock l)); try assumption; try reflexivity.
    destruct (ok_rlock_inv _ _ _ _ Ok) as (_ & _ & Ok'). eauto.
  - destruct (ok_runlock_inv _ _ _ _ Ok) as (h & Eh & Ok'). rewrite Eh, give_up_head.
    split; [discriminate|]. intros s' Es. injection Es as <-.
    rewrite set_thread_eta. apply (inv_simple s i t _ (IRUnlock l)); try assumption; try reflexivity. eauto.
  - split; [discriminate|]. intros s' Es. injection Es as <-.
    apply (inv_simple s i t _ INotifyEviction); try assumption; try reflexivity. exists v. now apply ok_ne_inv.
  - split; [discriminate|]. intros s' Es. injection Es as <-.
    apply (inv_simple s i t _ INotifyDeletion); try assumption; try reflexivity. exists v. now apply ok_nd_inv.
  - (* IIfClosed *)
    split; [discriminate|]. intros s' Es. injection Es as <-.
    destruct (ok_if_inv _ _ _ _ _ Ok) as (-> & Oy & On & _ & _ & _ & Cy & Wy & Cn & Wn). rewrite app_nil_r.
    change (s_threads s) with (s_threads s) at 1.
    apply (inv_change s i t); cbn [t_held t_code t_pending t_gone t_kind set_thread s_channel_closed s_closed]; try assumption.
    + exists v. destruct (s_closed s); assumption.
    + discriminate.
    + rewrite G. discriminate.
    + destruct (s_closed s); lia.
    + now intros ->.
    + intros T HT. rewrite C in HT. change (cl [IIfClosed y n]) with 0 in HT.
      pose proof (i_close s I) as Cl. pose proof (i_settled s I) as St.
      destruct (s_closed s).
      * specialize (St eq_refl). cbn [b2n]. lia.
      * cbn [b2n] in Cl |- *. lia.
    + reflexivity.
    + intros _. exact G.
    + intros K. pose proof (i_worker s I t In K) as A. rewrite C in A. discriminate A.
  - (* ICloseChannel *)
    assert (T1 : 1 <= total (fun t => cl (t_code t)) s).
    { pose proof (total_in (fun t => cl (t_code t)) s t In) as T. cbv beta in T. rewrite C, cl_cons in T. cbn [is_close] in T. lia. }
    pose proof (i_close s I) as Cl.
    destruct (s_channel_closed s) eqn:CC; [cbn [b2n] in Cl; destruct (s_closed s); cbn [b2n] in Cl; lia|].
    split; [discriminate|]. intros s' Es. injection Es as <-.
    destruct (ok_close_inv _ _ _ Ok) as (EH & -> & ->).
    apply (inv_change s i t); cbn [t_held t_code t_pending t_gone t_kind set_thread s_channel_closed s_closed]; try assumption.
    + exists false. rewrite EH. constructor.
    + discriminate.
    + rewrite G. discriminate.
    + cbn. lia.
    + reflexivity.
    + intros T HT. rewrite C in HT. change (cl [ICloseChannel; IWaitWorkers]) with 1 in HT. change (cl [IWaitWorkers]) with 0 in HT.
      cbn [b2n] in Cl |- *. split; [lia|]. intros Z. pose proof (i_settled s I Z) as St. rewrite CC in St. cbn [b2n] in St. lia.
    + reflexivity.
    + intros _. exact G.
    + intros K. pose proof (i_worker s I t In K) as A. rewrite C in A. discriminate A.
  - (* IWaitWorkers *)
    destruct (existsb _ _); [split; discriminate|]. split; [discriminate|]. intros s' Es. injection Es as <-.
    destruct (ok_wait_inv _ _ _ Ok) as (EH & -> & ->).
    rewrite set_thread_eta.
    apply (inv_change s i t); cbn [t_held t_code t_pending t_gone t_kind]; try assumption.
    + exists false. rewrite EH. constructor.
    + discriminate.
    + rewrite G. discriminate.
    + cbn. lia.
    + now intros ->.
    + intros T HT. rewrite C in HT. change (cl [IWaitWorkers]) with 0 in HT. change (cl []) with 0 in HT.
      pose proof (i_close s I). split; [lia|]. intros Z. pose proof (i_settled s I Z). lia.
    + reflexivity.
    + intros _. exact G.
    + reflexivity.
Qed.

Lemma inv_idle s i k0 c e d v mm : inv s -> nth_error (s_threads s) i = Some (mk_thread k0 [] false [] false v) ->
  k0 <> Caller -> block 3 c ->
  inv (mk_system (s_threads (set_thread s i (mk_thread k0 [] false c false v))) e d (s_closed s) (s_channel_closed s) mm).
Proof.
  intros I E K B.
  pose proof (cl_sp c). pose proof (wt_sp c). pose proof (proj2 B).
  apply (inv_change s i (mk_thread k0 [] false [] false v)); cbn [t_held t_code t_pending t_gone t_kind]; try assumption; try discriminate; try reflexivity.
  - exists false. now apply (ok_block 3).
  - lia.
  - now intros ->.
  - intros T HT. change (cl []) with 0 in HT. pose proof (i_close s I). split; [lia|]. intros Z. pose proof (i_settled s I Z). lia.
  - intros _. lia.
Qed.

Lemma inv_receive s i ns b : inv s -> receive s i ns b <> Panics /\ forall s', receive s i ns b = Steps s' -> inv s'.
Proof.
  intros I. unfold receive. destruct (nth_error (s_threads s) i) as [t|] eqn:E; [|split; discriminate].
  destruct t as [[] [|] [] [|] [] v]; try (split; discriminate).
  - destruct (s_evict s); [|split; discriminate]. split; [discriminate|]. intros s' Es. injection Es as <-.
    apply (inv_idle s i Evictor); try assumption; [discriminate|apply block_evict].
  - destruct (s_delete s); [|split; discriminate]. split; [discriminate|]. intros s' Es. injection Es as <-.
    apply (inv_idle s i Deleter); try assumption; [discriminate|apply block_delete].
Qed.

Lemma inv_leave s i : inv s -> leave s i <> Panics /\ forall s', leave s i = Steps s' -> inv s'.
Proof.
  intros I. unfold leave. destruct (nth_error (s_threads s) i) as [t|] eqn:E; [|split; discriminate].
  destruct t as [k0 [|] [] [|] [] v]; try (split; discriminate).
  assert (M : k0 <> Caller -> s_channel_closed s = true -> inv (set_thread s i (mk_thread k0 [] false [] true v))).
  { intros K CC. rewrite set_thread_eta.
    apply (inv_change s i (mk_thread k0 [] false [] false v)); cbn [t_held t_code t_pending t_gone t_kind]; try assumption; try discriminate; try reflexivity.
    - exists false. constructor.
    - intros _. now split.
    - cbn. lia.
    - now intros ->.
    - intros T HT. pose proof (i_close s I). split; [lia|]. intros Z. pose proof (i_settled s I Z). lia.
    - intros Z. now contradiction K. }
  destruct k0; [split; discriminate| |]; (destruct (s_channel_closed s) eqn:CC; [|split; discriminate]);
    (split; [discriminate|]); intros s' Es; injection Es as <-; apply M; try reflexivity; discriminate.
Qed.

Lemma inv_begin s c : inv s -> inv (begin_call s c).
Proof.
  intros I. destruct (code_ok c) as (Ok & C & W).
  assert (T : total (fun t => cl (t_code t)) (begin_call s c) = total (fun t => cl (t_code t)) s).
  { unfold total, begin_call. cbn [s_threads]. rewrite map_app, list_sum_app. cbn [map t_code]. rewrite C. cbn. lia. }
  assert (P : forall Q : thread -> Prop, (forall t, In t (s_threads s) -> Q t) -> Q (mk_thread Caller [] false (code_of c) false no_local) ->
     forall t, In t (s_threads (begin_call s c)) -> Q t).
  { intros Q A B t X. unfold begin_call in X. cbn [s_threads] in X. apply in_app_or in X as [X|[<-|[]]]; [now apply A|exact B]. }
  constructor; try (intros t X; pattern t; refine (P _ _ _ t X); clear t X).
  - apply (i_ok s I).
  - exists false. exact Ok.
  - apply (i_pending s I).
  - discriminate.
  - apply (i_gone s I).
  - discriminate.
  - apply (i_wait s I).
  - cbn [t_code]. lia.
  - rewrite T. apply (i_close s I).
  - apply (i_caller s I).
  - reflexivity.
  - apply (i_worker s I).
  - intros Z. now contradiction Z.
  - rewrite T. apply (i_settled s I).
Qed.

Lemma inv_new : inv new_system.
Proof.
  constructor; cbn; try discriminate; try lia; intros t [<-|[<-|[]]]; cbn; try discriminate; try lia; try (exists false; constructor); reflexivity.
Qed.

Lemma inv_happen s h : inv s -> happen s h <> Panics /\ forall s', happen s h = Steps s' -> inv s'.
Proof.
  intros I. destruct h as [c|i|i ns b|i]; cbn [happen].
  - split; [discriminate|]. intros s' E. injection E as <-. now apply inv_begin.
  - now apply inv_run.
  - now apply inv_receive.
  - now apply inv_leave.
Qed.

Lemma reachable_inv s : reachable s -> inv s.
Proof. induction 1 as [|s h s' R I E]; [apply inv_new|]. exact (proj2 (inv_happen s h I) s' E). Qed.

(** * Some goroutine can go on *)
Definition stuck (s : system) : Prop := forall s', ~ goes_on s s'.

Lemma stuck_run s i : inv s -> stuck s -> run s i = Blocked.
Proof.
  intros I St. destruct (run s i) as [| |s'] eqn:E; [reflexivity| |].
  - destruct (inv_run s i I) as (P & _). congruence.
  - exfalso. apply (St s'). exists (Run i). split; [discriminate|exact E].
Qed.

Definition waits_for (t : thread) (l : lock) : Prop :=
  exists k, t_code t = ILock l :: k \/ t_code t = IRLock l :: k.

Lemma holds_in w l t : holds w l t = true -> In (l, w) (t_held t).
Proof.
  unfold holds. intros H. apply existsb_exists in H as ([l' w'] & I & E). cbn [fst snd] in E.
  apply andb_true_iff in E as (E1 & E2). apply lock_eqb_eq in E1. apply Bool.eqb_prop in E2. now subst.
Qed.

(** Whoever holds a lock waits for one of a higher level. *)
Lemma holder_waits s t l w : inv s -> stuck s -> In t (s_threads s) -> In (l, w) (t_held t) ->
  exists l', waits_for t l' /\ level l < level l'.
Proof.
  intros I St X H. destruct (In_nth_error _ _ X) as (i & E).
  pose proof (stuck_run s i I St) as R. unfold run in R. rewrite E in R. cbv zeta in R.
  destruct (i_ok s I t X) as (v & Ok).
  destruct (t_code t) as [|x k] eqn:C; [destruct (ok_nil_inv _ _ Ok) as (Z & _); rewrite Z in H; destruct H|].
  destruct x as [a|l'|l'|l'|l'| | |y n| |].
  - destruct (accessed a (s_maps s) (t_local t)); discriminate R.
  - exists l'. split; [exists k; now left|]. exact (proj1 (ok_lock_inv _ _ _ _ Ok) _ H).
  - destruct (ok_unlock_inv _ _ _ _ Ok) as (h & Eh & _). rewrite Eh, give_up_head in R. discriminate R.
  - exists l'. split; [exists k; now right|]. exact (proj1 (ok_rlock_inv _ _ _ _ Ok) _ H).
  - destruct (ok_runlock_inv _ _ _ _ Ok) as (h & Eh & _). rewrite Eh, give_up_head in R. discriminate R.
  - discriminate R.
  - discriminate R.
  - discriminate R.
  - destruct (ok_close_inv _ _ _ Ok) as (Z & _). rewrite Z in H. destruct H.
  - destruct (ok_wait_inv _ _ _ Ok) as (Z & _). rewrite Z in H. destruct H.
Qed.

Lemma waiter_holder s t l : inv s -> stuck s -> In t (s_threads s) -> waits_for t l ->
  exists u w, In u (s_threads s) /\ In (l, w) (t_held u).
Proof.
  intros I St X (k & W).
  assert (Pend : forall u, In u (s_threads s) -> announced l u = true -> exists v w, In v (s_threads s) /\ In (l, w) (t_held v)).
  { intros u U A. unfold announced in A. apply andb_true_iff in A as (A1 & A2).
    destruct (In_nth_error _ _ U) as (j & Ej). pose proof (stuck_run s j I St) as R. unfold run in R. rewrite Ej in R. cbv zeta in R.
    destruct (t_code u) as [|[a|l'|l'|l'|l'| | |y n| |] k'] eqn:Cu; try discriminate A2. apply lock_eqb_eq in A2. subst l'.
    rewrite A1 in R. destruct (existsb (holds false l) (s_threads s)) eqn:H; [|discriminate R].
    apply existsb_exists in H as (v & V & Hv). exists v, false. split; [exact V|now apply holds_in]. }
  assert (Two : existsb (announced l) (s_threads s) || existsb (holds true l) (s_threads s) = true ->
     exists v w, In v (s_threads s) /\ In (l, w) (t_held v)).
  { intros H. apply orb_true_iff in H as [H|H]; apply existsb_exists in H as (v & V & Hv).
    - now apply (Pend v).
    - exists v, true. split; [exact V|now apply holds_in]. }
  destruct (In_nth_error _ _ X) as (i & E). pose proof (stuck_run s i I St) as R. unfold run in R. rewrite E in R. cbv zeta in R.
  destruct W as [C|C]; rewrite C in R.
  - destruct (t_pending t) eqn:P.
    + apply (Pend t X). unfold announced. rewrite P, C. apply lock_eqb_refl.
    + apply Two. destruct (_ || _); [reflexivity|discriminate R].
  - apply Two. destruct (_ || _); [reflexivity|discriminate R].
Qed.

Lemma nobody_waits s : inv s -> stuck s -> forall n t l, In t (s_threads s) -> waits_for t l -> 5 - level l = n -> False.
Proof.
  intros I St n. induction n as [n IH] using (well_founded_induction lt_wf). intros t l X W N.
  destruct (waiter_holder s t l I St X W) as (u & w & U & H).
  destruct (holder_waits s u l w I St U H) as (l' & W' & L).
  apply (IH (5 - level l')) with (t := u) (l := l'); try assumption; try reflexivity.
  assert (level l' <= 5) by (destruct l'; cbn [level]; lia). lia.
Qed.

Lemma stuck_worker s t : inv s -> stuck s -> In t (s_threads s) -> t_kind t <> Caller ->
  t_code t = [] /\ t_held t = [] /\ (s_channel_closed s = true -> t_gone t = true).
Proof.
  intros I St X K. destruct (i_ok s I t X) as (v & Ok). destruct (In_nth_error _ _ X) as (i & E).
  assert (C0 : t_code t = []).
  { destruct (t_code t) as [|x k] eqn:C; [reflexivity|]. exfalso.
    pose proof (i_worker s I t X K) as Sp. rewrite C, sp_cons in Sp.
    pose proof (stuck_run s i I St) as R. unfold run in R. rewrite E, C in R. cbv zeta in R.
    destruct x as [a|l|l|l|l| | |y n| |]; cbn [is_special] in Sp; try lia; try discriminate R.
    - destruct (accessed a (s_maps s) (t_local t)); discriminate R.
    - apply (nobody_waits s I St (5 - level l) t l X); [exists k; now left|reflexivity].
    - destruct (ok_unlock_inv _ _ _ _ Ok) as (h & Eh & _). rewrite Eh, give_up_head in R. discriminate R.
    - apply (nobody_waits s I St (5 - level l) t l X); [exists k; now right|reflexivity].
    - destruct (ok_runlock_inv _ _ _ _ Ok) as (h & Eh & _). rewrite Eh, give_up_head in R. discriminate R. }
  rewrite C0 in Ok. assert (H0 : t_held t = []) by (exact (proj1 (ok_nil_inv _ _ Ok))).
  split; [exact C0|]. split; [exact H0|]. intros CC.
  destruct (t_gone t) eqn:G; [reflexivity|]. exfalso.
  assert (P : t_pending t = false).
  { destruct (t_pending t) eqn:P; [|reflexivity]. destruct (i_pending s I t X P) as (l & k & Z). congruence. }
  destruct t as [k0 held p c g lv]. cbn [t_kind t_held t_pending t_code t_gone] in *. subst.
  apply (St (set_thread s i (mk_thread k0 [] false [] true lv))). exists (Leave i). split; [discriminate|].
  cbn [happen]. unfold leave. rewrite E. destruct k0; [now contradiction K| |]; now rewrite CC.
Qed.

Lemma stuck_code s t : inv s -> stuck s -> In t (s_threads s) -> t_code t = [] /\ t_held t = [].
Proof.
  intros I St X. destruct (i_ok s I t X) as (v & Ok). destruct (In_nth_error _ _ X) as (i & E).
  assert (C0 : t_code t = []).
  { destruct (t_code t) as [|x k] eqn:C; [reflexivity|]. exfalso.
    pose proof (stuck_run s i I St) as R. unfold run in R. rewrite E, C in R. cbv zeta in R.
    destruct x as [a|l|l|l|l| | |y n| |]; try discriminate R.
    - destruct (accessed a (s_maps s) (t_local t)); discriminate R.
    - apply (nobody_waits s I St (5 - level l) t l X); [exists k; now left|reflexivity].
    - destruct (ok_unlock_inv _ _ _ _ Ok) as (h & Eh & _). rewrite Eh, give_up_head in R. discriminate R.
    - apply (nobody_waits s I St (5 - level l) t l X); [exists k; now right|reflexivity].
    - destruct (ok_runlock_inv _ _ _ _ Ok) as (h & Eh & _). rewrite Eh, give_up_head in R. discriminate R.
    - destruct (s_channel_closed s); discriminate R.
    - destruct (existsb still_working (s_threads s)) eqn:H; [|discriminate R].
      apply existsb_exists in H as (u & U & W).
      assert (Ku : t_kind u <> Caller) by (intros Z; unfold still_working in W; rewrite Z in W; discriminate W).
      assert (CC : s_channel_closed s = true).
      { pose proof (i_wait s I t X) as Wt. rewrite C, wt_cons, cl_cons in Wt. cbn [is_wait is_close] in Wt.
        destruct (ok_wait_inv _ _ _ Ok) as (_ & _ & ->). change (cl []) with 0 in Wt. change (wt []) with 0 in Wt.
        destruct (s_channel_closed s); [reflexivity|cbn [b2n] in Wt; lia]. }
      destruct (stuck_worker s u I St U Ku) as (_ & _ & G). specialize (G CC).
      unfold still_working in W. rewrite G in W. destruct (t_kind u); discriminate W. }
  rewrite C0 in Ok. split; [exact C0|]. exact (proj1 (ok_nil_inv _ _ Ok)).
Qed.

Lemma stuck_signals s : inv s -> stuck s ->
  (forall t, In t (s_threads s) -> t_gone t = false ->
     (t_kind t = Evictor -> s_evict s = false) /\ (t_kind t = Deleter -> s_delete s = false)).
Proof.
  intros I St t X G. destruct (stuck_code s t I St X) as (C & H). destruct (In_nth_error _ _ X) as (i & E).
  assert (P : t_pending t = false).
  { destruct (t_pending t) eqn:P; [|reflexivity]. destruct (i_pending s I t X P) as (l & k & Z). congruence. }
  destruct t as [k0 held p c g lv]. cbn [t_kind t_held t_pending t_code t_gone] in *. subst.
  split; intros ->.
  - destruct (s_evict s) eqn:Ev; [|reflexivity]. exfalso.
    eapply St. exists (Receive i [] None). split; [discriminate|]. cbn [happen]. unfold receive. rewrite E, Ev. reflexivity.
  - destruct (s_delete s) eqn:Ev; [|reflexivity]. exfalso.
    eapply St. exists (Receive i [] None). split; [discriminate|]. cbn [happen]. unfold receive. rewrite E, Ev. reflexivity.
Qed.

(** Going on can be decided, up to what the deleter finds. *)
Lemma stuck_or_goes s : stuck s \/ exists s', goes_on s s'.
Proof.
  assert (D : forall (f : nat -> result), (forall i, length (s_threads s) <= i -> f i = Blocked) ->
     (forall i s', f i <> Steps s') \/ exists i s', f i = Steps s').
  { intros f Out.
    assert (B : forall n, (forall i s', i < n -> f i <> Steps s') \/ exists i s', f i = Steps s').
    { induction n as [|n [IH|IH]].
      - left. intros i s' Z. lia.
      - destruct (f n) as [| |s'] eqn:F.
        + left. intros i s' L. destruct (Nat.eq_dec i n) as [->|Ne]; [rewrite F; discriminate|apply IH; lia].
        + left. intros i s' L. destruct (Nat.eq_dec i n) as [->|Ne]; [rewrite F; discriminate|apply IH; lia].
        + right. eauto.
      - now right. }
    destruct (B (length (s_threads s))) as [H|H]; [left|now right].
    intros i s'. destruct (Nat.lt_ge_cases i (length (s_threads s))) as [L|L]; [now apply H|]. rewrite (Out i L). discriminate. }
  assert (O : forall i, length (s_threads s) <= i -> nth_error (s_threads s) i = None) by (intros i L; now apply nth_error_None).
  destruct (D (run s)) as [H1|(i & s' & H1)]; [intros i L; unfold run; now rewrite (O i L)| |right; exists s', (Run i); split; [discriminate|exact H1]].
  destruct (D (fun i => receive s i [] None)) as [H2|(i & s' & H2)]; [intros i L; unfold receive; now rewrite (O i L)| |right; exists s', (Receive i [] None); split; [discriminate|exact H2]].
  destruct (D (leave s)) as [H3|(i & s' & H3)]; [intros i L; unfold leave; now rewrite (O i L)| |right; exists s', (Leave i); split; [discriminate|exact H3]].
  left. intros s' (h & NB & E). destruct h as [c|i|i ns b|i]; cbn [happen] in E.
  - now apply (NB c).
  - now apply (H1 i s').
  - assert (exists s'', receive s i [] None = Steps s'') as (s'' & Z).
    { unfold receive in E |- *. destruct (nth_error (s_threads s) i) as [[[] [|] [] [|] [] lv]|]; try discriminate E;
        destruct (s_evict s); destruct (s_delete s); try discriminate E; eauto. }
    now apply (H2 i s'').
  - now apply (H3 i s').
Qed.

(** * Runs end *)
Fixpoint isize (i : instr) : nat :=
  match i with IIfClosed y n => S (list_sum (map isize y) + list_sum (map isize n)) | _ => 1 end.
Fixpoint inote (i : instr) : nat :=
  match i with
  | IIfClosed y n => list_sum (map inote y) + list_sum (map inote n)
  | INotifyEviction | INotifyDeletion => 1
  | _ => 0
  end.
Definition size (k : list instr) : nat := list_sum (map isize k).
Definition note (k : list instr) : nat := list_sum (map inote k).
Definition tsize (t : thread) : nat := 2 * size (t_code t) + b2n (negb (t_pending t)) + 2 * b2n (negb (t_gone t)).
Definition notes (s : system) : nat := total (fun t => note (t_code t)) s + b2n (s_evict s) + b2n (s_delete s).
Definition sizes (s : system) : nat := total tsize s.

Lemma size_cons x k : size (x :: k) = isize x + size k.
Proof. reflexivity. Qed.
Lemma note_cons x k : note (x :: k) = inote x + note k.
Proof. reflexivity. Qed.
Lemma size_app a b : size (a ++ b) = size a + size b.
Proof. unfold size. now rewrite map_app, list_sum_app. Qed.
Lemma note_app a b : note (a ++ b) = note a + note b.
Proof. unfold note. now rewrite map_app, list_sum_app. Qed.

Lemma note_concat {A} (f : A -> list instr) l : (forall x, note (f x) = 0) -> note (concat (map f l)) = 0.
Proof. intros H. induction l as [|x l IH]; [reflexivity|]. cbn [map concat]. now rewrite note_app, H, IH. Qed.
Lemma note_delete xs : note (delete_code xs) = 0.
Proof.
  unfold delete_code. destruct xs as [xs|]; [|reflexivity]. rewrite !note_app, note_concat; [reflexivity|].
  intros [i []]; reflexivity.
Qed.
Lemma note_evict ns : note (evict_code ns) = 0.
Proof. unfold evict_code. rewrite !note_app, note_concat; reflexivity. Qed.

Definition smaller (s' s : system) : Prop := notes s' < notes s \/ (notes s' = notes s /\ sizes s' < sizes s).

Lemma smaller_le s' s : notes s' <= notes s -> sizes s' < sizes s -> smaller s' s.
Proof. unfold smaller. lia. Qed.

Lemma isize_pos x : 1 <= isize x.
Proof. destruct x; cbn [isize]; lia. Qed.

Lemma run_smaller s i s' : run s i = Steps s' -> smaller s' s.
Proof.
  unfold run. destruct (nth_error (s_threads s) i) as [t|] eqn:E; [|discriminate]. cbv zeta.
  assert (Q : forall t', total tsize (set_thread s i t') + tsize t = total tsize s + tsize t' /\
     total (fun t => note (t_code t)) (set_thread s i t') + note (t_code t) = total (fun t => note (t_code t)) s + note (t_code t')).
  { intros t'. split; [now apply total_set|]. exact (total_set (fun t => note (t_code t)) s i t t' E). }
  assert (M : forall held x k e d c cc lv mm, t_code t = x :: k -> inote x + b2n (s_evict s) + b2n (s_delete s) >= b2n e + b2n d ->
     smaller (mk_system (s_threads (set_thread s i (mk_thread (t_kind t) held false k (t_gone t) lv))) e d c cc mm) s).
  { intros held x k e d c cc lv mm C N. destruct (Q (mk_thread (t_kind t) held false k (t_gone t) lv)) as (Q1 & Q2).
    unfold tsize in Q1 at 2 4. cbn [t_code t_pending t_gone negb b2n] in Q1, Q2. rewrite C in Q1, Q2.
    rewrite size_cons in Q1. rewrite note_cons in Q2. pose proof (isize_pos x).
    apply smaller_le; unfold notes, sizes; cbn [s_evict s_delete].
    - change (total (fun t0 => note (t_code t0)) (mk_system (s_threads (set_thread s i (mk_thread (t_kind t) held false k (t_gone t) lv))) e d c cc mm))
        with (total (fun t0 => note (t_code t0)) (set_thread s i (mk_thread (t_kind t) held false k (t_gone t) lv))). lia.
    - change (total tsize (mk_system (s_threads (set_thread s i (mk_thread (t_kind t) held false k (t_gone t) lv))) e d c cc mm))
        with (total tsize (set_thread s i (mk_thread (t_kind t) held false k (t_gone t) lv))). lia. }
  destruct (t_code t) as [|x k] eqn:C; [discriminate|].
  destruct x as [a|l|l|l|l| | |y n| |].
  - destruct (accessed a (s_maps s) (t_local t)) as [d lv]. intros Es. injection Es as <-.
    apply (M _ (IAccess a)); [reflexivity|cbn [inote set_thread s_delete s_evict]; lia].
  - destruct (t_pending t) eqn:P.
    + destruct (existsb _ _); [discriminate|]. intros Es. injection Es as <-. rewrite set_thread_eta.
      apply (M _ (ILock l)); [reflexivity|cbn [inote]; lia].
    + destruct (_ || _); [discriminate|]. intros Es. injection Es as <-.
      destruct (Q (mk_thread (t_kind t) (t_held t) true (ILock l :: k) (t_gone t) (t_local t))) as (Q1 & Q2).
      unfold tsize in Q1 at 2 4. cbn [t_code t_pending t_gone] in Q1, Q2. rewrite C, P in Q1. cbn [negb b2n] in Q1.
      apply smaller_le; unfold notes, sizes; cbn [s_evict s_delete set_thread]; try lia.
  - destruct (give_up _ _ _); [|discriminate]. intros Es. injection Es as <-. rewrite set_thread_eta.
    apply (M _ (IUnlock l)); [reflexivity|cbn [inote]; lia].
  - destruct (_ || _); [discriminate|]. intros Es. injection Es as <-. rewrite set_thread_eta.
    apply (M _ (IRLock l)); [reflexivity|cbn [inote]; lia].
  - destruct (give_up _ _ _); [|discriminate]. intros Es. injection Es as <-. rewrite set_thread_eta.
    apply (M _ (IRUnlock l)); [reflexivity|cbn [inote]; lia].
  - intros Es. injection Es as <-. apply (M _ INotifyEviction); [reflexivity|cbn [inote b2n set_thread s_delete s_evict]; lia].
  - intros Es. injection Es as <-. apply (M _ INotifyDeletion); [reflexivity|cbn [inote b2n set_thread s_delete s_evict]; lia].
  - intros Es. injection Es as <-.
    set (br := (if s_closed s then y else n)).
    assert (Z : size br <= size y + size n /\ note br <= note y + note n) by (unfold br; destruct (s_closed s); lia).
    destruct (Q (mk_thread (t_kind t) (t_held t) false (br ++ k) (t_gone t) (t_local t))) as (Q1 & Q2).
    unfold tsize in Q1 at 2 4. cbn [t_code t_pending t_gone negb b2n] in Q1, Q2. rewrite C in Q1.
    rewrite size_app, size_cons in Q1. rewrite note_app, note_cons in Q2. cbn [isize] in Q1. cbn [inote] in Q2.
    fold (size y) (size n) in Q1. fold (note y) (note n) in Q2.
    apply smaller_le; unfold notes, sizes; cbn [s_evict s_delete].
    + change (total (fun t0 => note (t_code t0)) (set_thread s i (mk_thread (t_kind t) (t_held t) false (br ++ k) (t_gone t) (t_local t))) + b2n (s_evict s) + b2n (s_delete s)
         <= total (fun t0 => note (t_code t0)) s + b2n (s_evict s) + b2n (s_delete s)). lia.
    + change (total tsize (set_thread s i (mk_thread (t_kind t) (t_held t) false (br ++ k) (t_gone t) (t_local t))) < total tsize s). lia.
  - destruct (s_channel_closed s); [discriminate|]. intros Es. injection Es as <-.
    apply (M _ ICloseChannel); [reflexivity|cbn [inote b2n set_thread s_delete s_evict]; lia].
  - destruct (existsb _ _); [discriminate|]. intros Es. injection Es as <-. rewrite set_thread_eta.
    apply (M _ IWaitWorkers); [reflexivity|cbn [inote]; lia].
Qed.

Lemma receive_smaller s i ns b s' : receive s i ns b = Steps s' -> smaller s' s.
Proof.
  unfold receive. destruct (nth_error (s_threads s) i) as [t|] eqn:E; [|discriminate].
  destruct t as [[] [|] [] [|] [] lv]; try discriminate; cbv zeta.
  - destruct (s_evict s) eqn:Ev; [|discriminate]. intros Es. injection Es as <-. left.
    pose proof (total_set (fun t => note (t_code t)) s i _ (mk_thread Evictor [] false (evict_code ns) false lv) E) as Q.
    cbn [t_code] in Q. change (note []) with 0 in Q. rewrite note_evict in Q. unfold notes. cbn [s_evict s_delete set_thread].
    rewrite Ev. cbn [b2n].
    change (total (fun t0 => note (t_code t0)) (set_thread s i (mk_thread Evictor [] false (evict_code ns) false lv)) + 0 + b2n (s_delete s)
         < total (fun t0 => note (t_code t0)) s + 1 + b2n (s_delete s)). lia.
  - destruct (s_delete s) eqn:Ev; [|discriminate]. intros Es. injection Es as <-. left.
    pose proof (total_set (fun t => note (t_code t)) s i _ (mk_thread Deleter [] false (delete_code b) false lv) E) as Q.
    cbn [t_code] in Q. change (note []) with 0 in Q. rewrite note_delete in Q. unfold notes. cbn [s_evict s_delete set_thread].
    rewrite Ev. cbn [b2n].
    change (total (fun t0 => note (t_code t0)) (set_thread s i (mk_thread Deleter [] false (delete_code b) false lv)) + b2n (s_evict s) + 0
         < total (fun t0 => note (t_code t0)) s + b2n (s_evict s) + 1). lia.
Qed.

Lemma leave_smaller s i s' : leave s i = Steps s' -> smaller s' s.
Proof.
  unfold leave. destruct (nth_error (s_threads s) i) as [t|] eqn:E; [|discriminate].
  destruct t as [k0 [|] [] [|] [] lv]; try discriminate.
  assert (M : smaller (set_thread s i (mk_thread k0 [] false [] true lv)) s).
  { pose proof (total_set (fun t => note (t_code t)) s i _ (mk_thread k0 [] false [] true lv) E) as Q. cbn [t_code] in Q.
    pose proof (total_set tsize s i _ (mk_thread k0 [] false [] true lv) E) as Q'. unfold tsize in Q' at 2 4. cbn [t_code t_pending t_gone negb b2n] in Q'.
    apply smaller_le; unfold notes, sizes; cbn [s_evict s_delete set_thread]; lia. }
  destruct k0; [discriminate| |]; (destruct (s_channel_closed s); [|discriminate]); intros Es; injection Es as <-; exact M.
Qed.

Lemma goes_on_smaller s s' : goes_on s s' -> smaller s' s.
Proof.
  intros (h & NB & E). destruct h as [c|i|i ns b|i]; cbn [happen] in E.
  - now destruct (NB c).
  - now apply (run_smaller s i).
  - now apply (receive_smaller s i ns b).
  - now apply (leave_smaller s i).
Qed.

Lemma smaller_acc s : Acc smaller s.
Proof.
  assert (H : forall n m s, notes s = n -> sizes s = m -> Acc smaller s).
  { intros n. induction n as [n IHn] using (well_founded_induction lt_wf).
    intros m. induction m as [m IHm] using (well_founded_induction lt_wf).
    intros s0 N M. constructor. intros s' [L|(L1 & L2)].
    - apply (IHn (notes s')) with (m := sizes s'); try reflexivity. lia.
    - apply (IHm (sizes s')); try reflexivity; lia. }
  exact (H _ _ s eq_refl eq_refl).
Qed.

Lemma no_infinite_run (f : nat -> system) : ~ (forall n, goes_on (f n) (f (S n))).
Proof.
  intros H. assert (A : forall s, Acc smaller s -> forall n, f n = s -> False).
  { induction 1 as [s _ IH]. intros n E. apply (IH (f (S n))) with (n := S n); [|reflexivity].
    subst s. apply goes_on_smaller, H. }
  exact (A (f 0) (smaller_acc _) 0 eq_refl).
Qed.

Lemma reachable_goes s s' : reachable s -> goes_on s s' -> reachable s'.
Proof. intros R (h & _ & E). now apply (reach_step s h). Qed.
Lemma reachable_runs s s' : reachable s -> runs_to s s' -> reachable s'.
Proof. intros R H. induction H as [|s s1 s2 G _ IH]; [exact R|]. apply IH. now apply (reachable_goes s). Qed.

Lemma runs_to_stuck s : exists s', runs_to s s' /\ stuck s'.
Proof.
  induction (smaller_acc s) as [s _ IH]. destruct (stuck_or_goes s) as [St|(s1 & G)].
  - exists s. split; [constructor|exact St].
  - destruct (IH s1 (goes_on_smaller _ _ G)) as (s' & R & St). exists s'. split; [now apply (runs_more s s1)|exact St].
Qed.

(** * Locks exclude *)
Record excl (s : system) : Prop := {
  e_held : forall i j t u l w, i <> j -> nth_error (s_threads s) i = Some t -> nth_error (s_threads s) j = Some u ->
    In (l, true) (t_held t) -> In (l, w) (t_held u) -> False;
  e_ann : forall i j t u l, i <> j -> nth_error (s_threads s) i = Some t -> nth_error (s_threads s) j = Some u ->
    announced l t = true -> In (l, true) (t_held u) -> False;
  e_two : forall i j t u l, i <> j -> nth_error (s_threads s) i = Some t -> nth_error (s_threads s) j = Some u ->
    announced l t = true -> announced l u = true -> False }.

Lemma nth_set s i t t' j : nth_error (s_threads s) i = Some t ->
  nth_error (s_threads (set_thread s i t')) j = if Nat.eqb j i then Some t' else nth_error (s_threads s) j.
Proof.
  intros E. destruct (nth_split_at _ _ _ E) as (F & L). rewrite set_threads.
  assert (Len : length (firstn i (s_threads s)) = i) by (rewrite firstn_length; lia).
  destruct (Nat.eqb_spec j i) as [->|Ne].
  - rewrite nth_error_app2 by lia. rewrite Len, Nat.sub_diag. reflexivity.
  - rewrite F at 3. destruct (Nat.lt_ge_cases j i) as [Lt|Ge].
    + rewrite !nth_error_app1 by lia. reflexivity.
    + rewrite !nth_error_app2 by lia. rewrite Len. destruct (j - i) as [|m] eqn:M; [lia|reflexivity].
Qed.

Lemma excl_threads s s' : s_threads s' = s_threads s -> excl s -> excl s'.
Proof. intros E [A B C]. constructor; rewrite E; assumption. Qed.

Lemma excl_change s i t t' : excl s -> nth_error (s_threads s) i = Some t ->
  (forall l w, In (l, w) (t_held t') -> In (l, w) (t_held t) \/
     forall j u, j <> i -> nth_error (s_threads s) j = Some u ->
       ~ In (l, true) (t_held u) /\ (w = true -> ~ In (l, false) (t_held u) /\ announced l u = false)) ->
  (forall l, announced l t' = true -> announced l t = true \/
     forall j u, j <> i -> nth_error (s_threads s) j = Some u -> ~ In (l, true) (t_held u) /\ announced l u = false) ->
  excl (set_thread s i t').
Proof.
  intros X E H A. constructor.
  - intros j k u v l w Ne Ej Ek Hu Hv. rewrite (nth_set s i t) in Ej, Ek by exact E.
    destruct (Nat.eqb_spec j i) as [->|Nj]; destruct (Nat.eqb_spec k i) as [->|Nk]; try congruence.
    + injection Ej as <-. destruct (H l true Hu) as [O|O]; [exact (e_held s X i k t v l w Ne E Ek O Hv)|].
      destruct (O k v Nk Ek) as (O1 & O2). destruct w; [now apply O1|]. now apply (proj1 (O2 eq_refl)).
    + injection Ek as <-. destruct (H l w Hv) as [O|O]; [exact (e_held s X j i u t l w Ne Ej E Hu O)|].
      destruct (O j u Nj Ej) as (O1 & _). now apply O1.
    + exact (e_held s X j k u v l w Ne Ej Ek Hu Hv).
  - intros j k u v l Ne Ej Ek Hu Hv. rewrite (nth_set s i t) in Ej, Ek by exact E.
    destruct (Nat.eqb_spec j i) as [->|Nj]; destruct (Nat.eqb_spec k i) as [->|Nk]; try congruence.
    + injection Ej as <-. destruct (A l Hu) as [O|O]; [exact (e_ann s X i k t v l Ne E Ek O Hv)|].
      destruct (O k v Nk Ek) as (O1 & _). now apply O1.
    + injection Ek as <-. destruct (H l true Hv) as [O|O]; [exact (e_ann s X j i u t l Ne Ej E Hu O)|].
      destruct (O j u Nj Ej) as (_ & O2). destruct (O2 eq_refl) as (_ & Z). congruence.
    + exact (e_ann s X j k u v l Ne Ej Ek Hu Hv).
  - intros j k u v l Ne Ej Ek Hu Hv. rewrite (nth_set s i t) in Ej, Ek by exact E.
    destruct (Nat.eqb_spec j i) as [->|Nj]; destruct (Nat.eqb_spec k i) as [->|Nk]; try congruence.
    + injection Ej as <-. destruct (A l Hu) as [O|O]; [exact (e_two s X i k t v l Ne E Ek O Hv)|].
      destruct (O k v Nk Ek) as (_ & Z). congruence.
    + injection Ek as <-. destruct (A l Hv) as [O|O]; [exact (e_two s X j i u t l Ne Ej E Hu O)|].
      destruct (O j u Nj Ej) as (_ & Z). congruence.
    + exact (e_two s X j k u v l Ne Ej Ek Hu Hv).
Qed.

Lemma give_up_incl l w held held' : give_up l w held = Some held' -> forall h, In h held' -> In h held.
Proof.
  revert held'. induction held as [|[l' w'] held IH]; intros held' G h I; [discriminate G|]. cbn [give_up] in G.
  destruct (_ && _); [injection G as <-; now right|].
  destruct (give_up l w held) as [r|]; [|discriminate G]. injection G as <-. destruct I as [<-|I]; [now left|right].
  now apply (IH r).
Qed.

Lemma holds_not w l s j u : existsb (holds w l) (s_threads s) = false -> nth_error (s_threads s) j = Some u -> ~ In (l, w) (t_held u).
Proof.
  intros H E I. assert (existsb (holds w l) (s_threads s) = true); [|congruence].
  apply existsb_exists. exists u. split; [now apply (nth_error_In _ j)|]. unfold holds. apply existsb_exists.
  exists (l, w). split; [exact I|]. cbn [fst snd]. now rewrite lock_eqb_refl, Bool.eqb_reflx.
Qed.
Lemma announced_not l s j u : existsb (announced l) (s_threads s) = false -> nth_error (s_threads s) j = Some u -> announced l u = false.
Proof.
  intros H E. destruct (announced l u) eqn:A; [|reflexivity]. assert (existsb (announced l) (s_threads s) = true); [|congruence].
  apply existsb_exists. exists u. split; [now apply (nth_error_In _ j)|exact A].
Qed.

Lemma excl_same s i t k g c lv : excl s -> nth_error (s_threads s) i = Some t -> forall held,
  (forall h, In h held -> In h (t_held t)) -> excl (set_thread s i (mk_thread k held false c g lv)).
Proof.
  intros X E held H. apply (excl_change s i t _ X E); cbn [t_held].
  - intros l w I. left. now apply H.
  - intros l A. discriminate A.
Qed.

Lemma excl_run s i s' : excl s -> run s i = Steps s' -> excl s'.
Proof.
  intros X. unfold run. destruct (nth_error (s_threads s) i) as [t|] eqn:E; [|discriminate]. cbv zeta.
  destruct (t_code t) as [|x k] eqn:C; [discriminate|].
  destruct x as [a|l|l|l|l| | |y n| |].
  - destruct (accessed a (s_maps s) (t_local t)) as [d lv]. intros Es. injection Es as <-.
    eapply excl_threads; [|apply (excl_same s i t (t_kind t) (t_gone t) k lv X E (t_held t)); trivial]. reflexivity.
  - destruct (t_pending t) eqn:P.
    + destruct (existsb _ _) eqn:R; [discriminate|]. intros Es. injection Es as <-.
      assert (A : announced l t = true) by (unfold announced; rewrite P, C; apply lock_eqb_refl).
      apply (excl_change s i t _ X E); cbn [t_held].
      * intros l' w [Z|I]; [injection Z as <- <-; right|now left]. intros j u Nj Ej. split.
        -- intros Z. exact (e_ann s X i j t u l (not_eq_sym Nj) E Ej A Z).
        -- intros _. split; [now apply (holds_not false l s j)|].
           destruct (announced l u) eqn:Au; [|reflexivity]. exfalso. exact (e_two s X i j t u l (not_eq_sym Nj) E Ej A Au).
      * intros l' Z. discriminate Z.
    + destruct (existsb (announced l) (s_threads s)) eqn:R1; [discriminate|].
      destruct (existsb (holds true l) (s_threads s)) eqn:R2; [discriminate|]. cbn [orb]. intros Es. injection Es as <-.
      apply (excl_change s i t _ X E); cbn [t_held].
      * intros l' w I. now left.
      * intros l' Z. unfold announced in Z. cbn [t_pending t_code andb] in Z. apply lock_eqb_eq in Z. subst l'. right.
        intros j u Nj Ej. split; [now apply (holds_not true l s j)|now apply (announced_not l s j)].
  - destruct (give_up _ _ _) as [held|] eqn:Gu; [|discriminate]. intros Es. injection Es as <-.
    apply (excl_same s i t); try assumption. now apply (give_up_incl l true).
  - destruct (existsb (announced l) (s_threads s)) eqn:R1; [discriminate|].
    destruct (existsb (holds true l) (s_threads s)) eqn:R2; [discriminate|]. cbn [orb]. intros Es. injection Es as <-.
    apply (excl_change s i t _ X E); cbn [t_held].
    + intros l' w [Z|I]; [injection Z as <- <-; right|now left]. intros j u Nj Ej. split; [now apply (holds_not true l s j)|discriminate].
    + intros l' Z. discriminate Z.
  - destruct (give_up _ _ _) as [held|] eqn:Gu; [|discriminate]. intros Es. injection Es as <-.
    apply (excl_same s i t); try assumption. now apply (give_up_incl l false).
  - intros Es. injection Es as <-. eapply excl_threads; [|apply (excl_same s i t (t_kind t) (t_gone t) k (t_local t) X E (t_held t)); trivial]. reflexivity.
  - intros Es. injection Es as <-. eapply excl_threads; [|apply (excl_same s i t (t_kind t) (t_gone t) k (t_local t) X E (t_held t)); trivial]. reflexivity.
  - intros Es. injection Es as <-.
    eapply excl_threads; [|apply (excl_same s i t (t_kind t) (t_gone t) ((if s_closed s then y else n) ++ k) (t_local t) X E (t_held t)); trivial]. reflexivity.
  - destruct (s_channel_closed s); [discriminate|]. intros Es. injection Es as <-.
    eapply excl_threads; [|apply (excl_same s i t (t_kind t) (t_gone t) k (t_local t) X E (t_held t)); trivial]. reflexivity.
  - destruct (existsb _ _); [discriminate|]. intros Es. injection Es as <-.
    apply (excl_same s i t); trivial.
Qed.

Lemma excl_reachable s : reachable s -> excl s.
Proof.
  induction 1 as [|s h s' R IH E].
  - constructor.
    + intros [|[|[|i]]] j t u l w _ Ei _ H; cbn in Ei; try discriminate Ei; injection Ei as <-; destruct H.
    + intros [|[|[|i]]] j t u l _ Ei _ H; cbn in Ei; try discriminate Ei; injection Ei as <-; discriminate H.
    + intros [|[|[|i]]] j t u l _ Ei _ H; cbn in Ei; try discriminate Ei; injection Ei as <-; discriminate H.
  - destruct h as [c|i|i ns b|i]; cbn [happen] in E.
    + injection E as <-.
      assert (N : forall j t, nth_error (s_threads (begin_call s c)) j = Some t ->
         nth_error (s_threads s) j = Some t \/ (t = mk_thread Caller [] false (code_of c) false no_local)).
      { intros j t. unfold begin_call. cbn [s_threads]. intros Z.
        destruct (Nat.lt_ge_cases j (length (s_threads s))) as [L|L].
        - rewrite nth_error_app1 in Z by exact L. now left.
        - rewrite nth_error_app2 in Z by exact L. right. destruct (j - length (s_threads s)) as [|[|m]]; try discriminate Z. now injection Z as <-. }
      constructor.
      * intros i j t u l w Ne Ei Ej Ht Hu. destruct (N i t Ei) as [A| -> ]; [|destruct Ht]. destruct (N j u Ej) as [B| -> ]; [|destruct Hu].
        exact (e_held s IH i j t u l w Ne A B Ht Hu).
      * intros i j t u l Ne Ei Ej Ht Hu. destruct (N i t Ei) as [A| -> ]; [|discriminate Ht]. destruct (N j u Ej) as [B| -> ]; [|destruct Hu].
        exact (e_ann s IH i j t u l Ne A B Ht Hu).
      * intros i j t u l Ne Ei Ej Ht Hu. destruct (N i t Ei) as [A| -> ]; [|discriminate Ht]. destruct (N j u Ej) as [B| -> ]; [|discriminate Hu].
        exact (e_two s IH i j t u l Ne A B Ht Hu).
    + now apply (excl_run s i).
    + unfold receive in E. destruct (nth_error (s_threads s) i) as [t|] eqn:Ei; [|discriminate E].
      destruct t as [[] [|] [] [|] [] lv]; try discriminate E.
      * destruct (s_evict s); [|discriminate E]. injection E as <-.
        eapply excl_threads; [|apply (excl_same s i _ Evictor false (evict_code ns) lv IH Ei []); trivial]. reflexivity.
      * destruct (s_delete s); [|discriminate E]. injection E as <-.
        eapply excl_threads; [|apply (excl_same s i _ Deleter false (delete_code b) lv IH Ei []); trivial]. reflexivity.
    + unfold leave in E. destruct (nth_error (s_threads s) i) as [t|] eqn:Ei; [|discriminate E].
      destruct t as [k0 [|] [] [|] [] lv]; try discriminate E.
      destruct k0; try discriminate E; (destruct (s_channel_closed s); [|discriminate E]); injection E as <-;
        apply (excl_same s i _ _ _ _ _ IH Ei []); trivial.
Qed.

(** * Close waits *)
Definition waiting (s : system) : nat := total (fun t => wt (t_code t)) s.
Definition closed_inv (s : system) : Prop := s_channel_closed s = true -> 1 <= waiting s \/ workers_gone s.

Lemma gone_change s i t t' : nth_error (s_threads s) i = Some t -> t_kind t' = t_kind t -> (t_gone t = true -> t_gone t' = true) ->
  workers_gone s -> workers_gone (set_thread s i t').
Proof.
  intros E K G W x X Kx. apply (in_set s i t) in X as [->|X]; [|now apply W|exact E].
  apply G. apply W; [now apply (nth_error_In _ i)|congruence].
Qed.

Lemma closed_run s i s' : inv s -> closed_inv s -> run s i = Steps s' -> closed_inv s'.
Proof.
  intros I H R. unfold run in R. destruct (nth_error (s_threads s) i) as [t|] eqn:E; [|discriminate R]. cbv zeta in R.
  destruct (i_ok s I t (nth_error_In _ _ E)) as (v & Ok).
  assert (M : forall t' s'', s_threads s'' = s_threads (set_thread s i t') -> s_channel_closed s'' = s_channel_closed s ->
     t_kind t' = t_kind t -> t_gone t' = t_gone t -> wt (t_code t') >= wt (t_code t) -> closed_inv s'').
  { intros t' s'' T1 T2 K G W CC. rewrite T2 in CC.
    assert (waiting s'' = waiting (set_thread s i t')) as -> by (unfold waiting, total; now rewrite T1).
    destruct (H CC) as [L|L].
    - left. pose proof (total_set (fun t => wt (t_code t)) s i t t' E) as Q. cbv beta in Q. unfold waiting in *. lia.
    - right. intros x X. rewrite T1 in X. revert x X. apply (gone_change s i t t' E); [exact K|now rewrite G|exact L]. }
  destruct (t_code t) as [|x k] eqn:C; [discriminate R|].
  destruct x as [a|l|l|l|l| | |y n| |].
  - destruct (accessed a (s_maps s) (t_local t)) as [d lv]. injection R as <-. eapply M; try reflexivity; try apply Nat.le_refl.
  - destruct (t_pending t).
    + destruct (existsb _ _); [discriminate R|]. injection R as <-. eapply M; try reflexivity; try apply Nat.le_refl.
    + destruct (_ || _); [discriminate R|]. injection R as <-. eapply M; try reflexivity; try apply Nat.le_refl.
  - destruct (give_up _ _ _); [|discriminate R]. injection R as <-. eapply M; try reflexivity; try apply Nat.le_refl.
  - destruct (_ || _); [discriminate R|]. injection R as <-. eapply M; try reflexivity; try apply Nat.le_refl.
  - destruct (give_up _ _ _); [|discriminate R]. injection R as <-. eapply M; try reflexivity; try apply Nat.le_refl.
  - injection R as <-. eapply M; try reflexivity; try apply Nat.le_refl.
  - injection R as <-. eapply M; try reflexivity; try apply Nat.le_refl.
  - injection R as <-. destruct (ok_if_inv _ _ _ _ _ Ok) as (-> & _). eapply M; try reflexivity; try apply Nat.le_refl. cbn [t_code]. change (wt [IIfClosed y n]) with 0. lia.
  - destruct (s_channel_closed s); [discriminate R|]. injection R as <-. intros _. left.
    destruct (ok_close_inv _ _ _ Ok) as (_ & _ & ->).
    unfold waiting. change (1 <= total (fun t0 => wt (t_code t0)) (set_thread s i (mk_thread (t_kind t) (t_held t) false [IWaitWorkers] (t_gone t) (t_local t)))).
    pose proof (total_set (fun t => wt (t_code t)) s i t (mk_thread (t_kind t) (t_held t) false [IWaitWorkers] (t_gone t) (t_local t)) E) as Q.
    cbn [t_code] in Q. change (wt [IWaitWorkers]) with 1 in Q.
    pose proof (total_in (fun t => wt (t_code t)) s t (nth_error_In _ _ E)) as Q'. cbv beta in Q'. lia.
  - destruct (existsb still_working (s_threads s)) eqn:W; [discriminate R|]. injection R as <-. intros _. right.
    apply (gone_change s i t); [exact E|reflexivity|trivial|].
    intros u U K. destruct (t_gone u) eqn:G; [reflexivity|]. exfalso.
    assert (existsb still_working (s_threads s) = true); [|congruence].
    apply existsb_exists. exists u. split; [exact U|]. unfold still_working. rewrite G. destruct (t_kind u); [now contradiction K| |]; reflexivity.
Qed.

Lemma closed_reachable s : reachable s -> closed_inv s.
Proof.
  induction 1 as [|s h s' R IH E]; [intros Z; discriminate Z|].
  pose proof (reachable_inv s R) as I.
  destruct h as [c|i|i ns b|i]; cbn [happen] in E.
  - injection E as <-. intros CC. destruct (IH CC) as [L|L].
    + left. unfold waiting, total, begin_call in *. cbn [s_threads]. rewrite map_app, list_sum_app. lia.
    + right. intros x X K. unfold begin_call in X. cbn [s_threads] in X. apply in_app_or in X as [X|[<-|[]]]; [now apply L|now contradiction K].
  - now apply (closed_run s i).
  - unfold receive in E. destruct (nth_error (s_threads s) i) as [t|] eqn:Ei; [|discriminate E].
    assert (M : forall k0 c s'' lv, k0 <> Caller -> t = mk_thread k0 [] false [] false lv ->
       s_threads s'' = s_threads (set_thread s i (mk_thread k0 [] false c false lv)) -> s_channel_closed s'' = s_channel_closed s -> closed_inv s'').
    { intros k0 c s'' lv K -> T1 T2 CC. rewrite T2 in CC. left.
      destruct (IH CC) as [L|L].
      - unfold waiting, total in *. rewrite T1.
        pose proof (total_set (fun t => wt (t_code t)) s i _ (mk_thread k0 [] false c false lv) Ei) as Q. cbn [t_code] in Q. change (wt []) with 0 in Q.
        unfold total in Q. lia.
      - specialize (L _ (nth_error_In _ _ Ei) K). discriminate L. }
    destruct t as [[] [|] [] [|] [] lv]; try discriminate E.
    + destruct (s_evict s); [|discriminate E]. injection E as <-. eapply (M Evictor); try reflexivity. discriminate.
    + destruct (s_delete s); [|discriminate E]. injection E as <-. eapply (M Deleter); try reflexivity. discriminate.
  - unfold leave in E. destruct (nth_error (s_threads s) i) as [t|] eqn:Ei; [|discriminate E].
    destruct t as [k0 [|] [] [|] [] lv]; try discriminate E.
    assert (M : closed_inv (set_thread s i (mk_thread k0 [] false [] true lv))).
    { intros CC. destruct (IH CC) as [L|L].
      - left. unfold waiting in *. pose proof (total_set (fun t => wt (t_code t)) s i _ (mk_thread k0 [] false [] true lv) Ei) as Q. cbn [t_code] in Q. lia.
      - right. apply (gone_change s i _ _ Ei); try reflexivity. exact L. }
    destruct k0; try discriminate E; (destruct (s_channel_closed s); [|discriminate E]); injection E as <-; exact M.
Qed.

Lemma total_zero g s : (forall t, In t (s_threads s) -> g t = 0) -> total g s = 0.
Proof.
  unfold total. induction (s_threads s) as [|x l IH]; intros H; [reflexivity|]. cbn [map]. rewrite list_sum_cons, IH, (H x); [reflexivity|now left|].
  intros t X. apply H. now right.
Qed.

Lemma closed_all_returned s : reachable s -> s_closed s = true -> all_returned s -> workers_gone s.
Proof.
  intros R C A. pose proof (reachable_inv s R) as I.
  assert (Z : forall t, In t (s_threads s) -> cl (t_code t) = 0 /\ wt (t_code t) = 0).
  { intros t X. destruct (t_kind t) eqn:K.
    - destruct (A t X K) as (-> & _). split; reflexivity.
    - pose proof (i_worker s I t X ltac:(congruence)). pose proof (cl_sp (t_code t)). pose proof (wt_sp (t_code t)). lia.
    - pose proof (i_worker s I t X ltac:(congruence)). pose proof (cl_sp (t_code t)). pose proof (wt_sp (t_code t)). lia. }
  assert (CC : s_channel_closed s = true).
  { pose proof (i_settled s I C) as St. rewrite (total_zero (fun t => cl (t_code t))) in St by (intros t X; now apply Z).
    destruct (s_channel_closed s); [reflexivity|discriminate St]. }
  destruct (closed_reachable s R CC) as [L|L]; [|exact L].
  unfold waiting in L. rewrite total_zero in L; [lia|]. intros t X. now apply Z.
Qed.

(** * No races *)
Lemma uses_valid held v k : ok held v k -> uses k = true -> v = true.
Proof.
  induction 1 as [|held v l k B Z Ok IH|held v l k B Z Ok IH|held v l k Ok IH|held v l k Ok IH|held v k Ok IH|held v k Ok IH
    |held v y n| | |held v v' a k Al Ok IH]; intros U; try discriminate U; try (now apply IH).
  - specialize (IH U). unfold released in IH. destruct (lock_eqb l CacheLock); [discriminate IH|exact IH].
  - specialize (IH U). unfold released in IH. destruct (lock_eqb l CacheLock); [discriminate IH|exact IH].
  - destruct a as [x w|n|w|n|n| |i]; cbn [uses] in U; try discriminate U; cbn [allowed] in Al.
    + destruct Al as (_ & _ & <-). now apply IH.
    + now destruct Al as (_ & -> & _).
    + destruct Al as (_ & ->). discriminate (IH U).
    + destruct Al as (_ & ->). discriminate (IH U).
    + subst v'. now apply IH.
Qed.

Lemma uses_held held v k : ok held v k -> uses k = true -> exists w, In (CacheLock, w) held.
Proof.
  induction 1 as [|held v l k B Z Ok IH|held v l k B Z Ok IH|held v l k Ok IH|held v l k Ok IH|held v k Ok IH|held v k Ok IH
    |held v y n| | |held v v' a k Al Ok IH]; intros U; try discriminate U; try (now apply IH).
  - destruct (IH U) as (w & [E|I]); [|eauto]. injection E as -> <-. specialize (Z eq_refl). pose proof (uses_valid _ _ _ Ok U). congruence.
  - destruct (IH U) as (w & [E|I]); [|eauto]. injection E as -> <-. specialize (Z eq_refl). pose proof (uses_valid _ _ _ Ok U). congruence.
  - destruct (IH U) as (w & I). exists w. now right.
  - destruct (IH U) as (w & I). exists w. now right.
  - destruct a as [x w|n|w|n|n| |i]; cbn [uses] in U; try discriminate U; try (now apply IH).
    cbn [allowed] in Al. destruct Al as ([I|(_ & I)] & _); eauto.
Qed.

Definition attached (d : maps) (m : nat) : Prop := In m (map snd (m_namespaces d)).

Record data (s : system) : Prop := {
  d_next : forall m, attached (s_maps s) m -> m < m_next (s_maps s);
  d_distinct : NoDup (map snd (m_namespaces (s_maps s)));
  d_delete : forall m, In m (m_to_delete (s_maps s)) -> m < m_next (s_maps s) /\ ~ attached (s_maps s) m;
  d_taken : forall t m, In t (s_threads s) -> In m (l_taken (t_local t)) -> m < m_next (s_maps s) /\ ~ attached (s_maps s) m;
  d_map : forall t m, In t (s_threads s) -> uses (t_code t) = true -> l_map (t_local t) = Some m -> attached (s_maps s) m }.

Lemma data_code s i t t' e d c cc : data s -> nth_error (s_threads s) i = Some t -> t_local t' = t_local t ->
  (uses (t_code t') = true -> uses (t_code t) = true) ->
  data (mk_system (s_threads (set_thread s i t')) e d c cc (s_maps s)).
Proof.
  intros D E L U. pose proof (nth_error_In _ _ E) as I. constructor; cbn [s_threads s_maps].
  - apply (d_next s D).
  - apply (d_distinct s D).
  - apply (d_delete s D).
  - intros x m X. apply (in_set s i t) in X as [->|X]; [|now apply (d_taken s D)|exact E]. rewrite L. now apply (d_taken s D).
  - intros x m X. apply (in_set s i t) in X as [->|X]; [|now apply (d_map s D)|exact E]. rewrite L. intros Ux. apply (d_map s D); [exact I|now apply U].
Qed.

Lemma without_in n l x : In x (without n l) <-> In x l /\ fst x <> n.
Proof.
  unfold without. rewrite filter_In, negb_true_iff, Nat.eqb_neq. reflexivity.
Qed.
Lemma without_attached n l m : In m (map snd (without n l)) -> In m (map snd l).
Proof.
  intros H. apply in_map_iff in H as (x & <- & X). apply without_in in X as (X & _). now apply in_map.
Qed.
Lemma without_distinct n l : NoDup (map snd l) -> NoDup (map snd (without n l)).
Proof.
  induction l as [|x l IH]; intros H; [constructor|]. inversion H as [|y r N H']; subst. unfold without. cbn [filter].
  destruct (negb _); [|now apply IH]. cbn [map]. constructor; [|now apply IH]. intros Z. apply N. now apply (without_attached n).
Qed.
Lemma map_of_in n l m : map_of n l = Some m -> In (n, m) l.
Proof.
  unfold map_of. destruct (find _ l) as [[n' m']|] eqn:F; [|discriminate]. intros E. injection E as <-.
  apply find_some in F as (F & Z). cbn [fst] in Z. apply Nat.eqb_eq in Z. now subst.
Qed.
Lemma map_of_gone n l m : NoDup (map snd l) -> map_of n l = Some m -> ~ In m (map snd (without n l)).
Proof.
  intros D E Z. apply map_of_in in E. apply in_map_iff in Z as ((n', m') & Em & X). cbn [snd] in Em. subst m'.
  apply without_in in X as (X & Ne). cbn [fst] in Ne.
  assert (n' = n); [|congruence].
  clear Ne. induction l as [|[a b] l IH]; [destruct E|]. inversion D as [|y r N D']; subst. cbn [snd] in N.
  destruct E as [E|E], X as [X|X].
  - congruence.
  - injection E as -> ->. exfalso. apply N. now apply (in_map snd) in X.
  - injection X as -> ->. exfalso. apply N. now apply (in_map snd) in E.
  - now apply IH.
Qed.

Lemma has_lock_excl s i j t u l w w' : excl s -> i <> j -> nth_error (s_threads s) i = Some t -> nth_error (s_threads s) j = Some u ->
  has_lock (t_held t) l w -> has_lock (t_held u) l w' -> w = true \/ w' = true -> False.
Proof.
  intros X Ne Ei Ej [A|(W & A)] [B|(W' & B)] R.
  - exact (e_held s X i j t u l true Ne Ei Ej A B).
  - exact (e_held s X i j t u l false Ne Ei Ej A B).
  - exact (e_held s X j i u t l false (not_eq_sym Ne) Ej Ei B A).
  - destruct R; congruence.
Qed.

(** Nobody else uses a map while the cache's lock is held for writing. *)
Lemma nobody_uses s i j t u : inv s -> excl s -> j <> i -> nth_error (s_threads s) i = Some t -> nth_error (s_threads s) j = Some u ->
  has_lock (t_held t) CacheLock true -> uses (t_code u) = true -> False.
Proof.
  intros I X Ne Ei Ej H U. destruct (i_ok s I u (nth_error_In _ _ Ej)) as (v & Ok).
  destruct (uses_held _ _ _ Ok U) as (w & Hu). destruct H as [H|(Z & _)]; [|discriminate Z].
  exact (e_held s X i j t u CacheLock w (not_eq_sym Ne) Ei Ej H Hu).
Qed.

Lemma in_set_nth s i t t' x : nth_error (s_threads s) i = Some t -> In x (s_threads (set_thread s i t')) ->
  x = t' \/ exists j, j <> i /\ nth_error (s_threads s) j = Some x.
Proof.
  intros E X. destruct (In_nth_error _ _ X) as (j & Ej). rewrite (nth_set s i t) in Ej by exact E.
  destruct (Nat.eqb_spec j i) as [Eq|Ne]; [left; congruence|right; eauto].
Qed.

(** What an access does. *)
Lemma data_access s i t a k d v e f c cc : inv s -> excl s -> data s -> nth_error (s_threads s) i = Some t -> t_code t = IAccess a :: k ->
  accessed a (s_maps s) (t_local t) = (d, v) ->
  data (mk_system (s_threads (set_thread s i (mk_thread (t_kind t) (t_held t) false k (t_gone t) v))) e f c cc d).
Proof.
  intros I X D E C A. pose proof (nth_error_In _ _ E) as In0.
  destruct (i_ok s I t In0) as (b & Ok). rewrite C in Ok. destruct (ok_access_inv _ _ _ _ Ok) as (b' & Al & Ok').
  set (t' := mk_thread (t_kind t) (t_held t) false k (t_gone t) v).
  assert (Same : d = s_maps s -> v = t_local t -> (uses k = true -> uses (t_code t) = true) ->
    data (mk_system (s_threads (set_thread s i t')) e f c cc d)).
  { intros -> -> U. now apply (data_code s i t t'). }
  destruct a as [x w|n|w|n|n| |j]; cbn [accessed] in A; injection A as Ed Ev.
  - apply Same; try (now symmetry). rewrite C. trivial.
  - (* FindMap *)
    clear Same. constructor; cbn [s_threads s_maps]; try rewrite <- Ed.
    + apply (d_next s D).
    + apply (d_distinct s D).
    + apply (d_delete s D).
    + intros y m Y. apply (in_set s i t) in Y as [->|Y]; [|now apply (d_taken s D)|exact E].
      unfold t'. cbn [t_local]. rewrite <- Ev. cbn [l_taken]. now apply (d_taken s D).
    + intros y m Y. apply (in_set s i t) in Y as [->|Y]; [|now apply (d_map s D)|exact E].
      unfold t'. cbn [t_local]. rewrite <- Ev. cbn [l_map]. intros _ Em. apply map_of_in in Em. now apply (in_map snd) in Em.
  - apply Same; try (now symmetry). rewrite C. reflexivity.
  - (* DetachMap *)
    cbn [allowed] in Al. destruct Al as (Lk & ->). clear Same. constructor; cbn [s_threads s_maps]; rewrite <- Ed; unfold attached; cbn [m_namespaces m_to_delete m_next].
    + intros m M. apply without_attached in M. now apply (d_next s D).
    + apply without_distinct, (d_distinct s D).
    + intros m M. apply in_app_or in M as [M|M].
      * destruct (d_delete s D m M) as (L & N). split; [exact L|]. intros Z. apply N. now apply without_attached in Z.
      * destruct (map_of n (m_namespaces (s_maps s))) as [m'|] eqn:Em; [|destruct M]. destruct M as [<-|[]]. split.
        -- apply (d_next s D). apply map_of_in in Em. now apply (in_map snd) in Em.
        -- apply map_of_gone; [apply (d_distinct s D)|exact Em].
    + intros y m Y. assert (Q : In m (l_taken (t_local y)) -> m < m_next (s_maps s) /\ ~ attached (s_maps s) m).
      { apply (in_set s i t) in Y as [->|Y]; [|now apply (d_taken s D)|exact E]. unfold t'. cbn [t_local]. rewrite <- Ev. now apply (d_taken s D). }
      intros M. destruct (Q M) as (L & N). split; [exact L|]. intros Z. apply N. now apply without_attached in Z.
    + intros y m Y U. apply (in_set_nth s i t) in Y as [->|(j & Nj & Y)]; [| |exact E].
      * unfold t' in U. cbn [t_code] in U. discriminate (uses_valid _ _ _ Ok' U).
      * destruct (nobody_uses s i j t y I X Nj E Y Lk U).
  - (* InstallMap *)
    cbn [allowed] in Al. destruct Al as (Lk & ->). clear Same. constructor; cbn [s_threads s_maps]; rewrite <- Ed; unfold attached; cbn [m_namespaces m_to_delete m_next map snd].
    + intros m [<-|M]; [lia|]. apply without_attached in M. pose proof (d_next s D m M). lia.
    + constructor; [|apply without_distinct, (d_distinct s D)]. intros Z. apply without_attached in Z. pose proof (d_next s D _ Z). lia.
    + intros m M. destruct (d_delete s D m M) as (L & N). split; [lia|]. intros [Z|Z]; [lia|]. apply N. now apply without_attached in Z.
    + intros y m Y. assert (Q : In m (l_taken (t_local y)) -> m < m_next (s_maps s) /\ ~ attached (s_maps s) m).
      { apply (in_set s i t) in Y as [->|Y]; [|now apply (d_taken s D)|exact E]. unfold t'. cbn [t_local]. rewrite <- Ev. now apply (d_taken s D). }
      intros M. destruct (Q M) as (L & N). split; [lia|]. intros [Z|Z]; [lia|]. apply N. now apply without_attached in Z.
    + intros y m Y U. apply (in_set_nth s i t) in Y as [->|(j & Nj & Y)]; [| |exact E].
      * unfold t'. cbn [t_local]. rewrite <- Ev. cbn [l_map]. intros Em. injection Em as <-. now left.
      * destruct (nobody_uses s i j t y I X Nj E Y Lk U).
  - (* TakeMaps *)
    cbn [allowed] in Al. destruct Al as (Lk & ->). clear Same. constructor; cbn [s_threads s_maps]; rewrite <- Ed; unfold attached; cbn [m_namespaces m_to_delete m_next].
    + apply (d_next s D).
    + apply (d_distinct s D).
    + intros m [].
    + intros y m Y. apply (in_set s i t) in Y as [->|Y]; [|now apply (d_taken s D)|exact E].
      unfold t'. cbn [t_local]. rewrite <- Ev. cbn [l_taken]. now apply (d_delete s D).
    + intros y m Y U. apply (in_set s i t) in Y as [->|Y]; [|now apply (d_map s D)|exact E].
      unfold t' in U. cbn [t_code] in U. discriminate (uses_valid _ _ _ Ok' U).
  - apply Same; try (now symmetry). rewrite C. trivial.
Qed.

Lemma data_run s i s' : inv s -> excl s -> data s -> run s i = Steps s' -> data s'.
Proof.
  intros I X D R. unfold run in R. destruct (nth_error (s_threads s) i) as [t|] eqn:E; [|discriminate R]. cbv zeta in R.
  assert (M : forall x k held, t_code t = x :: k -> (uses k = true -> uses (x :: k) = true) -> forall e f c cc,
     data (mk_system (s_threads (set_thread s i (mk_thread (t_kind t) held false k (t_gone t) (t_local t)))) e f c cc (s_maps s))).
  { intros x k held C U e f c cc. apply (data_code s i t); [exact D|exact E|reflexivity|]. cbn [t_code]. rewrite C. exact U. }
  destruct (t_code t) as [|x k] eqn:C; [discriminate R|].
  destruct x as [a|l|l|l|l| | |y n| |].
  - destruct (accessed a (s_maps s) (t_local t)) as [d v] eqn:A. injection R as <-. now apply (data_access s i t a k).
  - destruct (t_pending t).
    + destruct (existsb _ _); [discriminate R|]. injection R as <-. rewrite set_thread_eta. now apply (M (ILock l)).
    + destruct (_ || _); [discriminate R|]. injection R as <-. rewrite set_thread_eta.
      apply (data_code s i t); [exact D|exact E|reflexivity|]. cbn [t_code]. rewrite C. trivial.
  - destruct (give_up _ _ _); [|discriminate R]. injection R as <-. rewrite set_thread_eta. now apply (M (IUnlock l)).
  - destruct (_ || _); [discriminate R|]. injection R as <-. rewrite set_thread_eta. now apply (M (IRLock l)).
  - destruct (give_up _ _ _); [|discriminate R]. injection R as <-. rewrite set_thread_eta. now apply (M (IRUnlock l)).
  - injection R as <-. now apply (M INotifyEviction).
  - injection R as <-. now apply (M INotifyDeletion).
  - injection R as <-. destruct (i_ok s I t (nth_error_In _ _ E)) as (v & Ok). rewrite C in Ok.
    destruct (ok_if_inv _ _ _ _ _ Ok) as (-> & _ & _ & _ & Uy & Un & _). rewrite app_nil_r.
    apply (data_code s i t); [exact D|exact E|reflexivity|]. cbn [t_code]. destruct (s_closed s); congruence.
  - destruct (s_channel_closed s); [discriminate R|]. injection R as <-. now apply (M ICloseChannel).
  - destruct (existsb _ _); [discriminate R|]. injection R as <-. rewrite set_thread_eta. now apply (M IWaitWorkers).
Qed.

Lemma fresh_code_uses k : ok [] false k -> uses k = false.
Proof. intros Ok. destruct (uses k) eqn:U; [|reflexivity]. now apply (uses_valid _ _ _ Ok) in U. Qed.

Lemma data_reachable s : reachable s -> data s.
Proof.
  induction 1 as [|s h s' R IH E].
  - constructor; unfold attached; cbn [new_system s_maps s_threads m_namespaces m_to_delete m_next map].
    + intros m [].
    + constructor.
    + intros m [].
    + intros t m [<-|[<-|[]]] [].
    + intros t m [<-|[<-|[]]]; discriminate.
  - pose proof (reachable_inv s R) as I. pose proof (excl_reachable s R) as X.
    destruct h as [c|i|i ns b|i]; cbn [happen] in E.
    + injection E as <-. constructor; cbn [begin_call s_threads s_maps].
      * apply (d_next s IH).
      * apply (d_distinct s IH).
      * apply (d_delete s IH).
      * intros t m T. apply in_app_or in T as [T|[<-|[]]]; [now apply (d_taken s IH)|intros []].
      * intros t m T. apply in_app_or in T as [T|[<-|[]]]; [now apply (d_map s IH)|discriminate].
    + now apply (data_run s i).
    + unfold receive in E. destruct (nth_error (s_threads s) i) as [t|] eqn:Ei; [|discriminate E].
      destruct t as [[] [|] [] [|] [] lv]; try discriminate E.
      * destruct (s_evict s); [|discriminate E]. injection E as <-. apply (data_code s i _ _ _ _ _ _ IH Ei); [reflexivity|].
        cbn [t_code]. rewrite (fresh_code_uses (evict_code ns)) by apply (ok_block 3), block_evict. discriminate.
      * destruct (s_delete s); [|discriminate E]. injection E as <-. apply (data_code s i _ _ _ _ _ _ IH Ei); [reflexivity|].
        cbn [t_code]. rewrite (fresh_code_uses (delete_code b)) by apply (ok_block 3), block_delete. discriminate.
    + unfold leave in E. destruct (nth_error (s_threads s) i) as [t|] eqn:Ei; [|discriminate E].
      destruct t as [k0 [|] [] [|] [] lv]; try discriminate E.
      destruct k0; try discriminate E; (destruct (s_channel_closed s); [|discriminate E]); injection E as <-;
        apply (data_code s i _ _ _ _ _ _ IH Ei); trivial.
Qed.

(** What a goroutine is about to touch is guarded, or is a map that only the deleting goroutine has. *)
Lemma about_guarded s t x w : inv s -> data s -> In t (s_threads s) -> In (x, w) (about_to_touch t) ->
  (has_lock (t_held t) (guard x) w /\ (forall m, x = LMap m -> attached (s_maps s) m)) \/
  (w = false /\ exists m, x = LMap m /\ ~ attached (s_maps s) m).
Proof.
  intros I D T H. unfold about_to_touch in H. destruct (i_ok s I t T) as (v & Ok).
  destruct (t_code t) as [|[a|l|l|l|l| | |y n| |] k] eqn:C; try destruct H.
  - destruct (ok_access_inv _ _ _ _ Ok) as (v' & Al & _).
    destruct a as [y b|n|b|n|n| |j]; cbn [touches] in H; cbn [allowed] in Al.
    + destruct H as [H|[]]. injection H as -> ->. left. destruct Al as (L & N & _). split; [exact L|]. intros m Z. now destruct (N m).
    + destruct H as [H|[]]. injection H as <- <-. left. split; [exact (proj1 Al)|discriminate].
    + destruct (l_map (t_local t)) as [m|] eqn:L; [|destruct H]. destruct H as [H|[]]. injection H as <- <-. left.
      split; [exact (proj1 Al)|]. intros m' Z. injection Z as <-. apply (d_map s D t m T); [|exact L]. rewrite C. reflexivity.
    + destruct H as [H|[H|[]]]; injection H as <- <-; left; (split; [exact (proj1 Al)|discriminate]).
    + destruct H as [H|[]]. injection H as <- <-. left. split; [exact (proj1 Al)|discriminate].
    + destruct H as [H|[]]. injection H as <- <-. left. split; [exact (proj1 Al)|discriminate].
    + destruct (nth_error (l_taken (t_local t)) j) as [m|] eqn:L; [|destruct H]. destruct H as [H|[]]. injection H as <- <-. right.
      split; [reflexivity|]. exists m. split; [reflexivity|]. apply nth_error_In in L. exact (proj2 (d_taken s D t m T L)).
  - injection H as <- <-. left. destruct (ok_if_inv _ _ _ _ _ Ok) as (_ & _ & _ & L & _). split; [now left|discriminate].
  - destruct H.
Qed.

Lemma no_races s : reachable s -> ~ races s.
Proof.
  intros R (i & j & t & u & x & w & w' & Ne & Ei & Ej & Ht & Hu & W).
  pose proof (reachable_inv s R) as I. pose proof (excl_reachable s R) as X. pose proof (data_reachable s R) as D.
  destruct (about_guarded s t x w I D (nth_error_In _ _ Ei) Ht) as [(Lt & At)|(Wt & m & Em & Nt)];
  destruct (about_guarded s u x w' I D (nth_error_In _ _ Ej) Hu) as [(Lu & Au)|(Wu & m' & Eu & Nu)].
  - exact (has_lock_excl s i j t u (guard x) w w' X Ne Ei Ej Lt Lu W).
  - apply Nu. now apply At.
  - apply Nt. now apply Au.
  - destruct W; congruence.
Qed.
