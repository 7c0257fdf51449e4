(** A decoder that succeeds reads a block of bytes, and would read the same from that block whatever follows. *)
From Coq Require Import Ascii String Arith NArith ZArith Bool Lia List.
From Verif.Base Require Import Bytes.
From Verif.Proof Require Import ProtoWireProof MsgpackLibProof MsgpackProof.
From Verif.Model Require Import AggType Policy Transformation ProtoWire MsgpackLib Msgpack.
From Verif.Spec Require Import MetadataSpec ProtoStreamSpec MsgpackSpec.
Import ListNotations.
Open Scope Z_scope.

(** * Readers *)

Definition local0 {A} (f : bytes -> (A * bytes) + merr) : Prop :=
  forall d a r, f d = inl (a, r) -> exists x, d = x ++ r /\ forall q, f (x ++ q) = inl (a, q).
Definition local1 {A} (f : bytes -> (A * bytes) + merr) : Prop :=
  forall d a r, f d = inl (a, r) -> exists x, x <> [] /\ d = x ++ r /\ forall q, f (x ++ q) = inl (a, q).

Lemma l10 {A} (f : bytes -> (A * bytes) + merr) : local1 f -> local0 f.
Proof. intros H d a r E. destruct (H d a r E) as (x & _ & K). exists x. exact K. Qed.
Lemma l0_ret {A} (a : A) : local0 (fun d => inl (a, d)).
Proof. intros d b r E. assert (d = r /\ a = b) as [-> ->] by (split; congruence). exists []. split; reflexivity. Qed.
Lemma l0_fail {A} e : @local0 A (fun _ => inr e).
Proof. intros d b r E. discriminate E. Qed.
Lemma l0_if {A} (c : bool) (f g : bytes -> (A * bytes) + merr) :
  local0 f -> local0 g -> local0 (fun d => if c then f d else g d).
Proof. destruct c; trivial. Qed.
Lemma l0_bind {A C} (f : bytes -> (A * bytes) + merr) (g : A -> bytes -> (C * bytes) + merr) :
  local0 f -> (forall a, local0 (g a)) -> local0 (fun d => match f d with inl (a, d) => g a d | inr e => inr e end).
Proof.
  intros F G d c r E. destruct (f d) as [[a d']|e] eqn:Ef; [|discriminate E].
  destruct (F d a d' Ef) as (x & -> & X). destruct (G a d' c r E) as (y & -> & Y).
  exists (x ++ y). split; [apply app_assoc|]. intros q. rewrite <- app_assoc, X. apply Y.
Qed.
Lemma l0_take n : local0 (take n).
Proof.
  intros d a r E. exists a. split; [exact (take_suffix n d a r E)|]. intros q. revert E. unfold take.
  destruct (Z.leb_spec n (zlen d)) as [L|L]; [|destruct d; discriminate]. intros E.
  assert (firstn (Z.to_nat n) d = a) as <- by congruence.
  assert (length (firstn (Z.to_nat n) d) = Z.to_nat n) as K by (rewrite firstn_length; unfold zlen in L; lia).
  rewrite (proj2 (Z.leb_le _ _)) by (unfold zlen in *; rewrite app_length, K; lia).
  rewrite <- K at 1 3. rewrite firstn_app, firstn_all, Nat.sub_diag, skipn_app, skipn_all, Nat.sub_diag.
  cbn [firstn skipn]. rewrite app_nil_r. reflexivity.
Qed.
Lemma l0_uint n : local0 (read_uint n).
Proof. unfold read_uint. refine (l0_bind (take n) _ (l0_take n) _). intros a. apply l0_ret. Qed.
Lemma l0_sint n : local0 (read_sint n).
Proof. unfold read_sint. refine (l0_bind (read_uint n) _ (l0_uint n) _). intros a. apply l0_ret. Qed.
Lemma l0_skip_n n : local0 (skip_n n).
Proof. unfold skip_n. refine (l0_bind (take n) _ (l0_take n) _). intros a. apply l0_ret. Qed.
Lemma l0_skip_len k n : local0 (skip_len k n).
Proof. unfold skip_len. refine (l0_bind (read_uint k) _ (l0_uint k) _). intros a. apply l0_skip_n. Qed.
Lemma l0_skip_count k n : local0 (skip_count k n).
Proof. unfold skip_count. refine (l0_bind (read_uint k) _ (l0_uint k) _). intros a. apply l0_ret. Qed.

Lemma l1_head {A} (k : ascii -> bytes -> (A * bytes) + merr) :
  (forall c, local0 (k c)) -> local1 (fun d => match d with [] => inr EndOfInput | b :: d => k b d end).
Proof.
  intros K d a r E. destruct d as [|b d]; [discriminate E|]. destruct (K b d a r E) as (x & -> & X).
  exists (b :: x). split; [discriminate|]. split; [reflexivity|]. exact X.
Qed.
Ltac heads := apply l1_head; intros c; cbv zeta; repeat apply l0_if;
  auto using @l0_ret, @l0_fail, l0_uint, l0_sint, l0_skip_n, l0_skip_len, l0_skip_count.

Lemma l1_int : local1 read_int.
Proof. unfold read_int. heads. Qed.
Lemma l1_array : local1 read_array_len.
Proof. unfold read_array_len. heads. Qed.
Lemma l1_bytes_len : local1 read_bytes_len.
Proof. unfold read_bytes_len. heads. Qed.
Lemma l1_bool : local1 read_bool.
Proof. unfold read_bool. heads. Qed.
Lemma l1_float : local1 read_float64.
Proof. unfold read_float64. heads. Qed.
Lemma l1_skip_head : local1 skip_head.
Proof. unfold skip_head. heads. Qed.
Lemma l0_bytes : local0 read_bytes.
Proof.
  intros d a r E.
  refine (l0_bind read_bytes_len (fun n d => if n =? -1 then inl ([], d) else take n d) (l10 _ l1_bytes_len) _ d a r _).
  - intros n. apply (l0_if _ (fun d => inl ([], d)) (take n)); [apply l0_ret|apply l0_take].
  - exact E.
Qed.

Lemma skip_values_local : forall m d n r, (length d <= m)%nat -> skip_values n d = inl r ->
  exists x, d = x ++ r /\ forall q, skip_values n (x ++ q) = inl q.
Proof.
  induction m as [|m IH]; intros d n r L E.
  all: destruct (Z.leb_spec n 0) as [N|N];
    [assert (forall q, skip_values n q = inl q) as K
       by (intros q; unfold skip_values; cbn [skip_loop]; rewrite (proj2 (Z.leb_le _ _) N); reflexivity);
     exists []; rewrite K in E; split; [cbn [app]; congruence|exact K]|].
  all: rewrite skip_values_next in E by exact N; destruct (skip_head d) as [[k d']|e] eqn:Eh; [|discriminate E];
    destruct (l1_skip_head d k d' Eh) as (x & Nx & -> & X).
  - destruct x; [congruence|cbn [app length] in L; lia].
  - destruct (IH d' (n - 1 + k) r) as (y & -> & Y);
      [rewrite app_length in L; destruct x; [congruence|]; cbn [length] in L; lia|exact E|].
    exists (x ++ y). split; [apply app_assoc|]. intros q. rewrite <- app_assoc, skip_values_next, X by exact N. apply Y.
Qed.

(** * Decoders *)

Definition sticky {A} (x : D A) : Prop := forall s, d_err s <> None -> d_err (snd (x s)) <> None.
Definition local {A} (x : D A) (P : A -> Prop) : Prop :=
  forall d a s, x (mk_st d None) = (a, s) -> d_err s = None -> P a /\ exists b, d = b ++ d_in s /\ yields x a b.

Lemma s_ret {A} (a : A) : sticky (ret a).
Proof. intros s H. exact H. Qed.
Lemma s_bind {A C} (x : D A) (f : A -> D C) : sticky x -> (forall a, sticky (f a)) -> sticky (bindD x f).
Proof.
  intros X F s H. unfold bindD. pose proof (X s H) as K. destruct (x s) as [a s']. apply F. exact K.
Qed.
Lemma s_get : sticky get_err.
Proof. intros s H. exact H. Qed.
Lemma s_set e : sticky (set_err (Some e)).
Proof. intros s H. discriminate. Qed.
Lemma s_prim {A} (z : A) read : sticky (prim z read).
Proof. intros [d [e|]] H; [discriminate|]. elim H. reflexivity. Qed.
Lemma s_skip n : sticky (dec_skip n).
Proof. intros [d [e|]] H; [discriminate|]. elim H. reflexivity. Qed.

Lemma l_ret {A} (a : A) (P : A -> Prop) : P a -> local (ret a) P.
Proof.
  intros p d b s E _. apply pair_equal_spec in E as [<- <-]. split; [exact p|]. exists []. split; [reflexivity|apply y_ret].
Qed.
Lemma l_bind {A C} (x : D A) (f : A -> D C) (P : A -> Prop) (Q : C -> Prop) :
  local x P -> (forall a, sticky (f a)) -> (forall a, P a -> local (f a) Q) -> local (bindD x f) Q.
Proof.
  intros X S F d c s E N. unfold bindD in E. destruct (x (mk_st d None)) as [a s1] eqn:Ex.
  destruct s1 as [d1 [e|]].
  - exfalso. apply (S a (mk_st d1 (Some e))); [discriminate|]. rewrite E. exact N.
  - destruct (X d a (mk_st d1 None) Ex eq_refl) as (p & b1 & E1 & Y1). cbn [d_in] in E1. subst d.
    destruct (F a p d1 c s E N) as (q & b2 & E2 & Y2). split; [exact q|]. exists (b1 ++ b2). subst d1.
    split; [apply app_assoc|]. exact (y_bind x f a c b1 b2 Y1 Y2).
Qed.
Lemma l_weak {A} (x : D A) (P Q : A -> Prop) : (forall a, P a -> Q a) -> local x P -> local x Q.
Proof. intros W L d a s E N. destruct (L d a s E N) as [p K]. split; [exact (W a p)|exact K]. Qed.
Lemma l_get : local get_err (fun e => e = None).
Proof.
  intros d e s E _. apply pair_equal_spec in E as [<- <-]. split; [reflexivity|]. exists []. split; [reflexivity|apply y_err].
Qed.
Lemma l_set e P : local (set_err (Some e)) P.
Proof. intros d a s E N. apply pair_equal_spec in E as [_ <-]. discriminate N. Qed.
Lemma l_prim {A} (z : A) read : local0 read -> local (prim z read) (fun _ => True).
Proof.
  intros L d a s E N. unfold prim in E. cbn [d_err d_in] in E. destruct (read d) as [[v r]|e] eqn:Er.
  - apply pair_equal_spec in E as [<- <-]. split; [exact I|]. destruct (L d v r Er) as (x & -> & X). exists x.
    split; [reflexivity|]. apply y_prim. exact X.
  - apply pair_equal_spec in E as [_ <-]. discriminate N.
Qed.
Lemma l_skip n : local (dec_skip n) (fun _ => True).
Proof.
  intros d a s E N. unfold dec_skip in E. cbn [d_err d_in] in E. destruct (n <? 0) eqn:En;
    [apply pair_equal_spec in E as [_ <-]; discriminate N|].
  destruct (skip_values n d) as [r|e] eqn:Es; apply pair_equal_spec in E as [<- <-]; [|discriminate N].
  split; [exact I|]. destruct (skip_values_local (length d) d n r (le_n _) Es) as (x & -> & X). exists x.
  split; [reflexivity|]. intros q. unfold dec_skip. cbn [d_err d_in]. rewrite En, X. reflexivity.
Qed.

Create HintDb sticky.
Create HintDb local.
Ltac stick := repeat first
  [ apply s_bind; [|intros]
  | apply s_ret | apply s_get | apply s_set | apply s_prim | apply s_skip
  | solve [eauto with sticky]
  | match goal with
    | |- sticky (if ?c then _ else _) => destruct c
    | |- sticky (match ?c with _ => _ end) => destruct c
    end ].

Lemma s_type : sticky dec_type.
Proof. unfold dec_type, dec_varint64. stick. Qed.
Lemma s_expected t n : sticky (check_expected t n).
Proof. unfold check_expected. stick. Qed.
Lemma s_fields t : sticky (check_fields t).
Proof. unfold check_fields, dec_array_len. stick. Qed.
Global Hint Resolve s_type s_expected s_fields : sticky.
Ltac prims := unfold dec_varint64, dec_bool, dec_float64, dec_bytes, dec_bytes_len, dec_array_len.
Lemma s_resolution : sticky dec_resolution.
Proof. unfold dec_resolution. prims. stick. Qed.
Lemma s_retention : sticky dec_retention.
Proof. unfold dec_retention. prims. stick. Qed.
Global Hint Resolve s_resolution s_retention : sticky.
Lemma s_sp : sticky dec_storage_policy.
Proof. unfold dec_storage_policy. prims. stick. Qed.
Lemma s_agg : sticky dec_agg.
Proof. unfold dec_agg. prims. stick. Qed.
Global Hint Resolve s_sp s_agg : sticky.
Lemma s_policy : sticky dec_policy.
Proof. unfold dec_policy. stick. Qed.
Lemma s_loop {A} (x : D A) n : sticky x -> sticky (dec_loop x n).
Proof. intros X. induction n as [|n IH]; cbn [dec_loop]; stick; assumption. Qed.
Global Hint Resolve s_policy : sticky.
Lemma s_list {A} (x : D A) n : sticky x -> sticky (dec_list x n).
Proof. apply s_loop. Qed.
Global Hint Resolve s_list s_prim : sticky.
Lemma s_staged : sticky dec_staged.
Proof. unfold dec_staged. prims. stick. Qed.
Global Hint Resolve s_staged : sticky.
Lemma s_id : sticky dec_id.
Proof. unfold dec_id. prims. stick. Qed.
Global Hint Resolve s_id : sticky.

(** Proving [local]: one step for each read. *)
Definition any {A} : A -> Prop := fun _ => True.
Lemma l_any {A} (x : D A) P : local x P -> local x any.
Proof. apply l_weak. intros a _. exact I. Qed.

Lemma l_type : local dec_type any.
Proof.
  unfold dec_type. apply l_bind with any; [apply l_prim, l10, l1_int|intros; stick|]. intros t _.
  apply l_bind with (fun e => e = None); [apply l_get|intros; stick|]. intros e ->.
  destruct (type_valid t); [apply l_ret; exact I|].
  apply l_bind with (fun _ => False); [apply l_set|intros; stick|]. intros a [].
Qed.
Lemma l_expected t n : local (check_expected t n) (fun ok => ok <> None).
Proof.
  unfold check_expected. apply l_bind with (fun e => e = None); [apply l_get|intros; stick|]. intros e ->.
  destruct (n <? num_fields t); [|apply l_ret; discriminate].
  apply l_bind with (fun _ => False); [apply l_set|intros; stick|]. intros a [].
Qed.
Lemma l_fields t : local (check_fields t) (fun ok => ok <> None).
Proof.
  unfold check_fields. apply l_bind with any; [apply l_prim, l10, l1_array|intros; stick|]. intros n _. apply l_expected.
Qed.
Global Hint Resolve l_type l_skip : local.
Lemma l_varint : local dec_varint64 any. Proof. apply l_prim, l10, l1_int. Qed.
Lemma l_dbool : local dec_bool any. Proof. apply l_prim, l10, l1_bool. Qed.
Lemma l_dfloat : local dec_float64 any. Proof. apply l_prim, l10, l1_float. Qed.
Lemma l_dbytes : local dec_bytes any. Proof. apply l_prim, l0_bytes. Qed.
Lemma l_dbytes_len : local dec_bytes_len any. Proof. apply l_prim, l10, l1_bytes_len. Qed.
Lemma l_darray : local dec_array_len any. Proof. apply l_prim, l10, l1_array. Qed.
Lemma l_dtake n : local (prim [] (take n)) any. Proof. apply l_prim, l0_take. Qed.
Global Hint Resolve l_varint l_dbool l_dfloat l_dbytes l_dbytes_len l_darray l_dtake : local.

Ltac stick' := intros; prims; stick.
Ltac lstep := first
  [ apply l_bind with (fun ok => ok <> None);
      [first [apply l_fields|apply l_expected]|stick'|let ok := fresh "ok" in intros ok ?; destruct ok as [?|]; [|congruence]]
  | apply l_bind with (fun e => e = None); [apply l_get|stick'|intros ? ->]
  | apply l_bind with (fun _ => False); [apply l_set|stick'|intros ? []]
  | apply l_ret; exact I
  | apply l_bind with any; [solve [eauto with local]|stick'|intros ? _]
  | match goal with
    | |- local (if ?c then _ else _) _ => destruct c
    | |- local (match ?c with _ => _ end) _ => destruct c
    end
  | solve [eauto with local] ].

Lemma l_resolution : local dec_resolution any.
Proof. unfold dec_resolution. repeat lstep. Qed.
Lemma l_retention : local dec_retention any.
Proof. unfold dec_retention. repeat lstep. Qed.
Global Hint Resolve l_resolution l_retention : local.
Lemma l_sp : local dec_storage_policy any.
Proof. unfold dec_storage_policy. repeat lstep. Qed.
Lemma l_agg : local dec_agg any.
Proof. unfold dec_agg. repeat lstep. Qed.
Global Hint Resolve l_sp l_agg : local.
Lemma l_policy : local dec_policy any.
Proof. unfold dec_policy. repeat lstep. Qed.
Global Hint Resolve l_policy : local.
Lemma l_loop {A} (x : D A) n : local x any -> sticky x -> local (dec_loop x n) any.
Proof.
  intros L S. induction n as [|n IH]; cbn [dec_loop]; [apply l_ret; exact I|].
  apply l_bind with any; [exact L|intros; stick; apply s_loop; exact S|]. intros a _.
  apply l_bind with any; [exact IH|intros; stick|]. intros l _. apply l_ret. exact I.
Qed.
Lemma l_list {A} (x : D A) n : local x any -> sticky x -> local (dec_list x n) any.
Proof. apply l_loop. Qed.
Lemma l_policies n : local (dec_list dec_policy n) any.
Proof. apply l_list; auto with local sticky. Qed.
Lemma l_floats n : local (dec_list dec_float64 n) any.
Proof. apply l_list; [auto with local|apply s_prim]. Qed.
Global Hint Resolve l_policies l_floats : local.
Lemma l_staged : local dec_staged any.
Proof. unfold dec_staged. repeat lstep. Qed.
Lemma l_stageds n : local (dec_list dec_staged n) any.
Proof. apply l_list; [apply l_staged|apply s_staged]. Qed.
Global Hint Resolve l_stageds : local.
Lemma l_id : local dec_id any.
Proof. unfold dec_id. repeat lstep. Qed.
Global Hint Resolve l_id : local.

(** * The unaggregated object, as a function of what the iterator held before *)

Definition runs_as {X A} (x : X -> D A) (core : D (X -> A)) : Prop :=
  forall i s, x i s = (fst (core s) i, snd (core s)).
Lemma ra_ret {X A} (f : X -> A) : runs_as (fun i => ret (f i)) (ret f).
Proof. intros i s. reflexivity. Qed.
Lemma ra_bind {X A C} (y : D C) (k : C -> X -> D A) (kc : C -> D (X -> A)) :
  (forall c, runs_as (k c) (kc c)) -> runs_as (fun i => bindD y (fun c => k c i)) (bindD y kc).
Proof. intros H i s. unfold bindD. destruct (y s) as [c s']. apply H. Qed.
Lemma ra_bind2 {X A C} (x : X -> D C) (cx : D (X -> C)) (k : C -> X -> D A) (kc : (X -> C) -> D (X -> A)) :
  runs_as x cx -> (forall f, runs_as (fun i => k (f i) i) (kc f)) ->
  runs_as (fun i => bindD (x i) (fun c => k c i)) (bindD cx kc).
Proof. intros H K i s. unfold bindD. rewrite H. destruct (cx s) as [f s']. cbn [fst snd]. apply K. Qed.
Lemma ra_ignore {X A} (y : D A) : runs_as (fun _ : X => y) (bindD y (fun a => ret (fun _ => a))).
Proof. intros i s. unfold bindD. destruct (y s). reflexivity. Qed.

Definition core_counter : D (munion -> munion) :=
  bindD (check_fields counter_type) (fun ok =>
  match ok with
  | None => ret (fun m => m)
  | Some extra =>
      bindD dec_id (fun id => bindD dec_varint64 (fun v => bindD (dec_skip extra) (fun _ =>
      ret (fun m => mk_mu 1 id v (mu_timer m) (mu_gauge m)))))
  end).
Definition core_timer : D (munion -> munion) :=
  bindD (check_fields timer_type) (fun ok =>
  match ok with
  | None => ret (fun m => m)
  | Some extra =>
      bindD dec_id (fun id => bindD dec_array_len (fun n => bindD (dec_list dec_float64 n) (fun vs =>
      bindD (dec_skip extra) (fun _ => ret (fun m => mk_mu 2 id (mu_counter m) vs (mu_gauge m))))))
  end).
Definition core_gauge : D (munion -> munion) :=
  bindD (check_fields gauge_type) (fun ok =>
  match ok with
  | None => ret (fun m => m)
  | Some extra =>
      bindD dec_id (fun id => bindD dec_float64 (fun v => bindD (dec_skip extra) (fun _ =>
      ret (fun m => mk_mu 3 id (mu_counter m) (mu_timer m) v))))
  end).
Definition core_body (t : Z) : D (munion -> munion) :=
  if (t =? counter_type) || (t =? counter_pl_type) then core_counter
  else if (t =? timer_type) || (t =? timer_pl_type) then core_timer
  else core_gauge.

Ltac runs := repeat match goal with
  | |- runs_as (fun i => bindD _ _) (bindD _ _) => apply ra_bind; intros
  | |- runs_as _ (match ?c with _ => _ end) => destruct c
  | |- runs_as _ (if ?c then _ else _) => destruct c
  | |- runs_as _ (ret _) => apply ra_ret
  end.
Lemma ra_body t : runs_as (dec_body t) (core_body t).
Proof.
  unfold core_body, dec_body. destruct (_ || _); [|destruct (_ || _)].
  - unfold dec_counter, core_counter. apply ra_bind. intros [extra|]; runs.
  - unfold dec_timer, core_timer. apply ra_bind. intros [extra|]; runs.
  - unfold dec_gauge, core_gauge. apply ra_bind. intros [extra|]; runs.
Qed.

(** After success the metric shown does not depend on the one before. *)
Definition fresh_metric (f : munion -> munion) : Prop := exists m, forall u, shown (f u) = Some m.
Lemma l_body t : local (core_body t) fresh_metric.
Proof.
  unfold core_body. destruct (_ || _); [|destruct (_ || _)].
  - unfold core_counter. do 4 lstep. apply l_ret. eexists. intros u. cbn [shown mu_type mu_id mu_counter mu_timer mu_gauge]. reflexivity.
  - unfold core_timer. do 5 lstep. apply l_ret. eexists. intros u. cbn [shown mu_type mu_id mu_counter mu_timer mu_gauge]. reflexivity.
  - unfold core_gauge. do 4 lstep. apply l_ret. eexists. intros u. cbn [shown mu_type mu_id mu_counter mu_timer mu_gauge]. reflexivity.
Qed.
Lemma s_body t : sticky (core_body t).
Proof. unfold core_body, core_counter, core_timer, core_gauge. prims. stick. Qed.
Global Hint Resolve s_body : sticky.

Definition core_pl : D (list staged_policies -> list staged_policies) :=
  bindD dec_array_len (fun n => bindD dec_type (fun t => bindD (check_expected t n) (fun ok =>
  match ok with
  | None => ret (fun old => old)
  | Some extra =>
      if t =? default_pl_type then bindD (dec_skip extra) (fun _ => ret (fun _ => default_policies_list))
      else if t =? custom_pl_type then
        bindD dec_array_len (fun k => bindD (dec_list dec_staged k) (fun l => bindD (dec_skip extra) (fun _ =>
        ret (fun _ => l))))
      else bindD (set_err (Some Malformed)) (fun _ => bindD (dec_skip extra) (fun _ => ret (fun old => old)))
  end))).
Lemma ra_pl : runs_as dec_policies_list core_pl.
Proof.
  unfold dec_policies_list, core_pl. do 3 (apply ra_bind; intros). destruct c1 as [extra|]; [|apply ra_ret].
  destruct (_ =? _); [runs|]. destruct (_ =? _); runs.
Qed.
Definition fresh_list (g : list staged_policies -> list staged_policies) : Prop := exists l, forall old, g old = l.
Lemma l_pl : local core_pl fresh_list.
Proof.
  unfold core_pl. do 3 lstep. destruct (_ =? _); [|destruct (_ =? _)].
  - lstep. apply l_ret. eexists. intros old. reflexivity.
  - do 3 lstep. apply l_ret. eexists. intros old. reflexivity.
  - lstep.
Qed.
Lemma s_pl : sticky core_pl.
Proof. unfold core_pl. prims. stick. Qed.
Global Hint Resolve s_pl : sticky.

Definition held : Type := munion * list staged_policies.
Definition core_object : D (held -> held) :=
  bindD (check_fields root_type) (fun ok =>
  match ok with
  | None => ret (fun i => i)
  | Some extra =>
      bindD dec_type (fun t => bindD get_err (fun e =>
      match e with
      | Some _ => ret (fun i => i)
      | None =>
          if (t =? counter_type) || (t =? timer_type) || (t =? gauge_type) then
            bindD (core_body t) (fun f => bindD (dec_skip extra) (fun _ => ret (fun i => (f (fst i), snd i))))
          else if (t =? counter_pl_type) || (t =? timer_pl_type) || (t =? gauge_pl_type) then
            bindD (bindD (check_fields t) (fun ok =>
              match ok with
              | None => ret (fun i => i)
              | Some extra =>
                  bindD (core_body t) (fun f => bindD core_pl (fun g => bindD (dec_skip extra) (fun _ =>
                  ret (fun i => (f (fst i), g (snd i))))))
              end)) (fun h => bindD (dec_skip extra) (fun _ => ret h))
          else bindD (set_err (Some Malformed)) (fun _ => bindD (dec_skip extra) (fun _ => ret (fun i => i)))
      end))
  end).
Lemma ra_object : runs_as (fun i : held => dec_object (fst i) (snd i)) core_object.
Proof.
  intros [m pl] s. cbn [fst snd]. unfold dec_object, core_object, dec_plain, dec_with_policies, bindD, get_err, set_err, ret.
  destruct (check_fields root_type s) as [[extra|] s1]; [|reflexivity].
  destruct (dec_type s1) as [t s2]. destruct (d_err s2) as [e|]; [reflexivity|].
  destruct (_ || _).
  - rewrite ra_body. destruct (core_body t s2) as [f s4]. cbn [fst snd].
    destruct (dec_skip extra s4). reflexivity.
  - destruct (_ || _).
    + destruct (check_fields t s2) as [[extra'|] s4].
      * rewrite ra_body. destruct (core_body t s4) as [f s5]. cbn [fst snd]. rewrite ra_pl.
        destruct (core_pl s5) as [g s6]. cbn [fst snd]. destruct (dec_skip extra' s6) as [u s7].
        destruct (dec_skip extra s7). reflexivity.
      * destruct (dec_skip extra s4). reflexivity.
    + destruct (dec_skip extra _). reflexivity.
Qed.

(** After success: a fresh metric; and fresh policies or the old ones. *)
Definition fresh_held (h : held -> held) : Prop :=
  exists m, (forall i, shown (fst (h i)) = Some m) /\
    ((forall i, snd (h i) = snd i) \/ exists l, forall i, snd (h i) = l).
Lemma l_object : local core_object fresh_held.
Proof.
  unfold core_object. do 3 lstep. destruct (_ || _); [|destruct (_ || _)].
  - apply l_bind with fresh_metric; [apply l_body|stick'|]. intros f [m F]. lstep. apply l_ret. exists m.
    split; [intros i; apply F|]. left. reflexivity.
  - apply l_bind with fresh_held.
    + lstep. apply l_bind with fresh_metric; [apply l_body|stick'|]. intros f [m F].
      apply l_bind with fresh_list; [apply l_pl|stick'|]. intros g [l G]. lstep. apply l_ret. exists m.
      split; [intros i; apply F|]. right. exists l. intros i. apply G.
    + stick'.
    + intros h Hh. lstep. apply l_ret. exact Hh.
  - lstep.
Qed.

(** * The aggregated object *)

Definition shown3 : Type := raw_metric * storage_policy * Z.
Definition core_raw (t : Z) : D (shown3 -> shown3) :=
  bindD (check_fields t) (fun ok =>
  match ok with
  | None => ret (fun i => i)
  | Some extra =>
      bindD dec_bytes (fun d => bindD dec_storage_policy (fun sp =>
      if t =? raw_sp_type then bindD (dec_skip extra) (fun _ => ret (fun _ => (new_raw d, sp, 0)))
      else bindD dec_varint64 (fun at_nanos => bindD (dec_skip extra) (fun _ => ret (fun _ => (new_raw d, sp, at_nanos))))))
  end).
Definition core_agg_object : D (shown3 -> shown3) :=
  bindD (check_fields root_type) (fun ok =>
  match ok with
  | None => ret (fun i => i)
  | Some extra =>
      bindD dec_type (fun t => bindD get_err (fun e =>
      match e with
      | Some _ => ret (fun i => i)
      | None =>
          if (t =? raw_sp_type) || (t =? raw_sp_time_type) then
            bindD (core_raw t) (fun h => bindD (dec_skip extra) (fun _ => ret h))
          else bindD (set_err (Some Malformed)) (fun _ => bindD (dec_skip extra) (fun _ => ret (fun i => i)))
      end))
  end).
Lemma ra_raw t : runs_as (dec_raw t) (core_raw t).
Proof.
  unfold dec_raw, core_raw. apply ra_bind. intros [extra|]; [|apply ra_ret]. apply ra_bind. intros d. apply ra_bind. intros sp.
  destruct (_ =? _); runs.
Qed.
Lemma ra_agg_object : runs_as dec_agg_object core_agg_object.
Proof.
  intros i s. unfold dec_agg_object, core_agg_object, bindD, get_err, set_err, ret.
  destruct (check_fields root_type s) as [[extra|] s1]; [|reflexivity].
  destruct (dec_type s1) as [t s2]. destruct (d_err s2) as [e|]; [reflexivity|]. destruct (_ || _).
  - rewrite ra_raw. destruct (core_raw t s2) as [h s3]. cbn [fst snd]. destruct (dec_skip extra s3). reflexivity.
  - destruct (dec_skip extra _). reflexivity.
Qed.
Definition fresh3 (h : shown3 -> shown3) : Prop := exists d sp t, forall i, h i = (new_raw d, sp, t).
Lemma s_raw t : sticky (core_raw t).
Proof. unfold core_raw. prims. stick. Qed.
Lemma l_raw t : local (core_raw t) fresh3.
Proof.
  unfold core_raw. do 3 lstep. destruct (_ =? _).
  - lstep. apply l_ret. do 3 eexists. intros i. reflexivity.
  - do 2 lstep. apply l_ret. do 3 eexists. intros i. reflexivity.
Qed.
Lemma l_agg_object : local core_agg_object fresh3.
Proof.
  unfold core_agg_object. do 3 lstep. destruct (_ || _).
  - apply l_bind with fresh3; [apply l_raw|stick'|]. intros h Hh. lstep. apply l_ret. exact Hh.
  - lstep.
Qed.
