(** What reading the fields one after the other amounts to, part by part. *)
From Coq Require Import Ascii String NArith ZArith Bool Arith Lia List.
From Verif.Base Require Import Bytes BytesFacts.
From Verif.Proof Require Import ProtoWireProof MessagesProof ProtoSafeProof WireProof WireMeaning WireMeaningFields.
From Verif.Model Require Import Policy Transformation Pipeline Metadata Rules RuleSetProto Namespace ProtoWire Messages
  RuleWire.
From Verif.Spec Require Import WireSpec WireMeaningSpec.
Import ListNotations.
Local Open Scope Z_scope.

(** * Every part on its own *)

Inductive iter {T} (step : item -> T -> T -> Prop) : list item -> T -> T -> Prop :=
| iter_nil x : iter step [] x x
| iter_cons it its x y z : step it x y -> iter step its y z -> iter step (it :: its) x z.

Record lawful {M} (ps : parts M) : Prop := {
  law_get : forall p, part_in p ps -> forall x m, p_get p (p_set p x m) = x;
  law_other : forall p q, part_in p ps -> part_in q ps -> p_num p <> p_num q -> forall x m, p_get q (p_set p x m) = p_get q m;
  law_ext : forall m m', (forall p, part_in p ps -> p_get p m = p_get p m') -> m = m';
  law_nums : NoDup (nums ps) }.

Lemma occurrences_cons n a it l : occurrences n ((a, it) :: l) = (if a =? n then [it] else []) ++ occurrences n l.
Proof. unfold occurrences. cbn [filter fst]. destruct (a =? n); reflexivity. Qed.

Lemma runs_iter {M} (ps : parts M) : lawful ps -> forall l m m', Forall (fun x => In (fst x) (nums ps)) l ->
  (runs ps l m m' <-> all_parts (fun p => iter (p_step p) (occurrences (p_num p) l) (p_get p m) (p_get p m')) ps).
Proof.
  intros W l m m' Fl. rewrite all_parts_forall. split.
  - intros R. clear Fl. induction R as [m|q it x l m m' Iq St R IH]; intros p Ip; [constructor|].
    rewrite occurrences_cons. specialize (IH p Ip). destruct (Z.eqb_spec (p_num q) (p_num p)) as [E|E].
    + pose proof (part_unique ps q p (law_nums ps W) Iq Ip E) as ->. rewrite (law_get ps W p Ip) in IH.
      cbn [app]. exact (iter_cons _ it _ _ x _ St IH).
    + rewrite (law_other ps W q p Iq Ip E) in IH. exact IH.
  - revert m. induction Fl as [|[n it] l In1 Fl IH]; intros m H.
    + assert (m = m') as ->; [|constructor]. apply (law_ext ps W). intros p Ip. specialize (H p Ip). inversion H. reflexivity.
    + cbn [fst] in In1. apply nums_part_in in In1 as (q & <- & Iq). pose proof (H q Iq) as Hq.
      rewrite occurrences_cons, Z.eqb_refl in Hq. cbn [app] in Hq. inversion Hq as [|it0 its x y z St It]; subst.
      apply (runs_cons ps q it y l m m' Iq St). apply IH. intros p Ip. specialize (H p Ip). rewrite occurrences_cons in H.
      destruct (Z.eqb_spec (p_num q) (p_num p)) as [E|E].
      * pose proof (part_unique ps q p (law_nums ps W) Iq Ip E) as ->. rewrite (law_get ps W p Ip). exact It.
      * rewrite (law_other ps W q p Iq Ip E). exact H.
Qed.

Lemma runs_app {M} (ps : parts M) l1 l2 m m' : runs ps (l1 ++ l2) m m' <-> exists m1, runs ps l1 m m1 /\ runs ps l2 m1 m'.
Proof.
  split.
  - revert m. induction l1 as [|[n it] l1 IH]; intros m R.
    + exists m. split; [constructor|exact R].
    + cbn [app] in R. inversion R as [|p it0 x l m0 m0' Ip St R']; subst. apply IH in R' as (m1 & R1 & R2).
      exists m1. split; [exact (runs_cons ps p it x l1 m m1 Ip St R1)|exact R2].
  - intros (m1 & R1 & R2). revert R2. induction R1 as [m|p it x l m m1 Ip St R1 IH]; intros R2; [exact R2|].
    cbn [app]. exact (runs_cons ps p it x (l ++ l2) m m' Ip St (IH R2)).
Qed.

(** * Types *)

Definition fits (k : shape) (it : item) : Prop :=
  match k, it with
  | AnInt, Number _ | ADouble, Eight _ | ABlock, Block _ | SomeDoubles, Several _ | SomeEnums, Several _ => True
  | _, _ => False
  end.
Definition typed (s : list (Z * shape)) (l : list (Z * item)) : Prop :=
  Forall (fun x => exists k, shape_of s (fst x) = Some k /\ fits k (snd x)) l.

Lemma parsed_typed s d l : parsed s d l -> typed s l.
Proof.
  induction 1 as [|t n wt k v it d l _ _ Sh Ho _ IH|]; [constructor| |assumption]. constructor; [|exact IH].
  exists k. split; [exact Sh|]. destruct Ho; exact I.
Qed.
Lemma typed_concat s ls : Forall (typed s) ls -> typed s (concat ls).
Proof. induction 1 as [|l ls H _ IH]; [constructor|]. cbn [concat]. apply Forall_app. split; assumption. Qed.
Lemma parsed_typed_all s bs ls : Forall2 (parsed s) bs ls -> typed s (concat ls).
Proof. intros F. apply typed_concat. induction F as [|b l bs ls P _ IH]; constructor; [exact (parsed_typed s b l P)|exact IH]. Qed.

Lemma typed_in {M} (ps : parts M) l : typed (table_of ps) l -> Forall (fun x => In (fst x) (nums ps)) l.
Proof.
  intros T. unfold typed in T. rewrite Forall_forall in *. intros x Ix. destruct (T x Ix) as (k & Sh & _). unfold shape_of in Sh.
  destruct (find _ (table_of ps)) as [[n k']|] eqn:F; [|discriminate]. apply find_some in F as [I E]. cbn [fst] in E.
  apply Z.eqb_eq in E. subst n. clear T Sh. induction ps as [|p ps IH]; [destruct I|]. destruct I as [E|I].
  - left. congruence.
  - right. apply IH, I.
Qed.
Lemma typed_fits s n k l : typed s l -> shape_of s n = Some k -> Forall (fits k) (occurrences n l).
Proof.
  intros T Sh. induction T as [|[a it] l (k' & Sh' & Fi) T IH]; [constructor|]. rewrite occurrences_cons. cbn [fst snd] in *.
  destruct (Z.eqb_spec a n) as [->|]; cbn [app]; [|exact IH]. constructor; [|exact IH]. congruence.
Qed.

(** * The patterns *)

Lemma last_cons {A} (a : A) l d : last (a :: l) d = last l a.
Proof.
  revert a d. induction l as [|b l IH]; intros a d; [reflexivity|].
  change (last (a :: b :: l) d) with (last (b :: l) d). rewrite !IH. reflexivity.
Qed.

Lemma iter_int {M T} n (conv conv' : Z -> T) (get : M -> T) set l x y s : (forall v, conv v = conv' v) ->
  typed s l -> shape_of s n = Some AnInt ->
  (iter (p_step (int_part n conv get set)) (occurrences n l) x y <-> y = last (map conv' (numbers n l)) x).
Proof.
  intros C Ty Sh. pose proof (typed_fits s n AnInt l Ty Sh) as F. unfold numbers. clear Ty Sh. cbn [p_step int_part].
  revert x. induction F as [|it its Fi F IH]; intros x; cbn [flat_map map].
  - cbn [last]. split; [intros H; inversion H; reflexivity|intros ->; constructor].
  - destruct it as [v| | |]; try destruct Fi. cbn [app map]. rewrite last_cons. split.
    + intros H. inversion H as [|it0 its0 x0 y0 z0 (w & E & ->) It]; subst. injection E as <-. rewrite C in It. apply IH, It.
    + intros E. apply (iter_cons _ (Number v) its x (conv' v) y); [exists v; rewrite C; auto|]. apply IH, E.
Qed.
Lemma iter_double {M} n (get : M -> Z) set l x y s : typed s l -> shape_of s n = Some ADouble ->
  (iter (p_step (double_part n get set)) (occurrences n l) x y <-> y = last (eights n l) x).
Proof.
  intros T Sh. pose proof (typed_fits s n ADouble l T Sh) as F. unfold eights. clear T Sh. cbn [p_step double_part p_val].
  revert x. induction F as [|it its Fi F IH]; intros x; cbn [flat_map].
  - cbn [last]. split; [intros H; inversion H; reflexivity|intros ->; constructor].
  - destruct it as [|v| |]; try destruct Fi. cbn [app]. rewrite last_cons. split.
    + intros H. inversion H as [|it0 its0 x0 y0 z0 E It]; subst. injection E as <-. apply IH, It.
    + intros E. apply (iter_cons _ (Eight v) its x v y); [reflexivity|]. apply IH, E.
Qed.
Lemma iter_bytes {M} n (get : M -> bytes) set l x y s : typed s l -> shape_of s n = Some ABlock ->
  (iter (p_step (bytes_part n get set)) (occurrences n l) x y <-> y = last (blocks n l) x).
Proof.
  intros T Sh. pose proof (typed_fits s n ABlock l T Sh) as F. unfold blocks. clear T Sh. cbn [p_step bytes_part p_val].
  revert x. induction F as [|it its Fi F IH]; intros x; cbn [flat_map].
  - cbn [last]. split; [intros H; inversion H; reflexivity|intros ->; constructor].
  - destruct it as [| |b|]; try destruct Fi. cbn [app]. rewrite last_cons. split.
    + intros H. inversion H as [|it0 its0 x0 y0 z0 E It]; subst. injection E as <-. apply IH, It.
    + intros E. apply (iter_cons _ (Block b) its x b y); [reflexivity|]. apply IH, E.
Qed.
Lemma iter_strings {M} n (get : M -> list bytes) set l x y s : typed s l -> shape_of s n = Some ABlock ->
  (iter (p_step (strings_part n get set)) (occurrences n l) x y <-> y = x ++ blocks n l).
Proof.
  intros T Sh. pose proof (typed_fits s n ABlock l T Sh) as F. unfold blocks. clear T Sh. cbn [p_step strings_part p_val].
  revert x. induction F as [|it its Fi F IH]; intros x; cbn [flat_map].
  - rewrite app_nil_r. split; [intros H; inversion H; reflexivity|intros ->; constructor].
  - destruct it as [| |b|]; try destruct Fi. split.
    + intros H. inversion H as [|it0 its0 x0 y0 z0 (b' & E & ->) It]; subst. injection E as <-. apply IH in It. rewrite <- app_assoc in It. exact It.
    + intros E. apply (iter_cons _ (Block b) its x (x ++ [b]) y); [exists b; auto|]. apply IH. rewrite <- app_assoc. exact E.
Qed.
Lemma iter_list {M} n k (get : M -> list Z) set l x y s : typed s l -> shape_of s n = Some k -> k = SomeDoubles \/ k = SomeEnums ->
  (iter (p_step (list_part n k get set)) (occurrences n l) x y <-> y = x ++ list_at n l).
Proof.
  intros T Sh K. pose proof (typed_fits s n k l T Sh) as F. unfold list_at. clear T Sh. cbn [p_step list_part p_val].
  revert x. induction F as [|it its Fi F IH]; intros x; cbn [flat_map].
  - rewrite app_nil_r. split; [intros H; inversion H; reflexivity|intros ->; constructor].
  - assert (exists vs, it = Several vs) as (vs & ->) by (destruct it; destruct K as [-> | ->]; cbn in Fi; try contradiction; eauto). split.
    + intros H. inversion H as [|it0 its0 x0 y0 z0 (b' & E & ->) It]; subst. injection E as <-. apply IH in It. rewrite <- app_assoc in It. exact It.
    + intros E. apply (iter_cons _ (Several vs) its x (x ++ vs) y); [exists vs; auto|]. apply IH. rewrite <- app_assoc. exact E.
Qed.

(** * Embedded messages *)

(** What the lenses do to a zero message is what the specification says of it. *)
Definition meant {M} (k : message M) (ps : parts M) (zero : M) : Prop :=
  m_table k = table_of ps /\ forall l m, typed (table_of ps) l -> (runs ps l zero m <-> m_means k l m).

Lemma meant_reads {M} (k : message M) ps zero b m : meant k ps zero ->
  (reads k b m <-> exists l, parsed (table_of ps) b l /\ runs ps l zero m).
Proof.
  intros [E H]. unfold reads. rewrite E. split; intros (l & P & R); exists l; (split; [exact P|]);
    apply (H l m (parsed_typed _ _ _ P)); exact R.
Qed.

Definition appends {M S T} n (ps : parts S) (zero : S) (get : M -> list T) set (inj : S -> T) :=
  msg_part n ps get set (fun _ => zero) (fun x s => x ++ [inj s]).
Lemma iter_appends {M S T} n (k : message S) (ps : parts S) zero (inj : S -> T) (get : M -> list T) set l x y s :
  meant k ps zero -> typed s l -> shape_of s n = Some ABlock ->
  (iter (p_step (appends n ps zero get set inj)) (occurrences n l) x y <->
   exists ms, y = x ++ map inj ms /\ Forall2 (reads k) (blocks n l) ms).
Proof.
  intros Me T0 Sh. pose proof (typed_fits s n ABlock l T0 Sh) as F. unfold blocks. clear T0 Sh. cbn [p_step appends msg_part p_val].
  revert x. induction F as [|it its Fi F IH]; intros x; cbn [flat_map].
  - split.
    + intros H. inversion H; subst. exists []. rewrite app_nil_r. split; [reflexivity|constructor].
    + intros (ms & -> & R). inversion R; subst. rewrite app_nil_r. constructor.
  - destruct it as [| |b|]; try destruct Fi. cbn [app]. split.
    + intros H. inversion H as [|it0 its0 x0 y0 z0 (b' & fl & m & E & P & R & ->) It]; subst. injection E as <-.
      apply IH in It as (ms & -> & Rs). exists (m :: ms). rewrite <- app_assoc. split; [reflexivity|]. constructor; [|exact Rs].
      apply (meant_reads k ps zero b m Me). eauto.
    + intros (ms & -> & Rs). inversion Rs as [|b0 m bs ms' R Rs']; subst. apply (meant_reads k ps zero b m Me) in R as (fl & P & R).
      apply (iter_cons _ (Block b) its x (x ++ [inj m])); [exists b, fl, m; auto|]. apply IH. exists ms'. cbn [map]. rewrite <- app_assoc.
      split; [reflexivity|exact Rs'].
Qed.

Lemma iter_msgs {M S} n (k : message S) (ps : parts S) zero (get : M -> list S) set l y s :
  meant k ps zero -> typed s l -> shape_of s n = Some ABlock ->
  (iter (p_step (msgs_part n ps zero get set)) (occurrences n l) [] y <-> messages_at k n l y).
Proof.
  intros Me T Sh. pose proof (iter_appends n k ps zero (fun s => s) get set l [] y s Me T Sh) as H.
  cbn [app] in H. unfold messages_at. etransitivity; [exact H|]. split.
  - intros (ms & -> & R). rewrite map_id. exact R.
  - intros R. exists y. rewrite map_id. auto.
Qed.
Lemma iter_ptrs {M S} n (k : message S) (ps : parts S) zero (get : M -> list (option S)) set l y s :
  meant k ps zero -> typed s l -> shape_of s n = Some ABlock ->
  (iter (p_step (ptrs_part n ps zero get set)) (occurrences n l) [] y <-> pointers_at k n l y).
Proof. intros Me T Sh. exact (iter_appends n k ps zero Some get set l [] y s Me T Sh). Qed.

Lemma iter_merge {M S T} n (ps : parts S) (get : M -> T) set (start : T -> S) (put : T -> S -> T) l x y s :
  (forall x s, start (put x s) = s) -> (forall x s s', put (put x s) s' = put x s') ->
  typed s l -> shape_of s n = Some ABlock ->
  (iter (p_step (msg_part n ps get set start put)) (occurrences n l) x y <->
   (blocks n l = [] /\ y = x) \/
   (blocks n l <> [] /\ exists ls m, Forall2 (parsed (table_of ps)) (blocks n l) ls /\ runs ps (concat ls) (start x) m /\ y = put x m)).
Proof.
  intros SP PP T0 Sh. pose proof (typed_fits s n ABlock l T0 Sh) as F. unfold blocks. clear T0 Sh. cbn [p_step msg_part p_val].
  revert x. induction F as [|it its Fi F IH]; intros x; cbn [flat_map].
  - split.
    + intros H. inversion H; subst. left. auto.
    + intros [(_ & ->)|(N & _)]; [constructor|congruence].
  - destruct it as [| |b|]; try destruct Fi. cbn [app]. split.
    + intros H. right. split; [discriminate|]. inversion H as [|it0 its0 x0 y0 z0 (b' & fl & m & E & P & R & ->) It]; subst. injection E as <-.
      apply IH in It as [(-> & ->)|(_ & ls & m' & Ps & R' & ->)].
      * exists [fl], m. split; [constructor; [exact P|constructor]|]. cbn [concat]. rewrite app_nil_r. auto.
      * rewrite SP in R'. exists (fl :: ls), m'. split; [constructor; assumption|]. split; [|apply PP].
        cbn [concat]. apply runs_app. eauto.
    + intros [(N & _)|(_ & ls & m & Ps & R & ->)]; [discriminate|]. inversion Ps as [|b0 fl bs ls' P Ps']; subst.
      cbn [concat] in R. apply runs_app in R as (m1 & R1 & R2).
      apply (iter_cons _ (Block b) its x (put x m1)); [exists b, fl, m1; auto|]. apply IH.
      destruct (flat_map _ its) as [|b2 bs2] eqn:Q.
      * left. split; [reflexivity|]. inversion Ps'; subst. cbn [concat] in R2. inversion R2; subst. reflexivity.
      * right. split; [discriminate|]. exists ls', m. rewrite SP. split; [exact Ps'|]. split; [exact R2|]. symmetry. apply PP.
Qed.

Lemma iter_value {M S} n (k : message S) (ps : parts S) zero (get : M -> S) set l y s :
  meant k ps zero -> typed s l -> shape_of s n = Some ABlock ->
  (iter (p_step (value_part n ps get set)) (occurrences n l) zero y <-> message_at k n l y).
Proof.
  intros [E H] T Sh. unfold value_part.
  rewrite (iter_merge n ps get set (fun x => x) (fun _ s => s) l zero y s ltac:(reflexivity) ltac:(reflexivity) T Sh).
  unfold message_at. rewrite E. split.
  - intros [(Q & ->)|(_ & ls & m & Ps & R & ->)].
    + exists []. rewrite Q. split; [constructor|]. cbn [concat]. apply H; [constructor|]. constructor.
    + exists ls. split; [exact Ps|]. apply H; [exact (parsed_typed_all _ _ _ Ps)|exact R].
  - intros (ls & Ps & R). apply H in R; [|exact (parsed_typed_all _ _ _ Ps)].
    destruct (blocks n l) as [|b bs] eqn:Q.
    + left. inversion Ps; subst. inversion R; subst. auto.
    + right. split; [discriminate|]. eauto.
Qed.
Lemma iter_ptr {M S} n (k : message S) (ps : parts S) zero (get : M -> option S) set l y s :
  meant k ps zero -> typed s l -> shape_of s n = Some ABlock ->
  (iter (p_step (ptr_part n ps zero get set)) (occurrences n l) None y <-> pointer_at k n l y).
Proof.
  intros [E H] T Sh. unfold ptr_part.
  rewrite (iter_merge n ps get set (fun x => match x with None => zero | Some s => s end) (fun _ s => Some s) l None y s
    ltac:(reflexivity) ltac:(reflexivity) T Sh).
  unfold pointer_at, message_at. rewrite E. split.
  - intros [(Q & ->)|(N & ls & m & Ps & R & ->)]; [exact Q|]. split; [exact N|]. exists ls. split; [exact Ps|].
    apply H; [exact (parsed_typed_all _ _ _ Ps)|exact R].
  - destruct y as [m|].
    + intros (N & ls & Ps & R). right. split; [exact N|]. apply H in R; [|exact (parsed_typed_all _ _ _ Ps)]. eauto.
    + intros Q. left. auto.
Qed.

(** * The theorems for whole messages *)

Lemma reads_ok {M} (k : message M) fs ps zero d m : good fs ps -> meant k ps zero -> zlen d < 2 ^ 63 ->
  reads k d m -> unmarshal fs d zero = Ok m.
Proof.
  intros (F & Nd) Me B R. apply (meant_reads k ps zero d m Me) in R as (l & P & R). exact (unmarshal_writes fs ps d l zero m F Nd P R B).
Qed.
Lemma ok_reads {M} (k : message M) fs ps zero V d m : good fs ps -> meant k ps zero -> 8 <= V -> small V d -> zlen d + V < 2 ^ 63 ->
  unmarshal fs d zero = Ok m -> reads k d m.
Proof.
  intros (F & Nd) Me V8 Sm L U. apply (meant_reads k ps zero d m Me). exact (unmarshal_means fs ps V d zero m F V8 Sm L U).
Qed.

(** * Reading into a message that was reset *)

Lemma iter_ptr_reset {M S} n (k : message S) (ps : parts S) zero (get : M -> option S) set l x y s :
  meant k ps zero -> typed s l -> shape_of s n = Some ABlock -> x = None \/ x = Some zero ->
  (iter (p_step (ptr_part n ps zero get set)) (occurrences n l) x y <->
   exists o, pointer_at k n l o /\ y = match o with None => x | Some _ => o end).
Proof.
  intros [E H] T Sh X. unfold ptr_part.
  rewrite (iter_merge n ps get set (fun x => match x with None => zero | Some s => s end) (fun _ s => Some s) l x y s
    ltac:(reflexivity) ltac:(reflexivity) T Sh).
  assert (match x with None => zero | Some s => s end = zero) as Ez by (destruct X as [-> | ->]; reflexivity). rewrite Ez.
  unfold pointer_at, message_at. rewrite E. split.
  - intros [(Q & ->)|(N & ls & m & Ps & R & ->)]; [exists None; auto|]. exists (Some m). split; [|reflexivity]. split; [exact N|].
    exists ls. split; [exact Ps|]. apply H; [exact (parsed_typed_all _ _ _ Ps)|exact R].
  - intros ([m|] & P & ->).
    + destruct P as (N & ls & Ps & R). right. split; [exact N|]. apply H in R; [|exact (parsed_typed_all _ _ _ Ps)]. eauto.
    + left. auto.
Qed.

(** * Overflow *)

Fixpoint small_at (V : Z) (d : bytes) : bool :=
  match dec_varint d with Ok (v, _) => to_int64 v <=? V | _ => true end &&
  match d with [] => true | _ :: d => small_at V d end.
Lemma small_at_ok V d : small_at V d = true -> small V d.
Proof.
  induction d as [|b d IH]; intros H p s v r E D.
  - destruct p; [|discriminate]. cbn [app] in E. subst s. discriminate.
  - cbn [small_at] in H. apply andb_true_iff in H as [H1 H2]. destruct p as [|c p]; cbn [app] in E.
    + subst s. rewrite D in H1. apply Z.leb_le, H1.
    + injection E as _ E. exact (IH H2 p s v r E D).
Qed.
