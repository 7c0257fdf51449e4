(** Facts about finite maps keyed by byte strings. *)
From Coq Require Import Ascii Bool List.
From Verif Require Import Base.Bytes Base.BytesFacts Base.BMap.
Import ListNotations.

Lemma bget_in {A} (m : bmap A) k v : bget m k = Some v -> In (k, v) m.
Proof.
  induction m as [|[k' v'] m IH]; cbn; [discriminate|].
  destruct (beqb k' k) eqn:E.
  - intros H. injection H as ->. apply beqb_eq in E as ->. left. reflexivity.
  - intros H. right. auto.
Qed.

Lemma bget_none {A} (m : bmap A) k : bget m k = None -> forall v, ~ In (k, v) m.
Proof.
  induction m as [|[k' v'] m IH]; cbn; intros H v.
  - tauto.
  - destruct (beqb k' k) eqn:E; [discriminate|]. intros [X|X].
    + injection X as -> _. rewrite beqb_refl in E. discriminate.
    + exact (IH H v X).
Qed.

Lemma bdel_in {A} (m : bmap A) k k' v : In (k', v) (bdel m k) <-> In (k', v) m /\ k' <> k.
Proof.
  unfold bdel. rewrite filter_In. cbn. rewrite negb_true_iff.
  split; intros [H1 H2]; (split; [exact H1|]); apply beqb_neq; exact H2.
Qed.

Lemma bset_in {A} (m : bmap A) k v k' v' :
  In (k', v') (bset m k v) <-> k' = k /\ v' = v \/ In (k', v') m /\ k' <> k.
Proof.
  unfold bset. cbn [In]. rewrite bdel_in. split.
  - intros [H|H]; [injection H as -> ->; left; split; reflexivity|right; exact H].
  - intros [[-> ->]|H]; [left; reflexivity|right; exact H].
Qed.

Lemma bget_del_same {A} (m : bmap A) k : bget (bdel m k) k = None.
Proof.
  induction m as [|[k' v] m IH]; cbn; [reflexivity|].
  destruct (beqb k' k) eqn:E; cbn; [exact IH|]. rewrite E. exact IH.
Qed.

Lemma bget_del_other {A} (m : bmap A) k k' : k' <> k -> bget (bdel m k) k' = bget m k'.
Proof.
  intros N. induction m as [|[j v] m IH]; cbn; [reflexivity|].
  destruct (beqb j k) eqn:E; cbn.
  - apply beqb_eq in E as ->. change (bget (bdel m k) k' = if beqb k k' then Some v else bget m k').
    rewrite IH. destruct (beqb k k') eqn:E'; [|reflexivity]. apply beqb_eq in E'. congruence.
  - destruct (beqb j k'); [reflexivity|exact IH].
Qed.

Lemma bget_set_same {A} (m : bmap A) k v : bget (bset m k v) k = Some v.
Proof. unfold bset. cbn. rewrite beqb_refl. reflexivity. Qed.

Lemma bget_set_other {A} (m : bmap A) k v k' : k' <> k -> bget (bset m k v) k' = bget m k'.
Proof.
  intros N. unfold bset. cbn. destruct (beqb k k') eqn:E; [apply beqb_eq in E; congruence|].
  apply bget_del_other. exact N.
Qed.
