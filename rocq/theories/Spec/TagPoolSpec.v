(** Vocabulary for C90: what calls that use tag iterators return. *)
From Coq Require Import Ascii String Arith Bool List.
From Verif.Base Require Import Bytes.
From Verif.Model Require Import MetricID Filter Rules TagPool.
Import ListNotations.

(** What a call returns if it is alone, as in MetricID, Filter and Rules: from the list of the tags and whether they are malformed. *)
Definition alone (k : kind) (tags : bytes) : result :=
  let '(pairs, err) := sorted_tags tags in
  match k with
  | TagValueOf name => AValue (find_tag name pairs)
  | HasRollupTag => AnAnswer (is_rollup_id [] tags)
  | Passes op fs => AnAnswer (tags_loop op fs pairs err)
  | TargetTags wanted => SomePairs (match_tags pairs wanted)
  | AllTags => AllPairs pairs err
  end.

(** The calls that have begun, with their tags. *)
Definition begun (l : list event) : list (kind * bytes) :=
  flat_map (fun e => match e with Begin k tags _ => [(k, tags)] | _ => [] end) l.

(** Iterators are not closed twice. *)
Definition no_second_close (l : list event) : Prop := forall c keep, ~ In (CloseAgain c keep) l.

(** How often a call has had its turn. *)
Definition turns (c : nat) (l : list event) : nat :=
  length (List.filter (fun e => match e with Go d _ _ => Nat.eqb d c | _ => false end) l).

(** Calls that have an iterator at hand. *)
Definition uses (x : call) (a : nat) : Prop :=
  c_iter x = a /\ match c_place x with BeforeGet | HasReturned _ => False | _ => True end.
