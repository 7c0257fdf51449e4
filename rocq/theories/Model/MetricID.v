(** Model of metric/id/m3/id.go, metric/id/tag.go and
    metric/id/id.go.  Definitions only. *)
From Coq Require Import Ascii String NArith Bool List.
From Verif.Base Require Import Bytes.
Import ListNotations.

(** metric/id/m3/id.go 41-45 *)
Definition component_splitter : ascii := "+"%char.
(** metric/id/m3/id.go:44 [tagNameSplitter] *)
Definition tag_name_splitter : ascii := "="%char.
(** metric/id/m3/id.go:45 [tagPairSplitter] *)
Definition tag_pair_splitter : ascii := ","%char.

(** metric/id/m3/id.go 49-53: [m3Prefix] and [rollupTagPair]; metric/id/tag.go
    28-33: a tag pair is a name and a value. *)
Definition m3_prefix : bytes := B "m3+".
(** metric/id/m3/id.go:51-54 [rollupTagPair] *)
Definition rollup_tag_pair : bytes * bytes := (B "m3_rollup", B "true").

(** metric/id/tag.go 36-44 [TagPairsByNameAsc] as a non-strict order. *)
Definition tag_pair_leb (x y : bytes * bytes) : bool := bleb (fst x) (fst y).

(** metric/id/m3/id.go 69-76: the loop that writes the tag pairs. *)
Fixpoint write_tags (ps : list (bytes * bytes)) : bytes :=
  match ps with
  | [] => []
  | [(n, v)] => n ++ tag_name_splitter :: v
  | (n, v) :: ps' => n ++ tag_name_splitter :: v ++ tag_pair_splitter :: write_tags ps'
  end.

(** metric/id/m3/id.go 59-79 [NewRollupID].  sort.Sort is not stable: the order
    of pairs with equal names is the one insertion sort gives (Go's choice for
    at most twelve pairs); theorems that depend on it ask for distinct names. *)
Definition new_rollup_id (name : bytes) (tag_pairs : list (bytes * bytes)) : bytes :=
  m3_prefix ++ name ++ component_splitter :: write_tags (isort tag_pair_leb (tag_pairs ++ [rollup_tag_pair])).

(** metric/id/m3/id.go 181-201 [sortedTagIterator.Next], repeated until it
    returns false: the pairs yielded, and whether an error was recorded.  The
    argument is sortedTagPairs[idx:]. *)
Fixpoint iterate_tags (fuel : nat) (tags : bytes) : list (bytes * bytes) * bool :=
  match fuel, tags with
  | _, [] => ([], false)
  | O, _ => ([], true)
  | S fuel', _ =>
      match index_byte tag_name_splitter tags with
      | None => ([], true)
      | Some i =>
          let after := skipn (S i) tags in
          match index_byte tag_pair_splitter after with
          | None => ([(firstn i tags, after)], false)
          | Some j =>
              let (ps, err) := iterate_tags fuel' (skipn (S j) after) in
              ((firstn i tags, firstn j after) :: ps, err)
          end
      end
  end.

(** metric/id/m3/id.go:162-201 [NewSortedTagIterator] and [Next] until it returns false. *)
Definition sorted_tags (tags : bytes) : list (bytes * bytes) * bool :=
  iterate_tags (length tags) tags.

(** metric/id/m3/id.go 85-102 [IsRollupID]: its first argument is unused. *)
Definition is_rollup_id (name tags : bytes) : bool :=
  existsb (fun p => beqb (fst p) (fst rollup_tag_pair) && beqb (snd p) (snd rollup_tag_pair))
          (fst (sorted_tags tags)).

(** metric/id/m3/id.go 137-150 [NameAndTags]. *)
Definition name_and_tags (id : bytes) : option (bytes * bytes) :=
  match index_byte component_splitter id with
  | None => None
  | Some i =>
      if has_suffix (firstn (S i) id) m3_prefix then
        let rest := skipn (S i) id in
        match index_byte component_splitter rest with
        | None => None
        | Some j => Some (firstn j rest, skipn (S j) rest)
        end
      else None
  end.

(** First value of a name in a list of pairs: the loop of lines 127-132. *)
Fixpoint find_tag (n : bytes) (ps : list (bytes * bytes)) : option bytes :=
  match ps with
  | [] => None
  | (m, v) :: ps' => if beqb n m then Some v else find_tag n ps'
  end.

(** metric/id/m3/id.go 117-134 [TagValue]. *)
Definition tag_value (id tag_name : bytes) : option bytes :=
  match name_and_tags id with
  | None => None
  | Some (_, tags) => find_tag tag_name (fst (sorted_tags tags))
  end.
