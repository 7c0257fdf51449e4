(** Byte strings, their order, and the few string functions of the Go standard
    library the code uses.  Definitions only; facts are in [BytesFacts]. *)
From Coq Require Import Ascii String NArith ZArith Bool List.
Import ListNotations.

(** Go [[]byte] / [string] contents.
    (metric/id/id.go, filters/filter.go and everywhere) *)
Definition bytes := list ascii.

(** Literals.  (string constants such as metric/id/m3/id.go:32-40) *)
Definition B (s : string) : bytes := list_ascii_of_string s.

(** [bytes.Equal].
    (called at filters/filter.go:266, metric/id/m3/id.go:97,129, pipeline/type.go:233) *)
Fixpoint beqb (x y : bytes) : bool :=
  match x, y with
  | [], [] => true
  | a :: x', b :: y' => Ascii.eqb a b && beqb x' y'
  | _, _ => false
  end.

(** [bytes.Compare]: lexicographic order on unsigned byte values.
    (called at metric/id/tag.go:42, filters/tags_filter.go:215-237, rules/active_ruleset.go:415,693) *)
Fixpoint bcompare (x y : bytes) : comparison :=
  match x, y with
  | [], [] => Eq
  | [], _ :: _ => Lt
  | _ :: _, [] => Gt
  | a :: x', b :: y' =>
      match N.compare (N_of_ascii a) (N_of_ascii b) with
      | Eq => bcompare x' y'
      | c => c
      end
  end.

(** [bytes.Compare(x, y) < 0] (metric/id/tag.go:42, filters/tags_filter.go:114,
    rules/match_result.go:46) *)
Definition bltb (x y : bytes) : bool :=
  match bcompare x y with Lt => true | _ => false end.

(** [bytes.Compare(x, y) <= 0] (filters/tags_filter.go:228) *)
Definition bleb (x y : bytes) : bool :=
  match bcompare x y with Gt => false | _ => true end.

(** [bytes.IndexByte]: offset of the first occurrence.
    (called at metric/id/m3/id.go:138,142,185,191) *)
Fixpoint index_byte (c : ascii) (s : bytes) : option nat :=
  match s with
  | [] => None
  | a :: s' => if Ascii.eqb a c then Some 0 else option_map S (index_byte c s')
  end.

(** [strings.Split] with a one byte separator: always at least one piece.
    (called at aggregation/type.go:393, policy/policy.go:146, policy/storage_policy.go:164, filters/tags_filter.go:62,86) *)
Fixpoint split_on (c : ascii) (s : bytes) : list bytes :=
  match s with
  | [] => [[]]
  | a :: s' =>
      if Ascii.eqb a c then [] :: split_on c s'
      else match split_on c s' with
           | [] => [[a]]
           | p :: ps => (a :: p) :: ps
           end
  end.

(** [strings.Join] with a one byte separator.  (called at aggregation/type.go:300) *)
Fixpoint join_with (c : ascii) (ps : list bytes) : bytes :=
  match ps with
  | [] => []
  | [p] => p
  | p :: ps' => p ++ c :: join_with c ps'
  end.

(** [bytes.HasPrefix]  (called at filters/filter.go:379,574) *)
Fixpoint has_prefix (s p : bytes) {struct p} : bool :=
  match p, s with
  | [], _ => true
  | a :: p', b :: s' => Ascii.eqb a b && has_prefix s' p'
  | _ :: _, [] => false
  end.

(** [bytes.HasSuffix]  (called at filters/filter.go:375,570, metric/id/m3/id.go:139) *)
Definition has_suffix (s p : bytes) : bool := has_prefix (rev s) (rev p).

(** [bytes.Contains]  (called at filters/filter.go:287) *)
Fixpoint contains_sub (s p : bytes) : bool :=
  has_prefix s p || match s with [] => false | _ :: s' => contains_sub s' p end.

(** [unicode.IsSpace]: the white space characters, in UTF-8.
    (under filters/tags_filter.go:61,65) *)
Definition white_space : list bytes :=
  map (map ascii_of_N)
    [[9]; [10]; [11]; [12]; [13]; [32]; [194; 133]; [194; 160]; [225; 154; 128];
     [226; 128; 128]; [226; 128; 129]; [226; 128; 130]; [226; 128; 131]; [226; 128; 132]; [226; 128; 133];
     [226; 128; 134]; [226; 128; 135]; [226; 128; 136]; [226; 128; 137]; [226; 128; 138];
     [226; 128; 168]; [226; 128; 169]; [226; 128; 175]; [226; 129; 159]; [227; 128; 128]]%N.

(** What follows the element of [ws] at the start of [s]
    (under filters/tags_filter.go:61,65) *)
Fixpoint cut_one (ws : list bytes) (s : bytes) : option bytes :=
  match ws with
  | [] => None
  | w :: ws' => if has_prefix s w then Some (skipn (length w) s) else cut_one ws' s
  end.

(** Cut off elements of [ws] at the start; [fuel] bounds their number.
    (under filters/tags_filter.go:61,65) *)
Fixpoint trim_start (ws : list bytes) (fuel : nat) (s : bytes) : bytes :=
  match fuel with
  | O => s
  | S fuel' => match cut_one ws s with Some r => trim_start ws fuel' r | None => s end
  end.

(** [strings.TrimSpace]: white space is cut off at the start, then at the end.  Go decodes the first
    or the last character each time; as no other bytes decode to one of the characters above,
    comparing the bytes is the same.  (called at filters/tags_filter.go:61,65) *)
Definition trim_left (s : bytes) : bytes := trim_start white_space (length s) s.
(** The end (called at filters/tags_filter.go:61,65). *)
Definition trim_right (s : bytes) : bytes := rev (trim_start (map (@rev ascii) white_space) (length s) (rev s)).
(** Both (called at filters/tags_filter.go:61,65). *)
Definition trim_space (s : bytes) : bytes := trim_right (trim_left s).

(** [sort.Sort] for keys on which the order is total: any sorting procedure
    gives the same result (see [BytesFacts]); insertion sort is used.
    (called at metric/id/m3/id.go:64, filters/tags_filter.go:161, pipeline/type.go:222, rules/active_ruleset.go:89) *)
Section Sort.
  Context {A : Type} (leb : A -> A -> bool).
  Fixpoint insert_sorted (x : A) (l : list A) : list A :=
    match l with
    | [] => [x]
    | y :: l' => if leb x y then x :: l else y :: insert_sorted x l'
    end.
  (** The sort (called at metric/id/m3/id.go:64, filters/tags_filter.go:161,
      pipeline/type.go:222, rules/active_ruleset.go:89). *)
  Fixpoint isort (l : list A) : list A :=
    match l with
    | [] => []
    | x :: l' => insert_sorted x (isort l')
    end.
End Sort.

(** Element-wise equality of slices, the shape of every [Equal] loop in the code.
    (e.g. policy/storage_policy.go:208-222 [StoragePolicies.Equal], pipeline/type.go:560-570 [Pipeline.Equal]) *)
Section ListEqb.
  Context {A : Type} (eqb : A -> A -> bool).
  Fixpoint list_eqb (x y : list A) : bool :=
    match x, y with
    | [], [] => true
    | a :: x', b :: y' => eqb a b && list_eqb x' y'
    | _, _ => false
    end.
End ListEqb.

(** Map with failure: the shape of every conversion loop in the code.
    (e.g. pipeline/applied/type.go:246-259 [Pipeline.FromProto]) *)
Section MapM.
  Context {A C : Type} (f : A -> option C).
  Fixpoint map_opt (l : list A) : option (list C) :=
    match l with
    | [] => Some []
    | x :: l' =>
        match f x with
        | None => None
        | Some y => match map_opt l' with None => None | Some ys => Some (y :: ys) end
        end
    end.
End MapM.

(** int64 -> int32 conversion: wraps modulo 2^32.
    (aggregation/id.go and transformation/type.go:98-108 [Type.ToProto] store enumerators as int32) *)
Definition to_int32 (z : Z) : Z :=
  let m := Z.modulo z (2 ^ 32) in
  if Z.leb (2 ^ 31) m then Z.sub m (2 ^ 32) else m.
