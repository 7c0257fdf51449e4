(** Model of filters/filter.go and filters/tags_filter.go.
    Definitions only. *)
From Coq Require Import Ascii NArith Bool List.
From Verif.Base Require Import Bytes.
Import ListNotations.

(** filters/filter.go 37 and 46-50: [LogicalOp] is a string type with two
    constants; every other string behaves the same way. *)
Inductive logical_op := Conjunction | Disjunction | UnknownOp.

(** filters/filter.go 52-54: [chainSegment]. *)
Inductive chain_segment := Middle | Start | End.

(** filters/filter.go 56-64: the special characters. *)
Definition wildcard_char : ascii := "*"%char.
(** filters/filter.go:54 [negationChar] *)
Definition negation_char : ascii := "!"%char.
(** filters/filter.go:55 [singleAnyChar] *)
Definition single_any_char : ascii := "?"%char.
(** filters/filter.go:56 [singleRangeStartChar] *)
Definition single_range_start : ascii := "["%char.
(** filters/filter.go:57 [singleRangeEndChar] *)
Definition single_range_end : ascii := "]"%char.
(** filters/filter.go:58 [rangeChar] *)
Definition range_char : ascii := "-"%char.
(** filters/filter.go:59 [multiRangeStartChar] *)
Definition multi_range_start : ascii := "{"%char.
(** filters/filter.go:60 [multiRangeEndChar] *)
Definition multi_range_end : ascii := "}"%char.
(** filters/filter.go:65 [multiRangeSplit] *)
Definition multi_range_split : ascii := ","%char.

(** filters/filter.go 358-580: the chain filters.  The [backwards] flag each of
    them stores is the flag of the chain it is built for (lines 181-238), so it
    is passed to [chain_matches] instead of being stored in every element.
    [CRange]: the three byte patterns "a-z" are kept as pairs (a, z). *)
Inductive chain_filter :=
| CEqual (pattern : bytes)
| CAny
| CRange (negate : bool) (patterns : list (ascii * ascii))
| CSet (negate : bool) (pattern : bytes)
| CAlts (patterns : list bytes).

(** filters/filter.go: the filter implementations.  [FExternal] stands for an
    implementation of the [Filter] interface outside this package (it can be
    passed to [NewMultiFilter]); only its [Matches] is represented.  The
    [immutableFilter] wrapper (651-670) forwards every call and is omitted. *)
Inductive filter :=
| FAllow
| FEqual (pattern : bytes)
| FContains (pattern : bytes)
| FNot (f : filter)
| FMulti (fs : list filter) (op : logical_op)
| FChain (fs : list chain_filter) (seg : chain_segment) (backwards : bool)
| FExternal (matches : bytes -> bool).

(** Split a value into its last element and the elements before it.
    (filters/filter.go:407,476-478,520,536) *)
Definition unsnoc (v : bytes) : option (bytes * ascii) :=
  match rev v with
  | [] => None
  | c :: r => Some (rev r, c)
  end.

(** The byte a one-byte filter inspects and the remainder: val[0], val[1:]
    forwards and val[len-1], val[:len-1] backwards.
    (filters/filter.go:406-410,474-479,519-539) *)
Definition one_char (backwards : bool) (val : bytes) : option (bytes * ascii) :=
  if backwards then unsnoc val
  else match val with [] => None | c :: r => Some (r, c) end.

(** The test of one range, filters/filter.go:482. *)
Definition in_range (c : ascii) (r : ascii * ascii) : bool :=
  N.leb (N_of_ascii (fst r)) (N_of_ascii c) && N.leb (N_of_ascii c) (N_of_ascii (snd r)).

(** HasPrefix/HasSuffix followed by cutting the pattern off.
    (filters/filter.go:374-384,569-577) *)
Definition cut (backwards : bool) (val pattern : bytes) : option bytes :=
  if backwards then
    if has_suffix val pattern then Some (firstn (length val - length pattern) val) else None
  else
    if has_prefix val pattern then Some (skipn (length pattern) val) else None.

(** filters/filter.go 561-574 the loop over alternatives. *)
Fixpoint first_alt (backwards : bool) (val : bytes) (patterns : list bytes) : option bytes :=
  match patterns with
  | [] => None
  | p :: ps =>
      match cut backwards val p with
      | Some r => Some r
      | None => first_alt backwards val ps
      end
  end.

(** filters/filter.go 374-384, 401-411, 468-495, 513-542, 561-580: [matches] of
    each chain filter: the unmatched part of the value, [None] for no match. *)
Definition chain_matches (backwards : bool) (f : chain_filter) (val : bytes) : option bytes :=
  match f with
  | CEqual p => cut backwards val p
  | CAny =>
      match one_char backwards val with Some (r, _) => Some r | None => None end
  | CRange negate ps =>
      match one_char backwards val with
      | Some (r, c) => if xorb negate (existsb (in_range c) ps) then Some r else None
      | None => None
      end
  | CSet negate p =>
      match one_char backwards val with
      | Some (r, c) => if xorb negate (existsb (Ascii.eqb c) p) then Some r else None
      | None => None
      end
  | CAlts ps => match val with [] => None | _ => first_alt backwards val ps end
  end.

(** The loop of filters/filter.go 627-641: run the chain, left to right. *)
Fixpoint run_chain (backwards : bool) (fs : list chain_filter) (val : bytes) : option bytes :=
  match fs with
  | [] => Some val
  | f :: fs' =>
      match chain_matches backwards f val with
      | None => None
      | Some val' => run_chain backwards fs' val'
      end
  end.

(** filters/filter.go 620-649 [multiChainFilter.Matches]. *)
Definition multi_chain_matches (fs : list chain_filter) (seg : chain_segment) (backwards : bool)
    (val : bytes) : bool :=
  match fs with
  | [] => true
  | _ =>
      match run_chain backwards (if backwards then rev fs else fs) val with
      | None => false
      | Some rest =>
          match seg, rest with
          | Middle, _ :: _ => false
          | _, _ => true
          end
      end
  end.

(** filters/filter.go 332-349: the loop of [multiFilter.Matches]. *)
Fixpoint multi_loop (op : logical_op) (ms : list bool) : bool :=
  match ms with
  | [] => match op with Conjunction => true | _ => false end
  | m :: ms' =>
      match op, m with
      | Conjunction, false => false
      | Disjunction, true => true
      | _, _ => multi_loop op ms'
      end
  end.

(** [Matches] of every filter: filters/filter.go 250, 267-269, 293-295, 308-311,
    332-349, 620-649. *)
Fixpoint matches (f : filter) (val : bytes) {struct f} : bool :=
  match f with
  | FAllow => true
  | FEqual p => beqb p val
  | FContains p => contains_sub val p
  | FNot g => negb (matches g val)
  | FMulti fs op =>
      match fs with
      | [] => true
      | _ => multi_loop op (map (fun g => matches g val) fs)
      end
  | FChain fs seg backwards => multi_chain_matches fs seg backwards val
  | FExternal m => m val
  end.

(** filters/filter.go 430-441: read "a-z" triples. *)
Fixpoint range_triples (p : bytes) : option (list (ascii * ascii)) :=
  match p with
  | [] => Some []
  | a :: d :: z :: p' =>
      if Ascii.eqb d range_char && N.leb (N_of_ascii a) (N_of_ascii z) then
        match range_triples p' with
        | Some rs => Some ((a, z) :: rs)
        | None => None
        end
      else None
  | _ => None
  end.

(** filters/filter.go 415-446 [newSingleRangeFilter]. *)
Definition new_single_range (p : bytes) : option chain_filter :=
  match p with
  | [] => None
  | c :: p' =>
      let negate := Ascii.eqb c negation_char in
      let body := if negate then p' else p in
      match body with
      | _ :: d :: _ =>
          if Ascii.eqb d range_char then
            match range_triples body with
            | Some rs => Some (CRange negate rs)
            | None => None
            end
          else Some (CSet negate body)
      | _ => Some (CSet negate body)
      end
  end.

(** filters/filter.go 549-558 [newMultiCharSequenceFilter]. *)
Definition new_multi_char_sequence (p : bytes) : option chain_filter :=
  match p with
  | [] => None
  | _ => Some (CAlts (split_on multi_range_split p))
  end.

(** The equality filter for the characters collected since [eqIdx]; [None] is
    eqIdx = -1.  (filters/filter.go:186-189,206-209,226-229,238-240) *)
Definition flush (eq : option bytes) : list chain_filter :=
  match eq with None => [] | Some p => [CEqual p] end.

(** filters/filter.go 179-243: the loop of [newRangeFilter].  [eq] is
    pattern[eqIdx:i] and [fuel] bounds the number of iterations. *)
Fixpoint range_loop (fuel : nat) (pattern : bytes) (eq : option bytes) : option (list chain_filter) :=
  match fuel, pattern with
  | _, [] => Some (flush eq)
  | O, _ => None
  | S fuel', c :: rest =>
      if Ascii.eqb c single_range_start then
        match index_byte single_range_end rest with
        | None => None
        | Some e =>
            match new_single_range (firstn e rest) with
            | None => None
            | Some f =>
                match range_loop fuel' (skipn (S e) rest) None with
                | None => None
                | Some fs => Some (flush eq ++ f :: fs)
                end
            end
        end
      else if Ascii.eqb c multi_range_start then
        match index_byte multi_range_end rest with
        | None => None
        | Some e =>
            match new_multi_char_sequence (firstn e rest) with
            | None => None
            | Some f =>
                match range_loop fuel' (skipn (S e) rest) None with
                | None => None
                | Some fs => Some (flush eq ++ f :: fs)
                end
            end
        end
      else if Ascii.eqb c single_any_char then
        match range_loop fuel' rest None with
        | None => None
        | Some fs => Some (flush eq ++ CAny :: fs)
        end
      else
        range_loop fuel' rest (Some (match eq with None => [c] | Some p => p ++ [c] end))
  end.

(** filters/filter.go 179-243 [newRangeFilter]. *)
Definition new_range_filter (pattern : bytes) (backwards : bool) (seg : chain_segment) : option filter :=
  match range_loop (length pattern) pattern None with
  | None => None
  | Some fs => Some (FChain fs seg backwards)
  end.

(** filters/filter.go 280-286 [newContainsFilter]; 64 [invalidNestedChars]. *)
Definition new_contains_filter (pattern : bytes) : option filter :=
  if existsb (fun c => Ascii.eqb c single_any_char || Ascii.eqb c single_range_start
                       || Ascii.eqb c multi_range_start) pattern
  then None else Some (FContains pattern).

(** filters/filter.go 130-175 [newWildcardFilter]. *)
Definition new_wildcard_filter (pattern : bytes) : option filter :=
  match index_byte wildcard_char pattern with
  | None => new_range_filter pattern false Middle
  | Some w =>
      if Nat.eqb (length pattern) 1 then Some FAllow
      else if Nat.eqb w (length pattern - 1) then
        new_range_filter (firstn (length pattern - 1) pattern) false Start
      else
        match index_byte wildcard_char (skipn (w + 1) pattern) with
        | None =>
            if Nat.eqb w 0 then new_range_filter (skipn 1 pattern) true End
            else
              match new_range_filter (firstn w pattern) false Start with
              | None => None
              | Some first =>
                  match new_range_filter (skipn (w + 1) pattern) true End with
                  | None => None
                  | Some second => Some (FMulti [first; second] Conjunction)
                  end
              end
        | Some w2 =>
            if Nat.eqb w 0 && Nat.eqb w2 (length pattern - 2) && Nat.ltb 2 (length pattern) then
              new_contains_filter (firstn (length pattern - 2) (skipn 1 pattern))
            else None
        end
  end.

(** filters/filter.go 105-126 [NewFilter]. *)
Definition new_filter (pattern : bytes) : option filter :=
  match pattern with
  | [] => Some (FEqual [])
  | c :: rest =>
      if Ascii.eqb c negation_char then
        match rest with
        | [] => None
        | _ =>
            match new_wildcard_filter rest with
            | None => None
            | Some f => Some (FNot f)
            end
        end
      else new_wildcard_filter pattern
  end.

(** filters/filter.go 70-75 [FilterValue]. *)
Record filter_value := mk_fv { fv_pattern : bytes; fv_negate : bool }.

(** filters/filter.go 90-99 [NewFilterFromFilterValue]. *)
Definition new_filter_from_value (fv : filter_value) : option filter :=
  match new_filter (fv_pattern fv) with
  | None => None
  | Some f => Some (if fv_negate fv then FNot f else f)
  end.

(** ** Tag filters *)

(** filters/tags_filter.go 83-99 [parseTagFilter]; the only separator is ':',
    which does not negate (lines 39-47). *)
Definition parse_tag_filter (s : bytes) : option (bytes * bytes) :=
  match split_on ":"%char s with
  | [n; p] =>
      match n, p with
      | [], _ => None
      | _, [] => None
      | _, _ => Some (n, p)
      end
  | _ => None
  end.

(** Presence of a key in a map kept as a list of pairs.  (filters/tags_filter.go:74) *)
Definition has_key {A} (k : bytes) (m : list (bytes * A)) : bool :=
  existsb (fun e => beqb (fst e) k) m.

(** filters/tags_filter.go 64-79: the loop of [ParseTagFilterValueMap].  The map
    is kept as the list of its entries in order of insertion. *)
Fixpoint parse_loop (tokens : list bytes) (res : list (bytes * filter_value))
  : option (list (bytes * filter_value)) :=
  match tokens with
  | [] => Some res
  | p :: ps =>
      match trim_space p with
      | [] => parse_loop ps res
      | sanitized =>
          match parse_tag_filter sanitized with
          | None => None
          | Some (n, v) =>
              if has_key n res then None
              else parse_loop ps (res ++ [(n, mk_fv v false)])
          end
      end
  end.

(** filters/tags_filter.go 60-81 [ParseTagFilterValueMap]. *)
Definition parse_tag_filter_value_map (s : bytes) : option (list (bytes * filter_value)) :=
  parse_loop (split_on " "%char (trim_space s)) [].

(** filters/tags_filter.go 117-126 [TagsFilterOptions].  The sorted tag iterator
    is represented by the pairs it yields and whether it ends with an error. *)
Record tags_filter_options := mk_tfo {
  tfo_name_tag_key : bytes;
  tfo_name_and_tags : bytes -> option (bytes * bytes);
  tfo_sorted_tags : bytes -> list (bytes * bytes) * bool
}.

(** filters/tags_filter.go 129-134 [tagsFilter] *)
Record tags_filter := mk_tf {
  tf_name : option filter;
  tf_tags : list (bytes * filter);
  tf_op : logical_op;
  tf_opts : tags_filter_options
}.

(** filters/tags_filter.go 147-160: the loop over the map, in the order the map
    is iterated. *)
Fixpoint compile_tags (key : bytes) (m : list (bytes * filter_value))
    (name : option filter) (tags : list (bytes * filter))
  : option (option filter * list (bytes * filter)) :=
  match m with
  | [] => Some (name, tags)
  | (n, v) :: m' =>
      match new_filter_from_value v with
      | None => None
      | Some f =>
          if beqb key n then compile_tags key m' (Some f) tags
          else compile_tags key m' name (tags ++ [(n, f)])
      end
  end.

(** filters/tags_filter.go 111-115 the order of [tagFiltersByNameAsc]. *)
Definition by_name_leb {A} (x y : bytes * A) : bool := bleb (fst x) (fst y).

(** filters/tags_filter.go 137-168 [NewTagsFilter]. *)
Definition new_tags_filter (m : list (bytes * filter_value)) (op : logical_op)
    (opts : tags_filter_options) : option tags_filter :=
  match compile_tags (tfo_name_tag_key opts) m None [] with
  | None => None
  | Some (name, tags) => Some (mk_tf name (isort by_name_leb tags) op opts)
  end.

(** filters/tags_filter.go 226-228: skip tag filters whose name is below [n]. *)
Fixpoint skip_below (n : bytes) (fs : list (bytes * filter)) : list (bytes * filter) :=
  match fs with
  | [] => []
  | f :: fs' => match bcompare n (fst f) with Gt => skip_below n fs' | _ => fs end
  end.

(** [f.op == Conjunction], filters/filter.go:45 and filters/tags_filter.go:203,221,247. *)
Definition is_conj (op : logical_op) : bool := match op with Conjunction => true | _ => false end.
(** [f.op == Disjunction], filters/filter.go:47 and filters/tags_filter.go:200,243,254. *)
Definition is_disj (op : logical_op) : bool := match op with Disjunction => true | _ => false end.

(** filters/tags_filter.go 207-258: the loop over the tags.  [fs] are the tag
    filters from currIdx on; [err] is what iter.Err() reports once the iterator
    is exhausted. *)
Fixpoint tags_loop (op : logical_op) (fs : list (bytes * filter))
    (pairs : list (bytes * bytes)) (err : bool) : bool :=
  match pairs with
  | [] =>
      if err || is_disj op then false
      else match fs with [] => true | _ => false end
  | (n, v) :: pairs' =>
      match fs with
      | [] => negb (is_disj op)
      | (fn, ff) :: fs' =>
          let check g gs :=
            let m := matches g v in
            if m && is_disj op then true
            else if negb m && is_conj op then false
            else tags_loop op gs pairs' err in
          match bcompare n fn with
          | Lt => tags_loop op fs pairs' err
          | Eq => check ff fs'
          | Gt =>
              if is_conj op then false
              else
                match skip_below n fs' with
                | [] => false
                | (gn, g) :: gs =>
                    match bcompare n gn with
                    | Lt => tags_loop op ((gn, g) :: gs) pairs' err
                    | _ => check g gs
                    end
                end
          end
      end
  end.

(** filters/tags_filter.go 189-259 [tagsFilter.Matches]. *)
Definition tags_matches (f : tags_filter) (id : bytes) : bool :=
  match tf_name f, tf_tags f with
  | None, [] => true
  | _, _ =>
      match tfo_name_and_tags (tf_opts f) id with
      | None => false
      | Some (name, tags) =>
          let (pairs, err) := tfo_sorted_tags (tf_opts f) tags in
          match tf_name f with
          | None => tags_loop (tf_op f) (tf_tags f) pairs err
          | Some nf =>
              let m := matches nf name in
              if m && is_disj (tf_op f) then true
              else if negb m && is_conj (tf_op f) then false
              else tags_loop (tf_op f) (tf_tags f) pairs err
          end
      end
  end.

(** filters/tags_filter.go 264-276 [ValidateTagsFilter]: the filter values, or an
    error. *)
Definition validate_tags_filter (s : bytes) : option (list (bytes * filter_value)) :=
  match parse_tag_filter_value_map s with
  | None => None
  | Some m =>
      match map_opt (fun e => new_filter_from_value (snd e)) m with
      | None => None
      | Some _ => Some m
      end
  end.
