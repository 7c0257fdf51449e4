(** Model of the sorted tag iterators of metric/id/m3/id.go and of their pool, metric/id/tag.go, and of everything in the code that uses
    them, by any number of goroutines.  Definitions only.

    A call takes an iterator from the pool, resets it, calls its methods and closes it; other calls run between any two of these.
    Which object the pool hands out, whether it makes a new one and whether it keeps what it is given are parameters and can be anything. *)
From Coq Require Import Ascii String Arith Bool List.
From Verif.Base Require Import Bytes.
From Verif.Model Require Import MetricID Filter.
Import ListNotations.

(** metric/id/m3/id.go:152-159 [sortedTagIterator]; [t_pooled]: whether there is a pool *)
Record tag_iter := mk_titer { t_pairs : bytes; t_idx : nat; t_name : bytes; t_value : bytes; t_err : bool; t_pooled : bool }.

(** metric/id/m3/id.go:173-179 [Reset] *)
Definition titer_reset (tags : bytes) (t : tag_iter) : tag_iter := mk_titer tags 0 [] [] false (t_pooled t).

(** metric/id/m3/id.go:161-171 [NewPooledSortedTagIterator] and [NewSortedTagIterator] *)
Definition titer_new (pooled : bool) : tag_iter := titer_reset [] (mk_titer [] 0 [] [] false pooled).

(** metric/id/m3/id.go:181-201 [Next] *)
Definition titer_next (t : tag_iter) : bool * tag_iter :=
  if t_err t || (length (t_pairs t) <=? t_idx t) then (false, t)
  else
    match index_byte tag_name_splitter (skipn (t_idx t) (t_pairs t)) with
    | None => (false, mk_titer (t_pairs t) (t_idx t) (t_name t) (t_value t) true (t_pooled t))
    | Some i =>
        let name_splitter := t_idx t + i in
        let pair_splitter :=
          match index_byte tag_pair_splitter (skipn (name_splitter + 1) (t_pairs t)) with
          | Some j => name_splitter + 1 + j
          | None => length (t_pairs t)
          end in
        let between a b := firstn (b - a) (skipn a (t_pairs t)) in
        (true, mk_titer (t_pairs t) (pair_splitter + 1) (between (t_idx t) name_splitter) (between (name_splitter + 1) pair_splitter)
                 (t_err t) (t_pooled t))
    end.

(** metric/id/m3/id.go:211-217 [Close], without giving the iterator back *)
Definition titer_cleared (t : tag_iter) : tag_iter := mk_titer [] 0 [] [] false (t_pooled t).

(** The calls that use iterators, after the ID has been split into its name and tags: the value of a tag (metric/id/m3/id.go:123-133 in [TagValue]);
    whether there is the rollup tag (metric/id/m3/id.go:85-102 [IsRollupID]); whether the tags pass a filter (filters/tags_filter.go:208-258
    in [Matches], after the name's filter); the tags of a rollup target (rules/active_ruleset.go:408-435 in [matchRollupTarget]);
    and a user of the iterator's interface who reads everything and asks for the error (metric/id/tag.go:48-64). *)
Inductive kind :=
| TagValueOf (name : bytes)
| HasRollupTag
| Passes (op : logical_op) (fs : list (bytes * filter))
| TargetTags (tags : list bytes)
| AllTags.

(** What calls return (see [kind]).  Value slices point into the metric's ID, not into the iterator, so they are values.
    (metric/id/m3/id.go:203-205) *)
Inductive result := AValue (v : option bytes) | AnAnswer (b : bool) | SomePairs (ps : option (list (bytes * bytes))) | AllPairs (ps : list (bytes * bytes)) (err : bool).

(** The variables of a call: for [Passes] the tag filters from [currIdx] on, for [TargetTags] the tags from [currTagIdx] on and [tagPairs], for
    [AllTags] what has been read.  (filters/tags_filter.go:211, rules/active_ruleset.go:402-412) *)
Inductive local :=
| LValue (name : bytes)
| LRollup
| LPasses (op : logical_op) (fs : list (bytes * filter))
| LTarget (tags : list bytes) (acc : list (bytes * bytes))
| LAll (acc : list (bytes * bytes)).

(** The variables at the beginning (filters/tags_filter.go:211, rules/active_ruleset.go:408-412) *)
Definition start_local (k : kind) : local :=
  match k with
  | TagValueOf n => LValue n
  | HasRollupTag => LRollup
  | Passes op fs => LPasses op fs
  | TargetTags tags => LTarget tags []
  | AllTags => LAll []
  end.

(** What is called next: [Next], [Current] or [Err]; or the result is there and the iterator is closed.
    (metric/id/m3/id.go:94-102,127-133, filters/tags_filter.go:212-258, rules/active_ruleset.go:413-431) *)
Inductive todo := CallNext (l : local) | CallCurrent (l : local) | CallErr (l : local) | Finish (r : result).

(** The end of [matchRollupTarget]: rules/active_ruleset.go:433-435 *)
Definition target_result (tags : list bytes) (acc : list (bytes * bytes)) : result :=
  SomePairs (match tags with [] => Some acc | _ => None end).

(** After [Next]: metric/id/m3/id.go:127,133 and 95,101; filters/tags_filter.go:212,254; rules/active_ruleset.go:413 *)
Definition after_next (l : local) (more : bool) : todo :=
  match l with
  | LValue n => if more then CallCurrent l else Finish (AValue None)
  | LRollup => if more then CallCurrent l else Finish (AnAnswer false)
  | LPasses op fs => if more && match fs with [] => false | _ => true end then CallCurrent l else CallErr l
  | LTarget tags acc => if more && match tags with [] => false | _ => true end then CallCurrent l else Finish (target_result tags acc)
  | LAll acc => if more then CallCurrent l else CallErr l
  end.

(** After [Current]: metric/id/m3/id.go:128-132 and 96-99; filters/tags_filter.go:213-252; rules/active_ruleset.go:414-430 *)
Definition after_current (l : local) (n v : bytes) : todo :=
  match l with
  | LValue name => if beqb name n then Finish (AValue (Some v)) else CallNext l
  | LRollup => if beqb n (fst rollup_tag_pair) && beqb v (snd rollup_tag_pair) then Finish (AnAnswer true) else CallNext l
  | LPasses op fs =>
      let check (g : filter) gs :=
        let m := matches g v in
        if m && is_disj op then Finish (AnAnswer true)
        else if negb m && is_conj op then Finish (AnAnswer false)
        else CallNext (LPasses op gs) in
      match fs with
      | [] => CallErr l
      | (fname, g) :: gs =>
          match bcompare n fname with
          | Lt => CallNext l
          | Eq => check g gs
          | Gt =>
              if is_conj op then Finish (AnAnswer false)
              else
                match skip_below n gs with
                | [] => Finish (AnAnswer false)
                | (hname, h) :: hs => match bcompare n hname with Lt => CallNext (LPasses op ((hname, h) :: hs)) | _ => check h hs end
                end
          end
      end
  | LTarget tags acc =>
      match tags with
      | [] => Finish (target_result tags acc)
      | tag :: rest =>
          match bcompare n tag with
          | Eq => CallNext (LTarget rest (acc ++ [(n, v)]))
          | Gt => Finish (target_result tags acc)
          | Lt => CallNext l
          end
      end
  | LAll acc => CallNext (LAll (acc ++ [(n, v)]))
  end.

(** After [Err]: filters/tags_filter.go:254-258 *)
Definition after_err (l : local) (err : bool) : result :=
  match l with
  | LPasses op fs => AnAnswer (if err || is_disj op then false else match fs with [] => true | _ => false end)
  | LAll acc => AllPairs acc err
  | LValue _ => AValue None
  | LRollup => AnAnswer false
  | LTarget tags acc => target_result tags acc
  end.

(** Where a call is: before taking an iterator, before [Reset], before what is to be done, and when it has returned.
    (metric/id/m3/id.go:85-133, matcher/config.go:106-110) *)
Inductive place := BeforeGet | BeforeReset | Doing (d : todo) | HasReturned (r : result).

(** A call over the given tags, with the pool or without, and its iterator.  (metric/id/m3/id.go:85-133) *)
Record call := mk_call { c_kind : kind; c_tags : bytes; c_pooled : bool; c_iter : nat; c_place : place }.

(** The iterators, those from [g_iters] on are not in use; what the pool keeps; and the calls.
    (metric/id/tag.go:81-102) *)
Record world := mk_world { g_iter : nat -> tag_iter; g_iters : nat; g_pool : list nat; g_calls : list call }.
(** Before any call (matcher/config.go:102-105) *)
Definition empty_world : world := mk_world (fun _ => titer_new false) 0 [] [].

(** What can happen: a call begins; a call does its next step, where the pool hands out its [i]th object or a new one if there is none, and keeps
    what it is given if [keep]; and a user closes an iterator again that they have closed.
    (metric/id/tag.go:96-102, metric/id/m3/id.go:211-220) *)
Inductive event := Begin (k : kind) (tags : bytes) (pooled : bool) | Go (c i : nat) (keep : bool) | CloseAgain (c : nat) (keep : bool).

(** One iterator changed (metric/id/m3/id.go:173-220) *)
Definition put_titer (f : nat -> tag_iter) (a : nat) (t : tag_iter) : nat -> tag_iter := fun b => if Nat.eqb b a then t else f b.

(** One call changed (its own goroutine's variables, metric/id/m3/id.go:85-133) *)
Fixpoint set_call (l : list call) (c : nat) (x : call) : list call :=
  match l, c with
  | [], _ => []
  | _ :: r, O => x :: r
  | y :: r, S c => y :: set_call r c x
  end.

(** The call moves on, the memory being as given (metric/id/m3/id.go:85-133). *)
Definition move (w : world) (c : nat) (x : call) (a : nat) (p : place) (f : nat -> tag_iter) (n : nat) (pool : list nat) : world :=
  mk_world f n pool (set_call (g_calls w) c (mk_call (c_kind x) (c_tags x) (c_pooled x) a p)).

(** metric/id/tag.go:100-102 [Put] by metric/id/m3/id.go:217-219 *)
Definition give_back (w : world) (a : nat) (keep : bool) : list nat :=
  if t_pooled (g_iter w a) && keep then g_pool w ++ [a] else g_pool w.

(** metric/id/m3/id.go:85-133, filters/tags_filter.go:208-258, rules/active_ruleset.go:408-431, matcher/config.go:106-110 *)
Definition step (w : world) (e : event) : world :=
  match e with
  | Begin k tags pooled => mk_world (g_iter w) (g_iters w) (g_pool w) (g_calls w ++ [mk_call k tags pooled 0 BeforeGet])
  | Go c i keep =>
      match nth_error (g_calls w) c with
      | None => w
      | Some x =>
          let a := c_iter x in
          let t := g_iter w a in
          match c_place x with
          | BeforeGet =>
              match (if c_pooled x then nth_error (g_pool w) i else None) with
              | Some b => move w c x b BeforeReset (g_iter w) (g_iters w) (firstn i (g_pool w) ++ skipn (S i) (g_pool w))
              | None => move w c x (g_iters w) BeforeReset (put_titer (g_iter w) (g_iters w) (titer_new (c_pooled x))) (S (g_iters w)) (g_pool w)
              end
          | BeforeReset => move w c x a (Doing (CallNext (start_local (c_kind x)))) (put_titer (g_iter w) a (titer_reset (c_tags x) t)) (g_iters w) (g_pool w)
          | Doing (CallNext l) =>
              let '(more, t') := titer_next t in
              move w c x a (Doing (after_next l more)) (put_titer (g_iter w) a t') (g_iters w) (g_pool w)
          | Doing (CallCurrent l) => move w c x a (Doing (after_current l (t_name t) (t_value t))) (g_iter w) (g_iters w) (g_pool w)
          | Doing (CallErr l) => move w c x a (Doing (Finish (after_err l (t_err t)))) (g_iter w) (g_iters w) (g_pool w)
          | Doing (Finish r) => move w c x a (HasReturned r) (put_titer (g_iter w) a (titer_cleared t)) (g_iters w) (give_back w a keep)
          | HasReturned _ => w
          end
      end
  | CloseAgain c keep =>
      match nth_error (g_calls w) c with
      | Some x =>
          match c_place x with
          | HasReturned _ =>
              mk_world (put_titer (g_iter w) (c_iter x) (titer_cleared (g_iter w (c_iter x)))) (g_iters w) (give_back w (c_iter x) keep) (g_calls w)
          | _ => w
          end
      | None => w
      end
  end.

(** One thing after another (metric/id/m3/id.go:85-133) *)
Fixpoint run (w : world) (l : list event) : world := match l with [] => w | e :: r => run (step w e) r end.
