(** Model of the unaggregated msgpack iterator (encoding/msgpack/unaggregated_iterator.go) with the memory that it
    uses again and again: the buffer of IDs, the slice of timer values, the slices of policies and of staged policies, and
    the pool of float slices that large batches come from.  [Model/Msgpack.v] has the same functions without memory.
    Go's memory is typed, so there is one family of arrays per element type.  Slices start at the beginning of
    their array, as all slices here do.  Definitions only. *)
From Coq Require Import Ascii String Arith NArith ZArith Bool List.
From Verif.Base Require Import Bytes.
From Verif.Model Require Import AggType Policy Transformation ProtoWire MsgpackLib Msgpack.
Import ListNotations.
Open Scope Z_scope.

(** * Slices (the Go language, as used in encoding/msgpack/unaggregated_iterator.go) *)

(** A slice: its array, its length and its capacity; [nil] has capacity 0
    (e.g. encoding/msgpack/unaggregated_iterator.go:52-55). *)
Record slice := mk_sl { sl_arr : nat; sl_len : nat; sl_cap : nat }.
(** [nil] (e.g. encoding/msgpack/unaggregated_iterator.go:96). *)
Definition nil_slice : slice := mk_sl 0 0 0.
(** [s[:n]] (e.g. encoding/msgpack/unaggregated_iterator.go:320). *)
Definition cut (n : nat) (s : slice) : slice := mk_sl (sl_arr s) n (sl_cap s).

(** The arrays of one element type; those from [ar_next] on are not in use
    (e.g. encoding/msgpack/unaggregated_iterator.go:52-55). *)
Record arrays (X : Type) := mk_ar { ar_at : nat -> list X; ar_next : nat }.
Arguments mk_ar {X}. Arguments ar_at {X}. Arguments ar_next {X}.

Section Arrays.
  Context {X : Type}.
  (** What a slice shows (e.g. a [range] over it: encoding/migration/convert.go:75). *)
  Definition elements (A : arrays X) (s : slice) : list X := firstn (sl_len s) (ar_at A (sl_arr s)).
  (** Arrays of which one changed (element assignments, e.g.
      encoding/msgpack/unaggregated_iterator.go:256). *)
  Definition put (A : arrays X) (a : nat) (l : list X) : arrays X :=
    mk_ar (fun b => if Nat.eqb b a then l else ar_at A b) (ar_next A).
  (** [make] (e.g. encoding/msgpack/unaggregated_iterator.go:218, 253, 294, 318), with length [n]. *)
  Definition make (A : arrays X) (n : nat) (cells : list X) : slice * arrays X :=
    (mk_sl (ar_next A) n (length cells),
     mk_ar (fun b => if Nat.eqb b (ar_next A) then cells else ar_at A b) (S (ar_next A))).
  (** A list with one element replaced (element assignment, e.g.
      encoding/msgpack/unaggregated_iterator.go:256). *)
  Fixpoint set_nth (i : nat) (x : X) (l : list X) : list X :=
    match l, i with
    | [], _ => []
    | _ :: l, O => x :: l
    | y :: l, S i => y :: set_nth i x l
    end.
  (** [append(s, x)]: in place if there is room, else into a new array with [grow n] spare cells, where [n] is the
      new length (e.g. encoding/msgpack/unaggregated_iterator.go:225, 264, 299). *)
  Definition append (zero : X) (grow : nat -> nat) (A : arrays X) (s : slice) (x : X) : slice * arrays X :=
    if Nat.ltb (sl_len s) (sl_cap s)
    then (cut (S (sl_len s)) s, put A (sl_arr s) (set_nth (sl_len s) x (ar_at A (sl_arr s))))
    else make A (S (sl_len s)) (elements A s ++ x :: repeat zero (grow (S (sl_len s)))).
  (** The first elements of an array overwritten ([io.ReadFull] at
      encoding/msgpack/unaggregated_iterator.go:322, [Reset] at 255-257). *)
  Definition overwrite (A : arrays X) (s : slice) (l : list X) : arrays X :=
    put A (sl_arr s) (l ++ skipn (length l) (ar_at A (sl_arr s))).
End Arrays.

(** * The iterator *)

(** policy/staged_policy.go:36-46 [StagedPolicies] *)
Record cell := mk_cell { ce_cutover : Z; ce_tomb : bool; ce_policies : slice }.
(** policy/staged_policy.go:30 [DefaultStagedPolicies] *)
Definition default_cell : cell := mk_cell 0 false nil_slice.
(** policy/policy.go [DefaultPolicy] *)
Definition default_policy : policy := {| p_storage := empty_storage_policy; p_agg := default_id |}.

(** All memory: the arrays, and the arrays that are in the pool of float slices
    (encoding/msgpack/unaggregated_iterator.go:44 [largeFloatsPool]). *)
Record memory := mk_memory {
  h_ids : arrays ascii; h_floats : arrays Z; h_policies : arrays policy; h_staged : arrays cell;
  h_free : list slice }.
(** policy/staged_policy.go:33 [DefaultPoliciesList]: array 0, shared by the whole program. *)
Definition default_list : slice := mk_sl 0 1 1.

(** encoding/msgpack/unaggregated_iterator.go:41-56 [unaggregatedIterator] and metric/unaggregated/types.go:225-232
    [MetricUnion]; [i_pooled] tells whether [TimerValPool] is set.  [cachedPolicies] is a list of slices that is
    never handed out. *)
Record iter := mk_iter {
  i_st : st; i_ignore : bool; i_closed : bool; i_large : Z;
  i_type : Z; i_id : slice; i_counter : Z; i_timer : slice; i_gauge : Z; i_pooled : bool;
  i_policies : slice;
  i_id_buf : slice; i_timer_buf : slice; i_cached : list slice; i_cached_list : slice }.

(** Assignments to fields of the iterator (encoding/msgpack/unaggregated_iterator.go:41-56). *)
Definition with_st (it : iter) (s : st) : iter :=
  mk_iter s (i_ignore it) (i_closed it) (i_large it) (i_type it) (i_id it) (i_counter it) (i_timer it) (i_gauge it)
    (i_pooled it) (i_policies it) (i_id_buf it) (i_timer_buf it) (i_cached it) (i_cached_list it).
(** [it.metric.Type = ...], [it.metric.ID = ...]  (encoding/msgpack/unaggregated_iterator.go:192-193) *)
Definition with_id (it : iter) (type : Z) (id buf : slice) : iter :=
  mk_iter (i_st it) (i_ignore it) (i_closed it) (i_large it) type id (i_counter it) (i_timer it) (i_gauge it)
    (i_pooled it) (i_policies it) buf (i_timer_buf it) (i_cached it) (i_cached_list it).
(** [it.metric.CounterVal = ...]  (encoding/msgpack/unaggregated_iterator.go:194) *)
Definition with_counter (it : iter) (v : Z) : iter :=
  mk_iter (i_st it) (i_ignore it) (i_closed it) (i_large it) (i_type it) (i_id it) v (i_timer it) (i_gauge it)
    (i_pooled it) (i_policies it) (i_id_buf it) (i_timer_buf it) (i_cached it) (i_cached_list it).
(** [it.metric.GaugeVal = ...]  (encoding/msgpack/unaggregated_iterator.go:241) *)
Definition with_gauge (it : iter) (v : Z) : iter :=
  mk_iter (i_st it) (i_ignore it) (i_closed it) (i_large it) (i_type it) (i_id it) (i_counter it) (i_timer it) v
    (i_pooled it) (i_policies it) (i_id_buf it) (i_timer_buf it) (i_cached it) (i_cached_list it).
(** [it.metric.BatchTimerVal = ...], [it.metric.TimerValPool = ...] and [it.timerValues = ...]
    (encoding/msgpack/unaggregated_iterator.go:96-97, 211-230) *)
Definition with_timer (it : iter) (v : slice) (pooled : bool) (buf : slice) : iter :=
  mk_iter (i_st it) (i_ignore it) (i_closed it) (i_large it) (i_type it) (i_id it) (i_counter it) v (i_gauge it)
    pooled (i_policies it) (i_id_buf it) buf (i_cached it) (i_cached_list it).
(** [it.policiesList = ...], [it.cachedPolicies = ...] and [it.cachedPoliciesList = ...]
    (encoding/msgpack/unaggregated_iterator.go:252-274) *)
Definition with_policies (it : iter) (l : slice) (cached : list slice) (cached_list : slice) : iter :=
  mk_iter (i_st it) (i_ignore it) (i_closed it) (i_large it) (i_type it) (i_id it) (i_counter it) (i_timer it)
    (i_gauge it) (i_pooled it) l (i_id_buf it) (i_timer_buf it) cached cached_list.

(** Programs of the iterator: [None] is a panic (encoding/msgpack/unaggregated_iterator.go). *)
Definition P (A : Type) := iter -> memory -> option (A * iter * memory).
(** No more statements (encoding/msgpack/unaggregated_iterator.go). *)
Definition done {A} (a : A) : P A := fun it m => Some (a, it, m).
(** One statement after the other (encoding/msgpack/unaggregated_iterator.go). *)
Definition seq {A C} (x : P A) (f : A -> P C) : P C := fun it m =>
  match x it m with None => None | Some (a, it, m) => f a it m end.
Notation "'run' x '<-' a ';' b" := (seq a (fun x => b)) (at level 60, x name, a at level 59, b at level 60).
(** Reading from the stream into a variable (encoding/msgpack/base_iterator.go). *)
Definition lift {A} (d : D A) : P A := fun it m =>
  let '(a, s) := d (i_st it) in Some (a, with_st it s, m).
(** An assignment to fields of the iterator. (encoding/msgpack/unaggregated_iterator.go) *)
Definition assign (f : iter -> iter) : P unit := fun it m => Some (tt, f it, m).

(** encoding/msgpack/unaggregated_iterator.go:306-326 [decodeID], as called at 192-193, 203-204 and 239-240.  When the stream
    ends early what there is has been put in the buffer. *)
Definition mem_id (type : Z) : P unit :=
  run n <- lift dec_bytes_len;
  run e <- lift get_err;
  match e with
  | Some _ => assign (fun it => with_id it type nil_slice (i_id_buf it))
  | None =>
      if n =? -1 then assign (fun it => with_id it type (cut 0 (i_id_buf it)) (cut 0 (i_id_buf it)))
      else if n <? 0 then fun _ _ => None
      else fun it m =>
        let k := Z.to_nat n in
        let '(buf, A) := if Nat.ltb (sl_cap (i_id_buf it)) k then make (h_ids m) k (repeat zero k)
                         else (cut k (i_id_buf it), h_ids m) in
        let read := firstn k (d_in (i_st it)) in
        let m' := mk_memory (overwrite A buf read) (h_floats m) (h_policies m) (h_staged m) (h_free m) in
        match take n (d_in (i_st it)) with
        | inl (_, d) => Some (tt, with_id (with_st it (mk_st d None)) type buf buf, m')
        | inr e => Some (tt, with_id (with_st it (mk_st (d_in (i_st it)) (Some e))) type nil_slice buf, m')
        end
  end.

(** The loops that decode and append (encoding/msgpack/unaggregated_iterator.go:224-226, 298-300). *)
Fixpoint fill {X} (zero : X) (grow : nat -> nat) (x : D X) (n : nat) (s : slice) (A : arrays X) : D (slice * arrays X) :=
  match n with
  | O => ret (s, A)
  | S n => do v <- x; let '(s, A) := append zero grow A s v in fill zero grow x n s A
  end.

(** m3x [FloatsPool.Get], called at encoding/msgpack/unaggregated_iterator.go:221: one of the slices that were given back, or a
    new one, emptied.  [pick] chooses; the capacity may be less than asked for. *)
Definition pool_get (pick : option nat) (n : nat) (m : memory) : slice * memory :=
  match (match pick with Some k => nth_error (h_free m) k | None => None end), pick with
  | Some s, Some k =>
      (cut 0 s, mk_memory (h_ids m) (h_floats m) (h_policies m) (h_staged m) (firstn k (h_free m) ++ skipn (S k) (h_free m)))
  | _, _ =>
      let '(s, A) := make (h_floats m) 0 (repeat 0 n) in
      (s, mk_memory (h_ids m) A (h_policies m) (h_staged m) (h_free m))
  end.

(** encoding/msgpack/unaggregated_iterator.go:205-230: the values of [decodeBatchTimer] *)
Definition mem_values (grow : nat -> nat) (pick : option nat) : P unit :=
  run n <- lift dec_array_len;
  fun it m =>
    let '(s, pooled, buf, m) :=
      if n <=? Z.of_nat (sl_cap (i_timer_buf it)) then
        (cut 0 (i_timer_buf it), false, cut 0 (i_timer_buf it), m)
      else if n <=? i_large it then
        let c := Z.min (Z.max n (2 * Z.of_nat (sl_cap (i_timer_buf it)))) (i_large it) in
        let '(s, A) := make (h_floats m) 0 (repeat 0 (Z.to_nat c)) in
        (s, false, s, mk_memory (h_ids m) A (h_policies m) (h_staged m) (h_free m))
      else let '(s, m) := pool_get pick (Z.to_nat n) m in (s, true, i_timer_buf it, m) in
    let '((s, A), st) := fill 0 grow dec_float64 (Z.to_nat n) s (h_floats m) (i_st it) in
    Some (tt, with_timer (with_st it st) s pooled buf, mk_memory (h_ids m) A (h_policies m) (h_staged m) (h_free m)).

(** encoding/msgpack/unaggregated_iterator.go:187-196 [decodeCounter] *)
Definition mem_counter : P unit :=
  run ok <- lift (check_fields counter_type);
  match ok with
  | None => done tt
  | Some extra =>
      run _ <- mem_id 1;
      run v <- lift dec_varint64;
      run _ <- assign (fun it => with_counter it v);
      lift (dec_skip extra)
  end.
(** encoding/msgpack/unaggregated_iterator.go:198-232 [decodeBatchTimer] *)
Definition mem_timer (grow : nat -> nat) (pick : option nat) : P unit :=
  run ok <- lift (check_fields timer_type);
  match ok with
  | None => done tt
  | Some extra =>
      run _ <- mem_id 2;
      run _ <- mem_values grow pick;
      lift (dec_skip extra)
  end.
(** encoding/msgpack/unaggregated_iterator.go:234-243 [decodeGauge] *)
Definition mem_gauge : P unit :=
  run ok <- lift (check_fields gauge_type);
  match ok with
  | None => done tt
  | Some extra =>
      run _ <- mem_id 3;
      run v <- lift dec_float64;
      run _ <- assign (fun it => with_gauge it v);
      lift (dec_skip extra)
  end.

(** encoding/msgpack/unaggregated_iterator.go:285-304 [decodeStagedPolicies] *)
Definition mem_staged (grow : nat -> nat) (idx : nat) : P cell :=
  run ok <- lift (check_fields staged_type);
  match ok with
  | None => done default_cell
  | Some extra =>
      run c <- lift dec_varint64;
      run b <- lift dec_bool;
      run n <- lift dec_array_len;
      run s <- (fun it m =>
        match nth_error (i_cached it) idx with
        | None => None
        | Some s =>
            let '(s, A) := if Z.of_nat (sl_cap s) <? n then make (h_policies m) 0 (repeat default_policy (Z.to_nat n))
                           else (cut 0 s, h_policies m) in
            let '((s, A), st) := fill default_policy grow dec_policy (Z.to_nat n) s A (i_st it) in
            Some (s, with_policies (with_st it st) (i_policies it) (set_nth idx s (i_cached it)) (i_cached_list it),
                  mk_memory (h_ids m) (h_floats m) A (h_staged m) (h_free m))
        end);
      run _ <- lift (dec_skip extra);
      done (mk_cell c b s)
  end.

(** encoding/msgpack/unaggregated_iterator.go:262-265: from position [idx] on *)
Fixpoint mem_staged_loop (grow : nat -> nat) (idx n : nat) : P unit :=
  match n with
  | O => done tt
  | S n =>
      run c <- mem_staged grow idx;
      run _ <- (fun it m =>
        let '(s, A) := append default_cell grow (h_staged m) (i_cached_list it) c in
        Some (tt, with_policies it (i_policies it) (i_cached it) s,
              mk_memory (h_ids m) (h_floats m) (h_policies m) A (h_free m)));
      mem_staged_loop grow (S idx) n
  end.

(** encoding/msgpack/unaggregated_iterator.go:250-261: making room for [k] staged policies *)
Definition mem_room (k : Z) : P unit := fun it m =>
  let '(cl, A) :=
    if Z.of_nat (sl_cap (i_cached_list it)) <? k
    then make (h_staged m) 0 (repeat default_cell (Z.to_nat k))
    else (cut 0 (i_cached_list it), overwrite (h_staged m) (i_cached_list it) (repeat default_cell (sl_len (i_cached_list it)))) in
  let cached := if Z.of_nat (length (i_cached it)) <? k then repeat nil_slice (Z.to_nat k) else i_cached it in
  Some (tt, with_policies it (i_policies it) cached cl, mk_memory (h_ids m) (h_floats m) (h_policies m) A (h_free m)).

(** encoding/msgpack/unaggregated_iterator.go:245-280 [decodePoliciesList] *)
Definition mem_policies_list (grow : nat -> nat) : P unit :=
  run n <- lift dec_array_len;
  run t <- lift dec_type;
  run ok <- lift (check_expected t n);
  match ok with
  | None => done tt
  | Some extra =>
      if t =? default_pl_type then
        run _ <- assign (fun it => with_policies it default_list (i_cached it) (i_cached_list it));
        lift (dec_skip extra)
      else if t =? custom_pl_type then
        run k <- lift dec_array_len;
        run _ <- mem_room k;
        run _ <- mem_staged_loop grow 0 (Z.to_nat k);
        run _ <- assign (fun it => with_policies it (i_cached_list it) (i_cached it) (i_cached_list it));
        lift (dec_skip extra)
      else run _ <- lift (set_err (Some Malformed)); lift (dec_skip extra)
  end.

(** encoding/msgpack/unaggregated_iterator.go:154-165 [decodeMetric] *)
Definition mem_body (grow : nat -> nat) (pick : option nat) (t : Z) : P unit :=
  if (t =? counter_type) || (t =? counter_pl_type) then mem_counter
  else if (t =? timer_type) || (t =? timer_pl_type) then mem_timer grow pick
  else mem_gauge.
(** encoding/msgpack/unaggregated_iterator.go:167-185 [decodeMetricWithPoliciesList] *)
Definition mem_with_policies (grow : nat -> nat) (pick : option nat) (t : Z) : P unit :=
  run ok <- lift (check_fields t);
  match ok with
  | None => done tt
  | Some extra =>
      run _ <- mem_body grow pick t;
      run _ <- mem_policies_list grow;
      lift (dec_skip extra)
  end.

(** encoding/msgpack/unaggregated_iterator.go:132-149: [decodeRootObject] past the version *)
Definition mem_object (grow : nat -> nat) (pick : option nat) : P unit :=
  run ok <- lift (check_fields root_type);
  match ok with
  | None => done tt
  | Some extra =>
      run t <- lift dec_type;
      run e <- lift get_err;
      match e with
      | Some _ => done tt
      | None =>
          if (t =? counter_type) || (t =? timer_type) || (t =? gauge_type) then
            run _ <- mem_body grow pick t; lift (dec_skip extra)
          else if (t =? counter_pl_type) || (t =? timer_pl_type) || (t =? gauge_pl_type) then
            run _ <- mem_with_policies grow pick t; lift (dec_skip extra)
          else run _ <- lift (set_err (Some Malformed)); lift (dec_skip extra)
      end
  end.

(** encoding/msgpack/unaggregated_iterator.go:90-100 [Next] and 117-152 [decodeRootObject], which call each other when a message of a
    higher version is skipped.  Each round reads a byte at least. *)
Fixpoint mem_next_loop (grow : nat -> nat) (pick : option nat) (fuel : nat) : P bool := fun it m =>
  match d_err (i_st it), i_closed it, fuel with
  | None, false, S fuel =>
      (run _ <- assign (fun it => with_timer it nil_slice false (i_timer_buf it));
       run version <- lift dec_varint64;
       run e <- lift get_err;
       match e with
       | Some _ => done false
       | None =>
           if unaggregated_version <? version then
             if i_ignore it then
               run n <- lift dec_array_len;
               run _ <- lift (dec_skip n);
               mem_next_loop grow pick fuel
             else run _ <- lift (set_err (Some Malformed)); done false
           else
             run _ <- mem_object grow pick;
             run e <- lift get_err;
             done (match e with None => true | Some _ => false end)
       end) it m
  | _, _, _ => Some (false, it, m)
  end.
(** encoding/msgpack/unaggregated_iterator.go:90-100 [Next] *)
Definition mem_next (grow : nat -> nat) (pick : option nat) : P bool := fun it m =>
  mem_next_loop grow pick (S (length (d_in (i_st it)))) it m.

(** encoding/msgpack/unaggregated_iterator.go:59-72 [NewUnaggregatedIterator] *)
Definition mem_new (d : bytes) (ignore : bool) (large : Z) (m : memory) : iter * memory :=
  let '(s, A) := make (h_floats m) 0 (repeat 0 16) in
  (mk_iter (mk_st d None) ignore false large 0 nil_slice 0 nil_slice 0 false nil_slice nil_slice s [] nil_slice,
   mk_memory (h_ids m) A (h_policies m) (h_staged m) (h_free m)).
(** encoding/msgpack/unaggregated_iterator.go:76-80 [Reset] *)
Definition mem_reset (d : bytes) (it : iter) : iter :=
  mk_iter (mk_st d None) (i_ignore it) false (i_large it) 0 nil_slice 0 nil_slice 0 false
    (i_policies it) (i_id_buf it) (i_timer_buf it) (i_cached it) (i_cached_list it).
(** encoding/msgpack/unaggregated_iterator.go:102-115 [Close]; what becomes of an iterator that is given to the pool
    of iterators is up to the next user, who resets it. *)
Definition mem_close (it : iter) : iter :=
  if i_closed it then it
  else mk_iter (mk_st [] None) (i_ignore it) true (i_large it) 0 nil_slice 0 nil_slice 0 false
         nil_slice (i_id_buf it) (i_timer_buf it) [] nil_slice.
(** m3x [FloatsPool.Put], called by whoever was given a large batch of timer values
    (metric/unaggregated/types.go:219-224). *)
Definition pool_put (s : slice) (m : memory) : memory :=
  mk_memory (h_ids m) (h_floats m) (h_policies m) (h_staged m) (cut 0 s :: h_free m).
