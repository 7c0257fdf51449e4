(** Go memory, as far as sharing goes: objects at addresses, values that may point to them, and the
    operations of the language that read and write objects.  [atom] is whatever is copied as a value and
    cannot be changed through a pointer: numbers, strings, immutable structs, functions. *)
From Coq Require Import List Arith.
Import ListNotations.

Section Mem.
  Context {atom : Type}.

  (** A slice is an array, the index of its first element in it, its length and its capacity.
    (values of the structs at rules/mapping.go, rules/rollup.go, rules/ruleset.go) *)
  Inductive value :=
  | VAtom (a : atom)
  | VNil
  | VPtr (p : nat)
  | VSlice (arr off len cap : nat)
  | VStruct (l : list value).

  (** An object is a list of cells: the fields of a struct or the elements of an array.  Addresses from
      [m_next] on are not in use.
    (holds the structs of rules/mapping.go, rules/rollup.go, rules/ruleset.go) *)
  Record mem := mk_mem { m_at : nat -> list value; m_next : nat }.

  (** Programs: a result and the memory afterwards, or a panic (nil dereference, index out of range).
    (statements of rules/mapping.go, rules/rollup.go, rules/ruleset.go) *)
  Definition M (A : Type) := mem -> option (A * mem).
  (** No more statements (rules/mapping.go and so on). *)
  Definition ret {A} (x : A) : M A := fun m => Some (x, m).
  (** A Go panic, e.g. a nil dereference (rules/mapping.go and so on). *)
  Definition panic {A} : M A := fun _ => None.
  (** One statement after another (rules/mapping.go and so on). *)
  Definition bind {A C} (e : M A) (k : A -> M C) : M C :=
    fun m => match e m with None => None | Some (x, m') => k x m' end.

  (** A memory in which one object changed (rules/mapping.go and so on). *)
  Definition put (p : nat) (l : list value) (m : mem) : mem :=
    mk_mem (fun q => if Nat.eqb q p then l else m_at m q) (m_next m).

  (** [&T{...}], [make([]T, n)]  (e.g. rules/mapping.go:99) *)
  Definition new_obj (l : list value) : M value :=
    fun m => Some (VPtr (m_next m), mk_mem (m_at (put (m_next m) l m)) (S (m_next m))).
  (** [make] (e.g. rules/mapping.go [clone]) *)
  Definition make_slice (l : list value) : M value :=
    fun m => Some (VSlice (m_next m) 0 (length l) (length l), mk_mem (m_at (put (m_next m) l m)) (S (m_next m))).

  (** [*p]  (e.g. rules/mapping.go [clone]) *)
  Definition deref (v : value) : M (list value) :=
    fun m => match v with VPtr p => Some (m_at m p, m) | _ => None end.

  (** A list with one element replaced (element assignment in rules/mapping.go and so
      on). *)
  Fixpoint set_cell (i : nat) (x : value) (l : list value) : list value :=
    match l, i with
    | [], _ => []
    | _ :: l', O => x :: l'
    | y :: l', S i' => y :: set_cell i' x l'
    end.

  (** [p.f = x], where [f] is the [i]-th field
    (e.g. rules/ruleset.go [UpdateMappingRule]) *)
  Definition set_field (v : value) (i : nat) (x : value) : M unit :=
    fun m => match v with
             | VPtr p => Some (tt, put p (set_cell i x (m_at m p)) m)
             | _ => None
             end.

  (** The elements that a [range] over a slice visits.  (e.g. rules/ruleset.go [Clone]) *)
  Definition elems (v : value) : M (list value) :=
    fun m => match v with
             | VNil => Some ([], m)
             | VSlice a off len _ =>
                 if off + len <=? length (m_at m a) then Some (firstn len (skipn off (m_at m a)), m) else None
             | _ => None
             end.

  (** [append(s, x)]: in place if there is room, else into a new array with [grow n] spare cells, where
      [n] is the new length.  How much room the runtime makes is arbitrary.
    (e.g. rules/mapping.go:130) *)
  Definition append (grow : nat -> nat) (s x : value) : M value :=
    fun m => match s with
             | VNil => 
                 let cells := x :: repeat VNil (grow 1) in
                 Some (VSlice (m_next m) 0 1 (length cells), mk_mem (m_at (put (m_next m) cells m)) (S (m_next m)))
             | VSlice a off len cap =>
                 if len <? cap
                 then Some (VSlice a off (S len) cap, put a (set_cell (off + len) x (m_at m a)) m)
                 else
                   let cells := firstn len (skipn off (m_at m a)) ++ x :: repeat VNil (grow (S len)) in
                   Some (VSlice (m_next m) 0 (S len) (length cells),
                         mk_mem (m_at (put (m_next m) cells m)) (S (m_next m)))
             | _ => None
             end.

  (** [for _, x := range l { ... f(x) ... }], keeping the results
    (e.g. rules/ruleset.go [Clone]) *)
  Fixpoint each {A C} (f : A -> M C) (l : list A) : M (list C) :=
    match l with
    | [] => ret []
    | x :: l' => bind (f x) (fun y => bind (each f l') (fun ys => ret (y :: ys)))
    end.

  (** [c := make([]T, len(s)); for i, x := range s { c[i] = f(x) }].  Simplified: the array is allocated
      after its elements were computed.  (e.g. rules/ruleset.go [Clone]) *)
  Definition copy_slice (f : value -> M value) (s : value) : M value :=
    bind (elems s) (fun l => bind (each f l) make_slice).
End Mem.
Arguments value : clear implicits.
Arguments mem : clear implicits.
Arguments M : clear implicits.

Declare Scope mem_scope.
Delimit Scope mem_scope with mem.
Notation "x <- e ;; k" := (bind e (fun x => k))
  (at level 60, e at next level, right associativity) : mem_scope.
Notation "e ;;; k" := (bind e (fun _ => k)) (at level 60, right associativity) : mem_scope.
