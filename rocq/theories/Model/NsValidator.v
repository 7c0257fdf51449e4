(** Model of rules/validator/namespace/kv/validator.go: a validator whose list of valid namespaces follows a key of
    a key-value store, under every interleaving of its goroutine, callers of [Validate] and [Close] and writers of the
    key.  The lock is explicit.  Definitions only. *)
From Coq Require Import Ascii String NArith ZArith Bool List.
From Verif.Base Require Import Bytes.
Import ListNotations.

(** What the key holds: nothing, a list of strings, or something that is not one.
    (rules/validator/namespace/kv/validator.go:134-135) *)
Inductive kv_value := Absent | Strings (l : list bytes) | Unreadable.

(** m3cluster/kv/util [StringArrayFromValue] (not in the repository): the default if there is no value, an error if it
    cannot be read  Called at rules/validator/namespace/kv/validator.go:135. *)
Definition strings_of (dflt : list bytes) (v : kv_value) : option (list bytes) :=
  match v with
  | Absent => Some dflt
  | Strings l => Some l
  | Unreadable => None
  end.

(** Where the goroutine of [watchRuntimeConfig] is: not started (the constructor waits for a first value), in [select],
    notified, holding a value, holding the lock with a new list, or gone.  [boot] tells the constructor's own call of
    [processUpdate] from the goroutine's.
    (rules/validator/namespace/kv/validator.go:101-132 [validator.watchRuntimeConfig]) *)
Inductive worker :=
| Selecting (boot : bool)
| Notified (boot : bool)
| Got (boot : bool) (v : kv_value)
| Updating (boot : bool) (l : list bytes)
| Gone.

(** Where a call of [Close] is: called, holding the lock, waiting for the goroutine, returned.
    (rules/validator/namespace/kv/validator.go:85-99 [validator.Close]) *)
Inductive closer := Called | Holding | Waiting | Returned.

(** Who holds the lock for writing: rules/validator/namespace/kv/validator.go:86,141. *)
Inductive holder := ByWorker | ByCloser (i : nat).

(** 37-52 [validator], with the key's value, whether the watch has a notification, the calls of [Close], and who holds
    the lock for writing.  Readers are not represented: a call of [Validate] is one step, when no writer holds the lock. *)
Record vstate := mk_vs {
  vs_value : kv_value;          (** the key *)
  vs_pending : bool;            (** a notification is in [watch.C()] *)
  vs_worker : worker;
  vs_closed : bool;
  vs_done : nat;                (** how often [doneCh] was closed: closing it twice panics *)
  vs_valid : list bytes;        (** [validNamespaces] *)
  vs_lock : option holder;
  vs_closers : list closer }.

(** 55-69 [NewNamespaceValidator] up to the first [select]: the watch is notified at once if there is a value *)
Definition new_validator (dflt : list bytes) (v : kv_value) : vstate :=
  mk_vs v (match v with Absent => false | _ => true end) (Selecting true) false 0 dflt None [].

(** The steps that can happen: rules/validator/namespace/kv/validator.go:72-144. *)
Inductive vaction :=
| Write (v : kv_value)        (** somebody writes the key, or deletes it *)
| Receive                     (** [<-watch.C()] *)
| Timeout                     (** [<-time.After(...)] in the constructor *)
| Quit                        (** [<-v.doneCh] *)
| Read                        (** [watch.Get()] *)
| Process                     (** 134-144 [processUpdate]: decode, then take the lock *)
| Store                       (** assign the new list and release the lock *)
| Validate (ns : bytes)
| CallClose
| StepClose (i : nat).        (** the next step of a call of [Close] *)

(** What a call of [Validate] answers.
    (rules/validator/namespace/kv/validator.go:72-83 [validator.Validate]) *)
Inductive answer := Valid | NotValid | ClosedError.

(** The goroutine of rules/validator/namespace/kv/validator.go:119-130 at another place. *)
Definition with_worker (s : vstate) (w : worker) : vstate :=
  mk_vs (vs_value s) (vs_pending s) w (vs_closed s) (vs_done s) (vs_valid s) (vs_lock s) (vs_closers s).

(** The [i]-th call of [Close] (rules/validator/namespace/kv/validator.go:85-99) at
    another place. *)
Fixpoint set_nth {A} (i : nat) (x : A) (l : list A) : list A :=
  match l, i with
  | [], _ => []
  | _ :: l', O => x :: l'
  | y :: l', S i' => y :: set_nth i' x l'
  end.

(** 72-83 [Validate] *)
Definition validate (s : vstate) (ns : bytes) : answer :=
  if vs_closed s then ClosedError
  else if existsb (beqb ns) (vs_valid s) then Valid else NotValid.

(** 85-99 [Close] *)
Definition close_step (s : vstate) (i : nat) (c : closer) : option vstate :=
  let put c' closed done_ lock := mk_vs (vs_value s) (vs_pending s) (vs_worker s) closed done_ (vs_valid s) lock
                              (set_nth i c' (vs_closers s)) in
  match c with
  | Called => match vs_lock s with
              | None => Some (put Holding (vs_closed s) (vs_done s) (Some (ByCloser i)))
              | Some _ => None
              end
  | Holding => if vs_closed s then Some (put Returned true (vs_done s) None)
               else Some (put Waiting true (S (vs_done s)) None)
  | Waiting => match vs_worker s with
               | Gone => Some (put Returned (vs_closed s) (vs_done s) (vs_lock s))
               | _ => None
               end
  | Returned => None
  end.

(** One step; [None] if it cannot happen.
    (rules/validator/namespace/kv/validator.go:72-144) *)
Definition vstep (dflt : list bytes) (s : vstate) (a : vaction) : option (vstate * option answer) :=
  let go s' := Some (s', None) in
  match a with
  | Write v => go (mk_vs v true (vs_worker s) (vs_closed s) (vs_done s) (vs_valid s) (vs_lock s) (vs_closers s))
  | Receive =>  (** 108, 124 *)
      match vs_worker s with
      | Selecting b =>
          if vs_pending s then go (mk_vs (vs_value s) false (Notified b) (vs_closed s) (vs_done s) (vs_valid s) (vs_lock s) (vs_closers s))
          else None
      | _ => None
      end
  | Timeout =>  (** 110-115 *)
      match vs_worker s with Selecting true => go (with_worker s (Selecting false)) | _ => None end
  | Quit =>  (** 126-127 *)
      match vs_worker s with Selecting false => if Nat.ltb 0 (vs_done s) then go (with_worker s Gone) else None | _ => None end
  | Read =>  (** 109, 125 *)
      match vs_worker s with Notified b => go (with_worker s (Got b (vs_value s))) | _ => None end
  | Process =>  (** 134-141 *)
      match vs_worker s with
      | Got b v =>
          match strings_of dflt v with
          | None => go (with_worker s (Selecting false))
          | Some l =>
              match vs_lock s with
              | None => go (mk_vs (vs_value s) (vs_pending s) (Updating b l) (vs_closed s) (vs_done s) (vs_valid s) (Some ByWorker) (vs_closers s))
              | Some _ => None
              end
          end
      | _ => None
      end
  | Store =>  (** 142-143 *)
      match vs_worker s with
      | Updating b l =>
          go (mk_vs (vs_value s) (vs_pending s) (Selecting false) (vs_closed s) (vs_done s) l None (vs_closers s))
      | _ => None
      end
  | Validate ns =>
      match vs_lock s, vs_worker s with
      | None, (Selecting true | Notified true | Got true _ | Updating true _) => None  (** not constructed yet *)
      | None, _ => Some (s, Some (validate s ns))
      | Some _, _ => None
      end
  | CallClose =>
      match vs_worker s with
      | Selecting true | Notified true | Got true _ | Updating true _ => None
      | _ => go (mk_vs (vs_value s) (vs_pending s) (vs_worker s) (vs_closed s) (vs_done s) (vs_valid s) (vs_lock s) (vs_closers s ++ [Called]))
      end
  | StepClose i => match nth_error (vs_closers s) i with
                   | None => None
                   | Some c => option_map (fun s' => (s', None)) (close_step s i c)
                   end
  end.

(** Runs: what happened, with the answers
    (rules/validator/namespace/kv/validator.go:55-144) *)
Fixpoint vrun (dflt : list bytes) (s : vstate) (tr : list vaction) : option (vstate * list (vaction * option answer)) :=
  match tr with
  | [] => Some (s, [])
  | a :: tr' => match vstep dflt s a with
                | None => None
                | Some (s', o) => match vrun dflt s' tr' with
                                  | None => None
                                  | Some (s'', h) => Some (s'', (a, o) :: h)
                                  end
                end
  end.

(** rules/validator/namespace/static/validator.go 73-80 [Validate]: whether the namespace is valid *)
Definition static_validate (result ns : bytes) : bool := negb (beqb result (B "invalid")).

(** rules/validator/namespace/static/validator.go 31-43 [ValidationResult], [validValidationResults] *)
Definition valid_static_results : list bytes := [B "invalid"; B "valid"].
(** rules/validator/namespace/static/validator.go 45-60 [UnmarshalYAML], on the decoded string *)
Definition unmarshal_static_result (s : bytes) : option bytes := find (fun v => beqb s v) valid_static_results.
(** rules/validator/namespace/static/config.go 27-35 [NewNamespaceValidator]: the answer of the configured validator, if the
    configuration can be read *)
Definition configured_static (s ns : bytes) : option bool := option_map (fun r => static_validate r ns) (unmarshal_static_result s).
