(** Model of rules/namespace.go: the namespaces that rules are defined for.  Definitions only. *)
From Coq Require Import Ascii String ZArith Bool List.
From Verif.Base Require Import Bytes.
From Verif.Model Require Import RuleSet.
Import ListNotations.
Open Scope Z_scope.

(** rules/namespace.go 52-57 [NamespaceSnapshot] *)
Record ns_snapshot := mk_nss { nss_version : Z; nss_tomb : bool; nss_at : Z; nss_by : bytes }.

(** rules/namespace.go 94-97 [Namespace].  The slice of snapshots is never nil: [newNamespace],
    [AddNamespace] and [clone] all make it. *)
Record namespace := mk_ns { ns_name : bytes; ns_snapshots : list ns_snapshot }.

(** rules/namespace.go 212-215 [Namespaces] *)
Record namespaces := mk_nsx { nsx_version : Z; nsx_list : list namespace }.

(** generated/proto/rulepb/namespace.proto; repeated messages are slices of pointers. *)
Record ns_snapshot_pb := mk_nssp { nssp_version : Z; nssp_tomb : bool; nssp_at : Z; nssp_by : bytes }.
(** generated/proto/rulepb/namespace.pb.go:102-105 [Namespace] *)
Record namespace_pb := mk_nsp { nsp_name : bytes; nsp_snapshots : list (option ns_snapshot_pb) }.
(** generated/proto/rulepb/namespace.pb.go:126-128 [Namespaces] *)
Definition namespaces_pb := list (option namespace_pb).

(** rules/namespace.go 59-69 [newNamespaceSnapshot] *)
Definition new_ns_snapshot (s : option ns_snapshot_pb) : option ns_snapshot :=
  option_map (fun s => mk_nss (nssp_version s) (nssp_tomb s) (nssp_at s) (nssp_by s)) s.

(** rules/namespace.go 84-91 [NamespaceSnapshot.Proto] *)
Definition ns_snapshot_proto (s : ns_snapshot) : ns_snapshot_pb :=
  mk_nssp (to_int32 (nss_version s)) (nss_tomb s) (nss_at s) (nss_by s).

(** rules/namespace.go 100-116 [newNamespace] *)
Definition new_namespace (n : option namespace_pb) : option namespace :=
  match n with
  | None => None
  | Some n => option_map (mk_ns (nsp_name n)) (map_opt new_ns_snapshot (nsp_snapshots n))
  end.

(** rules/namespace.go 151-167 [Namespace.Proto] *)
Definition namespace_proto (n : namespace) : namespace_pb :=
  mk_nsp (ns_name n) (map (fun s => Some (ns_snapshot_proto s)) (ns_snapshots n)).

(** rules/view/namespace.go [Namespace] *)
Record ns_view := mk_nsv { nsv_id : bytes; nsv_version : Z; nsv_tomb : bool; nsv_by : bytes; nsv_at_millis : Z }.

(** rules/namespace.go 119-131 [NamespaceView] *)
Definition namespace_view (n : namespace) (idx : Z) : option ns_view :=
  if (idx <? 0) || (Z.of_nat (length (ns_snapshots n)) <=? idx) then None
  else option_map (fun s => mk_nsv (ns_name n) (nss_version s) (nss_tomb s) (nss_by s) (Z.quot (nss_at s) 1000000))
         (nth_error (ns_snapshots n) (Z.to_nat idx)).

(** rules/namespace.go 133-142 [clone] *)
Definition namespace_clone (n : namespace) : namespace := mk_ns (ns_name n) (ns_snapshots n).

(** rules/namespace.go 204-209 [Tombstoned] *)
Definition ns_tombstoned (n : namespace) : bool :=
  match last_opt (ns_snapshots n) with None => true | Some s => nss_tomb s end.

(** rules/namespace.go 169-181 [markTombstoned] *)
Definition ns_mark_tombstoned (n : namespace) (version : Z) (m : update_meta) : option namespace :=
  if ns_tombstoned n then None
  else Some (mk_ns (ns_name n) (ns_snapshots n ++ [mk_nss version true (um_at m) (um_by m)])).

(** rules/namespace.go 183-201 [revive] *)
Definition ns_revive (n : namespace) (m : update_meta) : option namespace :=
  if negb (ns_tombstoned n) then None
  else match last_opt (ns_snapshots n) with
       | None => None
       | Some s => Some (mk_ns (ns_name n) (ns_snapshots n ++ [mk_nss (nss_version s + 1) false (um_at m) (um_by m)]))
       end.

(** rules/namespace.go 218-234 [NewNamespaces] *)
Definition new_namespaces (version : Z) (pb : option namespaces_pb) : option namespaces :=
  match pb with
  | None => None
  | Some l => option_map (mk_nsx version) (map_opt new_namespace l)
  end.

(** rules/namespace.go 237-250 [NamespacesView] *)
Definition namespaces_view (x : namespaces) : option (Z * list ns_view) :=
  option_map (pair (nsx_version x))
    (map_opt (fun n => namespace_view n (Z.of_nat (length (ns_snapshots n)) - 1)) (nsx_list x)).

(** rules/namespace.go 253-262 [Clone] *)
Definition namespaces_clone (x : namespaces) : namespaces := mk_nsx (nsx_version x) (map namespace_clone (nsx_list x)).

(** rules/namespace.go 271-285 [Namespaces.Proto] *)
Definition namespaces_proto (x : namespaces) : namespaces_pb := map (fun n => Some (namespace_proto n)) (nsx_list x).

(** rules/namespace.go 288-308 [Namespaces.Namespace]: the index of the namespace, or one of the two errors. *)
Inductive ns_lookup := NsFound (i : nat) | NsNotFound | NsMultiple.
(** rules/namespace.go:288-308 [Namespaces.Namespace]: the loop. *)
Fixpoint ns_find (i : nat) (l : list namespace) (name : bytes) (res : option nat) : ns_lookup :=
  match l with
  | [] => match res with None => NsNotFound | Some j => NsFound j end
  | n :: l' =>
      if negb (beqb (ns_name n) name) then ns_find (S i) l' name res
      else match res with
           | None => ns_find (S i) l' name (Some i)
           | Some _ => NsMultiple
           end
  end.

(** rules/namespace.go 314-344 [AddNamespace]: the namespaces and whether one was revived *)
Definition add_namespace (x : namespaces) (name : bytes) (m : update_meta) : option (namespaces * bool) :=
  match ns_find 0 (nsx_list x) name None with
  | NsMultiple => None
  | NsNotFound =>
      Some (mk_nsx (nsx_version x) (nsx_list x ++ [mk_ns name [mk_nss 1 false (um_at m) (um_by m)]]), false)
  | NsFound i =>
      match nth_error (nsx_list x) i with
      | None => None
      | Some n =>
          match ns_revive n m with
          | None => None
          | Some n' => Some (mk_nsx (nsx_version x) (set_nth i n' (nsx_list x)), true)
          end
      end
  end.

(** rules/namespace.go 347-358 [DeleteNamespace] *)
Definition delete_namespace (x : namespaces) (name : bytes) (curr : Z) (m : update_meta) : option namespaces :=
  match ns_find 0 (nsx_list x) name None with
  | NsFound i =>
      match nth_error (nsx_list x) i with
      | None => None
      | Some n =>
          match ns_mark_tombstoned n (curr + 1) m with
          | None => None
          | Some n' => Some (mk_nsx (nsx_version x) (set_nth i n' (nsx_list x)))
          end
      end
  | _ => None
  end.

(** The two operations; a failed one leaves the namespaces as they were.
    (rules/namespace.go:314-344 [Namespaces.AddNamespace], rules/namespace.go:347-358 [Namespaces.DeleteNamespace]) *)
Inductive ns_edit := NsAdd (name : bytes) | NsDelete (name : bytes) (curr : Z).
(** rules/namespace.go:314-344 [Namespaces.AddNamespace] or rules/namespace.go:347-358
    [Namespaces.DeleteNamespace] *)
Definition run_ns_edit (x : namespaces) (e : ns_edit) (m : update_meta) : namespaces * bool :=
  match e with
  | NsAdd name => match add_namespace x name m with None => (x, false) | Some (x', _) => (x', true) end
  | NsDelete name curr => match delete_namespace x name curr m with None => (x, false) | Some x' => (x', true) end
  end.
