(** Go slices that are reused: visible elements and the stale elements between
    length and capacity.
    (the reused messages of encoding/protobuf/reset.go and metadata/metadata.go:481-494 [StagedMetadatas.ToProto]) *)
From Coq Require Import List Arith.
Import ListNotations.

Record slice (A : Type) := mk_slice { s_elems : list A; s_spare : list A }.
Arguments mk_slice {A} _ _.
Arguments s_elems {A} _.
Arguments s_spare {A} _.

(** The idiom of all [ToProto]/[FromProto] loops, e.g. metadata/metadata.go:121-126:
    [if cap(s) >= n { s = s[:n] } else { s = make([]T, n) }]. *)
Definition resize {A} (zero : A) (s : slice A) (n : nat) : slice A :=
  let all := s_elems s ++ s_spare s in
  if n <=? length all then mk_slice (firstn n all) (skipn n all)
  else mk_slice (repeat zero n) [].

(** [for i := 0; i < n; i++ { if err := f(src[i], &dst[i]); err != nil { return err } }],
    where [f] converts a source element into a destination slot with stale content.
    (e.g. metadata/metadata.go:481-494 [StagedMetadatas.ToProto]) *)
Fixpoint fill {A C} (f : A -> C -> option C) (src : list A) (dst : list C) : option (list C) :=
  match src, dst with
  | [], _ => Some dst
  | _ :: _, [] => None
  | a :: src, c :: dst =>
      match f a c with
      | None => None
      | Some c' => match fill f src dst with None => None | Some l => Some (c' :: l) end
      end
  end.

(** The slice is made anew if its capacity is too small: e.g.
    metadata/metadata.go:481-494 [StagedMetadatas.ToProto] *)
Definition into_slice {A C} (zero : C) (f : A -> C -> option C) (src : list A) (s : slice C)
  : option (slice C) :=
  let t := resize zero s (length src) in
  match fill f src (s_elems t) with
  | None => None
  | Some l => Some (mk_slice l (s_spare t))
  end.
