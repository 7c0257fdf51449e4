(** Specification vocabulary for aggregation types, independent of the model's functions. *)
From Coq Require Import Ascii String NArith ZArith Bool List Sorting.
From Verif.Base Require Import Bytes.
Import ListNotations.
Open Scope Z_scope.

(** The 22 documented aggregation types are numbered 1 (Last) to 22 (P9999). *)
Definition valid_type (t : Z) : Prop := 1 <= t <= 22.

(** Strictly ascending. *)
Definition ascending (l : list Z) : Prop := StronglySorted Z.lt l.

(** Documented quantiles in ten-thousandths: type number, quantile. *)
Definition documented_quantiles : list (Z * Z) :=
  [ (5, 5000)   (* Median *);
    (10, 1000); (11, 2000); (12, 3000); (13, 4000); (14, 5000); (15, 6000);
    (16, 7000); (17, 8000); (18, 9000); (19, 9500); (20, 9900); (21, 9990); (22, 9999) ].

Definition documented_quantile (t : Z) : list Z :=
  map snd (filter (fun p => fst p =? t) documented_quantiles).

(** Keep only the first occurrence of 0.5 contributed by Median or P50. *)
Fixpoint keep_first_half (seen : bool) (qs : list Z) : list Z :=
  match qs with
  | [] => []
  | q :: qs' => if q =? 5000
                then if seen then keep_first_half seen qs' else q :: keep_first_half true qs'
                else q :: keep_first_half seen qs'
  end.

(** Documented suffix of a type before the user's transform. *)
Definition documented_suffix (quantile_name : Z -> bytes) (t : Z) : bytes :=
  match t with
  | 1 => B "last" | 2 => B "lower" | 3 => B "upper" | 4 => B "mean" | 5 => B "median"
  | 6 => B "count" | 7 => B "sum" | 8 => B "sum_sq" | 9 => B "stdev"
  | _ => match documented_quantile t with q :: _ => quantile_name q | [] => [] end
  end.

(** Documented names of the types. *)
Definition documented_names : list (Z * bytes) :=
  [ (1, B "Last"); (2, B "Min"); (3, B "Max"); (4, B "Mean"); (5, B "Median"); (6, B "Count");
    (7, B "Sum"); (8, B "SumSq"); (9, B "Stdev"); (10, B "P10"); (11, B "P20"); (12, B "P30");
    (13, B "P40"); (14, B "P50"); (15, B "P60"); (16, B "P70"); (17, B "P80"); (18, B "P90");
    (19, B "P95"); (20, B "P99"); (21, B "P999"); (22, B "P9999") ].
