(** Model of the JSON form of policies and staged policies: policy/policy.go,
    policy/staged_policy.go.  Definitions only; encoding/json as in Model.Json. *)
From Coq Require Import Ascii String NArith ZArith Bool List.
From Verif.Base Require Import Bytes.
From Verif.Model Require Import AggType Policy Json.
Import ListNotations.
Open Scope Z_scope.

(** aggregation/id_compress.go 127-132: the type that [Decompress] complains
    about, the first one that is not valid. *)
Definition first_invalid (id : agg_id) : agg_type :=
  match find (fun i => N.testbit id (N.of_nat i) && negb (is_valid (Z.of_nat i))) (seq 0 64) with
  | Some i => Z.of_nat i
  | None => UnknownType
  end.

(** aggregation/id.go 90-96 [ID.String], the error of aggregation/id_compress.go 130 included *)
Definition id_text (id : agg_id) : bytes :=
  match id_string id with
  | Some s => s
  | None => B "[invalid ID: invalid Type: " ++ type_string (first_invalid id) ++ B "]"
  end.

Section PolicyJson.
  Context (dt : duration_text) (nl : bool).

  (** policy/policy.go 101-106 [Policy.String] *)
  Definition policy_text (p : policy) : bytes :=
    if id_is_default (p_agg p) then sp_string dt (p_storage p)
    else sp_string dt (p_storage p) ++ bar_sep :: id_text (p_agg p).

  (** policy/policy.go 109-112 [Policy.MarshalJSON]; 115-127 [UnmarshalJSON].
      [strconv.Quote] of printable text is its JSON string. *)
  Definition e_policy (p : policy) : option json := Some (JStr (policy_text p)).
  (** policy/policy.go:115-127 [Policy.UnmarshalJSON] *)
  Definition d_policy (j : json) : option policy := match j with JStr s => parse_policy dt s | _ => None end.

  (** policy/staged_policy.go 104-106 [MarshalJSON], 120-132; 109-117 [UnmarshalJSON], 134-136 *)
  Definition e_staged (p : staged_policies) : option json :=
    do l <- e_list nl e_policy (stp_policies p);
    Some (JObj [(B "cutoverNanos", JInt (stp_cutover p)); (B "tombstoned", JBool (stp_tombstoned p)); (B "policies", l)]).
  (** policy/staged_policy.go:109-117 [StagedPolicies.UnmarshalJSON] *)
  Definition d_staged (j : json) : option staged_policies :=
    do l <- d_struct j;
    do c <- d_int64 (field "cutoverNanos" l);
    do t <- d_bool (field "tombstoned" l);
    do ps <- d_list d_policy (field "policies" l);
    Some {| stp_cutover := c; stp_tombstoned := t; stp_policies := ps |}.

  (** policy/staged_policy.go 139 [PoliciesList], 147-153 [VersionedPoliciesList]: version and list *)
  Definition e_versioned (v : Z * list staged_policies) : option json :=
    do l <- e_list nl e_staged (snd v);
    Some (JObj [(B "version", JInt (fst v)); (B "policiesList", l)]).
  (** policy/staged_policy.go:147-153 [VersionedPoliciesList], decoded. *)
  Definition d_versioned (j : json) : option (Z * list staged_policies) :=
    do l <- d_struct j;
    do n <- d_int64 (field "version" l);
    do ps <- d_list d_staged (field "policiesList" l);
    Some (n, ps).
End PolicyJson.
