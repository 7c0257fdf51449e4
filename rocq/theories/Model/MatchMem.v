(** Model of matching as the Go program does it in memory: results are built in slices that are appended
    to, filtered, shifted and sorted in place, from rules that are shared with other matches, and may
    point to lists of pipelines that are package variables.  rules/active_ruleset.go,
    rules/match_result.go and the drop policies of metadata/metadata.go.  Definitions only; see
    Base/Mem.v for the operations of the language and Model/RuleMem.v for rules in memory.

    Struct types are lists of fields:
    - PipelineMetadata: aggregation ID, storage policies, operations, drop policy;
    - applied OpUnion: type, transformation, rollup; applied RollupOp: ID, aggregation ID;
    - StagedMetadata: pipelines, cutover, tombstoned; IDWithMetadatas: ID, metadatas;
    - MatchResult: version, expiry, metadatas for the existing ID, new rollup IDs. *)
From Coq Require Import Ascii String Arith NArith ZArith Bool List.
From Verif.Base Require Import Bytes Mem.
From Verif.Model Require Import AggType Policy Transformation Pipeline Metadata Filter MetricID Rules RuleSet
  RuleMem.
Import ListNotations.
Open Scope Z_scope.
Open Scope mem_scope.

(** * Slices *)

(** [len(s)], as at rules/active_ruleset.go:628 *)
Definition slice_len (s : val) : prog nat :=
  match s with VNil => ret O | VSlice _ _ len _ => ret len | _ => panic end.

(** [s[i]], as at rules/active_ruleset.go:768; out of range is a panic *)
Definition index (s : val) (i : nat) : prog val :=
  fun m => match s with
           | VSlice a off len _ =>
               if Nat.ltb i len
               then match nth_error (m_at m a) (off + i) with Some x => Some (x, m) | None => None end
               else None
           | _ => None
           end.

(** [s[i] = x], as at rules/active_ruleset.go:777 *)
Definition set_elem (s : val) (i : nat) (x : val) : prog unit :=
  fun m => match s with
           | VSlice a off len _ =>
               if Nat.ltb i len then Some (tt, put a (set_cell (off + i) x (m_at m a)) m) else None
           | _ => None
           end.

(** [s[:n]] and [s[n:]], as at metadata/metadata.go:237-239 *)
Definition upto (s : val) (n : nat) : prog val :=
  match s with
  | VNil => if Nat.eqb n 0 then ret VNil else panic
  | VSlice a off _ cap => if Nat.leb n cap then ret (VSlice a off n cap) else panic
  | _ => panic
  end.
(** [s[n:]], as at metadata/metadata.go:239 *)
Definition from (s : val) (n : nat) : prog val :=
  match s with
  | VNil => if Nat.eqb n 0 then ret VNil else panic
  | VSlice a off len cap =>
      if Nat.leb n len then ret (VSlice a (off + n) (len - n) (cap - n)) else panic
  | _ => panic
  end.

(** The cells of an array with some of them overwritten, as by metadata/metadata.go:239 *)
Definition write_at (i : nat) (xs l : list val) : list val := firstn i l ++ xs ++ skipn (i + length xs) l.

(** [append(s, t...)]: in place if there is room, also when [t] is part of the same array; else into a
    new array with [grow n] spare cells.  As at metadata/metadata.go:239, rules/active_ruleset.go:742 *)
Definition append_all (grow : nat -> nat) (s t : val) : prog val :=
  xs <- elems t ;;
  match xs, s with
  | [], _ => ret s
  | _, VNil => fun m =>
      let cells := xs ++ repeat VNil (grow (length xs)) in
      Some (VSlice (m_next m) 0 (length xs) (length cells),
            mk_mem (m_at (put (m_next m) cells m)) (S (m_next m)))
  | _, VSlice a off len cap => fun m =>
      let n := (len + length xs)%nat in
      if Nat.leb n cap
      then Some (VSlice a off n cap, put a (write_at (off + len) xs (m_at m a)) m)
      else
        let cells := firstn len (skipn off (m_at m a)) ++ xs ++ repeat VNil (grow n) in
        Some (VSlice (m_next m) 0 n (length cells), mk_mem (m_at (put (m_next m) cells m)) (S (m_next m)))
  | _, _ => panic
  end.

(** [make([]T, 0, n)], as at rules/active_ruleset.go:192, 312 *)
Definition make_empty (n : nat) : prog val :=
  fun m => Some (VSlice (m_next m) 0 0 n, mk_mem (m_at (put (m_next m) (repeat VNil n) m)) (S (m_next m))).

(** * Reading *)

(** The bytes of a []byte, as compared at rules/active_ruleset.go:694 *)
Definition read_bytes (v : val) : prog bytes :=
  l <- elems v ;; each (fun x => match x with VAtom (AByte c) => ret c | _ => panic end) l.

(** The storage policies compared at policy/storage_policy.go:208-223 *)
Definition read_sps (v : val) : prog (list storage_policy) :=
  l <- elems v ;; each (fun x => match x with VAtom (APolicy p) => ret p | _ => panic end) l.

(** The operation that pipeline/applied/type.go:93-104 [OpUnion.Equal] looks at *)
Definition read_applied_op (v : val) : prog applied_op :=
  match v with
  | VStruct [VAtom (AInt k); VAtom (AInt tf); VStruct [id; VAtom (AId agg)]] =>
      i <- read_bytes id ;;
      ret {| ao_kind := k; ao_tf := tf; ao_rollup := {| ar_id := i; ar_agg := agg |} |}
  | _ => panic
  end.

(** The pipeline that metadata/metadata.go:79-84 [PipelineMetadata.Equal] looks at.  Simplified: storage
    policies are cloned before they are sorted (policy/storage_policy.go:212-215); the clones are not
    modelled. *)
Definition read_pm (v : val) : prog pipeline_metadata :=
  match v with
  | VStruct [VAtom (AId agg); sps; ops; VAtom (AInt d)] =>
      s <- read_sps sps ;;
      l <- elems ops ;;
      o <- each read_applied_op l ;;
      ret (mk_pm agg s o d)
  | _ => panic
  end.

(** The operation of a rollup target: rules/active_ruleset.go:329-369, 449-478 *)
Definition read_op (v : val) : prog op :=
  match v with
  | VStruct [VAtom (AInt k); VAtom (AInt agg); VAtom (AInt tf); VStruct [name; tags; VAtom (AId id)]] =>
      n <- read_bytes name ;;
      l <- elems tags ;;
      ts <- each read_bytes l ;;
      ret {| op_kind := k; op_agg := agg; op_tf := tf;
             op_rollup := {| ro_name := n; ro_tags := ts; ro_agg := id |} |}
  | _ => panic
  end.

(** The target that one round of rules/active_ruleset.go:316-388 looks at *)
Definition read_target (v : val) : prog target :=
  match v with
  | VStruct [p; sps] =>
      l <- elems p ;;
      ops <- each read_op l ;;
      s <- read_sps sps ;;
      ret (mk_target ops s)
  | _ => panic
  end.

(** * Drop policies *)

(** metadata/metadata.go:51 [DropPipelineMetadatas] and 36 [DefaultPipelineMetadatas]: package variables *)
Record globals := mk_globals { g_drop : val; g_default : val }.

(** metadata/metadata.go:75 [DropPolicy] *)
Definition drop_field (v : val) : prog Z :=
  match v with VStruct [_; _; _; VAtom (AInt d)] => ret d | _ => panic end.

(** metadata/metadata.go:206-219: the counting loop; [None] when it returns *)
Fixpoint count_codes (ifonly nondrop : nat) (ds : list Z) : option (nat * nat) :=
  match ds with
  | [] => Some (ifonly, nondrop)
  | d :: ds =>
      if d =? DropMust then None
      else if d =? DropIfOnlyMatch then count_codes (S ifonly) nondrop ds
      else count_codes ifonly (S nondrop) ds
  end.

(** metadata/metadata.go:232-242: the downward loop that shifts the elements behind a removed one *)
Fixpoint remove_in_place (n : nat) (x : val) : prog val :=
  match n with
  | O => ret x
  | S i =>
      v <- index x i ;;
      d <- drop_field v ;;
      if drop_is_default d then remove_in_place i x
      else
        len <- slice_len x ;;
        if Nat.eqb i (len - 1) then x' <- upto x i ;; remove_in_place i x'
        else
          head <- upto x i ;;
          tail <- from x (S i) ;;
          x' <- append_all (fun _ => O) head tail ;;
          remove_in_place i x'
  end.

(** metadata/metadata.go:199-243 [PipelineMetadatas.ApplyOrRemoveDropPolicies] *)
Definition drop_in_place (g : globals) (x : val) : prog (val * drop_result) :=
  l <- elems x ;;
  ds <- each drop_field l ;;
  match count_codes 0 0 ds with
  | None => ret (g_drop g, AppliedEffectiveDropPolicy)
  | Some (ifonly, nondrop) =>
      if Nat.eqb ifonly 0 then ret (x, RemovedIneffectiveDropPolicies)
      else if Nat.eqb nondrop 0 then ret (g_drop g, AppliedEffectiveDropPolicy)
      else x' <- remove_in_place (length l) x ;; ret (x', RemovedIneffectiveDropPolicies)
  end.

(** metadata/metadata.go:437-470: the downward loop over the stages.  [sms] is the receiver, [result] the
    slice that shrinks; both have the same array. *)
Fixpoint stages_in_place (g : globals) (n : nat) (sms result : val) (drops nondrops : nat) (earliest : val)
  : prog (val * nat * val) :=
  match n with
  | O => ret (result, nondrops, earliest)
  | S i =>
      s <- index sms i ;;
      match s with
      | VStruct [ps; VAtom (AInt cutover); tomb] =>
          r <- drop_in_place g ps ;;
          let s' := VStruct [fst r; VAtom (AInt cutover); tomb] in
          set_elem sms i s' ;;;
          match snd r with
          | AppliedEffectiveDropPolicy =>
              first <- match earliest with
                       | VStruct [_; VAtom (AInt c); _] => ret (Nat.eqb (S drops) 1 || (cutover <? c))
                       | _ => panic
                       end ;;
              let earliest' := if first : bool then s' else earliest in
              len <- slice_len result ;;
              if Nat.eqb i (len - 1)
              then result' <- upto result i ;; stages_in_place g i sms result' (S drops) nondrops earliest'
              else
                head <- upto result i ;;
                tail <- from result (S i) ;;
                result' <- append_all (fun _ => O) head tail ;;
                stages_in_place g i sms result' (S drops) nondrops earliest'
          | RemovedIneffectiveDropPolicies =>
              stages_in_place g i sms result drops (S nondrops) earliest
          end
      | _ => panic
      end
  end.

(** metadata/metadata.go:427-478 [StagedMetadatas.ApplyOrRemoveDropPolicies] *)
Definition stages_drop_in_place (g : globals) (sms : val) : prog (val * drop_result) :=
  len <- slice_len sms ;;
  if Nat.eqb len 0 then ret (sms, RemovedIneffectiveDropPolicies)
  else
    r <- stages_in_place g len sms sms 0 0 (VStruct [VNil; VInt 0; VBool false]) ;;
    match r with
    | (result, nondrops, earliest) =>
        if Nat.eqb nondrops 0
        then l <- make_slice [earliest] ;; ret (l, AppliedEffectiveDropPolicy)
        else ret (result, RemovedIneffectiveDropPolicies)
    end.

(** * Matching *)

(** rules/active_ruleset.go:55-63 [activeRuleSet].  Simplified: the cutover times, which nothing writes to,
    are a list. *)
Record mem_active := mk_ma {
  ma_version : Z;
  ma_mapping : val;
  ma_rollup : val;
  ma_cutovers : list Z;
  ma_opts : tags_filter_options;
  ma_new_id : bytes -> list (bytes * bytes) -> bytes;
  ma_is_rollup : bytes -> bytes -> bool }.

(** What of rules/active_ruleset.go:55-63 is no rule. *)
Definition without_rules (a : mem_active) : active_ruleset :=
  mk_as (ma_version a) [] [] (ma_cutovers a) (ma_opts a) (ma_new_id a) (ma_is_rollup a).

(** rules/mapping.go:301-307 and rules/rollup.go:263-269 [activeSnapshot]: the fields of the snapshot *)
Definition active_snapshot_of (r : val) (t : Z) : prog (option (list val)) :=
  c <- deref r ;;
  match c with
  | [_; ss] =>
      l <- elems ss ;;
      i <- active_index_in l (length l) t ;;
      match i with
      | None => ret None
      | Some i =>
          match nth_error l i with
          | None => panic
          | Some s => c' <- deref s ;; ret (Some c')
          end
      end
  | _ => panic
  end.

(** The loops of rules/active_ruleset.go:216-240 and 260-281 over the rules; [f] takes in the body of a
    snapshot.  A nil filter does not match, as in [snapshot_matches]. *)
Fixpoint match_in_memory {X} (f : X -> val -> prog X) (rules : list val) (id : bytes) (t : Z) (cutover : Z)
    (acc : X) : prog (Z * X) :=
  match rules with
  | [] => ret (cutover, acc)
  | r :: rules' =>
      s <- active_snapshot_of r t ;;
      match s with
      | None => match_in_memory f rules' id t cutover acc
      | Some [_; VAtom (ABool tomb); VAtom (AInt c); VAtom (AFilter fl); _; body; _; _] =>
          if match fl with None => false | Some fl => tags_matches fl id end then
            let cutover' := if cutover <? c then c else cutover in
            if tomb then match_in_memory f rules' id t cutover' acc
            else acc' <- f acc body ;; match_in_memory f rules' id t cutover' acc'
          else match_in_memory f rules' id t cutover acc
      | Some _ => panic
      end
  end.

(** rules/active_ruleset.go:234-239 *)
Definition take_mapping (grow : nat -> nat) (pipelines body : val) : prog val :=
  match body with
  | VStruct [agg; sps; drop] =>
      sps' <- sps_copy sps ;; append grow pipelines (VStruct [agg; sps'; VNil; drop])
  | _ => panic
  end.

(** pipeline/applied/type.go:107-116 [OpUnion.Clone]; 54-58 [RollupOp.Clone] *)
Definition applied_op_copy (o : val) : prog val :=
  match o with
  | VStruct [VAtom (AInt k); tf; VStruct [id; agg]] =>
      if k =? RollupOp
      then id' <- bytes_copy id ;; ret (VStruct [VInt k; VInt TfUnknown; VStruct [id'; agg]])
      else ret (VStruct [VInt k; if k =? TransformationOp then tf else VInt TfUnknown;
                         VStruct [VNil; VAtom (AId default_id)]])
  | _ => panic
  end.

(** metadata/metadata.go:104-110 [PipelineMetadata.Clone] with pipeline/applied/type.go:202-208
    [Pipeline.Clone] *)
Definition pm_copy (v : val) : prog val :=
  match v with
  | VStruct [agg; sps; ops; _] =>
      sps' <- sps_copy sps ;;
      ops' <- copy_slice applied_op_copy ops ;;
      ret (VStruct [agg; sps'; ops'; VInt DropNone])
  | _ => panic
  end.

(** rules/active_ruleset.go:208-253 [mappingsForNonRollupID]: the cutover and the pipelines *)
Definition mappings_in_memory (g : globals) (grow : nat -> nat) (a : mem_active) (id : bytes) (t : Z)
  : prog (Z * val) :=
  rules <- elems (ma_mapping a) ;;
  r <- match_in_memory (take_mapping grow) rules id t 0 VNil ;;
  d <- drop_in_place g (snd r) ;;
  n <- slice_len (fst d) ;;
  if Nat.eqb n 0 then ps <- copy_slice pm_copy (g_default g) ;; ret (fst r, ps)
  else ret (fst r, fst d).

(** rules/active_ruleset.go:278-280.  Simplified: the slice of cloned targets is a list. *)
Definition take_targets (targets : list val) (body : val) : prog (list val) :=
  l <- elems body ;; l' <- each target_copy l ;; ret (targets ++ l').

(** rules/active_ruleset.go:447-481: the operations that [applyIDToPipeline] allocates *)
Definition new_applied (p : applied_pipeline) : prog val :=
  l <- each (fun o => id <- new_bytes (ar_id (ao_rollup o)) ;;
                      ret (VStruct [VInt (ao_kind o); VInt (ao_tf o);
                                    VStruct [id; VAtom (AId (ar_agg (ao_rollup o)))]])) p ;;
  make_slice l.

(** rules/active_ruleset.go:316-388: the loop over the targets.  What a target contributes is computed from
    what it shows.  Simplified: the slice of results for new IDs, which does not leave the function's
    callers, is a list of IDs and pipelines. *)
Fixpoint apply_targets (grow : nat -> nat) (a : mem_active) (section : bytes) (targets : list val)
    (pipelines : val) (news : list (val * val)) : prog (val * list (val * val)) :=
  match targets with
  | [] => ret (pipelines, news)
  | tg :: targets' =>
      t <- read_target tg ;;
      match apply_target (without_rules a) section t, tg with
      | None, _ => apply_targets grow a section targets' pipelines news
      | Some (own, pm), VStruct [_; sps] =>
          ops <- new_applied (pm_pipeline pm) ;;
          let p := VStruct [VAtom (AId (pm_agg pm)); sps; ops; VInt (pm_drop pm)] in
          match own with
          | None =>
              pipelines' <- append grow pipelines p ;; apply_targets grow a section targets' pipelines' news
          | Some id =>
              id' <- new_bytes id ;;
              ps <- make_slice [p] ;;
              apply_targets grow a section targets' pipelines (news ++ [(id', ps)])
          end
      | Some _, _ => panic
      end
  end.

(** rules/active_ruleset.go:255-285 [rollupResultsFor] with 294-396 [toRollupResults]: the cutover and
    pipelines for the existing ID, and the IDs and pipelines for new ones *)
Definition rollups_in_memory (grow : nat -> nat) (a : mem_active) (id : bytes) (t : Z)
  : prog (Z * val * Z * list (val * val)) :=
  rules <- elems (ma_rollup a) ;;
  r <- match_in_memory take_targets rules id t 0 [] ;;
  match snd r with
  | [] => ret (0, VNil, 0, [])
  | targets =>
      match tfo_name_and_tags (ma_opts a) id with
      | None => ret (0, VNil, 0, [])
      | Some (_, section) =>
          ps <- make_empty (length targets) ;;
          x <- apply_targets grow a section targets ps [] ;;
          ret (fst r, fst x, fst r, snd x)
      end
  end.

(** rules/active_ruleset.go:764-777: the in-place de-duplication from index [i] on, [n] more to go; the
    elements up to [curr] are kept.  The index of the last one kept is returned. *)
Fixpoint dedup_in_place (n i curr : nat) (x : val) : prog nat :=
  match n with
  | O => ret curr
  | S n' =>
      v <- index x i ;;
      p <- read_pm v ;;
      ks <- each (fun j => w <- index x j ;; read_pm w) (seq 0 (S curr)) ;;
      if existsb (fun k => pm_equal k p) ks then dedup_in_place n' (S i) curr x
      else set_elem x (S curr) v ;;; dedup_in_place n' (S i) (S curr) x
  end.

(** metadata/metadata.go:64-76: the zero PipelineMetadata of rules/active_ruleset.go:779 *)
Definition zero_pipeline : val := VStruct [VAtom (AId default_id); VNil; VNil; VInt DropNone].

(** rules/active_ruleset.go:747-783 [unique], on the pipelines *)
Definition unique_in_place (g : globals) (x : val) : prog val :=
  n <- slice_len x ;;
  if Nat.eqb n 0 then ret x
  else
    d <- drop_in_place g x ;;
    match snd d with
    | AppliedEffectiveDropPolicy => ret (fst d)
    | RemovedIneffectiveDropPolicies =>
        n' <- slice_len (fst d) ;;
        curr <- dedup_in_place (n' - 1) 1 0 (fst d) ;;
        each (fun i => set_elem (fst d) i zero_pipeline) (seq (S curr) (n' - S curr)) ;;;
        upto (fst d) (S curr)
    end.

(** rules/active_ruleset.go:786-799 [toStagedMetadata] and [resolvedPipelines] *)
Definition to_staged_in_memory (g : globals) (cutover : Z) (x : val) : prog val :=
  n <- slice_len x ;;
  ret (VStruct [if Nat.eqb n 0 then g_default g else x; VInt cutover; VBool false]).

(** A []IDWithMetadatas sorted by ID: rules/match_result.go:42-46.  Simplified: the elements are written
    back in the order of a stable sort. *)
Definition sort_by_id (x : val) : prog unit :=
  l <- elems x ;;
  ks <- each (fun e => match e with
                       | VStruct [id; _] => k <- read_bytes id ;; ret (k, e)
                       | _ => panic
                       end) l ;;
  each (fun ie => set_elem x (fst ie) (snd ie))
    (combine (seq 0 (length l)) (map snd (isort (fun p q => bleb (fst p) (fst q)) ks))) ;;;
  ret tt.

(** rules/active_ruleset.go:193-200: one new ID *)
Definition new_id_in_memory (g : globals) (grow : nat -> nat) (cutover : Z) (ids : val) (e : val * val)
  : prog val :=
  x <- unique_in_place g (snd e) ;;
  s <- to_staged_in_memory g cutover x ;;
  ms <- make_slice [s] ;;
  append grow ids (VStruct [fst e; ms]).

(** rules/active_ruleset.go:193-200: the loop *)
Fixpoint new_ids_in_memory (g : globals) (grow : nat -> nat) (cutover : Z) (ids : val) (l : list (val * val))
  : prog val :=
  match l with
  | [] => ret ids
  | e :: l' => ids' <- new_id_in_memory g grow cutover ids e ;; new_ids_in_memory g grow cutover ids' l'
  end.

(** rules/active_ruleset.go:182-206 [forwardMatchAt]: the stage and the slice of new IDs *)
Definition forward_at_in_memory (g : globals) (grow : nat -> nat) (a : mem_active) (id : bytes) (t : Z)
  : prog (val * val) :=
  mr <- mappings_in_memory g grow a id t ;;
  rr <- rollups_in_memory grow a id t ;;
  match rr with
  | (own_cutover, own, new_cutover, news) =>
      let cutover := if fst mr <? own_cutover then own_cutover else fst mr in
      merged <- append_all grow (snd mr) own ;;
      x <- unique_in_place g merged ;;
      s <- to_staged_in_memory g cutover x ;;
      ids <- make_empty (length news) ;;
      ids' <- new_ids_in_memory g grow new_cutover ids news ;;
      sort_by_id ids' ;;;
      ret (s, ids')
  end.

(** The field [CutoverNanos] of a stage (metadata/metadata.go:353). *)
Definition stage_cutover (s : val) : prog Z :=
  match s with VStruct [_; VAtom (AInt c); _] => ret c | _ => panic end.

(** rules/active_ruleset.go:655-669 [mergeResultsForExistingID] *)
Definition merge_existing_in_memory (grow : nat -> nat) (curr next : val) (change : Z) : prog val :=
  n <- slice_len curr ;;
  if Nat.eqb n 0 then make_slice [next]
  else
    last <- index curr (n - 1) ;;
    c <- stage_cutover last ;;
    match next with
    | VStruct [ps; VAtom (AInt nc); tomb] =>
        append grow curr (VStruct [ps; VInt (if nc <? c then change else nc); tomb])
    | _ => panic
    end.

(** rules/active_ruleset.go:690-706: a stage is appended to the metadatas of the [i]-th ID *)
Definition push_stage (grow : nat -> nat) (x : val) (i : nat) (s : val) : prog unit :=
  e <- index x i ;;
  match e with
  | VStruct [id; ms] => ms' <- append grow ms s ;; set_elem x i (VStruct [id; ms'])
  | _ => panic
  end.

(** The ID of the [i]-th element (rules/active_ruleset.go:694). *)
Definition id_at (x : val) (i : nat) : prog bytes :=
  e <- index x i ;; match e with VStruct [id; _] => read_bytes id | _ => panic end.

(** rules/active_ruleset.go:684-717: the loop; [fuel] bounds the steps left.  [x] is the slice of current
    results, which new ones are appended to. *)
Fixpoint merge_news_in_memory (fuel : nat) (grow : nat -> nat) (change : Z) (x next : val)
    (curr_len next_len i j : nat) : prog val :=
  match fuel with
  | O => ret x
  | S fuel' =>
      if Nat.ltb i curr_len || Nat.ltb j next_len then
        c <- (if negb (Nat.ltb i curr_len) then ret Gt
              else if negb (Nat.ltb j next_len) then ret Lt
              else a <- id_at x i ;; b <- id_at next j ;; ret (bcompare a b)) ;;
        match c with
        | Eq =>
            e <- index next j ;;
            match e with
            | VStruct [_; ms] =>
                s <- index ms 0 ;;
                push_stage grow x i s ;;;
                merge_news_in_memory fuel' grow change x next curr_len next_len (S i) (S j)
            | _ => panic
            end
        | Lt =>
            push_stage grow x i (VStruct [VNil; VInt change; VBool true]) ;;;
            merge_news_in_memory fuel' grow change x next curr_len next_len (S i) j
        | Gt =>
            e <- index next j ;;
            x' <- append grow x e ;;
            merge_news_in_memory fuel' grow change x' next curr_len next_len i (S j)
        end
      else ret x
  end.

(** rules/active_ruleset.go:677-720 [mergeResultsForNewRollupIDs] *)
Definition merge_ids_in_memory (grow : nat -> nat) (curr next : val) (change : Z) : prog val :=
  n <- slice_len curr ;;
  k <- slice_len next ;;
  x <- merge_news_in_memory (n + k) grow change curr next n k 0 0 ;;
  sort_by_id x ;;;
  ret x.

(** rules/active_ruleset.go:131-137: the loop of [ForwardMatch] *)
Fixpoint forward_loop_in_memory (fuel : nat) (g : globals) (grow : nat -> nat) (a : mem_active) (id : bytes)
    (to : Z) (idx : nat) (existing news : val) : prog (nat * val * val) :=
  match fuel with
  | O => ret (idx, existing, news)
  | S fuel' =>
      let c := cutover_at (without_rules a) idx in
      if Nat.ltb idx (length (ma_cutovers a)) && (c <? to) then
        r <- forward_at_in_memory g grow a id c ;;
        existing' <- merge_existing_in_memory grow existing (fst r) c ;;
        news' <- merge_ids_in_memory grow news (snd r) c ;;
        forward_loop_in_memory fuel' g grow a id to (S idx) existing' news'
      else ret (idx, existing, news)
  end.

(** rules/active_ruleset.go:119-143 [ForwardMatch] *)
Definition forward_in_memory (g : globals) (grow : nat -> nat) (a : mem_active) (id : bytes) (from to : Z)
  : prog val :=
  r <- forward_at_in_memory g grow a id from ;;
  existing <- make_slice [fst r] ;;
  l <- forward_loop_in_memory (length (ma_cutovers a)) g grow a id to
         (next_cutover_idx (without_rules a) from) existing (snd r) ;;
  match l with
  | (idx, existing', news') =>
      ret (VStruct [VInt (ma_version a); VInt (cutover_at (without_rules a) idx); existing'; news'])
  end.

(** rules/active_ruleset.go:621-644 [filteredPipelinesWithAggregationType]: from index [i] on, [n] more to
    go, [cur] kept *)
Fixpoint filter_in_place (n i cur : nat) (mt : metric_type) (t : agg_type) (opts : types_options) (x : val)
  : prog val :=
  match n with
  | O => upto x cur
  | S n' =>
      v <- index x i ;;
      match v with
      | VStruct [VAtom (AId agg); _; _; _] =>
          if (if id_is_default agg then is_contained_in_default opts t mt else id_contains agg t) then
            (if Nat.eqb cur i then ret tt else set_elem x cur v) ;;;
            filter_in_place n' (S i) (S cur) mt t opts x
          else filter_in_place n' (S i) cur mt t opts x
      | _ => panic
      end
  end.

(** rules/active_ruleset.go:501-521 [reverseMappingsForNonRollupID] *)
Definition reverse_non_rollup_in_memory (g : globals) (grow : nat -> nat) (a : mem_active) (id : bytes) (t : Z)
    (mt : metric_type) (at_ : agg_type) (opts : types_options) : prog (option val) :=
  r <- mappings_in_memory g grow a id t ;;
  n <- slice_len (snd r) ;;
  x <- filter_in_place n 0 0 mt at_ opts (snd r) ;;
  k <- slice_len x ;;
  if Nat.eqb k 0 then ret None else ret (Some (VStruct [x; VInt (fst r); VBool false])).

(** rules/active_ruleset.go:547-591: the operations of one target *)
Fixpoint reverse_ops_in_memory (a : mem_active) (name section : bytes) (cutover : Z) (sps : val)
    (mt : metric_type) (at_ : agg_type) (multi : bool) (opts : types_options) (ops : list val)
  : prog (option (option val)) :=
  match ops with
  | [] => ret None
  | v :: ops' =>
      o <- read_op v ;;
      if negb (op_kind o =? RollupOp) then reverse_ops_in_memory a name section cutover sps mt at_ multi opts ops'
      else if negb (beqb (ro_name (op_rollup o)) name)
           then reverse_ops_in_memory a name section cutover sps mt at_ multi opts ops'
      else match match_tags (fst (tfo_sorted_tags (ma_opts a) section)) (ro_tags (op_rollup o)) with
           | None => reverse_ops_in_memory a name section cutover sps mt at_ multi opts ops'
           | Some _ =>
               sps' <- sps_copy sps ;;
               x <- make_slice [VStruct [VAtom (AId (ro_agg (op_rollup o))); sps'; VNil; VInt DropNone]] ;;
               x' <- (if multi then filter_in_place 1 0 0 mt at_ opts x else ret x) ;;
               k <- slice_len x' ;;
               ret (Some (if Nat.eqb k 0 then None else Some (VStruct [x'; VInt cutover; VBool false])))
           end
  end.

(** rules/active_ruleset.go:546-592: the targets of one rule *)
Fixpoint reverse_targets_in_memory (a : mem_active) (name section : bytes) (cutover : Z) (mt : metric_type)
    (at_ : agg_type) (multi : bool) (opts : types_options) (targets : list val) : prog (option (option val)) :=
  match targets with
  | [] => ret None
  | VStruct [p; sps] :: targets' =>
      ops <- elems p ;;
      r <- reverse_ops_in_memory a name section cutover sps mt at_ multi opts ops ;;
      match r with
      | Some r => ret (Some r)
      | None => reverse_targets_in_memory a name section cutover mt at_ multi opts targets'
      end
  | _ => panic
  end.

(** rules/active_ruleset.go:532-594 [reverseMappingsForRollupID] *)
Fixpoint reverse_rules_in_memory (a : mem_active) (rules : list val) (name section : bytes) (t : Z)
    (mt : metric_type) (at_ : agg_type) (multi : bool) (opts : types_options) : prog (option val) :=
  match rules with
  | [] => ret None
  | r :: rules' =>
      s <- active_snapshot_of r t ;;
      match s with
      | None => reverse_rules_in_memory a rules' name section t mt at_ multi opts
      | Some [_; VAtom (ABool tomb); VAtom (AInt c); _; _; body; _; _] =>
          if tomb then reverse_rules_in_memory a rules' name section t mt at_ multi opts
          else
            targets <- elems body ;;
            x <- reverse_targets_in_memory a name section c mt at_ multi opts targets ;;
            match x with
            | Some res => ret res
            | None => reverse_rules_in_memory a rules' name section t mt at_ multi opts
            end
      | Some _ => panic
      end
  end.

(** rules/active_ruleset.go:484-497 [reverseMappingsFor] *)
Definition reverse_at_in_memory (g : globals) (grow : nat -> nat) (a : mem_active) (id : bytes) (t : Z)
    (mt : metric_type) (at_ : agg_type) (multi : bool) (opts : types_options) : prog (option val) :=
  match tfo_name_and_tags (ma_opts a) id with
  | Some (name, section) =>
      if ma_is_rollup a name section
      then rules <- elems (ma_rollup a) ;; reverse_rules_in_memory a rules name section t mt at_ multi opts
      else reverse_non_rollup_in_memory g grow a id t mt at_ opts
  | None => reverse_non_rollup_in_memory g grow a id t mt at_ opts
  end.

(** rules/active_ruleset.go:165-173: a result, if there is one, merged into those so far *)
Definition merge_found_in_memory (grow : nat -> nat) (curr : val) (next : option val) (change : Z) : prog val :=
  match next with None => ret curr | Some s => merge_existing_in_memory grow curr s change end.

(** rules/active_ruleset.go:168-175: the loop of [ReverseMatch] *)
Fixpoint reverse_loop_in_memory (fuel : nat) (g : globals) (grow : nat -> nat) (a : mem_active) (id : bytes)
    (to : Z) (idx : nat) (mt : metric_type) (at_ : agg_type) (multi : bool) (opts : types_options)
    (existing : val) : prog (nat * val) :=
  match fuel with
  | O => ret (idx, existing)
  | S fuel' =>
      let c := cutover_at (without_rules a) idx in
      if Nat.ltb idx (length (ma_cutovers a)) && (c <? to) then
        r <- reverse_at_in_memory g grow a id c mt at_ multi opts ;;
        existing' <- merge_found_in_memory grow existing r c ;;
        reverse_loop_in_memory fuel' g grow a id to (S idx) mt at_ multi opts existing'
      else ret (idx, existing)
  end.

(** rules/active_ruleset.go:145-177 [ReverseMatch] *)
Definition reverse_in_memory (g : globals) (grow : nat -> nat) (a : mem_active) (id : bytes) (from to : Z)
    (mt : metric_type) (at_ : agg_type) (multi : bool) (opts : types_options) : prog val :=
  r <- reverse_at_in_memory g grow a id from mt at_ multi opts ;;
  existing <- merge_found_in_memory grow VNil r from ;;
  l <- reverse_loop_in_memory (length (ma_cutovers a)) g grow a id to
         (next_cutover_idx (without_rules a) from) mt at_ multi opts existing ;;
  match l with
  | (idx, existing') =>
      ret (VStruct [VInt (ma_version a); VInt (cutover_at (without_rules a) idx); existing'; VNil])
  end.
