(** What match results look like in memory: the plain values that Go values stand for, see
    [Spec/RuleMemSpec.v]. *)
From Coq Require Import Ascii String Arith NArith ZArith Bool List.
From Verif.Base Require Import Bytes Mem.
From Verif.Model Require Import AggType Policy Transformation Pipeline Metadata Filter MetricID Rules RuleSet
  RuleMem MatchMem.
From Verif.Spec Require Import RuleMemSpec.
Import ListNotations.
Open Scope nat_scope.

Definition t_applied_op (o : applied_op) : tree :=
  TStruct [t_int (ao_kind o); t_int (ao_tf o); TStruct [t_bytes (ar_id (ao_rollup o)); t_id (ar_agg (ao_rollup o))]].
Definition t_pm (p : pipeline_metadata) : tree :=
  TStruct [t_id (pm_agg p); t_sps (pm_sps p); TList (map t_applied_op (pm_pipeline p)); t_int (pm_drop p)].
Definition t_pms (l : list pipeline_metadata) : tree := TList (map t_pm l).
Definition t_stage (s : staged_metadata) : tree :=
  TStruct [t_pms (sm_pipelines s); t_int (sm_cutover s); t_bool (sm_tombstoned s)].
Definition t_stages (l : staged_metadatas) : tree := TList (map t_stage l).
Definition t_entry (e : id_with_metadatas) : tree := TStruct [t_bytes (fst e); t_stages (snd e)].
Definition t_result (r : match_result) : tree :=
  TStruct [t_int (mr_version r); t_int (mr_expire r); t_stages (mr_existing r); TList (map t_entry (mr_news r))].

(** The memory is changed at most at new addresses. *)
Definition nothing_changed (m m' : memory) : Prop :=
  m_next m <= m_next m' /\ forall p, p < m_next m -> m_at m' p = m_at m p.

(** The two package variables are lists of one pipeline without room for more; looking at them looks at
    [G]. *)
Definition globals_are (m : memory) (g : globals) (G : list look) : Prop :=
  exists a b c d f1 f2,
    g_drop g = VSlice a b 1 1 /\ g_default g = VSlice c d 1 1 /\
    shows m (g_drop g) (t_pms drop_pipeline_metadatas) f1 /\
    shows m (g_default g) (t_pms [default_pipeline_metadata]) f2 /\ G = f1 ++ f2 /\
    Forall (fun l => addr l < m_next m) G.

(** The active rule set in memory is [a]. *)
Definition active_is (m : memory) (x : mem_active) (a : active_ruleset) : Prop :=
  ma_version x = as_version a /\ ma_cutovers x = as_cutovers a /\ ma_opts x = as_opts a /\
  ma_new_id x = as_new_id a /\ ma_is_rollup x = as_is_rollup a /\
  exists f1 f2,
    shows m (ma_mapping x) (t_rules t_mbody (as_mapping a)) f1 /\
    shows m (ma_rollup x) (t_rules t_rbody (as_rollup a)) f2 /\
    Forall (fun l => addr l < m_next m) (f1 ++ f2).

(** Everything that [f] looks at came into being between [m] and [m'], or is one of the two package
    variables. *)
Definition own_or_global (m m' : memory) (G f : list look) : Prop :=
  Forall (fun l => m_next m <= addr l < m_next m' \/ In l G) f.

(** A question to an active rule set. *)
Inductive query :=
| Forward (id : bytes) (from to : Z)
| Reverse (id : bytes) (from to : Z) (mt : metric_type) (t : agg_type) (multi : bool) (opts : types_options).

(** Asking it of the rules in memory, and the answer that the rules demand (for the meaning of the latter see
    the properties C23 to C32). *)
Definition ask (g : globals) (grow : nat -> nat) (xq : mem_active * query) : prog val :=
  match snd xq with
  | Forward id from to => forward_in_memory g grow (fst xq) id from to
  | Reverse id from to mt t multi opts => reverse_in_memory g grow (fst xq) id from to mt t multi opts
  end.
Definition answer (a : active_ruleset) (q : query) : match_result :=
  match q with
  | Forward id from to => forward_match a id from to
  | Reverse id from to mt t multi opts => reverse_match a id from to mt t multi opts
  end.

(** [m'] differs from [m] at most where [f] looks, the package variables excepted. *)
Definition written_within (m m' : memory) (G f : list look) : Prop :=
  m_next m <= m_next m' /\ forall p, p < m_next m -> (forall l, In l f -> addr l = p -> In l G) -> m_at m' p = m_at m p.

(** After the questions [l] the values [vs] are the answers, looking at [fs]. *)
Definition answers (m m' : memory) (G : list look) (l : list (mem_active * active_ruleset * query))
    (vs : list val) (fs : list (list look)) : Prop :=
  forall i x a q, nth_error l i = Some (x, a, q) ->
  exists v f, nth_error vs i = Some v /\ nth_error fs i = Some f /\
              shows m' v (t_result (answer a q)) f /\ own_or_global m m' G f.

(** No two of them look at the same memory, the package variables excepted. *)
Definition apart (G : list look) (fs : list (list look)) : Prop :=
  forall i j fi fj, i <> j -> nth_error fs i = Some fi -> nth_error fs j = Some fj ->
  forall k l, In k fi -> In l fj -> addr k = addr l -> In k G /\ In l G.
