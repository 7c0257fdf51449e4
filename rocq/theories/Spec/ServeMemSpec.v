(** A program that holds rule sets, views and active sets (see [Spec/RuleMemSpec.v]), and also matches
    metrics against the active sets and keeps the results (see [Spec/MatchMemSpec.v]). *)
From Coq Require Import Ascii String Arith NArith ZArith Bool List.
From Verif.Base Require Import Bytes Mem.
From Verif.Model Require Import AggType Policy Transformation Pipeline Metadata Filter MetricID Rules RuleSet
  RuleMem MatchMem.
From Verif.Spec Require Import RuleMemSpec MatchMemSpec.
Import ListNotations.
Open Scope nat_scope.

(** A match result that is kept: the Go value, the memory it consisted of when it was returned, and what it
    is; [None] once its holder has written into it. *)
Record held := mk_held { h_val : val; h_looks : list look; h_is : option match_result }.

(** The active set [a], with its rules in memory at [r]. *)
Definition in_memory (a : active_ruleset) (r : val * val) : mem_active :=
  mk_ma (as_version a) (fst r) (snd r) (as_cutovers a) (as_opts a) (as_new_id a) (as_is_rollup a).

(** The [k]-th active set has the rules of [a]. *)
Definition active_at (w : world) (s : state) (k : nat) (r : val * val) (a : active_ruleset) : Prop :=
  nth_error (w_active w) k = Some r /\
  exists c, nth_error (s_active s) k = Some c /\ ac_rules c = Some (as_mapping a, as_rollup a).

Definition with_memory (w : world) (m : memory) : world := mk_world m (w_sets w) (w_views w) (w_active w).

(** One action: one of [Spec/RuleMemSpec.v], a match, or a write into a result by its holder, who leaves the
    package variables alone but may otherwise leave anything behind, new memory included. *)
Inductive step (g : globals) (G : list look) : world -> state -> list held -> world -> state -> list held -> Prop :=
| step_act w s hs w' s' : acts w s w' s' -> step g G w s hs w' s' hs
| step_match w s hs k r a grow q v m' t f :
    active_at w s k r a ->
    ask g grow (in_memory a r, q) (w_mem w) = Some (v, m') ->
    shows m' v t f ->
    step g G w s hs (with_memory w m') s (hs ++ [mk_held v f (Some (answer a q))])
| step_write w s hs k h m' :
    nth_error hs k = Some h ->
    written_within (w_mem w) m' G (h_looks h) ->
    step g G w s hs (with_memory w m') s (set_nth k (mk_held (h_val h) (h_looks h) None) hs).

(** Any number of actions, from one moment to another, and from the start, when there are the package
    variables only. *)
Inductive later (g : globals) (G : list look) (w : world) (s : state) (hs : list held)
  : world -> state -> list held -> Prop :=
| later_same : later g G w s hs w s hs
| later_more w1 s1 hs1 w2 s2 hs2 :
    later g G w s hs w1 s1 hs1 -> step g G w1 s1 hs1 w2 s2 hs2 -> later g G w s hs w2 s2 hs2.
Definition lives (g : globals) (G : list look) (w : world) (s : state) (hs : list held) : Prop :=
  exists m, globals_are m g G /\ later g G (mk_world m [] [] []) empty_state [] w s hs.
