(** Specification vocabulary for the protobuf streams. *)
From Coq Require Import Ascii String NArith ZArith Bool List.
From Verif.Base Require Import Bytes Slice.
From Verif.Model Require Import AggType Policy Transformation Pipeline Metadata ProtoWire Messages ProtoStream.
From Verif.Spec Require Import PolicySpec MetadataSpec.
Import ListNotations.
Open Scope Z_scope.

(** * Messages *)

(** The five kinds of message. *)
Inductive message :=
| MCounter (c : counter) (ms : staged_metadatas)
| MTimer (t : batch_timer) (ms : staged_metadatas)
| MGauge (g : gauge) (ms : staged_metadatas)
| MForwarded (f : forwarded) (m : forward_metadata)
| MTimed (t : timed) (m : timed_metadata).

(** The message a union stands for: the member its type selects. *)
Definition selected (u : union_of list) : option message :=
  match u_type u with
  | 1 => Some (MCounter (u_counter u) (u_counter_metas u))
  | 2 => Some (MTimer (u_timer u) (u_timer_metas u))
  | 3 => Some (MGauge (u_gauge u) (u_gauge_metas u))
  | 4 => Some (MForwarded (u_forwarded u) (u_forward_meta u))
  | 5 => Some (MTimed (u_timed u) (u_timed_meta u))
  | _ => None
  end.

(** What a user of the iterator sees of its reused union. *)
Definition union_content (u : union_of slice) : union_of list :=
  mk_union (u_type u) (u_counter u) (map sm_content (s_elems (u_counter_metas u)))
    (u_timer u) (map sm_content (s_elems (u_timer_metas u)))
    (u_gauge u) (map sm_content (s_elems (u_gauge_metas u)))
    (u_forwarded u) (fm_content (u_forward_meta u)) (u_timed u) (u_timed_meta u).
Definition current (it : iter) : option message := selected (union_content (i_msg it)).

(** Values of the Go types int64, int32, uint32, uint64 and float64 (as bits). *)
Definition is_int64 (z : Z) : Prop := - 2 ^ 63 <= z < 2 ^ 63.
Definition is_int32 (z : Z) : Prop := - 2 ^ 31 <= z < 2 ^ 31.
Definition is_uint32 (z : Z) : Prop := 0 <= z < 2 ^ 32.
Definition is_float64 (z : Z) : Prop := 0 <= z < 2 ^ 64.
Definition is_agg_id (w : N) : Prop := (w < 2 ^ 64)%N.

(** Messages that can be sent: values of their Go types, valid precisions, applied operations with the payload of
    their kind only, drop policies below 2^31, metric types counter, timer or gauge. *)
Definition sp_sendable (p : storage_policy) : Prop :=
  sp_ok p /\ is_int64 (r_window (sp_resolution p)) /\ is_int64 (sp_retention p).
Definition applied_sendable (a : applied_op) : Prop := applied_op_valid a /\ is_agg_id (ar_agg (ao_rollup a)).
Definition pm_sendable (m : pipeline_metadata) : Prop :=
  is_agg_id (pm_agg m) /\ Forall sp_sendable (pm_sps m) /\ Forall applied_sendable (pm_pipeline m) /\
  0 <= pm_drop m < 2 ^ 31.
Definition sm_sendable (s : staged_metadata) : Prop :=
  is_int64 (sm_cutover s) /\ Forall pm_sendable (sm_pipelines s).
Definition fm_sendable (m : forward_metadata) : Prop :=
  is_agg_id (fm_agg m) /\ sp_sendable (fm_sp m) /\ Forall applied_sendable (fm_pipeline m) /\
  is_uint32 (fm_source m) /\ is_int32 (fm_times m).
Definition tm_sendable (m : timed_metadata) : Prop := is_agg_id (tm_agg m) /\ sp_sendable (tm_sp m).
Definition metric_type_ok (t : Z) : Prop := t = 1 \/ t = 2 \/ t = 3.

Definition sendable (m : message) : Prop :=
  match m with
  | MCounter c ms => is_int64 (c_value c) /\ Forall sm_sendable ms
  | MTimer t ms => Forall is_float64 (t_values t) /\ Forall sm_sendable ms
  | MGauge g ms => is_float64 (g_value g) /\ Forall sm_sendable ms
  | MForwarded f m =>
      metric_type_ok (fw_type f) /\ is_int64 (fw_time f) /\ Forall is_float64 (fw_values f) /\ fm_sendable m
  | MTimed t m => metric_type_ok (td_type t) /\ is_int64 (td_time t) /\ is_float64 (td_value t) /\ tm_sendable m
  end.

(** The bits of the float64 negative zero; the only value that does not arrive as it was sent. *)
Definition negative_zero : Z := 2 ^ 63.
Definition plus_zero (v : Z) : Z := if v =? negative_zero then 0 else v.
Definition as_received (m : message) : message :=
  match m with
  | MGauge g ms => MGauge (mk_gauge (g_id g) (plus_zero (g_value g))) ms
  | MTimed t m => MTimed (mk_timed (td_type t) (td_id t) (td_time t) (plus_zero (td_value t))) m
  | _ => m
  end.

(** * Streams *)

(** [alone u max f]: [f] is what a new encoder with message size limit [max] holds after
    successfully encoding [u]. *)
Definition alone (u : union_of list) (max : Z) (f : bytes) : Prop :=
  let '(e, h) := new_encoder false 0 max (Fresh []) empty_heap in
  exists e' h', enc_message u (Fresh []) e h = EncOk e' h' /\ enc_bytes h' e' = f.

(** [decoded it ms err]: the loop [for it.Next() { use(it.Current()) }] sees exactly the messages
    [ms], ends, and finds [it.Err() = err]. *)
Inductive decoded : iter -> list message -> decode_error -> Prop :=
| decoded_stop it it' e : next it = Stop it' -> i_err it' = Some e -> decoded it [] e
| decoded_more it it' m ms e :
    next it = More it' -> current it' = Some m -> decoded it' ms e -> decoded it (m :: ms) e.

(** * Programs over several encoders sharing a pool *)

Inductive runs : system -> list (op * choice * bool) -> system -> Prop :=
| runs_nil s : runs s [] s
| runs_cons s o c ok s' l s'' : run_op s o c = Some (s', ok) -> runs s' l s'' -> runs s ((o, c, ok) :: l) s''.

(** Limits below 16 GB, so that five bytes hold a message size. *)
Definition op_ok (o : op) : Prop := match o with New _ _ max => max < 2 ^ 34 | _ => True end.
Definition reachable (s : system) : Prop :=
  exists l, runs empty_system l s /\ Forall (fun x => op_ok (fst (fst x))) l.

(** What can be observed: the limit and content of every encoder, the content of every relinquished buffer that
    is not closed. *)
Record view := mk_view { v_encs : list (Z * bytes); v_bufs : list (option bytes) }.
Definition observe (s : system) : view :=
  mk_view (map (fun e => (e_max e, enc_bytes (s_heap s) e)) (s_encs s))
    (map (fun b => if b_closed b then None else Some (buf_bytes (s_heap s) b)) (s_bufs s)).

(** [l'] is [l] with the element at [i] replaced. *)
Definition replaced {A} (l : list A) (i : nat) (a : A) (l' : list A) : Prop :=
  length l' = length l /\ nth_error l' i = Some a /\ forall j, j <> i -> nth_error l' j = nth_error l j.

(** The effect every operation should have: nothing but its own encoder or buffer changes. *)
Inductive effect : view -> op -> bool -> view -> Prop :=
| eff_new v pool init max :
    effect v (New pool init max) true (mk_view (v_encs v ++ [(max, [])]) (v_bufs v))
| eff_reset v i d max x encs :
    nth_error (v_encs v) i = Some (max, x) -> replaced (v_encs v) i (max, d) encs ->
    effect v (Reset i d) true (mk_view encs (v_bufs v))
| eff_encode v i u max x f encs :
    nth_error (v_encs v) i = Some (max, x) -> alone u max f ->
    replaced (v_encs v) i (max, x ++ f) encs ->
    effect v (Encode i u) true (mk_view encs (v_bufs v))
| eff_encode_error v i u max x :
    nth_error (v_encs v) i = Some (max, x) -> (forall f, ~ alone u max f) ->
    effect v (Encode i u) false v
| eff_truncate v i n max x encs :
    nth_error (v_encs v) i = Some (max, x) -> 0 <= n <= zlen x ->
    replaced (v_encs v) i (max, firstn (Z.to_nat n) x) encs ->
    effect v (Truncate i n) true (mk_view encs (v_bufs v))
| eff_truncate_error v i n max x :
    nth_error (v_encs v) i = Some (max, x) -> ~ 0 <= n <= zlen x ->
    effect v (Truncate i n) false v
| eff_relinquish v i max x encs :
    nth_error (v_encs v) i = Some (max, x) -> replaced (v_encs v) i (max, []) encs ->
    effect v (Relinquish i) true (mk_view encs (v_bufs v ++ [Some x]))
| eff_buf_truncate v j n x y bufs :
    nth_error (v_bufs v) j = Some (Some x) -> zlen y = n ->
    firstn (length y) x = firstn (length x) y ->
    replaced (v_bufs v) j (Some y) bufs ->
    effect v (BufTruncate j n) true (mk_view (v_encs v) bufs)
| eff_buf_truncate_closed v j n :
    nth_error (v_bufs v) j = Some None -> effect v (BufTruncate j n) true v
| eff_buf_close v j o bufs :
    nth_error (v_bufs v) j = Some o -> replaced (v_bufs v) j None bufs ->
    effect v (BufClose j) true (mk_view (v_encs v) bufs)
| eff_no_encoder v o i :
    (exists d, o = Reset i d) \/ (exists u, o = Encode i u) \/ (exists n, o = Truncate i n) \/ o = Relinquish i ->
    nth_error (v_encs v) i = None -> effect v o false v
| eff_no_buffer v o j :
    (exists n, o = BufTruncate j n) \/ o = BufClose j ->
    nth_error (v_bufs v) j = None -> effect v o false v
| eff_other v o ok :
    (exists n, o = OtherGet n) \/ (exists k d, o = OtherWrite k d) \/ (exists k, o = OtherPut k) ->
    effect v o ok v.

(** The messages successfully encoded by encoder [i]. *)
Fixpoint sent (i : nat) (l : list (op * choice * bool)) : list (union_of list) :=
  match l with
  | [] => []
  | (Encode j u, _, true) :: l => if Nat.eqb j i then u :: sent i l else sent i l
  | _ :: l => sent i l
  end.
(** Operations that leave the content of encoder [i] alone or add a message. *)
Definition keeps (i : nat) (o : op) : Prop :=
  match o with
  | Reset j _ | Truncate j _ | Relinquish j => j <> i
  | _ => True
  end.

(** Operations on anything but the relinquished buffer [j]. *)
Definition leaves (j : nat) (o : op) : Prop :=
  match o with
  | BufTruncate k _ | BufClose k => k <> j
  | _ => True
  end.

(** * Malformed input *)

(** The loop [for it.Next() { ... }] panics. *)
Inductive panics : iter -> Prop :=
| panics_now it : next it = Crash -> panics it
| panics_later it it' : next it = More it' -> panics it' -> panics it.

(** No number that can be read off the input as a varint, starting anywhere, is so close to 2^63 that adding it
    to a position in the input overflows an [int]. *)
Definition no_overflow (d : bytes) : Prop :=
  zlen d + 9 < 2 ^ 63 /\
  forall p s v r, d = p ++ s -> dec_varint s = Ok (v, r) -> to_int64 v + zlen d < 2 ^ 63.

(** * Messages without content *)
Definition empty_message (m : message) : Prop :=
  m = MCounter (mk_counter [] 0) [] \/ m = MTimer (mk_timer [] []) [] \/ m = MGauge (mk_gauge [] 0) [].
