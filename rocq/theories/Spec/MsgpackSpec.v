(** Specification vocabulary for the msgpack streams: the MessagePack format as a relation between values and bytes, and the
    schema of the messages on top of it.  A value may be written in any form the format allows, and every object may carry
    more fields than the schema asks for. *)
From Coq Require Import Ascii String NArith ZArith Bool List.
From Verif.Base Require Import Bytes.
From Verif.Model Require Import AggType Policy Transformation ProtoWire MsgpackLib Msgpack.
From Verif.Spec Require Import ProtoStreamSpec.
Import ListNotations.
Open Scope Z_scope.

(** * The format *)

(** The unsigned number a sequence of bytes stands for, most significant first, and the signed one. *)
Definition number (d : bytes) : Z := fold_left (fun a b => 256 * a + Z.of_N (N_of_ascii b)) d 0.
Definition signed_number (d : bytes) : Z :=
  let bits := 8 * Z.of_nat (length d) in
  if number d <? 2 ^ (bits - 1) then number d else number d - 2 ^ bits.

(** The byte with a given code. *)
Definition code (c : Z) : ascii := ascii_of_N (Z.to_N c).

(** [int_as v b]: [b] is a form of the integer [v] as a 64-bit integer; nil stands for 0, and an unsigned number of eight
    bytes for the signed one with the same bits. *)
Inductive int_as : Z -> bytes -> Prop :=
| int_nil : int_as 0 [code 192]
| int_pos v : 0 <= v < 128 -> int_as v [code v]
| int_neg v : -32 <= v < 0 -> int_as v [code (256 + v)]
| int_unsigned c d : In (c, zlen d) [(204, 1); (205, 2); (206, 4)] -> int_as (number d) (code c :: d)
| int_signed c d : In (c, zlen d) [(207, 8); (208, 1); (209, 2); (210, 4); (211, 8)] ->
    int_as (signed_number d) (code c :: d).

(** [array_as n b]: [b] announces an array of [n] elements; [map_as n b] a map of [n] pairs. *)
Inductive array_as : Z -> bytes -> Prop :=
| array_fix n : 0 <= n < 16 -> array_as n [code (144 + n)]
| array_n c d : In (c, zlen d) [(220, 2); (221, 4)] -> array_as (number d) (code c :: d).
Inductive map_as : Z -> bytes -> Prop :=
| map_fix n : 0 <= n < 16 -> map_as n [code (128 + n)]
| map_n c d : In (c, zlen d) [(222, 2); (223, 4)] -> map_as (number d) (code c :: d).

(** [bytes_as s b]: [b] is a form of the byte string [s], as bytes or as a string; nil stands for the empty one. *)
Inductive bytes_as : bytes -> bytes -> Prop :=
| bytes_nil : bytes_as [] [code 192]
| bytes_fix s : zlen s < 32 -> bytes_as s (code (160 + zlen s) :: s)
| bytes_n c d s : In (c, zlen d) [(196, 1); (197, 2); (198, 4); (217, 1); (218, 2); (219, 4)] ->
    number d = zlen s -> bytes_as s (code c :: d ++ s).

Inductive bool_as : bool -> bytes -> Prop :=
| bool_false : bool_as false [code 194]
| bool_true : bool_as true [code 195].

(** A float64, by its bits. *)
Inductive float_as : Z -> bytes -> Prop :=
| float_8 d : length d = 8%nat -> float_as (number d) (code 203 :: d).

(** Other values without elements: float32 and the extension types. *)
Inductive other_as : bytes -> Prop :=
| other_float32 d : length d = 4%nat -> other_as (code 202 :: d)
| other_fixext c t d : In (c, zlen d) [(212, 1); (213, 2); (214, 4); (215, 8); (216, 16)] ->
    other_as (code c :: t :: d)
| other_ext c n t d : In (c, zlen n) [(199, 1); (200, 2); (201, 4)] -> number n = zlen d ->
    other_as (code c :: n ++ t :: d).

(** [values n b]: [b] is a sequence of [n] values of any kind. *)
Inductive values : nat -> bytes -> Prop :=
| values_none : values 0 []
| values_int n v a b : int_as v a -> values n b -> values (S n) (a ++ b)
| values_bytes n s a b : bytes_as s a -> values n b -> values (S n) (a ++ b)
| values_bool n v a b : bool_as v a -> values n b -> values (S n) (a ++ b)
| values_float n v a b : float_as v a -> values n b -> values (S n) (a ++ b)
| values_other n a b : other_as a -> values n b -> values (S n) (a ++ b)
| values_array n k a x b : array_as (Z.of_nat k) a -> values k x -> values n b -> values (S n) (a ++ x ++ b)
| values_map n k a x b : map_as (Z.of_nat k) a -> values (2 * k) x -> values n b -> values (S n) (a ++ x ++ b).

(** * The schema *)

(** [object n body b]: [b] is an object whose first [n] fields are [body]; any number of other values may follow. *)
Definition object (n : Z) (body b : bytes) : Prop :=
  exists extra a x, array_as (n + Z.of_nat extra) a /\ values extra x /\ b = a ++ body ++ x.

(** [seq_as r l b]: [b] is an array of elements related by [r] to those of [l]; nil stands for the empty one. *)
Inductive seq_as {A} (r : A -> bytes -> Prop) : list A -> bytes -> Prop :=
| seq_nil : seq_as r [] [code 192]
| seq_array l a bs : array_as (zlen l) a -> Forall2 r l bs -> seq_as r l (a ++ concat bs).

Definition second : Z := 1000000000.
Definition minute : Z := 60 * second.
Definition hour : Z := 60 * minute.
Definition day : Z := 24 * hour.

(** Units of precision are sent as one byte: a number is cut to its lowest eight bits. *)

(** The abbreviated resolutions (window, unit of precision: 1 is the second, 5 the minute) and retentions. *)
Definition abbreviated_resolution (v : Z) : option (Z * Z) :=
  match v with
  | 1 => Some (1 * second, 1)
  | 2 => Some (10 * second, 1)
  | 3 => Some (1 * minute, 5)
  | 4 => Some (5 * minute, 5)
  | 5 => Some (10 * minute, 5)
  | _ => None
  end.
Definition abbreviated_retention (v : Z) : option Z :=
  match v with
  | 1 => Some hour
  | 2 => Some (6 * hour)
  | 3 => Some (12 * hour)
  | 4 => Some day
  | 5 => Some (2 * day)
  | 6 => Some (7 * day)
  | 7 => Some (14 * day)
  | 8 => Some (30 * day)
  | 9 => Some (45 * day)
  | _ => None
  end.

Inductive resolution_as : resolution -> bytes -> Prop :=
| resolution_known v w p t a b : abbreviated_resolution v = Some (w, p) ->
    int_as 14 t -> int_as v a -> object 2 (t ++ a) b -> resolution_as {| r_window := w; r_precision := p |} b
| resolution_full w p t a c b : 1 <= p mod 256 <= 8 ->
    int_as 15 t -> int_as w a -> int_as p c -> object 3 (t ++ a ++ c) b ->
    resolution_as {| r_window := w; r_precision := p mod 256 |} b.

Inductive retention_as : Z -> bytes -> Prop :=
| retention_known v r t a b : abbreviated_retention v = Some r ->
    int_as 16 t -> int_as v a -> object 2 (t ++ a) b -> retention_as r b
| retention_full r t a b : int_as 17 t -> int_as r a -> object 2 (t ++ a) b -> retention_as r b.

Definition sp_as (p : storage_policy) (b : bytes) : Prop :=
  exists x y, resolution_as (sp_resolution p) x /\ retention_as (sp_retention p) y /\ object 2 (x ++ y) b.

(** An aggregation ID is a 64-bit word, sent as the integer with the same bits, alone or in an array of one element at
    most. *)
Inductive agg_as : agg_id -> bytes -> Prop :=
| agg_default t b : int_as 18 t -> object 1 t b -> agg_as 0%N b
| agg_short v t a b : int_as 19 t -> int_as v a -> object 2 (t ++ a) b -> agg_as (Z.to_N (v mod 2 ^ 64)) b
| agg_long v t a b : int_as 20 t -> seq_as int_as [v] a -> object 2 (t ++ a) b -> agg_as (Z.to_N (v mod 2 ^ 64)) b
| agg_long_empty t a b : int_as 20 t -> seq_as int_as [] a -> object 2 (t ++ a) b -> agg_as 0%N b.

Definition policy_as (p : policy) (b : bytes) : Prop :=
  exists x y, sp_as (p_storage p) x /\ agg_as (p_agg p) y /\ object 2 (x ++ y) b.

Definition staged_as (s : staged_policies) (b : bytes) : Prop :=
  exists x y z, int_as (stp_cutover s) x /\ bool_as (stp_tombstoned s) y /\ seq_as policy_as (stp_policies s) z /\
    object 3 (x ++ y ++ z) b.

Inductive policies_list_as : list staged_policies -> bytes -> Prop :=
| policies_default t b : int_as 10 t -> object 1 t b ->
    policies_list_as [{| stp_cutover := 0; stp_tombstoned := false; stp_policies := [] |}] b
| policies_custom l t a b : int_as 11 t -> seq_as staged_as l a -> object 2 (t ++ a) b -> policies_list_as l b.

(** * Unaggregated metrics *)

Inductive sample := SCounter (id : bytes) (v : Z) | STimer (id : bytes) (vs : list Z) | SGauge (id : bytes) (v : Z).

Inductive sample_as : sample -> bytes -> Prop :=
| counter_as id v x y b : bytes_as id x -> int_as v y -> object 2 (x ++ y) b -> sample_as (SCounter id v) b
| timer_as id vs x y b : bytes_as id x -> seq_as float_as vs y -> object 2 (x ++ y) b -> sample_as (STimer id vs) b
| gauge_as id v x y b : bytes_as id x -> float_as v y -> object 2 (x ++ y) b -> sample_as (SGauge id v) b.

Definition plain_code (m : sample) : Z := match m with SCounter _ _ => 6 | STimer _ _ => 7 | SGauge _ _ => 8 end.
Definition policies_code (m : sample) : Z := match m with SCounter _ _ => 2 | STimer _ _ => 3 | SGauge _ _ => 4 end.

(** A message: a metric without policies, or with a policies list. *)
Definition metric_message : Type := sample * option (list staged_policies).
Inductive message_as : metric_message -> bytes -> Prop :=
| plain_as m v t x b w : v <= 1 -> int_as v w -> int_as (plain_code m) t -> sample_as m x ->
    object 2 (t ++ x) b -> message_as (m, None) (w ++ b)
| with_policies_as m l v t x y z b w : v <= 1 -> int_as v w -> int_as (policies_code m) t -> sample_as m x ->
    policies_list_as l y -> object 2 (x ++ y) z -> object 2 (t ++ z) b -> message_as (m, Some l) (w ++ b).

(** Something a newer writer sent: a version higher than 1 and an array of anything. *)
Definition newer (b : bytes) : Prop :=
  exists v n w a x, 1 < v /\ int_as v w /\ array_as (Z.of_nat n) a /\ values n x /\ b = w ++ a ++ x.

(** A stream: messages, among which a newer writer may have put its own. *)
Inductive stream_as : list metric_message -> bytes -> Prop :=
| stream_end : stream_as [] []
| stream_message mm l b r : message_as mm b -> stream_as l r -> stream_as (mm :: l) (b ++ r)
| stream_newer l b r : newer b -> stream_as l r -> stream_as l (b ++ r).

(** What the iterator shows. *)
Definition shown (u : munion) : option sample :=
  match mu_type u with
  | 1 => Some (SCounter (mu_id u) (mu_counter u))
  | 2 => Some (STimer (mu_id u) (mu_timer u))
  | 3 => Some (SGauge (mu_id u) (mu_gauge u))
  | _ => None
  end.

(** [mdecoded it l e]: the loop [for it.Next() { use(it.Metric(), it.PoliciesList()) }] sees exactly [l], ends, and finds
    [it.Err() = e]. *)
Inductive mdecoded : mit -> list (sample * list staged_policies) -> merr -> Prop :=
| mdecoded_stop it it' e : mnext it = (false, it') -> d_err (x_st it') = Some e -> mdecoded it [] e
| mdecoded_more it it' m l e : mnext it = (true, it') -> shown (x_metric it') = Some m -> mdecoded it' l e ->
    mdecoded it ((m, x_policies it') :: l) e.

(** [agrees seen sent]: the metric is the one sent; so are the policies, if some were. *)
Definition agrees (seen : sample * list staged_policies) (sent : metric_message) : Prop :=
  fst seen = fst sent /\ (forall l, snd sent = Some l -> snd seen = l).

(** Metrics as handed to the encoder; a nil ID is empty. *)
Definition id_content (id : option bytes) : bytes := match id with None => [] | Some s => s end.
Definition content (m : metric) : sample :=
  match m with
  | Counter id v => SCounter (id_content id) v
  | BatchTimer id vs => STimer (id_content id) vs
  | Gauge id v => SGauge (id_content id) v
  end.

(** Values of their Go types, valid precisions, and lengths below 2^32. *)
Definition short {A} (l : list A) : Prop := zlen l < 2 ^ 32.
Definition policy_sendable (p : policy) : Prop := sp_sendable (p_storage p) /\ is_agg_id (p_agg p).
Definition staged_sendable (s : staged_policies) : Prop :=
  is_int64 (stp_cutover s) /\ short (stp_policies s) /\ Forall policy_sendable (stp_policies s).
Definition policies_sendable (l : list staged_policies) : Prop := short l /\ Forall staged_sendable l.
Definition metric_sendable (m : metric) : Prop :=
  match m with
  | Counter id v => short (id_content id) /\ is_int64 v
  | BatchTimer id vs => short (id_content id) /\ short vs /\ Forall is_float64 vs
  | Gauge id v => short (id_content id) /\ is_float64 v
  end.

(** A message for the encoder, and what it appends to its buffer. *)
Definition metric_input : Type := metric * option (list staged_policies).
Definition input_sendable (i : metric_input) : Prop :=
  metric_sendable (fst i) /\ match snd i with None => True | Some l => policies_sendable l end.
Definition encode_input (i : metric_input) : bytes :=
  match snd i with None => encode_plain (fst i) | Some l => encode_with_policies (fst i) l end.
Definition input_message (i : metric_input) : metric_message := (content (fst i), snd i).

(** * Aggregated metrics *)

Record amessage := mk_am { am_id : bytes; am_time : Z; am_value : Z; am_sp : storage_policy; am_at : Z }.

(** The metric itself is embedded as bytes. *)
Inductive raw_as : bytes -> Z -> Z -> bytes -> Prop :=
| raw_metric_as id t v ver w x y z b : ver <= 1 -> int_as ver w -> bytes_as id x -> int_as t y -> float_as v z ->
    object 3 (x ++ y ++ z) b -> raw_as id t v (w ++ b).

(** [starts_with_metric id t v d]: a version of at most 1, an array of three elements or more, and the ID, the time and the
    value in a row; whatever follows is not looked at. *)
Definition starts_with_metric (id : bytes) (t v : Z) (d : bytes) : Prop :=
  exists ver extra w h x y z rest, ver <= 1 /\ int_as ver w /\ array_as (3 + Z.of_nat extra) h /\
    bytes_as id x /\ int_as t y /\ float_as v z /\ d = w ++ h ++ x ++ y ++ z ++ rest.

(** Without an encoding time, the time shown is 0. *)
Inductive amessage_as : amessage -> bytes -> Prop :=
| am_without id t v sp ver w r d x y z b : ver <= 1 -> int_as ver w -> int_as 5 r -> raw_as id t v d -> bytes_as d x ->
    sp_as sp y -> object 2 (x ++ y) z -> object 2 (r ++ z) b -> amessage_as (mk_am id t v sp 0) (w ++ b)
| am_with id t v sp at_nanos ver w r d x y a z b : ver <= 1 -> int_as ver w -> int_as 22 r -> raw_as id t v d ->
    bytes_as d x -> sp_as sp y -> int_as at_nanos a -> object 3 (x ++ y ++ a) z -> object 2 (r ++ z) b ->
    amessage_as (mk_am id t v sp at_nanos) (w ++ b).

Inductive astream_as : list amessage -> bytes -> Prop :=
| astream_end : astream_as [] []
| astream_message am l b r : amessage_as am b -> astream_as l r -> astream_as (am :: l) (b ++ r)
| astream_newer l b r : newer b -> astream_as l r -> astream_as l (b ++ r).

(** A sequence of calls of the accessors of a raw metric, and their results. *)
Fixpoint accesses (l : list accessor) (w : raw_metric) : list answer :=
  match l with [] => [] | a :: l => fst (access a w) :: accesses l (snd (access a w)) end.

(** The raw metric after a sequence of calls. *)
Fixpoint after (l : list accessor) (w : raw_metric) : raw_metric :=
  match l with [] => w | a :: l => after l (snd (access a w)) end.

(** What each accessor should return. *)
Definition right_answer (d id : bytes) (t v : Z) (a : accessor) : answer :=
  match a with
  | GetID => AnID id
  | GetTime => ATime t
  | GetValue => AValue v
  | GetMetric => AMetric id t v
  | GetBytes => ABytes d
  end.

(** [adecoded it l e]: the loop [for it.Next() { use(it.Value()) }] sees exactly [l] (the raw metric read through
    [Metric()]), ends, and finds [it.Err() = e]. *)
Inductive adecoded : ait -> list amessage -> merr -> Prop :=
| adecoded_stop it it' e : anext it = (false, it') -> d_err (g_st it') = Some e -> adecoded it [] e
| adecoded_more it it' id t v l e : anext it = (true, it') -> fst (access GetMetric (g_metric it')) = AMetric id t v ->
    adecoded it' l e -> adecoded it (mk_am id t v (g_sp it') (g_at it') :: l) e.

Definition id_of (i : metric_id) : bytes :=
  match i with Raw id => id_content id | Chunked p d s => p ++ d ++ s end.
Record ainput := mk_ai { ai_id : metric_id; ai_time : Z; ai_value : Z; ai_sp : storage_policy; ai_at : option Z }.
Definition ainput_sendable (i : ainput) : Prop :=
  zlen (id_of (ai_id i)) < 2 ^ 32 - 32 /\ is_int64 (ai_time i) /\ is_float64 (ai_value i) /\ sp_sendable (ai_sp i) /\
  match ai_at i with None => True | Some t => is_int64 t end.
Definition encode_ainput (i : ainput) : bytes :=
  encode_aggregated (ai_id i) (ai_time i) (ai_value i) (ai_sp i) (ai_at i).
Definition ainput_message (i : ainput) : amessage :=
  mk_am (id_of (ai_id i)) (ai_time i) (ai_value i) (ai_sp i) (match ai_at i with None => 0 | Some t => t end).
