(** Specification vocabulary for streams that mix msgpack and protobuf messages. *)
From Coq Require Import Ascii String NArith ZArith Bool List.
From Verif.Base Require Import Bytes Slice.
From Verif.Model Require Import AggType Policy Pipeline Metadata LegacyConvert ProtoWire Messages ProtoStream MsgpackLib Msgpack
  Migration.
From Verif.Spec Require Import ProtoStreamSpec MsgpackSpec.
Import ListNotations.
Open Scope Z_scope.

(** What was sent: a msgpack metric, with or without policies, or a protobuf message. *)
Inductive item := Old (mm : metric_message) | Recent (m : message).

(** [item_as max i b]: [b] is a form of the item [i]: for msgpack any form of the message whose first byte is odd, for
    protobuf what an encoder limited to messages of [max] bytes produces for it. *)
Inductive item_as (max : Z) : item -> bytes -> Prop :=
| old_as mm c b : Z.odd (Z.of_N (N_of_ascii c)) = true -> message_as mm (c :: b) -> item_as max (Old mm) (c :: b)
| recent_as u m b : selected u = Some m -> sendable m -> alone u max b -> item_as max (Recent m) b.

(** The message a metric becomes when given staged metadatas. *)
Definition with_metadatas (s : sample) (ms : staged_metadatas) : message :=
  match s with
  | SCounter id v => MCounter (mk_counter id v) ms
  | STimer id vs => MTimer (mk_timer id vs) ms
  | SGauge id v => MGauge (mk_gauge id v) ms
  end.

(** [received i m]: seeing [m] is right when [i] was sent. *)
Definition received (i : item) (m : message) : Prop :=
  match i with
  | Old (s, o) => exists ms, m = with_metadatas s ms /\ forall l, o = Some l -> ms = to_staged_metadatas l
  | Recent m' => m = as_received m'
  end.

(** [mig_decoded it l e]: the loop [for it.Next() { use(it.Current()) }] sees exactly [l], ends, and finds
    [it.Err() = e]; [mig_crashed it l]: it sees [l] and then panics. *)
Inductive mig_decoded : mig -> list message -> mig_error -> Prop :=
| mig_decoded_stop it it' e : mig_next it = QStop it' -> mig_err it' = Some e -> mig_decoded it [] e
| mig_decoded_more it it' m l e : mig_next it = QMore it' -> selected (q_msg it') = Some m -> mig_decoded it' l e ->
    mig_decoded it (m :: l) e.
Inductive mig_crashed : mig -> list message -> Prop :=
| mig_crashed_now it : mig_next it = QCrash -> mig_crashed it []
| mig_crashed_later it it' m l : mig_next it = QMore it' -> selected (q_msg it') = Some m -> mig_crashed it' l ->
    mig_crashed it (m :: l).

(** [written max i b]: one of the encoders writes [b] for the item [i]. *)
Inductive written (max : Z) : item -> bytes -> Prop :=
| old_written i : input_sendable i -> written max (Old (input_message i)) (encode_input i)
| recent_written u m b : selected u = Some m -> sendable m -> alone u max b -> written max (Recent m) b.
