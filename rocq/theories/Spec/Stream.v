(** Reading a stream message by message. *)
From Verif Require Import Model.Base Model.Struct Model.Stream Spec.Message Spec.Reach.

(** [written ws stream]: the writers [ws] (field count, struct, content), one after
    another, put exactly [stream] on the wire. *)
Inductive written : list (nat * strct * msg) -> bytes -> Prop :=
| W_nil : written [] []
| W_cons n s m s' b ws stream :
    reached n s m -> MarshalWriter s = Ok (s', b) -> written ws stream ->
    written ((n, s, m) :: ws) (b ++ stream).

(** [read_each ns stream ts rest]: reading once with a new struct of each of the field
    counts [ns] succeeds every time, gives the structs [ts] and leaves [rest]. *)
Inductive read_each : list nat -> bytes -> list strct -> bytes -> Prop :=
| RE_nil stream : read_each [] stream [] stream
| RE_cons n ns s0 back stream t k stream' ts rest :
    New n = Ok s0 ->
    UnmarshalReader back s0 stream = Ok (t, k, true, stream') ->
    k = len stream - len stream' ->
    read_each ns stream' ts rest ->
    read_each (n :: ns) stream (t :: ts) rest.
