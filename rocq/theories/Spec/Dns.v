(** What a target names. *)
From Verif.Model Require Import Base.
From Verif.Model Require Export Dns.
Local Open Scope Z_scope.

(** A text without colons and brackets, as names and ports are. *)
Definition plain (s : bytes) : Prop := ~ In 58 s /\ ~ In 91 s /\ ~ In 93 s.
(** An address literal: colons are allowed. *)
Definition unbracketed (s : bytes) : Prop := ~ In 91 s /\ ~ In 93 s.
(** The address of a host and a port as it is dialled: an IPv6 address is in brackets. *)
Inductive addressed (host port : bytes) : bytes -> Prop :=
| ad_v4 : ~ In 58 host -> addressed host port (host ++ [58] ++ port)
| ad_v6 : In 58 host -> addressed host port ([91] ++ host ++ [93] ++ [58] ++ port).
(** The port that is meant if the target has none: 443. *)
Definition https : bytes := [52; 52; 51].
