(** rpc/interceptor/chain.go. *)
From Coq Require Import ZArith List.
Import ListNotations.

(** The four kinds of interceptor (interceptor.go:27-76) have one shape: given the call's
    arguments A (context and request, context and stream, or context), what is known about
    the method I, and the continuation, run the call.  C is the type of such runs (a Go
    call with its effects and result), [panic] the run that panics. *)
Section Chain.
Variables A I C : Type.
Variable panic : C.

Definition handler := A -> C.
Definition interceptor := A -> I -> handler -> C.
(** A possibly nil interceptor; calling nil panics. *)
Definition call_interceptor (i : option interceptor) (a : A) (info : I) (h : handler) : C :=
  match i with Some f => f a info h | None => panic end.

(** chainUnaryServerHandler 22-29, chainStreamServerHandler 46-53, chainUnaryClientInvoker
    70-77, chainStreamClientStreamer 94-101.  idx counts up to len(interceptors); [fuel]
    bounds the recursion (each level goes from idx to idx+1), and running out of it or
    indexing past the end is a panic. *)
Fixpoint chain_handler (fuel : nat) (interceptors : list (option interceptor)) (idx : nat) (info : I)
    (final : handler) : handler :=
  if Nat.eqb idx (length interceptors) then final
  else
    fun a =>
      match fuel, nth_error interceptors idx with
      | S fuel, Some i => call_interceptor i a info (chain_handler fuel interceptors (S idx) info final)
      | _, _ => panic
      end.

(** ChainUnaryServer 9-20, ChainStreamServer 33-44, ChainUnaryClient 57-68,
    ChainStreamClient 81-92; None is nil. *)
Definition Chain (interceptors : list (option interceptor)) : option interceptor :=
  match interceptors with
  | [] => None
  | [i] => i
  | _ => Some (fun a info h => chain_handler (length interceptors) interceptors 0 info h a)
  end.
End Chain.
Arguments Chain {A I C}.
Arguments chain_handler {A I C}.
Arguments call_interceptor {A I C}.
