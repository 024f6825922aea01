(** What a session is owed: the payloads the peer sent on it, in order.

    [stream_on sid l] reads the messages [l] that arrived after the session was accepted under
    the id [sid] and collects, until the peer closes the session, the payloads addressed to it
    that can be decompressed and are within the size limit. *)
From Coq Require Import List ZArith.
Import ListNotations.
From Verif.Model Require Import Base Compress Client.
Local Open Scope Z_scope.

Section Delivery.
Variable reg : creg.
Variable limit : Z.      (* 0 or less: no limit *)

Definition owed (w : wpayload) : list payload :=
  match Decompress reg (wp_comp w) (wp_data w) with
  | Ok d => if limit <=? 0 then [mkP (wp_req w) d (wp_end w)]
            else if Z.of_nat (length d) <=? limit then [mkP (wp_req w) d (wp_end w)] else []
  | _ => []
  end.
Fixpoint stream_on (sid : Z) (l : list smsg) : list payload :=
  match l with
  | [] => []
  | MClose sid' _ :: l => if sid' =? sid then [] else stream_on sid l
  | MPayload w :: l => if wp_sess w =? sid then owed w ++ stream_on sid l else stream_on sid l
  | _ :: l => stream_on sid l
  end.
End Delivery.

(** The error code of the peer's Close of the session, if it has arrived. *)
Fixpoint close_code (sid : Z) (l : list smsg) : option Z :=
  match l with
  | [] => None
  | MClose sid' code :: l => if sid' =? sid then Some code else close_code sid l
  | _ :: l => close_code sid l
  end.

(** What a receive loop yields for a stream of payloads: the data of each up to the first that is
    marked as the last; that one is yielded too unless it is empty. *)
Fixpoint until_end (l : list payload) : list bytes :=
  match l with
  | [] => []
  | p :: l => if p_end p then match p_data p with [] => [] | d => [d] end else p_data p :: until_end l
  end.
Definition has_end (l : list payload) : Prop := exists p, In p l /\ p_end p = true.

(** The session ids a server hands out. *)
Definition accepted_ids (l : list smsg) : list Z :=
  flat_map (fun m => match m with MOpenAck _ sid true => [sid] | _ => [] end) l.

(** [subseq a b]: b with some elements left out, in the same order. *)
Inductive subseq {A} : list A -> list A -> Prop :=
| ss_nil : subseq [] []
| ss_take x a b : subseq a b -> subseq (x :: a) (x :: b)
| ss_skip x a b : subseq a b -> subseq a (x :: b).

(** The payload the read loop has accepted for a session and is about to put into its channel. *)
Definition flight (r : reader) (o : nat) : list payload :=
  match r with RPayload o' p => if Nat.eqb o o' then [p] else [] | _ => [] end.

(** The same for the server's side of a session; the client ends it with Close or Cancel. *)
From Verif.Model Require Import ServerConn.
Section ServerDelivery.
Variable reg : creg.
Variable limit : Z.
Fixpoint requests_on (sid : Z) (l : list cmsg) : list payload :=
  match l with
  | [] => []
  | CClose sid' :: l => if sid' =? sid then [] else requests_on sid l
  | CCancel sid' _ :: l => if sid' =? sid then [] else requests_on sid l
  | CPayload w :: l => if wp_sess w =? sid then owed reg limit w ++ requests_on sid l else requests_on sid l
  | _ :: l => requests_on sid l
  end.
End ServerDelivery.
Definition held (r : sreader) (o : nat) : list payload :=
  match r with VPayload o' p => if Nat.eqb o o' then [p] else [] | _ => [] end.
