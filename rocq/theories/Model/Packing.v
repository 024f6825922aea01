(** Negotiation of packing on a connection: which messages each end packs and which it takes for
    packed.  Only the packing bit and what negotiates it is modelled; the wires are reliable and
    ordered. *)
From Coq Require Import ZArith List Bool.
Import ListNotations.
From Verif.Model Require Import Base.
Open Scope Z_scope.

(** Open (with its OpenID), OpenAck (OpenID, accepted, Packing), and all other types, which both
    sendMsg treat alike. *)
Inductive pmsg := PMOpen (oid : Z) | PMAck (oid : Z) (ok packing : bool) | PMOther.

Record pconn := mkPC {
  pc_neg : bool;                 (* client packingNegotiated *)
  pc_cen : bool;                 (* client packingEnabled *)
  pc_pending : list Z;           (* client pending OpenIDs *)
  pc_next : Z;                   (* client nextOpenID *)
  pc_sen : bool;                 (* server packingEnabled *)
  pc_sids : Z;                   (* server nextSessionID *)
  pc_ack : option pmsg;          (* OpenAck the server's read loop is about to send *)
  pc_up : list (bool * pmsg);    (* client to server; the bit says whether it was packed *)
  pc_down : list (bool * pmsg);
  pc_bad : bool                  (* some message was read in the other form than it was sent *)
}.
(** Conn.New and newServerConn (nextSessionID starts at 1). *)
Definition newPConn : pconn := mkPC false false [] 0 false 1 None [] [] false.

(** client.go:sendMsg, 778 *)
Definition c_packs (s : pconn) (m : pmsg) : bool := pc_cen s && negb (match m with PMOpen _ => true | _ => false end).
(** conn.go:sendMsg, 614 *)
Definition s_packs (s : pconn) (m : pmsg) : bool :=
  pc_sen s && negb (match m with PMOpen _ | PMAck _ _ _ => true | PMOther => false end).

Definition c_send (s : pconn) (m : pmsg) : pconn :=
  mkPC (pc_neg s) (pc_cen s) (pc_pending s) (pc_next s) (pc_sen s) (pc_sids s) (pc_ack s) (pc_up s ++ [(c_packs s m, m)]) (pc_down s) (pc_bad s).
Definition s_send (s : pconn) (m : pmsg) : pconn :=
  mkPC (pc_neg s) (pc_cen s) (pc_pending s) (pc_next s) (pc_sen s) (pc_sids s) (pc_ack s) (pc_up s) (pc_down s ++ [(s_packs s m, m)]) (pc_bad s).

(** openSession, 821-858. *)
Definition p_open (s : pconn) : pconn :=
  c_send (mkPC (pc_neg s) (pc_cen s) (pc_next s :: pc_pending s) (pc_next s + 1) (pc_sen s) (pc_sids s) (pc_ack s) (pc_up s) (pc_down s) (pc_bad s))
    (PMOpen (pc_next s)).
(** openSession gives up: 858-863, 872-875, 879-882. *)
Definition p_abandon (s : pconn) (oid : Z) : pconn :=
  mkPC (pc_neg s) (pc_cen s) (filter (fun x => negb (x =? oid)) (pc_pending s)) (pc_next s) (pc_sen s) (pc_sids s) (pc_ack s) (pc_up s) (pc_down s) (pc_bad s).

(** serve's read, 145-149: the message is read packed iff packing is enabled. *)
Definition s_took (s : pconn) (b : bool) (q : list (bool * pmsg)) (sen : bool) (sids : Z) (ack : option pmsg) : pconn :=
  mkPC (pc_neg s) (pc_cen s) (pc_pending s) (pc_next s) sen sids ack q (pc_down s) (pc_bad s || negb (Bool.eqb b (pc_sen s))).
(** handleOpen, 302-358.  [served]: the connection is not draining and the registry has a handler
    of the right type. *)
Definition p_handleOpen (use allow : bool) (s : pconn) (b : bool) (q : list (bool * pmsg)) (oid : Z) (served : bool) : pconn :=
  if served then
    let sen := pc_sen s || ((pc_sids s =? 1) && use && allow) in
    s_took s b q sen (pc_sids s + 1) (Some (PMAck oid true sen))
  else s_took s b q (pc_sen s) (pc_sids s) (Some (PMAck oid false false)).

(** readLoop's read, 576-593. *)
Definition c_took (s : pconn) (b : bool) (q : list (bool * pmsg)) (neg cen : bool) (pend : list Z) : pconn :=
  mkPC neg cen pend (pc_next s) (pc_sen s) (pc_sids s) (pc_ack s) (pc_up s) q (pc_bad s || negb (Bool.eqb b (pc_cen s))).
(** handleOpenAck, 649-673. *)
Definition p_handleAck (use : bool) (s : pconn) (b : bool) (q : list (bool * pmsg)) (oid : Z) (ok packing : bool) : pconn :=
  if existsb (Z.eqb oid) (pc_pending s) then
    let pend := filter (fun x => negb (x =? oid)) (pc_pending s) in
    if ok then
      if pc_neg s then c_took s b q true (pc_cen s) pend
      else c_took s b q true (use && packing) pend
    else c_took s b q (pc_neg s) (pc_cen s) pend
  else c_took s b q (pc_neg s) (pc_cen s) (pc_pending s).

Inductive pevent := PEOpen | PESend | PEAbandon | PEServer | PERead.

Section Steps.
(** usePacking of the client, allowPacking of the server. *)
Variables use allow : bool.

Inductive pstep : pconn -> pevent -> pconn -> Prop :=
| P_Open s : pstep s PEOpen (p_open s)
| P_Send s : pstep s PESend (c_send s PMOther)
| P_Abandon s oid : pstep s PEAbandon (p_abandon s oid)
(* a handler, GracefulClose's GoAway or the read loop's Pong *)
| P_Server s : pstep s PEServer (s_send s PMOther)
| P_SRead s b m q served : pc_ack s = None -> pc_up s = (b, m) :: q ->
    pstep s PERead (match m with
                    | PMOpen oid => p_handleOpen use allow s b q oid served
                    | _ => s_took s b q (pc_sen s) (pc_sids s) None
                    end)
| P_SAck s m : pc_ack s = Some m ->
    pstep s PERead (s_send (mkPC (pc_neg s) (pc_cen s) (pc_pending s) (pc_next s) (pc_sen s) (pc_sids s) None (pc_up s) (pc_down s) (pc_bad s)) m)
| P_CRead s b m q : pc_down s = (b, m) :: q ->
    pstep s PERead (match m with
                    | PMAck oid ok packing => p_handleAck use s b q oid ok packing
                    | _ => c_took s b q (pc_neg s) (pc_cen s) (pc_pending s)
                    end).

Inductive prun : pconn -> list pevent -> pconn -> Prop :=
| pr_refl s : prun s [] s
| pr_step s es s1 e s2 : prun s es s1 -> pstep s1 e s2 -> prun s (es ++ [e]) s2.

(** Runs in which every event is allowed by [ok] in the state it happens. *)
Inductive prun_in (ok : pconn -> pevent -> Prop) : pconn -> pconn -> Prop :=
| pri_refl s : prun_in ok s s
| pri_step s s1 e s2 : prun_in ok s s1 -> ok s1 e -> pstep s1 e s2 -> prun_in ok s s2.
End Steps.
