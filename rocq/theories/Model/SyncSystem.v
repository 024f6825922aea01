(** One session of a sync method, from end to end: the calls of the client (Model/SyncClient.v), the messages on their way, the
    session of the server (Model/SrvSession.v), the messages on their way back.  The connection keeps the order of messages
    (Model/Transport.v).  A message can be lost on the way: one above the receiver's limit is dropped, rpc/client/conn.go and
    rpc/server/conn.go handlePayload, and a broken connection loses those under way. *)
From Coq Require Import ZArith List Bool.
Import ListNotations.
From Verif.Model Require Import Base Client SyncClient.
From Verif.Model Require SrvSession.

(** g_lost (history): a message was lost. *)
Record sys := mkG { g_y : syncc; g_up : list (Z * bytes); g_x : SrvSession.st; g_dn : list SrvSession.wmsg; g_lost : bool }.
Definition newSys : sys := mkG newSync [] (SrvSession.init SrvSession.Sync) [] false.

Inductive gstep (m : Z) : sys -> sys -> Prop :=
(* the client: calls, its Close, the end of its session or of its connection; what it sends is on its way *)
| G_Client y up x dn l e y' : ystep y e y' -> y_log y' = y_log y ->
    gstep m (mkG y up x dn l) (mkG y' (up ++ skipn (length (y_up y)) (y_up y')) x dn l)
(* a request comes in at the server, or is lost *)
| G_Up y r d up x dn l x' : SrvSession.step SrvSession.Sync m x (SrvSession.EArrive (SrvSession.mkP r d false)) = Some x' ->
    gstep m (mkG y ((r, d) :: up) x dn l) (mkG y up x' dn l)
| G_UpLost y a up x dn l : gstep m (mkG y (a :: up) x dn l) (mkG y up x dn true)
(* the server: all but the arrival of requests; what it sends is on its way *)
| G_Server y up x dn l e x' : (forall p, e <> SrvSession.EArrive p) -> SrvSession.step SrvSession.Sync m x e = Some x' ->
    gstep m (mkG y up x dn l) (mkG y up x' (dn ++ map snd (skipn (length (SrvSession.x_wire x)) (SrvSession.x_wire x'))) l)
(* an answer comes in at the client, or is lost; a Close ends the client's session *)
| G_Down y up x r d f dn l : y_recv_closed y = false ->
    gstep m (mkG y up x (SrvSession.WData r d f :: dn) l) (mkG (set_ylog (set_recv y (y_recv y ++ [mkP r d f])) (y_log y ++ [mkP r d f])) up x dn l)
| G_DownClose y up x code md dn l y' : ystep y YEnd y' -> gstep m (mkG y up x (SrvSession.WClose code md :: dn) l) (mkG y' up x dn l)
| G_DownLost y up x w dn l : gstep m (mkG y up x (w :: dn) l) (mkG y up x dn true).
Inductive greach (m : Z) : sys -> Prop :=
| gr_new : greach m newSys
| gr_step s s' : greach m s -> gstep m s s' -> greach m s'.
