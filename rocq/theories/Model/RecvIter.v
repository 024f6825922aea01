(** The receive loop of a client stream, recvIter, rpc/client/client.go 1161-1215, together with the
    connection of Model/Client.v: the loop, the connection's goroutines and the cancellation of
    the context take steps in any order. *)
From Verif.Model Require Import Base Compress Client.
Local Open Scope Z_scope.

(** Where the loop is. *)
Inductive ipc :=
| ILoop                 (* in the select of 1164 *)
| IDrain                (* in the select of 1168, after ctx.Done *)
| ICheck                (* at checkClose, 1203 *)
| IDone (stopped : bool). (* returned; stopped: because yield returned false *)

(** The loop's state: what it yielded, whether its context is cancelled, and *errPtr. *)
Record riter := mkI { ri_pc : ipc; ri_yield : list bytes; ri_ctx : bool; ri_err : option Z }.
Definition start : riter := mkI ILoop [] false None.
Definition at_pc (t : riter) (pc : ipc) : riter := mkI pc (ri_yield t) (ri_ctx t) (ri_err t).

(** What happens with a payload taken from recvCh, 1173-1183 and 1193-1203; go is what yield
    returns. *)
Definition take (t : riter) (p : payload) (go : bool) : riter :=
  if p_end p && (Z.of_nat (length (p_data p)) =? 0) then at_pc t ICheck
  else
    let t := mkI (ri_pc t) (ri_yield t ++ [p_data p]) (ri_ctx t) (ri_err t) in
    if negb go then at_pc t (IDone true)
    else if p_end p then at_pc t ICheck
    else t.

(** checkClose, 1206-1214.  The message is left in closeCh: a second loop over the same session
    would see it again, which the code does not do; only one loop is modelled. *)
Definition checkClose (t : riter) (x : sess) : riter :=
  mkI (IDone false) (ri_yield t) (ri_ctx t)
    (match so_close x with Some c => if negb (c =? 0) then Some c else ri_err t | None => ri_err t end).

Section Steps.
Variable reg : creg.
Variable maxRecv : Z.
Variable o : nat.        (* the session *)

Definition taken (s : client) : option (list payload) := option_map so_out (nth_error (c_objs s) o).

(** Steps of the loop itself. *)
Inductive lstep : client -> riter -> client -> riter -> Prop :=
| I_Take s t x p q go : (ri_pc t = ILoop \/ ri_pc t = IDrain) -> nth_error (c_objs s) o = Some x -> so_recv x = p :: q ->
    lstep s t (upd_obj s o (dequeue p)) (take t p go)
(* a receive from a closed, empty channel *)
| I_Closed s t x : (ri_pc t = ILoop \/ ri_pc t = IDrain) -> nth_error (c_objs s) o = Some x -> so_recv x = [] -> so_recv_closed x = true ->
    lstep s t s (at_pc t ICheck)
| I_Ctx s t : ri_pc t = ILoop -> ri_ctx t = true -> lstep s t s (at_pc t IDrain)
(* the default of 1186 *)
| I_Default s t x : ri_pc t = IDrain -> nth_error (c_objs s) o = Some x -> so_recv x = [] -> so_recv_closed x = false ->
    lstep s t s (at_pc t ICheck)
| I_Check s t x : ri_pc t = ICheck -> nth_error (c_objs s) o = Some x -> lstep s t s (checkClose t x).

Inductive istep : client -> riter -> client -> riter -> Prop :=
| I_Own s t s' t' : lstep s t s' t' -> istep s t s' t'
(* the connection; nobody else receives from this session's channel *)
| I_Env s t e s' : cstep reg maxRecv s e s' -> taken s' = taken s -> istep s t s' t
| I_Cancel s t : istep s t s (mkI (ri_pc t) (ri_yield t) true (ri_err t)).

(** Executions: the loop starts on a session that the server has accepted. *)
Inductive irun : client -> riter -> Prop :=
| ir_start es s x : crun reg maxRecv New es s -> nth_error (c_objs s) o = Some x -> so_start x <> None -> so_out x = [] ->
    irun s start
| ir_step s t s' t' : irun s t -> istep s t s' t' -> irun s' t'.

(** Steps of the loop only. *)
Inductive lrun : client -> riter -> client -> riter -> Prop :=
| lr_refl s t : lrun s t s t
| lr_step s t s1 t1 s2 t2 : lstep s t s1 t1 -> lrun s1 t1 s2 t2 -> lrun s t s2 t2.
End Steps.
