(** SegmentPools.RegisterPool and FieldIndexPools.RegisterPool, clawc/languages/go/segment/segment.go:28-46, 88-107:
    concurrent registration by copy and compare-and-swap. *)
From Verif.Model Require Import Base.

(** A map of pools behind an atomic pointer.  Pointers are numbered: every new map gets a
    fresh number, so the comparison of CompareAndSwap compares numbers (a map that a goroutine
    still holds is not reused).  Keys are mappings, values the pool objects, both as numbers. *)
Definition pmap := list (Z * Z).
Fixpoint pm_find (m : Z) (p : pmap) : option Z :=
  match p with
  | [] => None
  | (k, v) :: p => if m =? k then Some v else pm_find m p
  end.

(** Where a goroutine that runs RegisterPool(m) is. *)
Inductive where_ :=
| Start                       (* before line 31 *)
| Loaded (ver : nat) (old : pmap)   (* after the Load of line 31 *)
| Returned.
Record thread := mkThread { th_map : Z; th_pc : where_ }.

Record pstate := mkP {
  p_ver : nat; p_cur : pmap;      (* what s.pools points to *)
  p_next : nat;                   (* fresh pointer numbers *)
  p_pool : Z;                     (* fresh pool objects *)
  p_threads : list thread }.

Fixpoint set_thread (l : list thread) (i : nat) (t : thread) : list thread :=
  match l, i with
  | [], _ => []
  | _ :: l, O => t :: l
  | x :: l, S i => x :: set_thread l i t
  end.

Inductive pstep : pstate -> pstate -> Prop :=
(* a goroutine calls RegisterPool (or Get for an unknown mapping, line 54) *)
| PCall v c n k l m : pstep (mkP v c n k l) (mkP v c n k (l ++ [mkThread m Start]))
(* line 31 *)
| PLoad v c n k l i m : nth_error l i = Some (mkThread m Start) ->
    pstep (mkP v c n k l) (mkP v c n k (set_thread l i (mkThread m (Loaded v c))))
(* lines 32-34 *)
| PPresent v c n k l i m ver old x : nth_error l i = Some (mkThread m (Loaded ver old)) -> pm_find m old = Some x ->
    pstep (mkP v c n k l) (mkP v c n k (set_thread l i (mkThread m Returned)))
(* lines 35-43, the swap succeeds *)
| PSwap v c n k l i m old : nth_error l i = Some (mkThread m (Loaded v old)) -> pm_find m old = None ->
    pstep (mkP v c n k l) (mkP n ((m, k) :: old) (S n) (k + 1) (set_thread l i (mkThread m Returned)))
(* lines 43-45, the swap fails and the call starts again *)
| PRetry v c n k l i m ver old : nth_error l i = Some (mkThread m (Loaded ver old)) -> pm_find m old = None -> ver <> v ->
    pstep (mkP v c n k l) (mkP v c (S n) (k + 1) (set_thread l i (mkThread m Start))).

(** NewSegmentPools, 21-26. *)
Definition p_init : pstate := mkP 0 [] 1 0 [].
Inductive preach : pstate -> Prop :=
| PInit : preach p_init
| PStep s s' : preach s -> pstep s s' -> preach s'.
Inductive psteps : pstate -> pstate -> Prop :=
| PRefl s : psteps s s
| PTrans s s' s'' : psteps s s' -> pstep s' s'' -> psteps s s''.
