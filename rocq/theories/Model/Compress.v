(** rpc/compress/compress.go. *)
From Verif.Model Require Import Base.

(** Compressor, compress.go:14-23, without Type(): the key it is registered under. *)
Record compressor := mkComp { cp_Compress : bytes -> res bytes; cp_Decompress : bytes -> res bytes }.

(** registry, compress.go:25-28: the newest registration of a type counts.  All accesses
    hold the lock. *)
Definition creg := list (Z * compressor).
(** Register, 32-36. *)
Definition Register (r : creg) (t : Z) (c : compressor) : creg := (t, c) :: r.
(** Get, 39-43. *)
Fixpoint Get (r : creg) (t : Z) : option compressor :=
  match r with
  | [] => None
  | (t', c) :: r => if t =? t' then Some c else Get r t
  end.
Definition CmpNone : Z := 0.
(** Compress, 48-60. *)
Definition Compress (r : creg) (t : Z) (data : bytes) : res bytes :=
  if t =? CmpNone then Ok data
  else match data with
  | [] => Ok data
  | _ => match Get r t with None => Err | Some c => cp_Compress c data end
  end.
(** Decompress, 65-77. *)
Definition Decompress (r : creg) (t : Z) (data : bytes) : res bytes :=
  if t =? CmpNone then Ok data
  else match data with
  | [] => Ok data
  | _ => match Get r t with None => Err | Some c => cp_Decompress c data end
  end.
