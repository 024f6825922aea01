(** rpc/metadata/metadata.go. *)
From Verif.Model Require Import Base Any Registry.

Section Metadata.
(** strings.ToLower of the Go standard library. *)
Variable ToLower : bytes -> bytes.

(** MD, metadata.go:15: a Go map as an association list with one entry per key.  A nil MD
    reads like an empty one; writing to it panics in Go and is not modelled. *)
Definition MD := list (bytes * bytes).
(** md[k] = v and delete(md, k). *)
Fixpoint md_del (md : MD) (k : bytes) : MD :=
  match md with
  | [] => []
  | (k', v) :: md => if bytes_eqb k k' then md_del md k else (k', v) :: md_del md k
  end.
Definition md_put (md : MD) (k v : bytes) : MD := (k, v) :: md_del md k.

(** New, metadata.go:20-30. *)
Fixpoint New_loop (md : MD) (kv : list bytes) : res MD :=
  match kv with
  | [] => Ok md
  | k :: v :: kv => New_loop (md_put md (ToLower k) v) kv
  | [_] => Panic
  end.
Definition New (kv : list bytes) : res MD :=
  if Nat.odd (length kv) then Panic else New_loop [] kv.
(** Pairs (34-55) is New for arguments of the right dynamic types. *)

(** Get, 59-61: None for the nil of an absent key. *)
Definition Get (md : MD) (k : bytes) : option bytes := reg_find (ToLower k) md.
(** GetString, 65-70. *)
Definition GetString (md : MD) (k : bytes) : bytes :=
  match reg_find (ToLower k) md with Some v => v | None => [] end.
(** Set, 73-75; SetString, 78-80. *)
Definition Set_ (md : MD) (k v : bytes) : MD := md_put md (ToLower k) v.
(** Delete, 83-85. *)
Definition Delete (md : MD) (k : bytes) : MD := md_del md (ToLower k).
(** Clone, 88-99 (contents only). *)
Definition Clone (md : MD) : MD := md.
(** Len, 102-104. *)
Definition Len (md : MD) : Z := len md.

(** ToMsgs, 120-132: the messages are given by their key and value.  The order of a Go map
    is not specified; the theorems are about every permutation of this list. *)
Definition ToMsgs (md : MD) : list (bytes * bytes) := md.
(** FromMsgs, 107-117. *)
Definition FromMsgs (l : list (bytes * bytes)) : MD :=
  fold_left (fun md m => md_put md (ToLower (fst m)) (snd m)) l [].

(** AppendToContext, 152-164, on the metadata of the context, if any.  With an odd number
    of arguments the index of line 160 is out of range. *)
Fixpoint Append_loop (md : MD) (kv : list bytes) : res MD :=
  match kv with
  | [] => Ok md
  | k :: v :: kv => Append_loop (Set_ md k v) kv
  | [_] => Panic
  end.
Definition AppendToContext (ctx : option MD) (kv : list bytes) : res MD :=
  match ctx with
  | None => New kv
  | Some md => Append_loop (Clone md) kv
  end.
End Metadata.
