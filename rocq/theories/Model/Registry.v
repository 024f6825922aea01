(** rpc/server/registry.go. *)
From Verif.Model Require Import Base Any.

Definition slash : Z := 47.

(** makeKey, registry.go:62-64. *)
Definition makeKey (pkg service call : bytes) : bytes := pkg ++ [slash] ++ service ++ [slash] ++ call.

Section Registry.
Variable H : Type.   (* handlers *)

(** Registry, registry.go:19-22; the Go map as an association list. Every method holds the
    mutex from its first to its last access, so a concurrent run is a sequence of calls. *)
Definition registry := list (bytes * H).

(** The map lookup of registry.go:38, 53. *)
Fixpoint reg_find (key : bytes) (r : registry) : option H :=
  match r with
  | [] => None
  | (k, h) :: r => if bytes_eqb key k then Some h else reg_find key r
  end.

(** Register, registry.go:32-44: the registry afterwards and whether the call succeeded. *)
Definition Register (r : registry) (pkg service call : bytes) (h : H) : registry * bool :=
  let key := makeKey pkg service call in
  match reg_find key r with
  | Some _ => (r, false)
  | None => ((key, h) :: r, true)
  end.

(** Lookup, registry.go:47-55; LookupByDescr (58-60) is Lookup. *)
Definition Lookup (r : registry) (pkg service call : bytes) : option H :=
  reg_find (makeKey pkg service call) r.

(** strings.SplitN(s, "/", n) (Go standard library) for n > 0. *)
Fixpoint splitN (n : nat) (s : bytes) : list bytes :=
  match n with
  | O => []
  | S O => [s]
  | S (S _ as n') =>
      (fix go (acc rest : bytes) : list bytes :=
         match rest with
         | [] => [acc]
         | c :: rest' => if c =? slash then acc :: splitN n' rest' else go (acc ++ [c]) rest'
         end) [] s
  end.

(** Handlers, registry.go:75-96, for a consumer that takes everything; the order of a Go
    map is not specified, the model's order is one of them. *)
Definition Handlers (r : registry) : list (bytes * bytes * bytes * H) :=
  flat_map (fun e =>
    match splitN 3 (fst e) with
    | [p; s; c] => [(p, s, c, snd e)]
    | _ => []
    end) r.
End Registry.
Arguments reg_find {H}.
Arguments Register {H}.
Arguments Lookup {H}.
Arguments Handlers {H}.
