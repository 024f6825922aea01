(** rpc/transport/resolver/parse.go. *)
From Coq Require Import String.
From Verif.Model Require Import Base ErrText Any.

From Coq Require Import List.
Open Scope list_scope. Open Scope Z_scope.
Section Target.
(** strings.ToLower of the Go standard library. *)
Variable ToLower : bytes -> bytes.

(** Target, resolver.go:29-40. *)
Record target := mkTarget { t_scheme : bytes; t_authority : bytes; t_endpoint : bytes }.

Definition passthrough : bytes := text "passthrough"%string.
Definition sep : bytes := [58; 47; 47].

(** strings.Index (Go standard library). *)
Fixpoint Index (s p : bytes) : option nat :=
  if has_prefix p s then Some O
  else match s with
  | [] => None
  | _ :: s => match Index s p with Some i => Some (S i) | None => None end
  end.

(** Parse, parse.go:20-70. *)
Definition Parse (s : bytes) : res target :=
  match s with
  | [] => Err
  | _ =>
    if negb (contains s sep) then Ok (mkTarget passthrough [] s)
    else match Index s sep with
    | None => Panic   (* target[:-1]; excluded by the test before *)
    | Some idx =>
        let scheme := ToLower (firstn idx s) in
        let rest := skipn (idx + 3) s in
        match scheme with
        | [] => Err
        | _ =>
            let found :=
              if has_prefix [47] rest then Ok ([], skipn 1 rest)
              else match Index rest [47] with
              | None => Err
              | Some i => Ok (firstn i rest, skipn (i + 1) rest)
              end in
            ' p <- found ;;
            match snd p with
            | [] => Err
            | _ => Ok (mkTarget scheme (fst p) (snd p))
            end
        end
    end
  end.

(** String, parse.go:73-78. *)
Definition Target_String (t : target) : bytes :=
  match t_authority t with
  | [] => t_scheme t ++ [58; 47; 47; 47] ++ t_endpoint t
  | _ => t_scheme t ++ [58; 47; 47] ++ t_authority t ++ [47] ++ t_endpoint t
  end.
End Target.

(** ToLower on ASCII strings. *)
Definition ascii_lower (s : bytes) : bytes :=
  map (fun c => if (65 <=? c) && (c <=? 90) then c + 32 else c) s.
