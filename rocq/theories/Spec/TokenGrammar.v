(** The token stream of a struct, as the documentation of package clawiter describes it: a field is
    one token, followed, if its value is a struct, a list or a map that is not empty, by the tokens of
    that value. *)
From Coq Require Import ZArith List Bool.
Import ListNotations.
From Verif.Model Require Import Base Field MapApi Token Walk.
Open Scope Z_scope.

(** The token that announces a field. *)
Definition ffield (n : bytes) (v : fval) : token :=
  match v with
  | FNum k z e => set_enum e (setValue k z (tok0 TField n (num_ft k)))
  | FStr st b => set_bytes b (tok0 TField n (str_ft st))
  | FMsg None => set_nil (tok0 TField n FTStruct)
  | FMsg (Some _) => tok0 TField n FTStruct
  | FNums k [] => set_nil (tok0 TField n (list_ft k))
  | FNums k _ => tok0 TField n (list_ft k)
  | FStrs st [] => set_nil (tok0 TField n (strs_ft st))
  | FStrs st _ => tok0 TField n (strs_ft st)
  | FMsgs [] => set_nil (tok0 TField n FTListStructs)
  | FMsgs _ => tok0 TField n FTListStructs
  | FMap kt vt [] => set_nil (set_map kt vt (tok0 TField n FTMap))
  | FMap kt vt _ => set_map kt vt (tok0 TField n FTMap)
  | FAny None => set_nil (tok0 TField n FTAny)
  | FAny (Some (h, d)) => set_any h d (tok0 TField n FTAny)
  | FAnys [] => set_nil (tok0 TField n FTListAny)
  | FAnys _ => tok0 TField n FTListAny
  end.
(** The token of a map entry. *)
Definition eentry (t : token) (vt : valty) (e : mentry) : token :=
  match e with
  | ENum z => match vt with VTNum k => setValue k z t | _ => t end
  | EStr b => set_bytes b t
  | EAny (Some (h, d)) => set_any h d t
  | _ => t
  end.
Definition any_list (n : bytes) (l : list (bytes * bytes)) : list token :=
  set_len (len l) (tok0 TListStart n FTListAny) :: map any_item l ++ [tok0 TListEnd n 0].

(** The tokens after it, and the tokens of a struct. *)
Fixpoint mtoks (m : tmsg) : list token :=
  match m with
  | TMsg name fs => tok0 TStructStart name 0 :: flat_map (fun '(n, v) => ffield n v :: fbody n v) fs ++ [tok0 TStructEnd name 0]
  end
with fbody (n : bytes) (v : fval) : list token :=
  match v with
  | FMsg (Some m) => mtoks m
  | FNums k (x :: l) => set_len (len (x :: l)) (tok0 TListStart n (list_ft k)) :: map (num_item k) (x :: l) ++ [tok0 TListEnd n 0]
  | FStrs st (x :: l) => set_len (len (x :: l)) (tok0 TListStart n (strs_ft st)) :: map (str_item st) (x :: l) ++ [tok0 TListEnd n 0]
  | FMsgs ((_ :: _) as l) => set_len (len l) (tok0 TListStart n FTListStructs) :: flat_map mtoks l ++ [tok0 TListEnd n 0]
  | FMap kt vt ((_ :: _) as es) =>
    set_len (len es) (set_map kt vt (tok0 TMapStart n 0)) ::
    flat_map (fun '(k, e) => eentry (entry_tok n kt vt k) vt e :: ebody e) es ++ [tok0 TMapEnd n 0]
  | FAnys (x :: l) => any_list n (x :: l)
  | _ => []
  end
with ebody (e : mentry) : list token :=
  match e with
  | EMsg (Some m) => mtoks m
  | EAnys l => any_list [] l
  | _ => []
  end.
Definition ftoks (fs : list (bytes * fval)) : list token := flat_map (fun '(n, v) => ffield n v :: fbody n v) fs.
Definition etoks (n : bytes) (kt : keyty) (vt : valty) (es : list (mkey * mentry)) : list token :=
  flat_map (fun '(k, e) => eentry (entry_tok n kt vt k) vt e :: ebody e) es.
