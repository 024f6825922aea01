(** What becomes of a plain Go struct that is made into a Claw struct and back. *)
From Coq Require Import ZArith List Bool Permutation.
Import ListNotations.
From Verif.Model Require Import Base Field MapApi Raw.
From Verif.Spec Require Import Message MapSpec Query.
Open Scope Z_scope.

(** About how many bytes the value takes. *)
Definition key_size (kt : keyty) (k : mkey) : Z :=
  match kt, k with KTNum k, _ => Z.of_nat (kind_size k) | _, KStr b => 4 + len b | _, _ => 0 end.
Section Total.
Context {A : Type} (f : A -> Z).
Fixpoint total (l : list A) : Z := match l with [] => 0 | x :: q => f x + total q end.
End Total.
Fixpoint raw_size (v : rawval) : Z :=
  match v with
  | RawNum _ => 16
  | RawStr b => 16 + len b
  | RawBytes o => match o with Some b => 16 + len b | None => 0 end
  | RawMsg o => match o with Some fs => 8 + total raw_size fs | None => 0 end
  | RawBools o => match o with Some l => 16 + len l | None => 0 end
  | RawNums o => match o with Some l => 8 + 8 * len l | None => 0 end
  | RawStrs o => match o with Some l => 16 + total (fun b => 4 + len b) l | None => 0 end
  | RawMsgs o => match o with Some l => 8 + total (fun o => match o with Some fs => 8 + total raw_size fs | None => 0 end) l | None => 0 end
  | RawMap o => match o with Some es => 16 + total (fun ke => match ke with (k, v) => 8 + (match k with KStr b => len b | _ => 0 end) + raw_size v end) es | None => 0 end
  | RawAny _ => 0
  end.

(** The type of the values of a map. *)
Definition entry_ty (vt : valty) (id : nat) : option rty :=
  match vt with VTNum k => Some (RTNum k) | VTStr => Some RTStr | VTStruct => Some (RTMsg id) | _ => None end.
(** The bytes of the entries of a map of numbers or strings. *)
Definition entry_size (kt : keyty) (vt : valty) (ke : mkey * rawval) : Z :=
  key_size kt (fst ke) + match vt, snd ke with VTNum k, _ => Z.of_nat (kind_size k) | _, RawStr b => 4 + len b | _, _ => 0 end.
(** No two keys of a Go map are equal; here also for NaN. *)
Definition keys_differ (kt : keyty) (es : list (mkey * rawval)) : Prop :=
  ForallOrdPairs (fun a b => ~ same_key kt a b) (map fst es).

Section Raw.
Variable E : nat -> list rty.
(** A value of the Go type of the field.  Not here: a list of strings behind which four or more bytes of
    padding are, and a map behind which a whole zero entry fits into the padding ([short_pad], [ghosts]:
    these come back with one item more, C16 and C21), and a map of 16 MiB. *)
Inductive typed : rty -> rawval -> Prop :=
| ty_num k z : in_range k z -> typed (RTNum k) (RawNum z)
| ty_str b : byte_list b -> typed RTStr (RawStr b)
| ty_nobytes : typed RTBytes (RawBytes None)
| ty_bytes b : byte_list b -> typed RTBytes (RawBytes (Some b))
| ty_nomsg id : typed (RTMsg id) (RawMsg None)
| ty_msg id fs : Forall2 typed (E id) fs -> typed (RTMsg id) (RawMsg (Some fs))
| ty_bools o : typed RTBools (RawBools o)
| ty_nonums k : typed (RTNums k) (RawNums None)
| ty_nums k l : k <> KBool -> Forall (in_range k) l -> typed (RTNums k) (RawNums (Some l))
| ty_nostrs st : typed (RTStrs st) (RawStrs None)
| ty_strs st l : Forall byte_list l -> short_pad l -> typed (RTStrs st) (RawStrs (Some l))
| ty_nomsgs id : typed (RTMsgs id) (RawMsgs None)
| ty_msgs id l : Forall (fun o => typed (RTMsg id) (RawMsg o)) l -> typed (RTMsgs id) (RawMsgs (Some l))
| ty_nomap kt vt id : typed (RTMap kt vt id) (RawMap None)
| ty_map kt vt id ty es : entry_ty vt id = Some ty -> Forall (fun ke => key_ok kt (fst ke) /\ typed ty (snd ke)) es -> keys_differ kt es ->
    vt = VTStruct \/ ghosts kt vt (pad_len (total (entry_size kt vt) es)) = O -> raw_size (RawMap (Some es)) < 2 ^ 24 ->
    typed (RTMap kt vt id) (RawMap (Some es))
| ty_any o : typed RTAny (RawAny o)
| ty_anys o : typed RTAnys (RawAny o).

(** The zero value. *)
Definition zero_raw (v : rawval) : Prop :=
  v = RawNum 0 \/ v = RawStr [] \/ v = RawBytes None \/ v = RawMsg None \/ v = RawBools None \/ v = RawNums None \/ v = RawStrs None \/
  v = RawMsgs None \/ v = RawMap None \/ v = RawAny None.

(** [back ty v v']: of the value [v] of a field, [v'] comes back.  Numbers, strings and everything that
    is not empty come back as they were.  Lost are: the sign of -0.0; whether something empty was nil; a
    pointer to a struct in which nothing is set; the nil pointers in lists and maps; and what is in Any
    fields. *)
Definition keep_num (k : kind) (z : Z) : Z := if is_zero k z then 0 else z.
Definition not_empty {A} (l : list A) : option (list A) := match l with [] => None | _ => Some l end.
Inductive back : rty -> rawval -> rawval -> Prop :=
| bk_num k z : back (RTNum k) (RawNum z) (RawNum (keep_num k z))
| bk_str b : back RTStr (RawStr b) (RawStr b)
| bk_nobytes : back RTBytes (RawBytes None) (RawBytes None)
| bk_bytes b : back RTBytes (RawBytes (Some b)) (RawBytes (not_empty b))
| bk_nomsg id : back (RTMsg id) (RawMsg None) (RawMsg None)
| bk_msg id fs fs' : backs (E id) fs fs' -> ~ Forall zero_raw fs' -> back (RTMsg id) (RawMsg (Some fs)) (RawMsg (Some fs'))
| bk_msg_zero id fs fs' : backs (E id) fs fs' -> Forall zero_raw fs' -> back (RTMsg id) (RawMsg (Some fs)) (RawMsg None)
| bk_nobools : back RTBools (RawBools None) (RawBools None)
| bk_bools l : back RTBools (RawBools (Some l)) (RawBools (not_empty l))
| bk_nonums k : back (RTNums k) (RawNums None) (RawNums None)
| bk_nums k l : back (RTNums k) (RawNums (Some l)) (RawNums (not_empty l))
| bk_nostrs st : back (RTStrs st) (RawStrs None) (RawStrs None)
| bk_strs st l : back (RTStrs st) (RawStrs (Some l)) (RawStrs (not_empty l))
| bk_nomsgs id : back (RTMsgs id) (RawMsgs None) (RawMsgs None)
| bk_msgs id l l' : back_items id l l' -> back (RTMsgs id) (RawMsgs (Some l)) (RawMsgs (not_empty l'))
| bk_nomap kt vt id : back (RTMap kt vt id) (RawMap None) (RawMap None)
| bk_map kt vt id es es' es'' : back_entries id es es' -> Permutation es' es'' -> back (RTMap kt vt id) (RawMap (Some es)) (RawMap (not_empty es''))
| bk_any o : back RTAny (RawAny o) (RawAny None)
| bk_anys o : back RTAnys (RawAny o) (RawAny None)
with backs : list rty -> list rawval -> list rawval -> Prop :=
| bs_nil : backs [] [] []
| bs_cons ty v v' tys fs fs' : back ty v v' -> backs tys fs fs' -> backs (ty :: tys) (v :: fs) (v' :: fs')
with back_items : nat -> list (option (list rawval)) -> list (option (list rawval)) -> Prop :=
| bi_nil id : back_items id [] []
| bi_nil_item id l l' : back_items id l l' -> back_items id (None :: l) l'
| bi_item id fs fs' l l' : backs (E id) fs fs' -> back_items id l l' -> back_items id (Some fs :: l) (Some fs' :: l')
with back_entries : nat -> list (mkey * rawval) -> list (mkey * rawval) -> Prop :=
| be_nil id : back_entries id [] []
| be_num id k z es es' : back_entries id es es' -> back_entries id ((k, RawNum z) :: es) ((k, RawNum z) :: es')
| be_str id k b es es' : back_entries id es es' -> back_entries id ((k, RawStr b) :: es) ((k, RawStr b) :: es')
| be_nil_item id k es es' : back_entries id es es' -> back_entries id ((k, RawMsg None) :: es) es'
| be_msg id k fs fs' es es' : backs (E id) fs fs' -> back_entries id es es' -> back_entries id ((k, RawMsg (Some fs)) :: es) ((k, RawMsg (Some fs')) :: es').

(** A value of which nothing is lost: no -0.0, nothing empty but not nil, no pointer to a struct in which
    nothing is set (but in lists and maps), no nil in lists and maps, no Any. *)
Inductive plain : rty -> rawval -> Prop :=
| pl_num k z : keep_num k z = z -> plain (RTNum k) (RawNum z)
| pl_str b : plain RTStr (RawStr b)
| pl_bytes o : o <> Some [] -> plain RTBytes (RawBytes o)
| pl_nomsg id : plain (RTMsg id) (RawMsg None)
| pl_msg id fs : Forall2 plain (E id) fs -> ~ Forall zero_raw fs -> plain (RTMsg id) (RawMsg (Some fs))
| pl_bools o : o <> Some [] -> plain RTBools (RawBools o)
| pl_nums k o : o <> Some [] -> plain (RTNums k) (RawNums o)
| pl_strs st o : o <> Some [] -> plain (RTStrs st) (RawStrs o)
| pl_nomsgs id : plain (RTMsgs id) (RawMsgs None)
| pl_msgs id l : l <> [] -> Forall (fun o => exists fs, o = Some fs /\ Forall2 plain (E id) fs) l -> plain (RTMsgs id) (RawMsgs (Some l))
| pl_nomap kt vt id : plain (RTMap kt vt id) (RawMap None)
| pl_map kt vt id es : es <> [] -> Forall (fun ke => plain_entry id (snd ke)) es -> plain (RTMap kt vt id) (RawMap (Some es))
| pl_any : plain RTAny (RawAny None)
| pl_anys : plain RTAnys (RawAny None)
with plain_entry : nat -> rawval -> Prop :=
| pe_num id z : plain_entry id (RawNum z)
| pe_str id b : plain_entry id (RawStr b)
| pe_msg id fs : Forall2 plain (E id) fs -> plain_entry id (RawMsg (Some fs)).
End Raw.

(** Equal as Go values: the order of the entries of a map does not count. *)
Inductive same_raw : rawval -> rawval -> Prop :=
| sr_same v : same_raw v v
| sr_msg fs fs' : Forall2 same_raw fs fs' -> same_raw (RawMsg (Some fs)) (RawMsg (Some fs'))
| sr_msgs l l' : Forall2 (fun o o' => same_raw (RawMsg o) (RawMsg o')) l l' -> same_raw (RawMsgs (Some l)) (RawMsgs (Some l'))
| sr_map es es' es'' : Forall2 (fun a b => fst a = fst b /\ same_raw (snd a) (snd b)) es es' -> Permutation es' es'' ->
    same_raw (RawMap (Some es)) (RawMap (Some es'')).
