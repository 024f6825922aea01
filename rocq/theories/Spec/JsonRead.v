(** The tokens of a JSON document, what is asked of a decoder, and the structs whose JSON can be read
    back. *)
From Coq Require Import ZArith List Bool.
Import ListNotations.
From Verif.Model Require Import Base Field MapApi Token Walk Ingest JsonRead.
From Verif.Spec Require Import Text Message JsonGrammar Values.
Open Scope Z_scope.

(** ** Decoders *)
Section Tokens.
(** Token.Int of a number literal. *)
Variable intOf : list Z -> Z.
Fixpoint tokens_of (v : jv) : list jtok :=
  match v with
  | JNull => [JNullTok]
  | JBool b => [JLit b]
  | JNum lit => [JNumber (intOf lit)]
  | JStr rs => [JString (utf8 rs)]
  | JArr l => JOpenArr :: flat_map tokens_of l ++ [JCloseArr]
  | JObj l => JOpen :: flat_map (fun kv => JString (utf8 (fst kv)) :: tokens_of (snd kv)) l ++ [JClose]
  end.
End Tokens.
(** No object has two members of the same name. *)
Inductive distinct : jv -> Prop :=
| ds_null : distinct JNull
| ds_bool b : distinct (JBool b)
| ds_num lit : distinct (JNum lit)
| ds_str rs : distinct (JStr rs)
| ds_arr l : Forall distinct l -> distinct (JArr l)
| ds_obj l : NoDup (map fst l) -> Forall (fun kv => distinct (snd kv)) l -> distinct (JObj l).
(** A number outside the range of int64 becomes the nearest one. *)
Definition saturate (v : Z) : Z := Z.max (- 2 ^ 63) (Z.min v (2 ^ 63 - 1)).
(** A decoder that returns the tokens of every document (it may refuse names that come twice). *)
Definition decodes (decode : bytes -> list jtok) (intOf : list Z -> Z) : Prop :=
  (forall b v, jtext b v -> distinct v -> decode b = tokens_of intOf v) /\
  (forall lit v, int_lit lit v -> intOf lit = saturate v).

(** ** Documents that show a struct *)
Definition is_int (k : kind) : Prop := k <> KF32 /\ k <> KF64.
Section Reads.
Variable E : env.
Variable ignoreUnknown : bool.
(** [reads_num k e j z]: in a field of kind [k] and enum [e], the JSON value [j] is the number [z].
    Numbers are integers in the range of the kind and below 2^63, or the float zero; an enum value is
    given by its name or its number. *)
Inductive reads_num : kind -> option (list (bytes * Z)) -> jv -> Z -> Prop :=
| rn_bool e b : reads_num KBool e (JBool b) (if b then 1 else 0)
| rn_int k e lit z : is_int k -> k <> KBool -> int_lit lit z -> in_range k z -> z < 2 ^ 63 -> reads_num k e (JNum lit) z
| rn_zero k e lit : int_lit lit 0 -> reads_num k e (JNum lit) 0
| rn_null k e : reads_num k e JNull 0
| rn_name k tbl rs z : kept k z = z -> rs <> [] -> In (utf8 rs, z) tbl -> NoDup (map fst tbl) -> reads_num k (Some tbl) (JStr rs) z
| rn_noname k e : reads_num k e (JStr []) 0.
(** Text, or an empty byte string. *)
Inductive reads_str : bool -> jv -> bytes -> Prop :=
| rt_text rs : reads_str true (JStr rs) (utf8 rs)
| rt_bytes : reads_str false (JStr []) []
| rt_null st : reads_str st JNull [].
(** A member the reader can pass over. *)
Definition passed (kv : list Z * jv) : Prop := fst kv <> [] /\ match snd kv with JArr _ => False | _ => True end.
(** [reads_msg id j fs]: [j] is an object whose members, in any order, show the fields [fs] of a struct
    of type [id]; a field without a member is zero; other members are there only if unknown fields are
    ignored.  [reads ty j v]: [j] is the value [v] of a field of type [ty]. *)
Inductive reads_msg : nat -> jv -> list (bytes * fval) -> Prop :=
| rd_msg id l fs :
    Forall2 (fun nt nv => fst nt = fst nv /\
      ((exists rs j, In (rs, j) l /\ fst nt = utf8 rs /\ reads (snd nt) j (snd nv)) \/
       (~ In (fst nt) (map (fun kv => utf8 (fst kv)) l) /\ snd nv = zero_value (snd nt)))) (snd (E id)) fs ->
    Forall (fun kv => In (utf8 (fst kv)) (map fst (snd (E id))) \/ ignoreUnknown = true /\ passed kv) l ->
    reads_msg id (JObj l) fs
with reads : fty -> jv -> fval -> Prop :=
| rd_num k e j z : reads_num k e j z -> reads (TyNum k e) j (FNum k z (enum_label e z))
| rd_str st j b : reads_str st j b -> reads (TyStr st) j (FStr st b)
| rd_null ty : reads ty JNull (zero_value ty)
| rd_some id j fs : reads_msg id j fs -> nothing_set fs = false -> reads (TyMsg id) j (FMsg (Some (TMsg (fst (E id)) fs)))
| rd_zero id j fs : reads_msg id j fs -> nothing_set fs = true -> reads (TyMsg id) j (FMsg None)
| rd_nums k e js l : Forall2 (fun j z => reads_num k e j (fst z) /\ snd z = enum_label e (fst z)) js l -> reads (TyNums k e) (JArr js) (FNums k l)
| rd_strs st js l : Forall2 (reads_str st) js l -> reads (TyStrs st) (JArr js) (FStrs st l)
| rd_msgs id js l : Forall2 (fun j m => exists fs, m = TMsg (fst (E id)) fs /\ reads_msg id j fs) js l -> reads (TyMsgs id) (JArr js) (FMsgs l).
End Reads.

(** ** Structs whose document shows them *)
Section Readable.
Variable E : env.
Variable enumNumbers : bool.
(** A bool or an integer below 2^63; a float that is zero; an enum value that has a name, or is zero,
    or is written as a number. *)
Inductive readable_num (k : kind) : option (list (bytes * Z)) -> Z -> Prop :=
| ra_int z : is_int k -> in_range k z -> z < 2 ^ 63 -> readable_num k None z
| ra_zero : readable_num k None 0
| ra_name tbl rs z : is_int k -> in_range k z -> Forall scalar rs -> rs <> [] ->
    In (utf8 rs, z) tbl -> NoDup (map fst tbl) -> NoDup (map snd tbl) -> readable_num k (Some tbl) z
| ra_noname tbl : is_int k -> ~ In 0 (map snd tbl) -> readable_num k (Some tbl) 0
| ra_enum tbl z : enumNumbers = true -> k = KU8 \/ k = KU16 -> in_range k z ->
    Forall (fun nz => is_bytes (fst nz)) tbl -> readable_num k (Some tbl) z.
(** Text is Unicode, byte strings are empty. *)
Inductive readable_str : bool -> bytes -> Prop :=
| ra_text rs : Forall scalar rs -> readable_str true (utf8 rs)
| ra_bytes : readable_str false [].
(** Structs of such values: lists have at most one struct, maps and lists of Any are empty, Any values
    are absent; as in [whole], a nested struct has something set. *)
Inductive readable : nat -> tmsg -> Prop :=
| ra_msg id fs : Forall2 (fun nt nv => fst nt = fst nv /\ readable_val (snd nt) (snd nv)) (snd (E id)) fs -> readable id (TMsg (fst (E id)) fs)
with readable_val : fty -> fval -> Prop :=
| ra_num k e z : readable_num k e z -> readable_val (TyNum k e) (FNum k z (enum_label e z))
| ra_str st b : readable_str st b -> readable_val (TyStr st) (FStr st b)
| ra_nil id : readable_val (TyMsg id) (FMsg None)
| ra_some id nm fs : readable id (TMsg nm fs) -> nothing_set fs = false -> readable_val (TyMsg id) (FMsg (Some (TMsg nm fs)))
| ra_nums k e l : Forall (fun z => readable_num k e (fst z) /\ snd z = enum_label e (fst z)) l -> readable_val (TyNums k e) (FNums k l)
| ra_strs st l : Forall (readable_str st) l -> readable_val (TyStrs st) (FStrs st l)
| ra_nomsgs id : readable_val (TyMsgs id) (FMsgs [])
| ra_onemsg id m : readable id m -> readable_val (TyMsgs id) (FMsgs [m])
| ra_nomap kt vt id : readable_val (TyMap kt vt id) (FMap kt vt [])
| ra_noany : readable_val TyAny (FAny None)
| ra_noanys : readable_val TyAnys (FAnys []).
(** Field names are text, and not empty. *)
Definition names_text : Prop := forall id, Forall (fun nt => exists rs, rs <> [] /\ Forall scalar rs /\ fst nt = utf8 rs) (snd (E id)).
End Readable.
