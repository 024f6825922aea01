(** clawc/internal/render/golang/templates/clawiter.tmpl: the generated Walk methods.  The template is
    modelled as one function over a tree of the values the generated accessors return. *)
From Coq Require Import ZArith List Bool.
Import ListNotations.
From Verif.Model Require Import Base Field MapApi Token.
Open Scope Z_scope.

(** What the accessors of a generated struct return, field by field in the order of the declaration.
    A number of an enum type carries its name, XxxByValue[v] (empty if there is none). *)
Inductive fval :=
| FNum (k : kind) (v : Z) (enum : option bytes)
| FStr (isString : bool) (b : bytes)
| FMsg (o : option tmsg)
| FNums (k : kind) (l : list (Z * option bytes))
| FStrs (isString : bool) (l : list bytes)
| FMsgs (l : list tmsg)
| FMap (kt : keyty) (vt : valty) (es : list (mkey * mentry))
| FAny (o : option (bytes * bytes))
| FAnys (l : list (bytes * bytes))
(** The value of a map entry.  [EOther] is a value of a type the template has no case for: bytes and
    nested maps (for these the generated code leaves a variable unused, so it does not compile). *)
with mentry :=
| ENum (v : Z)
| EStr (b : bytes)
| EMsg (o : option tmsg)
| EAny (o : option (bytes * bytes))
| EAnys (l : list (bytes * bytes))
| EOther
with tmsg := TMsg (name : bytes) (fs : list (bytes * fval)).

Definition list_ft (k : kind) : Z :=
  match k with
  | KBool => FTListBools | KI8 => FTListInt8 | KI16 => FTListInt16 | KI32 => FTListInt32 | KI64 => FTListInt64
  | KU8 => FTListUint8 | KU16 => FTListUint16 | KU32 => FTListUint32 | KU64 => FTListUint64
  | KF32 => FTListFloat32 | KF64 => FTListFloat64
  end.
Definition set_nil (t : token) : token :=
  mkTok t.(t_kind) t.(t_name) t.(t_type) t.(t_data) t.(t_bytes) t.(t_isEnum) t.(t_enumName) true t.(t_len) t.(t_hash) t.(t_keyType) t.(t_valType) t.(t_key) t.(t_keyBytes).
Definition set_bytes (b : bytes) (t : token) : token :=
  mkTok t.(t_kind) t.(t_name) t.(t_type) t.(t_data) b t.(t_isEnum) t.(t_enumName) t.(t_isNil) t.(t_len) t.(t_hash) t.(t_keyType) t.(t_valType) t.(t_key) t.(t_keyBytes).
Definition set_len (n : Z) (t : token) : token :=
  mkTok t.(t_kind) t.(t_name) t.(t_type) t.(t_data) t.(t_bytes) t.(t_isEnum) t.(t_enumName) t.(t_isNil) n t.(t_hash) t.(t_keyType) t.(t_valType) t.(t_key) t.(t_keyBytes).
Definition set_enum (e : option bytes) (t : token) : token :=
  match e with
  | None => t
  | Some n => mkTok t.(t_kind) t.(t_name) t.(t_type) t.(t_data) t.(t_bytes) true n t.(t_isNil) t.(t_len) t.(t_hash) t.(t_keyType) t.(t_valType) t.(t_key) t.(t_keyBytes)
  end.
Definition set_any (hash data : bytes) (t : token) : token :=
  mkTok t.(t_kind) t.(t_name) t.(t_type) t.(t_data) data t.(t_isEnum) t.(t_enumName) t.(t_isNil) t.(t_len) hash t.(t_keyType) t.(t_valType) t.(t_key) t.(t_keyBytes).
Definition set_map (kt : keyty) (vt : valty) (t : token) : token :=
  mkTok t.(t_kind) t.(t_name) t.(t_type) t.(t_data) t.(t_bytes) t.(t_isEnum) t.(t_enumName) t.(t_isNil) t.(t_len) t.(t_hash) (key_ft kt) (val_ft vt) t.(t_key) t.(t_keyBytes).
Definition set_keyBytes (b : bytes) (t : token) : token :=
  mkTok t.(t_kind) t.(t_name) t.(t_type) t.(t_data) t.(t_bytes) t.(t_isEnum) t.(t_enumName) t.(t_isNil) t.(t_len) t.(t_hash) t.(t_keyType) t.(t_valType) t.(t_key) b.

(** The tokens of the items of a list of scalars, e.g. 165-171 (bools), 193-204 (enums), 487-491. *)
Definition num_item (k : kind) (x : Z * option bytes) : token := set_enum (snd x) (setValue k (fst x) (tok0 TField [] (num_ft k))).
Definition str_ft (s : bool) : Z := if s then FTString else FTBytes.
Definition strs_ft (s : bool) : Z := if s then FTListStrings else FTListBytes.
Definition str_item (s : bool) (b : bytes) : token := set_bytes b (tok0 TField [] (str_ft s)).
Definition any_item (x : bytes * bytes) : token := set_any (fst x) (snd x) (tok0 TField [] FTAny).
(** 538-569: the entry token with its key. *)
Definition entry_tok (n : bytes) (kt : keyty) (vt : valty) (k : mkey) : token :=
  let t := set_map kt vt (tok0 TMapEntry n 0) in
  match kt, k with
  | KTStr, KStr b => set_keyBytes b t
  | KTNum kd, KNum z => setKey kd z t
  | _, _ => t
  end.

Section Walk.
Variable S : Type.
(** The callback: it may keep a state and says whether to go on. *)
Variable yield : token -> S -> S * bool.

(** A run of yields, each followed by "if !yield(...) { return }". *)
Fixpoint emits (ts : list token) (s : S) : S * bool :=
  match ts with
  | [] => (s, true)
  | t :: q => let '(s, ok) := yield t s in if ok then emits q s else (s, false)
  end.

(** Walk, 26-748.  The calls of nested.Walk (152), item.Walk (515) and wrapped.Walk (583) return
    nothing, so what the callback said last is lost there and the caller goes on.  Simplification of
    708-740: an item of a list of Any that GetRaw cannot read is not in the tree. *)
Fixpoint walk (m : tmsg) (s : S) {struct m} : S :=
  match m with
  | TMsg name fs =>
    let '(s, ok) := yield (tok0 TStructStart name 0) s in
    if ok then
      let '(s, ok) :=
        (fix fields (fs : list (bytes * fval)) (s : S) : S * bool :=
           match fs with
           | [] => (s, true)
           | (n, v) :: q => let '(s, ok) := walk_field n v s in if ok then fields q s else (s, false)
           end) fs s in
      if ok then fst (yield (tok0 TStructEnd name 0) s) else s
    else s
  end
with walk_field (n : bytes) (v : fval) (s : S) {struct v} : S * bool :=
  match v with
  | FNum k z e => emits [set_enum e (setValue k z (tok0 TField n (num_ft k)))] s
  | FStr st b => emits [set_bytes b (tok0 TField n (str_ft st))] s
  | FMsg None => emits [set_nil (tok0 TField n FTStruct)] s
  | FMsg (Some m) =>
    let '(s, ok) := emits [tok0 TField n FTStruct] s in
    if ok then (walk m s, true) else (s, false)
  | FNums k l =>
    match l with
    | [] => emits [set_nil (tok0 TField n (list_ft k))] s
    | _ => emits ([tok0 TField n (list_ft k); set_len (len l) (tok0 TListStart n (list_ft k))] ++ map (num_item k) l ++ [tok0 TListEnd n 0]) s
    end
  | FStrs st l =>
    match l with
    | [] => emits [set_nil (tok0 TField n (strs_ft st))] s
    | _ => emits ([tok0 TField n (strs_ft st); set_len (len l) (tok0 TListStart n (strs_ft st))] ++ map (str_item st) l ++ [tok0 TListEnd n 0]) s
    end
  | FMsgs l =>
    match l with
    | [] => emits [set_nil (tok0 TField n FTListStructs)] s
    | _ =>
      let '(s, ok) := emits [tok0 TField n FTListStructs; set_len (len l) (tok0 TListStart n FTListStructs)] s in
      if ok then
        let s := (fix items (l : list tmsg) (s : S) : S := match l with [] => s | m :: q => items q (walk m s) end) l s in
        emits [tok0 TListEnd n 0] s
      else (s, false)
    end
  | FMap kt vt es =>
    match es with
    | [] => emits [set_nil (set_map kt vt (tok0 TField n FTMap))] s
    | _ =>
      let '(s, ok) := emits [set_map kt vt (tok0 TField n FTMap); set_len (len es) (set_map kt vt (tok0 TMapStart n 0))] s in
      if ok then
        let '(s, ok) :=
          (fix entries (es : list (mkey * mentry)) (s : S) : S * bool :=
             match es with
             | [] => (s, true)
             | (k, e) :: q => let '(s, ok) := walk_entry (entry_tok n kt vt k) vt e s in if ok then entries q s else (s, false)
             end) es s in
        if ok then emits [tok0 TMapEnd n 0] s else (s, false)
      else (s, false)
    end
  | FAny None => emits [set_nil (tok0 TField n FTAny)] s
  | FAny (Some (h, d)) => emits [set_any h d (tok0 TField n FTAny)] s
  | FAnys l =>
    match l with
    | [] => emits [set_nil (tok0 TField n FTListAny)] s
    | _ => emits ([tok0 TField n FTListAny; set_len (len l) (tok0 TListStart n FTListAny)] ++ map any_item l ++ [tok0 TListEnd n 0]) s
    end
  end
with walk_entry (t : token) (vt : valty) (e : mentry) (s : S) {struct e} : S * bool :=
  match e with
  | ENum z => emits [match vt with VTNum k => setValue k z t | _ => t end] s
  | EStr b => emits [set_bytes b t] s
  | EMsg None => emits [t] s
  | EMsg (Some m) => let '(s, ok) := emits [t] s in if ok then (walk m s, true) else (s, false)
  | EAny None => emits [t] s
  | EAny (Some (h, d)) => emits [set_any h d t] s
  | EAnys l => emits ([t; set_len (len l) (tok0 TListStart [] FTListAny)] ++ map any_item l ++ [tok0 TListEnd [] 0]) s
  | EOther => emits [t] s
  end.
End Walk.

(** The tokens of a walk that is never stopped. *)
Definition toks (m : tmsg) : list token := rev (walk (list token) (fun t s => (t :: s, true)) m []).
