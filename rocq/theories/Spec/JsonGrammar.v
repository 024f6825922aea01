(** JSON documents (RFC 8259) without optional white space, the value a document stands for, and the
    value a struct stands for in JSON. *)
From Coq Require Import ZArith List Bool.
Import ListNotations.
From Verif.Model Require Import Base Field MapApi Token Walk.
From Verif.Spec Require Import Text Message.
Open Scope Z_scope.

(** Strings and names are lists of code points, numbers are their literals. *)
Inductive jv :=
| JNull | JBool (b : bool) | JNum (lit : list Z) | JStr (rs : list Z)
| JArr (l : list jv) | JObj (l : list (list Z * jv)).

(** ** Documents *)
Definition digit (c : Z) : Prop := 48 <= c <= 57.
Definition digits1 (l : list Z) : Prop := l <> [] /\ Forall digit l.
Inductive int_part : list Z -> Prop :=
| ip_zero : int_part [48]
| ip_pos d l : 49 <= d <= 57 -> Forall digit l -> int_part (d :: l).
Inductive frac_part : list Z -> Prop :=
| fp_none : frac_part []
| fp_some l : digits1 l -> frac_part (46 :: l).
Inductive exp_part : list Z -> Prop :=
| ep_none : exp_part []
| ep_plain e l : e = 101 \/ e = 69 -> digits1 l -> exp_part (e :: l)
| ep_sign e s l : e = 101 \/ e = 69 -> s = 43 \/ s = 45 -> digits1 l -> exp_part (e :: s :: l).
Inductive jnumber : list Z -> Prop :=
| jn_pos i f e : int_part i -> frac_part f -> exp_part e -> jnumber (i ++ f ++ e)
| jn_neg i f e : int_part i -> frac_part f -> exp_part e -> jnumber (45 :: i ++ f ++ e).

(** Members or elements with a comma between them. *)
Fixpoint commas (l : list (list Z)) : list Z :=
  match l with [] => [] | [x] => x | x :: q => x ++ 44 :: commas q end.

Inductive jtext : list Z -> jv -> Prop :=
| jt_null : jtext [110; 117; 108; 108] JNull
| jt_true : jtext [116; 114; 117; 101] (JBool true)
| jt_false : jtext [102; 97; 108; 115; 101] (JBool false)
| jt_num b : jnumber b -> jtext b (JNum b)
| jt_str b rs : jstring b rs -> jtext b (JStr rs)
| jt_arr bs l : Forall2 jtext bs l -> jtext (91 :: commas bs ++ [93]) (JArr l)
| jt_obj bs l : Forall2 jmember bs l -> jtext (123 :: commas bs ++ [125]) (JObj l)
with jmember : list Z -> (list Z * jv) -> Prop :=
| jm_ k b rs v : jstring k rs -> jtext b v -> jmember (k ++ 58 :: b) (rs, v).

(** ** Literals *)
(** The integer a decimal literal denotes. *)
Definition numval (ds : list Z) : Z := fold_left (fun a d => 10 * a + (d - 48)) ds 0.
Inductive int_lit : list Z -> Z -> Prop :=
| il_pos ds : digits1 ds -> int_lit ds (numval ds)
| il_neg ds : digits1 ds -> int_lit (45 :: ds) (- numval ds).
(** Hexadecimal, two digits a byte. *)
Inductive hex_text : list Z -> list Z -> Prop :=
| hx_nil : hex_text [] []
| hx_cons b d c1 c2 t v1 v2 : hexdigit c1 v1 -> hexdigit c2 v2 -> b = v1 * 16 + v2 -> hex_text d t -> hex_text (b :: d) (c1 :: c2 :: t).
(** Base64 with the standard alphabet and padding (RFC 4648, section 4). *)
Inductive b64digit : Z -> Z -> Prop :=
| bd_AZ v : 0 <= v < 26 -> b64digit (65 + v) v
| bd_az v : 26 <= v < 52 -> b64digit (97 + (v - 26)) v
| bd_09 v : 52 <= v < 62 -> b64digit (48 + (v - 52)) v
| bd_plus : b64digit 43 62
| bd_slash : b64digit 47 63.
Inductive b64_text : list Z -> list Z -> Prop :=
| b6_nil : b64_text [] []
| b6_3 a b c w x y z vw vx vy vz d t :
    b64digit w vw -> b64digit x vx -> b64digit y vy -> b64digit z vz ->
    (a * 256 + b) * 256 + c = ((vw * 64 + vx) * 64 + vy) * 64 + vz ->
    b64_text d t -> b64_text (a :: b :: c :: d) (w :: x :: y :: z :: t)
| b6_2 a b w x y vw vx vy :
    b64digit w vw -> b64digit x vx -> b64digit y vy ->
    (a * 256 + b) * 4 = (vw * 64 + vx) * 64 + vy -> b64_text [a; b] [w; x; y; 61]
| b6_1 a w x vw vx :
    b64digit w vw -> b64digit x vx -> a * 16 = vw * 64 + vx -> b64_text [a] [w; x; 61; 61].
(** The code points of a Go string; where it is not UTF-8, some code points. *)
Definition text_of (s rs : list Z) : Prop :=
  Forall scalar rs /\ forall rs', Forall scalar rs' -> s = utf8 rs' -> rs = rs'.

(** Not a number, or infinite: the exponent is all ones (IEEE 754, section 3.4). *)
Definition float_special (k : kind) (bits : Z) : Prop :=
  match k with KF32 => (bits / 2 ^ 23) mod 256 = 255 | _ => (bits / 2 ^ 52) mod 2048 = 2047 end.

(** ** The JSON value of a struct *)
Definition at_type := [64; 116; 121; 112; 101].
Definition at_value := [64; 118; 97; 108; 117; 101].
Definition at_fieldType := [64; 102; 105; 101; 108; 100; 84; 121; 112; 101].

Section Means.
(** How a float is printed, which types are registered, whether enums are written as numbers, and
    what the name of a map entry may be. *)
Variable float_lit : kind -> Z -> list Z -> Prop.
Variable registered : bytes -> bytes -> bytes -> tmsg -> Prop.   (* hash, data, type name, value *)
Variable unregistered : bytes -> bytes -> Prop.                  (* hash, data: no type, or not decodable *)
Variable enumNumbers : bool.
Variable keyrel : keyty -> mkey -> list Z -> Prop.

Inductive num_means (k : kind) (v : Z) : option bytes -> jv -> Prop :=
| nm_name n rs : ~ (enumNumbers = true /\ (k = KU8 \/ k = KU16)) -> text_of n rs -> num_means k v (Some n) (JStr rs)
| nm_enum n lit : enumNumbers = true -> k = KU8 \/ k = KU16 -> int_lit lit v -> num_means k v (Some n) (JNum lit)
| nm_bool : k = KBool -> num_means k v None (JBool (negb (v =? 0)))
| nm_int lit : k <> KBool -> k <> KF32 -> k <> KF64 -> int_lit lit v -> num_means k v None (JNum lit)
| nm_float lit : k = KF32 \/ k = KF64 -> ~ float_special k v -> float_lit k v lit -> num_means k v None (JNum lit)
| nm_special : k = KF32 \/ k = KF64 -> float_special k v -> num_means k v None JNull.
Inductive str_means : bool -> bytes -> jv -> Prop :=
| sm_text b rs : text_of b rs -> str_means true b (JStr rs)
| sm_bytes b t : b64_text b t -> str_means false b (JStr t).

Inductive msg_means : tmsg -> jv -> Prop :=
| mm_ n fs l : Forall2 field_means fs l -> msg_means (TMsg n fs) (JObj l)
with field_means : bytes * fval -> list Z * jv -> Prop :=
| fm_ n rs v j : text_of n rs -> val_means v j -> field_means (n, v) (rs, j)
with val_means : fval -> jv -> Prop :=
| vm_num k v e j : num_means k v e j -> val_means (FNum k v e) j
| vm_str st b j : str_means st b j -> val_means (FStr st b) j
| vm_nomsg : val_means (FMsg None) JNull
| vm_msg m j : msg_means m j -> val_means (FMsg (Some m)) j
| vm_nonums k : val_means (FNums k []) JNull
| vm_nums k l js : l <> [] -> Forall2 (fun x j => num_means k (fst x) (snd x) j) l js -> val_means (FNums k l) (JArr js)
| vm_nostrs st : val_means (FStrs st []) JNull
| vm_strs st l js : l <> [] -> Forall2 (str_means st) l js -> val_means (FStrs st l) (JArr js)
| vm_nomsgs : val_means (FMsgs []) JNull
| vm_msgs l js : l <> [] -> Forall2 msg_means l js -> val_means (FMsgs l) (JArr js)
| vm_nomap kt vt : val_means (FMap kt vt []) JNull
| vm_map kt vt es js : es <> [] -> Forall2 (entry_means kt vt) es js -> val_means (FMap kt vt es) (JObj js)
| vm_noany : val_means (FAny None) JNull
| vm_any h d j : any_means (h, d) j -> val_means (FAny (Some (h, d))) j
| vm_noanys : val_means (FAnys []) JNull
| vm_anys l js : l <> [] -> Forall2 any_means l js -> val_means (FAnys l) (JArr js)
with entry_means : keyty -> valty -> mkey * mentry -> list Z * jv -> Prop :=
| em_ kt vt k e rs j : keyrel kt k rs -> ent_means vt e j -> entry_means kt vt (k, e) (rs, j)
with ent_means : valty -> mentry -> jv -> Prop :=
| en_num k v j : num_means k v None j -> ent_means (VTNum k) (ENum v) j
| en_str b j : str_means true b j -> ent_means VTStr (EStr b) j
| en_msg m j : msg_means m j -> ent_means VTStruct (EMsg (Some m)) j
| en_any h d j : any_means (h, d) j -> ent_means VTAny (EAny (Some (h, d))) j
| en_noany j : any_means ([], []) j -> ent_means VTAny (EAny None) j
| en_anys l js : Forall2 any_means l js -> ent_means VTAnys (EAnys l) (JArr js)
with any_means : bytes * bytes -> jv -> Prop :=
| am_raw h d th td : unregistered h d -> hex_text h th -> b64_text d td ->
    any_means (h, d) (JObj [(at_type, JStr th); (at_value, JStr td)])
| am_known h d n nrs m th l : registered h d n m -> hex_text h th -> text_of n nrs -> msg_means m (JObj l) ->
    any_means (h, d) (JObj ((at_type, JStr th) :: (at_fieldType, JStr nrs) :: l)).
End Means.

(** ** The structs the writer handles: their strings are bytes and their numbers in range, no list
    holds two structs, no map holds an unset struct, and what is in an Any has fewer than [n] bytes.
    [Q] is a condition on the keys of maps. *)
Section Fit.
Variable n : Z.
Variable Q : keyty -> mkey -> Prop.
Definition is_bytes (s : bytes) : Prop := Forall (fun b => 0 <= b <= 255) s.
Definition fit_enum (e : option bytes) : Prop := match e with Some s => is_bytes s | None => True end.
Definition fit_any (a : bytes * bytes) : Prop := is_bytes (fst a) /\ is_bytes (snd a) /\ len (snd a) < n.
Definition fit_key (kt : keyty) (k : mkey) : Prop := Q kt k /\ match k with KStr b => is_bytes b | KNum _ => True end.
Inductive fit_msg : tmsg -> Prop :=
| fit_m name fs : Forall (fun nv => fst nv <> [] /\ is_bytes (fst nv) /\ fit_val (snd nv)) fs -> fit_msg (TMsg name fs)
with fit_val : fval -> Prop :=
| fit_num k v e : in_range k v -> fit_enum e -> fit_val (FNum k v e)
| fit_str st b : is_bytes b -> fit_val (FStr st b)
| fit_nomsg : fit_val (FMsg None)
| fit_somemsg m : fit_msg m -> fit_val (FMsg (Some m))
| fit_nums k l : Forall (fun x => in_range k (fst x) /\ fit_enum (snd x)) l -> fit_val (FNums k l)
| fit_strs st l : Forall is_bytes l -> fit_val (FStrs st l)
| fit_nomsgs : fit_val (FMsgs [])
| fit_onemsg m : fit_msg m -> fit_val (FMsgs [m])
| fit_map kt vt es : Forall (fun ke => fit_key kt (fst ke) /\ fit_ent vt (snd ke)) es -> fit_val (FMap kt vt es)
| fit_noany : fit_val (FAny None)
| fit_someany a : fit_any a -> fit_val (FAny (Some a))
| fit_anys l : Forall fit_any l -> fit_val (FAnys l)
with fit_ent : valty -> mentry -> Prop :=
| fit_enum_num k v : in_range k v -> fit_ent (VTNum k) (ENum v)
| fit_ent_str b : is_bytes b -> fit_ent VTStr (EStr b)
| fit_ent_msg m : fit_msg m -> fit_ent VTStruct (EMsg (Some m))
| fit_ent_noany : fit_any ([], []) -> fit_ent VTAny (EAny None)
| fit_ent_any a : fit_any a -> fit_ent VTAny (EAny (Some a))
| fit_ent_anys l : Forall fit_any l -> fit_ent VTAnys (EAnys l).
End Fit.
