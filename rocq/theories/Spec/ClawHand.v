(** Texts written by hand: what a text of lines says, for the reader of clawtext. *)
From Coq Require Import ZArith List Bool Permutation Sorted.
Import ListNotations.
From Verif.Model Require Import Base Field MapApi Token Walk Ingest ClawText.
From Verif.Spec Require Import Text Message MapSpec JsonGrammar Values Ingest JsonRead ClawText.
Open Scope Z_scope.

(** ** Lines *)
(** [spaced rs ws]: the line [rs] is the words [ws], of printable ASCII characters, with blanks between and
    around them. *)
Definition word (w : list Z) : Prop := w <> [] /\ Forall (fun c => 33 <= c <= 126) w.
Inductive spaced : list Z -> list (list Z) -> Prop :=
| sp_nil b : Forall blank_char b -> spaced b []
| sp_one b w : Forall blank_char b -> word w -> spaced (b ++ w) [w]
| sp_cons b w c q ws : Forall blank_char b -> word w -> blank_char c -> spaced q ws -> spaced (b ++ w ++ c :: q) (w :: ws).
(** Nothing, or a comment to the end of the line. *)
Definition aside (ws : list (list Z)) : Prop := ws = [] \/ exists w q, ws = w :: q /\ starts [47; 47] w.
(** A word, maybe with a comma. *)
Definition ended (w w' : list Z) : Prop := w' = w \/ w' = w ++ [44].
(** The name of a field with its colon. *)
Definition heading (n : bytes) (hd : list (list Z)) : Prop := hd = [n ++ [58]] \/ hd = [n; [58]].
(** The line of a field whose value begins with the words [ws]. *)
Definition headed (n : bytes) (rs : list Z) (ws : list (list Z)) : Prop := exists hd, heading n hd /\ spaced rs (hd ++ ws).

(** ** Words *)
(** [spelled s rs]: between quotes, the characters [s] stand for [rs]. *)
Definition text_escapes : list (Z * Z) := [(34, 34); (92, 92); (110, 10); (114, 13); (116, 9)].
Inductive spelled : list Z -> list Z -> Prop :=
| sl_nil : spelled [] []
| sl_plain r s rs : scalar r -> 0x20 <= r -> r <> 34 -> r <> 92 -> spelled s rs -> spelled (r :: s) (r :: rs)
| sl_esc e r s rs : In (e, r) text_escapes -> spelled s rs -> spelled (92 :: e :: s) (r :: rs)
| sl_uni h r s rs : hex4 h r -> scalar r -> spelled s rs -> spelled (92 :: 117 :: h ++ s) (r :: rs).
Definition null_word : list Z := [110; 117; 108; 108].
Definition true_word : list Z := [116; 114; 117; 101].
Definition false_word : list Z := [102; 97; 108; 115; 101].
(** A literal with a point or an exponent. *)
Definition float_lit (w : list Z) : Prop :=
  Forall (fun c => 48 <= c <= 57 \/ In c [43; 45; 46; 69; 101]) w /\ (In 46 w \/ In 69 w \/ In 101 w) /\
  exists c q, (w = c :: q \/ w = 43 :: c :: q \/ w = 45 :: c :: q) /\ 48 <= c <= 57.
Section Values.
(** strconv.ParseFloat. *)
Variable parseFloat : bytes -> option Z.
(** Integers in the range of the kind and below 2^63; zero; a literal of a 64 bit float other than minus
    zero; the name of an enum value. *)
Inductive num_word : kind -> option (list (bytes * Z)) -> list Z -> Z -> Prop :=
| nw_int k e w z : is_int k -> k <> KBool -> int_lit w z -> in_range k z -> z < 2 ^ 63 -> num_word k e w z
| nw_zero k e w : int_lit w 0 -> num_word k e w 0
| nw_float e w f : float_lit w -> parseFloat w = Some f -> 0 <= f < 2 ^ 64 -> kept KF64 f = f -> num_word KF64 e w f
| nw_name k tbl w z : kept k z = z -> ident w -> ~ In w [null_word; true_word; false_word] -> In (w, z) tbl -> NoDup (map fst tbl) -> num_word k (Some tbl) w z.
Inductive bool_word : list Z -> Z -> Prop :=
| bw_true : bool_word true_word 1
| bw_false : bool_word false_word 0.
(** One word as the value of a field.  A comma must not follow null, true, false or a raw string. *)
Inductive field_word : fty -> list Z -> fval -> Prop :=
| fw_null ty : field_word ty null_word (zero_value ty)
| fw_bool e w z : bool_word w z -> field_word (TyNum KBool e) w (FNum KBool z (enum_label e z))
| fw_num k e w w' z : num_word k e w z -> ended w w' -> field_word (TyNum k e) w' (FNum k z (enum_label e z))
| fw_text s rs w' : spelled s rs -> ended (34 :: s ++ [34]) w' -> field_word (TyStr true) w' (FStr true (utf8 rs))
| fw_hex s b w' : hex_text b s -> ended (48 :: 120 :: s) w' -> field_word (TyStr false) w' (FStr false b)
| fw_raw t : ~ In 96 t -> field_word (TyStr true) (96 :: t ++ [96]) (FStr true t).
(** One word in a list, and as the value of a map entry. *)
Inductive num_elem (k : kind) (e : option (list (bytes * Z))) : list Z -> Z * option bytes -> Prop :=
| ne_bool w w' z : k = KBool -> bool_word w z -> ended w w' -> num_elem k e w' (z, enum_label e z)
| ne_num w w' z : num_word k e w z -> ended w w' -> num_elem k e w' (z, enum_label e z).
Inductive str_elem : list Z -> bytes -> Prop :=
| se_text s rs w' : spelled s rs -> ended (34 :: s ++ [34]) w' -> str_elem w' (utf8 rs).
Inductive entry_word : valty -> list Z -> mentry -> Prop :=
| ew_num k w z : num_elem k None w (z, None) -> entry_word (VTNum k) w (ENum z)
| ew_str w b : str_elem w b -> entry_word VTStr w (EStr b).

(** ** Lists *)
(** Words of a list, between which a comma may stand alone. *)
Inductive elems {A} (P : list Z -> A -> Prop) : list (list Z) -> list A -> Prop :=
| el_nil : elems P [] []
| el_comma ws l : elems P ws l -> elems P ([44] :: ws) l
| el_cons w a ws l : P w a -> elems P ws l -> elems P (w :: ws) (a :: l).
(** A list in one line, or in several. *)
Inductive list_text {A} (P : list Z -> A -> Prop) (n : bytes) : list A -> list (list Z) -> Prop :=
| lt_one rs ws cl tl l : headed n rs ([91] :: ws ++ cl :: tl) -> elems P ws l -> ended [93] cl -> aside tl -> list_text P n l [rs]
| lt_more rs ws l mids ml last ws' cl tl l' : headed n rs ([91] :: ws) -> elems P ws l ->
    Forall2 (fun rs l => exists ws, spaced rs ws /\ elems P ws l) mids ml ->
    spaced last (ws' ++ cl :: tl) -> elems P ws' l' -> ended [93] cl -> aside tl ->
    list_text P n (l ++ concat ml ++ l') (rs :: mids ++ [last]).

(** ** Structs *)
Variable E : env.
(** A line that closes a struct or a map, or a list of structs. *)
Definition closing (c : Z) (rs : list Z) : Prop := exists cl tl, spaced rs (cl :: tl) /\ ended [c] cl /\ aside tl.
(** The values of the declared fields: of those the text names, what it says; zero for the others. *)
Definition fills (decl : list (bytes * fty)) (said fs : list (bytes * fval)) : Prop :=
  Forall2 (fun nt nv => fst nt = fst nv /\ (In nv said \/ ~ In (fst nt) (map fst said) /\ snd nv = zero_value (snd nt))) decl fs.
Inductive shows_msg : nat -> list (bytes * fval) -> list (list Z) -> Prop :=
| sm_ id said fs rss : shows_fields id said rss -> NoDup (map fst said) -> fills (snd (E id)) said fs -> shows_msg id fs rss
with shows_fields : nat -> list (bytes * fval) -> list (list Z) -> Prop :=
| sf_nil id : shows_fields id [] []
| sf_cons id n ty v b q rss : In (n, ty) (snd (E id)) -> shows_field n ty v b -> shows_fields id q rss -> shows_fields id ((n, v) :: q) (b ++ rss)
(** The lines of one field. *)
with shows_field : bytes -> fty -> fval -> list (list Z) -> Prop :=
| sv_word n ty v rs w tl : headed n rs (w :: tl) -> aside tl -> field_word ty w v -> shows_field n ty v [rs]
(** Text of several words, in which no quote is. *)
| sv_text n pre gap0 gap s comma post rs : Forall blank_char pre -> Forall blank_char gap0 -> Forall blank_char gap -> gap <> [] -> Forall blank_char post ->
    spelled s rs -> ~ In 34 s -> comma = [] \/ comma = [44] ->
    shows_field n (TyStr true) (FStr true (utf8 rs)) [pre ++ n ++ gap0 ++ [58] ++ gap ++ (34 :: s ++ [34]) ++ comma ++ post]
(** A raw string of several lines: the first word of the first one (no more can be on that line), the whole
    lines between, and what is before the backtick in the last one. *)
| sv_raw n rs t mids p after : headed n rs [96 :: t] -> ~ In 96 t -> Forall (fun m => line_chars m /\ ~ In 96 m) mids -> line_chars p -> ~ In 96 p -> line_chars after ->
    shows_field n (TyStr true) (FStr true (t ++ concat (map (fun m => 10 :: utf8 m) mids) ++ 10 :: utf8 p)) (rs :: mids ++ [p ++ 96 :: after])
| sv_msg n id fs rs tl body rc : headed n rs ([123] :: tl) -> aside tl -> shows_msg id fs body -> closing 125 rc ->
    shows_field n (TyMsg id) (FMsg (if nothing_set fs then None else Some (TMsg (fst (E id)) fs))) (rs :: body ++ [rc])
| sv_nums n k e l b : list_text (num_elem k e) n l b -> shows_field n (TyNums k e) (FNums k l) b
| sv_strs n l b : list_text str_elem n l b -> shows_field n (TyStrs true) (FStrs true l) b
| sv_msgs n id l rs b : headed n rs [[91]] -> shows_msgs id l b -> shows_field n (TyMsgs id) (FMsgs l) (rs :: b)
(** The entries of a map may stand in any order. *)
| sv_map n vt id said es rs tl b : headed n rs ([64; 109; 97; 112] :: [123] :: tl) -> aside tl -> shows_entries vt id said b ->
    NoDup (map fst said) -> Permutation said es -> StronglySorted (key_lt KTStr) (map fst es) ->
    shows_field n (TyMap KTStr vt id) (FMap KTStr vt es) (rs :: b)
(** The structs of a list, to the bracket that closes it. *)
with shows_msgs : nat -> list tmsg -> list (list Z) -> Prop :=
| ss_end id rs : closing 93 rs -> shows_msgs id [] [rs]
| ss_cons id fs ro body rc l b : spaced ro [[123]] -> shows_msg id fs body -> closing 125 rc -> shows_msgs id l b ->
    shows_msgs id (TMsg (fst (E id)) fs :: l) (ro :: body ++ [rc] ++ b)
(** The entries of a map, to the brace that closes it. *)
with shows_entries : valty -> nat -> list (mkey * mentry) -> list (list Z) -> Prop :=
| sn_end vt id rs : closing 125 rs -> shows_entries vt id [] [rs]
| sn_word vt id s k e rs w tl l b : spaced rs ((34 :: s ++ [34]) :: [58] :: w :: tl) -> aside tl -> spelled s k -> entry_word vt w e -> shows_entries vt id l b ->
    shows_entries vt id ((KStr (utf8 k), e) :: l) (rs :: b)
| sn_msg id s k fs rs tl body rc l b : spaced rs ((34 :: s ++ [34]) :: [58] :: [123] :: tl) -> aside tl -> spelled s k -> shows_msg id fs body -> closing 125 rc -> shows_entries VTStruct id l b ->
    shows_entries VTStruct id ((KStr (utf8 k), EMsg (Some (TMsg (fst (E id)) fs))) :: l) (rs :: body ++ [rc] ++ b).
End Values.
