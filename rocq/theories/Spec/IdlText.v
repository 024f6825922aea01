(** What a schema text shows: the language of docs/schema_language, line by line. *)
From Coq Require Import ZArith List Bool String Permutation Sorted.
Import ListNotations.
From Verif.Model Require Import Base Utf8 Field Idl.
From Verif.Spec Require Import Text JsonGrammar ClawText Idl.
Local Open Scope Z_scope.

(** ** Words *)
Definition upper_letter (c : Z) : Prop := 65 <= c <= 90.
Definition lower_letter (c : Z) : Prop := 97 <= c <= 122.
Definition letter_or_digit (c : Z) : Prop := upper_letter c \/ lower_letter c \/ 48 <= c <= 57.
(** The names of types, fields and enum values: Abc1; those of packages: abc_1. *)
Definition tname (w : bytes) : Prop := exists c q, w = c :: q /\ upper_letter c /\ Forall letter_or_digit q.
Definition pname (w : bytes) : Prop := exists c q, w = c :: q /\ lower_letter c /\ Forall (fun c => letter_or_digit c \/ c = 95) q.
(** The name of a type of this package or of another, but Any. *)
Definition type_ref (w : bytes) : Prop := (tname w /\ w <> lit "Any") \/ exists p n, w = p ++ 46 :: n /\ pname p /\ tname n.
(** A keyword in any case. *)
Definition lower_ascii (c : Z) : Z := if (65 <=? c) && (c <=? 90) then c + 32 else c.
Definition keyword (k : string) (w : bytes) : Prop := Forall (fun c => upper_letter c \/ lower_letter c) w /\ map lower_ascii w = lit k.
(** @n *)
Definition at_number (w : bytes) (n : Z) : Prop := exists ds, w = 64 :: ds /\ digits1 ds /\ n = numval ds /\ n < 65536.

(** ** Lines *)
Definition says (l : iline) (ws : list bytes) : Prop :=
  l.(l_items) = ws ++ [[10]] /\ l.(l_eof) = false /\ Forall (fun w => w <> [] /\ w <> [10]) ws.
(** A line with words, maybe followed by a comment. *)
Definition line_says (l : iline) (ws : list bytes) : Prop :=
  exists tl, says l (ws ++ tl) /\ (tl = [] \/ exists w q, tl = w :: q /\ starts [47; 47] w).
(** Lines of comment and their texts: what follows the word with the slashes. *)
Inductive spoken : bytes -> list bytes -> Prop :=
| spo_nil : spoken [] []
| spo_one w : spoken w [w]
| spo_cons w t w' ws : spoken t (w' :: ws) -> spoken (w ++ 32 :: t) (w :: w' :: ws).
Inductive comments : list iline -> list bytes -> Prop :=
| co_nil : comments [] []
| co_cons l w q t ls ts : says l (w :: q) -> starts [47; 47] w -> spoken t q -> comments ls ts -> comments (l :: ls) (t :: ts).
(** The texts of the lines as they are kept. *)
Inductive kept_text : bytes -> list bytes -> Prop :=
| kt_nil : kept_text [] []
| kt_one t : kept_text t [t]
| kt_cons t r t' ts : kept_text r (t' :: ts) -> kept_text (t ++ [10; 47; 47; 32] ++ r) (t :: t' :: ts).
Definition remark (ls : list iline) (c : bytes) : Prop := exists ts, comments ls ts /\ kept_text c ts.

(** ** Types *)
Section Schema.
Variable F : file.
Variable ext : bytes -> option file.
Inductive map_shown : bytes -> minfo -> Prop :=
| ms_plain k kt kl v vt vl : In (k, kt, kl) builtin_types -> In kt key_types -> In (v, vt, vl) builtin_types ->
    map_shown (lit "map[" ++ lit k ++ 93 :: lit v) (MInfo kt vt [] None)
| ms_anys k kt kl : In (k, kt, kl) builtin_types -> In kt key_types ->
    map_shown (lit "map[" ++ lit k ++ 93 :: lit "[]Any") (MInfo kt FTListAny [] None)
| ms_struct k kt kl w s : In (k, kt, kl) builtin_types -> In kt key_types -> type_ref w -> stands_for F ext w (DStruct s) ->
    map_shown (lit "map[" ++ lit k ++ 93 :: w) (MInfo kt FTStruct w None)
| ms_map k kt kl w m : In (k, kt, kl) builtin_types -> In kt key_types -> map_shown w m ->
    map_shown (lit "map[" ++ lit k ++ 93 :: w) (MInfo kt FTMap [] (Some m)).
Definition maybe_list (isList : bool) (w : bytes) : bytes := if isList then lit "[]" ++ w else w.
(** A field with the name [n], the type [w] and the number [i], in the struct [self]. *)
Inductive field_shown (self c n : bytes) (i : Z) : bytes -> sfield -> Prop :=
| fs_builtin isList name t lt : In (name, t, lt) builtin_types ->
    field_shown self c n i (maybe_list isList (lit name))
      (mkFd c n i (if isList then lt else t) false isList [] false (name =? "Any")%string None)
| fs_map w m : map_shown w m -> field_shown self c n i w (mkFd c n i FTMap false false [] false false (Some m))
| fs_self isList : tname self -> self <> lit "Any" ->
    field_shown self c n i (maybe_list isList self) (mkFd c n i (if isList then FTListStructs else FTStruct) false isList self true false None)
| fs_name isList w d : type_ref w -> w <> self -> stands_for F ext w d ->
    field_shown self c n i (maybe_list isList w)
      (mkFd c n i (fst (declared_type d isList)) (snd (declared_type d isList)) isList w false false None).

(** ** Declarations *)
Inductive fields_text (self : bytes) : list iline -> list sfield -> Prop :=
| xt_nil : fields_text self [] []
| xt_cons cs c l n w a i fd ls fds : remark cs c -> tname n -> at_number a i -> field_shown self c n i w fd -> line_says l [n; w; a] ->
    fields_text self ls fds -> fields_text self (cs ++ l :: ls) (fd :: fds).
Inductive values_text : list iline -> list enumval -> Prop :=
| vt_nil : values_text [] []
| vt_cons cs c l n a i ls vs : remark cs c -> tname n -> at_number a i -> line_says l [n; a] ->
    values_text ls vs -> values_text (cs ++ l :: ls) (mkEV c n i :: vs).
Inductive decl_text : list iline -> decl -> Prop :=
| dt_enum cs c l k n sz size ls vs cs' ts cl :
    remark cs c -> keyword "enum" k -> tname n -> In (sz, size) [(lit "uint8", 8); (lit "uint16", 16)] -> line_says l [k; n; sz; lit "{"] ->
    values_text ls vs -> vs <> [] -> NoDup (map ev_name vs) -> NoDup (map ev_value vs) -> comments cs' ts -> line_says cl [lit "}"] ->
    decl_text (cs ++ l :: ls ++ cs' ++ [cl]) (DEnum (mkEnum c n size vs))
| dt_struct cs c l k n ls fds fds' cs' ts cl :
    remark cs c -> keyword "struct" k -> tname n -> line_says l [k; n; lit "{"] ->
    fields_text n ls fds -> fds <> [] -> Permutation fds fds' -> map fd_index fds' = map Z.of_nat (seq 0 (length fds')) ->
    comments cs' ts -> line_says cl [lit "}"] ->
    decl_text (cs ++ l :: ls ++ cs' ++ [cl]) (DStruct (mkStruct c n fds')).
Inductive decls_text : list iline -> list decl -> Prop :=
| ds_nil : decls_text [] []
| ds_cons ls d ls' ds : decl_text ls d -> decls_text ls' ds -> decls_text (ls ++ ls') (d :: ds).
End Schema.

(** ** The head *)
Section Head.
(** unicode.IsSpace *)
Variable space : Z -> bool.
Definition spaces (b : list Z) : Prop := Forall (fun c => space c = true /\ c <> 10) b.
(** options [ IsSet( ) ] *)
Definition options_line (l : iline) : Prop :=
  (exists ws, says l (lit "options" :: ws)) /\
  exists rs b0 b1 b2 b3 b4 b5 tl, l.(l_raw) = utf8 rs ++ [10] /\ Forall scalar rs /\ ~ In 10 rs /\
    rs = b0 ++ lit "options" ++ b1 ++ lit "[" ++ b2 ++ lit "IsSet(" ++ b3 ++ lit ")" ++ b4 ++ lit "]" ++ b5 ++ tl /\
    spaces b0 /\ spaces b1 /\ b1 <> [] /\ spaces b2 /\ spaces b3 /\ spaces b4 /\ spaces b5 /\ (tl = [] \/ starts [47; 47] tl).
(** The path of a package and the name at its end. *)
Definition path_of (path name : bytes) : Prop :=
  (exists p, path = p ++ 47 :: name) /\ ~ In 47 name /\ name <> [] /\ ~ In 34 path.
Definition quoted (p : bytes) : bytes := 34 :: p ++ [34].
Inductive import_line (l : iline) : bytes * bytes -> Prop :=
| il_plain path n : path_of path n -> line_says l [quoted path] -> import_line l (n, path)
| il_renamed path n m : path_of path n -> pname m -> line_says l [m; quoted path] -> import_line l (m, path).
Definition import_text (ls : list iline) (is : list (bytes * bytes)) : Prop :=
  exists o k es c, ls = o :: es ++ [c] /\ keyword "import" k /\ line_says o [k; lit "("] /\ Forall2 import_line es is /\ is <> [] /\
    NoDup (map fst is) /\ line_says c [lit ")"].
(** The version, the options and the imports, each at most once and in any order: what was there before and is behind. *)
Inductive head_text : bool -> bool -> option (list (bytes * bytes)) -> list iline -> bool -> bool -> option (list (bytes * bytes)) -> Prop :=
| ht_nil v o i : head_text v o i [] v o i
| ht_version cs ts l ls o i v' o' i' : comments cs ts -> line_says l [lit "version"; lit "0"] ->
    head_text true o i ls v' o' i' -> head_text false o i (cs ++ l :: ls) v' o' i'
| ht_options cs ts l ls v i v' o' i' : comments cs ts -> options_line l ->
    head_text v true i ls v' o' i' -> head_text v false i (cs ++ l :: ls) v' o' i'
| ht_import cs ts im is ls v o v' o' i' : comments cs ts -> import_text im is ->
    head_text v o (Some is) ls v' o' i' -> head_text v o None (cs ++ im ++ ls) v' o' i'.

(** ** The file *)
(** The lines of a file and the file they show, with the types of all fields resolved. *)
Inductive schema_text (F : file) (ext : bytes -> option file) : list iline -> Prop :=
| sc cs ts l hls v o dls cs' ts' :
    comments cs ts -> pname F.(f_package) -> line_says l [lit "package"; F.(f_package)] ->
    head_text false false None hls v o F.(f_imports) ->
    F.(f_version) = 0 -> F.(f_options) = (if o then [mkOpt (lit "IsSet") []] else []) ->
    decls_text F ext dls F.(f_idents) -> NoDup (map decl_name F.(f_idents)) -> comments cs' ts' ->
    schema_text F ext (cs ++ l :: hls ++ dls ++ cs').

(** The lines of a text; those without words are left out. *)
Definition lines_of (rss : list (list Z)) : list iline :=
  map (fun rs => mkL (map utf8 (words space rs) ++ [[10]]) false (utf8 rs ++ [10])) (filter (worded space) rss).
End Head.

(** The file [f] that was read is [F] once its types are resolved. *)
Definition same_decl (f : file) (ext : bytes -> option file) (d d' : decl) : Prop :=
  match d, d' with
  | DEnum e, DEnum e' => e = e'
  | DStruct s, DStruct s' => s.(s_name) = s'.(s_name) /\ s.(s_comment) = s'.(s_comment) /\
      Forall2 (fun fd fd' => resolveField f ext fd = Ok fd') s.(s_fields) s'.(s_fields)
  | _, _ => False
  end.
Definition read_as (f : file) (ext : bytes -> option file) (F : file) : Prop :=
  f.(f_package) = F.(f_package) /\ f.(f_version) = F.(f_version) /\ f.(f_options) = F.(f_options) /\ f.(f_imports) = F.(f_imports) /\
  Forall2 (same_decl f ext) f.(f_idents) F.(f_idents).
(** The unicode tables, strings.ToLower and Item.ToInt on ASCII. *)
Record ascii_tables (isUpper isLower isLetter isNumber isSpace : Z -> bool) (toLower : bytes -> bytes) (toInt : bytes -> option Z) : Prop := {
  at_upper : forall c, upper_letter c -> isUpper c = true /\ isLower c = false /\ isLetter c = true;
  at_lower : forall c, lower_letter c -> isUpper c = false /\ isLower c = true /\ isLetter c = true;
  at_digit : forall c, 48 <= c <= 57 -> isNumber c = true;
  at_close : isLetter 41 = false /\ isNumber 41 = false;
  at_print : forall c, 33 <= c <= 126 -> isSpace c = false;
  at_tolower : forall w, Forall (fun c => upper_letter c \/ lower_letter c) w -> toLower w = map lower_ascii w;
  at_zero : toInt (lit "0") = Some 0 }.
