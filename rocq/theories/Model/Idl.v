(** The parser of schema files: clawc/internal/idl/idl.go and options.go.

    The line lexer (github.com/johnsiilver/halfpike, not part of the repository) is not modelled: the parser
    is given its lines.  A line is its items, the last of which is the end of the line (the text is a
    newline) or the end of the file (the text is empty); lines without words are not given, as TestFile of
    idl_test.go shows; p.Next after the last line gives a line that is only the end of the file, and
    p.Backup takes a line back. *)
From Coq Require Import ZArith List Bool String Ascii.
Import ListNotations.
From Verif.Model Require Import Base Utf8 Field Any ClawText.
Local Open Scope Z_scope.

(** A Go string literal. *)
Definition lit (s : string) : bytes := map (fun c => Z.of_nat (nat_of_ascii c)) (list_ascii_of_string s).
Notation "w =b l" := (bytes_eqb w (lit l)) (at level 70).

(** halfpike.Line: the values of Items; whether the last one is ItemEOF; Raw. *)
Record iline := mkL { l_items : list bytes; l_eof : bool; l_raw : bytes }.
Definition eofLine : iline := mkL [[]] true [].
(** p.Next *)
Definition next (ls : list iline) : iline * list iline := match ls with [] => (eofLine, []) | l :: q => (l, q) end.
(** l.Items[k].Val *)
Definition item (l : iline) (k : nat) : res bytes := match nth_error l.(l_items) k with Some w => Ok w | None => Panic end.

Definition ok_if (b : bool) : res unit := if b then Ok tt else Err.

(** idl.go:isComment 1633-1635 *)
Definition isComment (w : bytes) : bool := hasPrefix (lit "//") w.
(** idl.go:withoutCommentEOL 1637-1650; the items that are left. *)
Fixpoint withoutCommentEOL (items : list bytes) : list bytes :=
  match items with
  | [] => []
  | [_] => []
  | w :: q => if isComment w then [] else w :: withoutCommentEOL q
  end.
(** idl.go:commentOrEOL 1652-1662 *)
Definition commentOrEOL (l : iline) (from : nat) : res unit :=
  w <- item l from ;;
  if isComment w then Ok tt else ok_if (negb (1 <? len (skipn from l.(l_items)))).

(** strings.Join *)
Fixpoint join (sep : bytes) (ws : list bytes) : bytes :=
  match ws with [] => [] | [w] => w | w :: q => w ++ sep ++ join sep q end.
(** The text of a line of comment: idl.go 254-260, 616-621, 1239-1244. *)
Definition commentText (l : iline) : bytes := join (lit " ") (filter (fun w => negb (bytes_eqb w [10])) (tl l.(l_items))).
Definition commentLines (cs : list bytes) : bytes := join (10 :: lit "// ") cs.

(** The part of a string before the separator: strings.Split(s, sep)[0]. *)
Fixpoint upto (sep s : bytes) : bytes :=
  if hasPrefix sep s then [] else match s with [] => [] | c :: q => c :: upto sep q end.
(** strings.Split(s, c) for one character. *)
Fixpoint splitAt (c : Z) (s : bytes) : list bytes :=
  match s with
  | [] => [[]]
  | d :: q =>
    if d =? c then [] :: splitAt c q
    else match splitAt c q with w :: ws => (d :: w) :: ws | [] => [[d]] end
  end.
(** strings.Trim(s, c) for one character; strings.Count(s, c). *)
Fixpoint trimLeft (c : Z) (s : bytes) : bytes := match s with d :: q => if d =? c then trimLeft c q else s | [] => [] end.
Definition trim (c : Z) (s : bytes) : bytes := rev (trimLeft c (rev (trimLeft c s))).
Definition count (c : Z) (s : bytes) : Z := len (filter (fun d => d =? c) s).

(** Enum and EnumVal, 499-506, 567-573.  The maps names and values are the list of the values, in the order
    of the file; no two have the same name or the same number. *)
Record enumval := mkEV { ev_comment : bytes; ev_name : bytes; ev_value : Z }.
Record enum := mkEnum { e_comment : bytes; e_name : bytes; e_size : Z; e_vals : list enumval }.
(** MapTypeInfo 727-735, and the four results of parseMapType. *)
Inductive minfo := MInfo (key val : Z) (ident : bytes) (nested : option minfo).
(** StructField 676-724; the fields that Render sets are left out, and KeyType, ValueType, ValueIdentName
    and NestedMapInfo are together in fd_map. *)
Record sfield := mkFd {
  fd_comment : bytes; fd_name : bytes; fd_index : Z; fd_type : Z;
  fd_isEnum : bool; fd_isList : bool; fd_ident : bytes; fd_self : bool; fd_isAny : bool; fd_map : option minfo }.
(** Struct 1041-1051 *)
Record struct := mkStruct { s_comment : bytes; s_name : bytes; s_fields : list sfield }.
Inductive decl := DEnum (e : enum) | DStruct (s : struct).
Definition decl_name (d : decl) : bytes := match d with DEnum e => e.(e_name) | DStruct s => s.(s_name) end.
Record option_ := mkOpt { o_name : bytes; o_args : list bytes }.
(** File 34-56, without what the parser does not set.  The maps Identifers and Options are lists in the order
    in which they are filled; External the set of its keys; Imports: name and path, None is nil. *)
Record file := mkFile {
  f_package : bytes; f_version : Z; f_options : list option_; f_idents : list decl;
  f_external : list bytes; f_imports : option (list (bytes * bytes)) }.
(** New 59-77 *)
Definition newFile : file := mkFile [] (-1) [] [] [] None.

Definition FTUnknown : Z := 0.

(** The types of the switch of field 1300-1385: name, type, IsList, IsAny. *)
Definition builtins : list (bytes * (Z * bool * bool)) := [
  (lit "bool", (FTBool, false, false)); (lit "uint8", (FTUint8, false, false)); (lit "uint16", (FTUint16, false, false));
  (lit "uint32", (FTUint32, false, false)); (lit "uint64", (FTUint64, false, false)); (lit "int8", (FTInt8, false, false));
  (lit "int16", (FTInt16, false, false)); (lit "int32", (FTInt32, false, false)); (lit "int64", (FTInt64, false, false));
  (lit "float32", (FTFloat32, false, false)); (lit "float64", (FTFloat64, false, false)); (lit "string", (FTString, false, false));
  (lit "bytes", (FTBytes, false, false));
  (lit "[]bool", (FTListBools, true, false)); (lit "[]uint8", (FTListUint8, true, false)); (lit "[]uint16", (FTListUint16, true, false));
  (lit "[]uint32", (FTListUint32, true, false)); (lit "[]uint64", (FTListUint64, true, false)); (lit "[]int8", (FTListInt8, true, false));
  (lit "[]int16", (FTListInt16, true, false)); (lit "[]int32", (FTListInt32, true, false)); (lit "[]int64", (FTListInt64, true, false));
  (lit "[]float32", (FTListFloat32, true, false)); (lit "[]float64", (FTListFloat64, true, false)); (lit "[]string", (FTListStrings, true, false));
  (lit "[]bytes", (FTListBytes, true, false));
  (lit "Any", (FTAny, false, true)); (lit "[]Any", (FTListAny, true, true)) ].
(** parseScalarType 1588-1621 *)
Definition scalars : list (bytes * Z) := [
  (lit "bool", FTBool); (lit "int8", FTInt8); (lit "int16", FTInt16); (lit "int32", FTInt32); (lit "int64", FTInt64);
  (lit "uint8", FTUint8); (lit "uint16", FTUint16); (lit "uint32", FTUint32); (lit "uint64", FTUint64);
  (lit "float32", FTFloat32); (lit "float64", FTFloat64); (lit "string", FTString); (lit "bytes", FTBytes); (lit "Any", FTAny) ].
Fixpoint lookup {A} (l : list (bytes * A)) (w : bytes) : option A :=
  match l with [] => None | (n, a) :: q => if bytes_eqb n w then Some a else lookup q w end.
Definition parseScalarType (w : bytes) : option Z := lookup scalars w.
(** field.go:IsValidMapKeyType 66-75, IsValidMapValueType 79-88 (clawc/languages/go/field) *)
Definition IsValidMapKeyType (t : Z) : bool := ((FTBool <=? t) && (t <=? FTFloat64)) || (t =? FTString).
Definition IsValidMapValueType (t : Z) : bool := ((FTBool <=? t) && (t <=? FTAny)) || (t =? FTMap) || (t =? FTListAny).

(** File.Identifers[n] *)
Definition ident_of (ds : list decl) (n : bytes) : option decl := find (fun d => bytes_eqb (decl_name d) n) ds.
(** Import.ByPkgName 425-432 *)
Definition imported (f : file) (n : bytes) : bool :=
  match f.(f_imports) with None => false | Some l => existsb (fun e => bytes_eqb (fst e) n) l end.

(** idl.go:parseMapType 1506-1530: the key and the value of map[K]V; [s] is behind the bracket. *)
Fixpoint mapSplit (depth : Z) (s : bytes) : option (bytes * bytes) :=
  match s with
  | [] => None
  | c :: q =>
    let d := if c =? 91 then depth + 1 else if c =? 93 then depth - 1 else depth in
    if (c =? 93) && (d =? 0) then Some ([], q)
    else match mapSplit d q with Some (k, v) => Some (c :: k, v) | None => None end
  end.
(** idl.go:parseMapType 1499-1585; the names it adds to File.External.  The fuel is the length of the text. *)
Fixpoint parseMapType (fuel : nat) (f : file) (s : bytes) : res (minfo * list bytes) :=
  match fuel with
  | O => Hang
  | S fuel =>
    _ <- ok_if (hasPrefix (lit "map[") s) ;;
    match mapSplit 1 (skipn 4 s) with
    | None => Err
    | Some (k, v) =>
      match parseScalarType k with
      | None => Err
      | Some kt =>
        _ <- ok_if (IsValidMapKeyType kt) ;;
        if hasPrefix (lit "map[") v then
          '(m, ext) <- parseMapType fuel f v ;; Ok (MInfo kt FTMap [] (Some m), ext)
        else if v =b "[]Any" then Ok (MInfo kt FTListAny [] None, [])
        else
          match parseScalarType v with
          | Some vt => _ <- ok_if (IsValidMapValueType vt || (vt =? FTStruct)) ;; Ok (MInfo kt vt [] None, [])
          | None =>
            ext <- match splitAt 46 v with
                   | [p; _] => _ <- ok_if (imported f p) ;; Ok [v]
                   | _ => Ok []
                   end ;;
            Ok (MInfo kt FTStruct v None, ext)
          end
      end
    end
  end.

(** The type of a field: what the switch 1299-1470 sets, and the names added to File.External. *)
Record ftype := mkTy { ty_type : Z; ty_isEnum : bool; ty_isList : bool; ty_ident : bytes; ty_self : bool; ty_isAny : bool; ty_map : option minfo }.
Definition fieldType (f : file) (self : bytes) (w : bytes) : res (ftype * list bytes) :=
  match lookup builtins w with
  | Some (t, l, a) => Ok (mkTy t false l [] false a None, [])
  | None =>
    if hasPrefix (lit "map[") w then
      '(m, ext) <- parseMapType (S (length w)) f w ;; Ok (mkTy FTMap false false [] false false (Some m), ext)
    else
      let isList := hasPrefix (lit "[]") w in
      let ft := if isList then upto (lit "[]") (skipn 2 w) else w in
      if bytes_eqb self ft then
        match ident_of f.(f_idents) ft with
        | Some _ => Err
        | None => Ok (mkTy (if isList then FTListStructs else FTStruct) false isList self true false None, [])
        end
      else
        match ident_of f.(f_idents) ft with
        | Some (DEnum e) =>
          if e.(e_size) =? 8 then Ok (mkTy (if isList then FTListUint8 else FTUint8) true isList ft false false None, [])
          else if e.(e_size) =? 16 then Ok (mkTy (if isList then FTListUint16 else FTUint16) true isList ft false false None, [])
          else Panic
        | Some (DStruct _) => Ok (mkTy (if isList then FTListStructs else FTStruct) false isList ft false false None, [])
        | None =>
          ext <- (if count 46 (trim 46 ft) =? 1 then _ <- ok_if (imported f (hd [] (splitAt 46 ft))) ;; Ok [ft] else Ok []) ;;
          Ok (mkTy FTUnknown false isList ft false false None, ext)
        end
  end.

(** Struct.Render 1084-1178: the types that were not known when the field was read.  [ext]: the files of
    File.External, None where it is nil; the full path, the package and IsExternal are left out. *)
Definition withType (fd : sfield) (t : Z) (isEnum : bool) : sfield :=
  mkFd fd.(fd_comment) fd.(fd_name) fd.(fd_index) t isEnum fd.(fd_isList) fd.(fd_ident) fd.(fd_self) fd.(fd_isAny) fd.(fd_map).
Definition resolveTo (fd : sfield) (d : option decl) : res sfield :=
  match d with
  | Some (DEnum e) =>
    if e.(e_size) =? 8 then Ok (withType fd (if fd.(fd_isList) then FTListUint8 else FTUint8) true)
    else if e.(e_size) =? 16 then Ok (withType fd (if fd.(fd_isList) then FTListUint16 else FTUint16) true)
    else Err
  | Some (DStruct _) => Ok (withType fd (if fd.(fd_isList) then FTListStructs else FTStruct) fd.(fd_isEnum))
  | None => Err
  end.
Definition resolveField (f : file) (ext : bytes -> option file) (fd : sfield) : res sfield :=
  if fd.(fd_type) =? FTUnknown then
    if negb (existsb (fun c => c =? 46) fd.(fd_ident)) then resolveTo fd (ident_of f.(f_idents) fd.(fd_ident))
    else
      match splitAt 46 fd.(fd_ident) with
      | [p; n] =>
        if imported f p then
          match ext fd.(fd_ident) with None => Panic | Some g => resolveTo fd (ident_of g.(f_idents) n) end
        else Panic
      | _ => Err
      end
  else Ok fd.

(** @n: 1473-1485 and 632-642; strconv.Atoi is parseInt of Model/ClawText.v. *)
Definition atNumber (w : bytes) : res Z :=
  match w with
  | 64 :: q => match parseInt (upto [64] q) with Some n => Ok n | None => Err end
  | _ => Err
  end.

(** slices.SortFunc with cmp.Compare of a number; no two are equal where it is used. *)
Section Sort.
Context {A : Type}.
Variable key : A -> Z.
Fixpoint insertBy (x : A) (l : list A) : list A :=
  match l with [] => [x] | y :: q => if key x <=? key y then x :: l else y :: insertBy x q end.
Definition sortBy (l : list A) : list A := fold_right insertBy [] l.
End Sort.

(** OrderByValues 518-533: the entry of the value v goes into slot v of a slice with as many slots as there
    are values; then they are sorted. *)
Definition zeroEV : enumval := mkEV [] [] 0.
Fixpoint fillSlots (l : list enumval) (vs : list enumval) : res (list enumval) :=
  match vs with
  | [] => Ok l
  | v :: q => if v.(ev_value) <? len l then fillSlots (set_nth (Z.to_nat v.(ev_value)) v l) q else Panic
  end.
Definition OrderByValues (e : enum) : res (list enumval) :=
  l <- fillSlots (repeat zeroEV (length e.(e_vals))) e.(e_vals) ;; Ok (sortBy ev_value l).

Section Parse.
(** unicode.IsUpper, IsLower, IsLetter, IsNumber, IsSpace; strings.ToLower; halfpike's Item.ToInt. *)
Variables isUpper isLower isLetter isNumber isSpace : Z -> bool.
Variable toLower : bytes -> bytes.
Variable toInt : bytes -> option Z.

(** ValidPackage 1665-1686; []rune(s) is the list of its runes. *)
Definition ValidPackage (w : bytes) : res unit :=
  match runes w with
  | [] => Panic
  | r :: q => ok_if (negb (isUpper r) && isLetter r && forallb (fun r => isLetter r || isNumber r || (r =? 95)) q)
  end.
(** validateIdent 1688-1708 *)
Definition validateIdent (w : bytes) : res unit :=
  match runes w with
  | [] => Panic
  | r :: q => ok_if (negb (isLower r) && isLetter r && forallb (fun r => isLetter r || isNumber r) q)
  end.
(** validImportPath 1712-1725, pkgFromImpPath 1727-1729 (path.Base of a path with a slash that does not end
    with one: what follows the last slash). *)
Definition validImportPath (w : bytes) : option bytes :=
  if negb (hasPrefix [34] w) || negb (hasLast 34 w) then None
  else
    let wq := trim 34 w in
    if negb (existsb (fun c => c =? 47) wq) then None else if hasLast 47 wq then None else Some wq.
Definition pkgFromImpPath (p : bytes) : bytes := last (splitAt 47 p) [].

(** SkipLinesWithComments 228-239.  Where the comment is at the end of the file it stays read. *)
Fixpoint skipComments (ls : list iline) : res (list iline) :=
  match ls with
  | [] => Ok []
  | l :: q => w <- item l 0 ;; if isComment w then (if l.(l_eof) then Ok q else skipComments q) else Ok ls
  end.
(** CollectComments 244-268: the lines of comment, and the lines left. *)
Fixpoint collectComments (ls : list iline) : res (list bytes * list iline) :=
  match ls with
  | [] => Ok ([], [])
  | l :: q =>
    if l.(l_eof) then Ok ([], q)
    else
      w <- item l 0 ;;
      if isComment w then '(cs, r) <- collectComments q ;; Ok (commentText l :: cs, r) else Ok ([], ls)
  end.

(** ParseVersion 368-390 *)
Definition parseVersion (f : file) (ls : list iline) : res (file * list iline) :=
  let '(l, q) := next ls in
  _ <- ok_if (negb (len l.(l_items) <? 3)) ;;
  w0 <- item l 0 ;;
  _ <- ok_if (w0 =b "version") ;;
  w1 <- item l 1 ;;
  match toInt w1 with
  | None => Err
  | Some n =>
    _ <- commentOrEOL l 2 ;;
    Ok (mkFile f.(f_package) n f.(f_options) f.(f_idents) f.(f_external) f.(f_imports), q)
  end.

(** options.go:parseArgs 207-265: the characters behind the parenthesis; the option, the last character and the
    last one that is no space, and the characters left. *)
Fixpoint parseArgs (rs : list Z) (args : list bytes) (inQuote : bool) (buff : list Z) (lastNotSpace : Z) : res (list bytes * Z * list Z) :=
  match rs with
  | [] => Err
  | r :: q =>
    let lns := if isSpace r then lastNotSpace else r in
    if isSpace r then parseArgs q args inQuote (if inQuote then buff ++ [r] else buff) lns
    else if r =? 44 then
      if inQuote then parseArgs q args inQuote (buff ++ [r]) lns
      else match args with
           | [] => Err
           | _ => if lastNotSpace =? 34 then parseArgs q args inQuote buff lns else Err
           end
    else if r =? 34 then
      if inQuote then parseArgs q (args ++ [flat_map AppendRune buff]) false [] lns
      else parseArgs q args true buff lns
    else if isLetter r || isNumber r then parseArgs q args inQuote (buff ++ [r]) lns
    else if r =? 41 then
      if inQuote then Err else match q with [] => Err | _ => Ok (args, r, q) end
    else Err
  end.
(** options.go:parseOptions 78-205: the options, and the characters behind the bracket that closes them.  The
    fuel is the number of characters. *)
Fixpoint optLoop (fuel : nat) (rs : list Z) (o : list option_) (buff : list Z) (last lastNotSpace : Z) : res (list option_ * list Z) :=
  match fuel with
  | O => Hang
  | S fuel =>
    match rs with
    | [] => Err
    | r :: q =>
      let lns := if isSpace r then lastNotSpace else r in
      if r =? 91 then optLoop fuel q o buff r lns
      else if r =? 93 then match o with [] => Err | _ => Ok (o, q) end
      else if r =? 40 then
        match buff with
        | [] => Err
        | _ =>
          '(args, c, q) <- parseArgs q [] false [] 0 ;;
          optLoop fuel q (o ++ [mkOpt (flat_map AppendRune buff) args]) [] c c
        end
      else if r =? 44 then
        match o with
        | [] => Err
        | _ => if lastNotSpace =? 41 then optLoop fuel q o buff r lns else Err
        end
      else if isSpace r then
        if isSpace last || (last =? 44) || (last =? 41) || (lastNotSpace =? 91) then optLoop fuel q o buff r lns else Err
      else if isLetter r || isNumber r then optLoop fuel q o (buff ++ [r]) r lns
      else Err
    end
  end.
(** options.go 184-203: spaces and a comment behind the options. *)
Fixpoint optTail (rs : list Z) : res unit :=
  match rs with
  | [] => Ok tt
  | r :: q =>
    if isSpace r then optTail q
    else if r =? 47 then match q with c :: _ => ok_if (c =? 47) | [] => Err end
    else Err
  end.
(** options.go:parse 39-75.  The lexer of a line (halfpike/line) gives its spaces and words; a word goes up to
    the next space. *)
Definition lineSpace (r : Z) : bool := isSpace r && negb (r =? 10).
Fixpoint dropSpaces (rs : list Z) : list Z := match rs with r :: q => if lineSpace r then dropSpaces q else rs | [] => [] end.
Fixpoint takeWord (rs : list Z) : list Z * list Z :=
  match rs with r :: q => if isSpace r then ([], rs) else let '(w, t) := takeWord q in (r :: w, t) | [] => ([], []) end.
Definition optionsParse (l : iline) : res (list option_) :=
  w0 <- item l 0 ;;
  _ <- ok_if (w0 =b "options") ;;
  let '(w, rest) := takeWord (dropSpaces (runes l.(l_raw))) in
  _ <- ok_if (w =b "options") ;;
  let rest := upto [10] (dropSpaces rest) in
  _ <- ok_if (hasPrefix [91] rest) ;;
  '(o, t) <- optLoop (S (length rest)) rest [] [] 0 0 ;;
  _ <- optTail t ;;
  Ok o.
(** ParseOptions 393-407 *)
Fixpoint addOptions (have : list option_) (o : list option_) : res (list option_) :=
  match o with
  | [] => Ok have
  | x :: q => if existsb (fun y => bytes_eqb y.(o_name) x.(o_name)) have then Err else addOptions (have ++ [x]) q
  end.
Definition parseOptions (f : file) (ls : list iline) : res (file * list iline) :=
  let '(l, q) := next ls in
  o <- optionsParse l ;;
  o <- addOptions f.(f_options) o ;;
  Ok (mkFile f.(f_package) f.(f_version) o f.(f_idents) f.(f_external) f.(f_imports), q).

(** Import.parse 435-497 *)
Definition addImport (have : list (bytes * bytes)) (n p : bytes) : res (list (bytes * bytes)) :=
  if existsb (fun e => bytes_eqb (fst e) n) have then Err else Ok (have ++ [(n, p)]).
Fixpoint importLoop (ls : list iline) (have : list (bytes * bytes)) : res (list (bytes * bytes) * list iline) :=
  match ls with
  | [] => Err
  | l :: q =>
    if l.(l_eof) then Err
    else
      w0 <- item l 0 ;;
      if w0 =b ")" then _ <- commentOrEOL l 1 ;; Ok (have, q)
      else
        match withoutCommentEOL l.(l_items) with
        | [p] => match validImportPath p with None => Err | Some p => have <- addImport have (pkgFromImpPath p) p ;; importLoop q have end
        | [n; p] =>
          _ <- ValidPackage n ;;
          match validImportPath p with None => Err | Some p => have <- addImport have n p ;; importLoop q have end
        | _ => Err
        end
  end.
Definition parseImport (ls : list iline) : res (list (bytes * bytes) * list iline) :=
  let '(l, q) := next ls in
  _ <- ok_if (negb (len l.(l_items) <? 3)) ;;
  w1 <- item l 1 ;;
  _ <- ok_if (w1 =b "(") ;;
  _ <- commentOrEOL l 2 ;;
  if l.(l_eof) then Err
  else '(is, q) <- importLoop q [] ;; match is with [] => Err | _ => Ok (is, q) end.

(** Enum.parse 576-673 *)
Fixpoint enumLoop (ls : list iline) (pending : list bytes) (have : list enumval) : res (list enumval * list iline) :=
  match ls with
  | [] => Err
  | l :: q =>
    w0 <- item l 0 ;;
    if w0 =b "}" then _ <- commentOrEOL l 1 ;; Ok (have, q)
    else if l.(l_eof) then Err
    else if isComment w0 then enumLoop q (pending ++ [commentText l]) have
    else
      _ <- ok_if (negb (len l.(l_items) <? 3)) ;;
      _ <- validateIdent w0 ;;
      if existsb (fun v => bytes_eqb v.(ev_name) w0) have then Err
      else
        w1 <- item l 1 ;;
        n <- atNumber w1 ;;
        _ <- ok_if (negb (n <? 0)) ;;
        if existsb (fun v => v.(ev_value) =? u16 n) have then Err
        else
          _ <- commentOrEOL l 2 ;;
          enumLoop q [] (have ++ [mkEV (commentLines pending) w0 (u16 n)])
  end.
Definition parseEnum (comment : bytes) (ls : list iline) : res (enum * list iline) :=
  let '(l, q) := next ls in
  _ <- ok_if (negb (len l.(l_items) <? 5)) ;;
  n <- item l 1 ;;
  _ <- validateIdent n ;;
  w2 <- item l 2 ;;
  size <- (if w2 =b "uint8" then Ok 8 else if w2 =b "uint16" then Ok 16 else Err) ;;
  w3 <- item l 3 ;;
  _ <- ok_if (w3 =b "{") ;;
  _ <- commentOrEOL l 4 ;;
  '(vs, q) <- enumLoop q [] [] ;;
  match vs with [] => Err | _ => Ok (mkEnum comment n size vs, q) end.

(** Struct.field 1286-1493 *)
Definition parseField (f : file) (self comment : bytes) (l : iline) : res (sfield * list bytes) :=
  _ <- ok_if (negb l.(l_eof)) ;;
  _ <- ok_if (negb (len l.(l_items) <? 3)) ;;
  n <- item l 0 ;;
  _ <- validateIdent n ;;
  w1 <- item l 1 ;;
  '(t, ext) <- fieldType f self w1 ;;
  w2 <- item l 2 ;;
  i <- atNumber w2 ;;
  _ <- ok_if (negb (65535 <? i)) ;;
  _ <- commentOrEOL l 3 ;;
  Ok (mkFd comment n (u16 i) t.(ty_type) t.(ty_isEnum) t.(ty_isList) t.(ty_ident) t.(ty_self) t.(ty_isAny) t.(ty_map), ext).
Definition addExternal (f : file) (ext : list bytes) : file :=
  mkFile f.(f_package) f.(f_version) f.(f_options) f.(f_idents)
    (f.(f_external) ++ filter (fun e => negb (existsb (bytes_eqb e) f.(f_external))) ext) f.(f_imports).
(** Struct.fields 1218-1252 *)
Fixpoint fieldLoop (f : file) (self : bytes) (ls : list iline) (pending : list bytes) (have : list sfield) : res (list sfield * file * list iline) :=
  match ls with
  | [] => Err
  | l :: q =>
    w0 <- item l 0 ;;
    if w0 =b "}" then _ <- commentOrEOL l 1 ;; Ok (have, f, q)
    else if l.(l_eof) then Err
    else if isComment w0 then fieldLoop f self q (pending ++ [commentText l]) have
    else '(fd, ext) <- parseField f self (commentLines pending) l ;; fieldLoop (addExternal f ext) self q [] (have ++ [fd])
  end.
(** 1263-1273: the numbers are 0, 1, 2, ... in some order. *)
Fixpoint checkIds (ids : list bool) (fs : list sfield) : res unit :=
  match fs with
  | [] => Ok tt
  | fd :: q =>
    match nth_error ids (Z.to_nat fd.(fd_index)) with
    | None => Err
    | Some true => Err
    | Some false => checkIds (set_nth (Z.to_nat fd.(fd_index)) true ids) q
    end
  end.
(** Struct.parse, name, fields 1184-1284 *)
Definition parseStruct (f : file) (comment : bytes) (ls : list iline) : res (struct * file * list iline) :=
  let '(l, q) := next ls in
  _ <- ok_if (negb (len l.(l_items) <? 3)) ;;
  n <- item l 1 ;;
  _ <- validateIdent n ;;
  w2 <- item l 2 ;;
  _ <- ok_if (w2 =b "{") ;;
  _ <- commentOrEOL l 3 ;;
  '(fs, f, q) <- fieldLoop f n q [] [] ;;
  match fs with
  | [] => Err
  | _ => _ <- checkIds (repeat false (length fs)) fs ;; Ok (mkStruct comment n (sortBy fd_index fs), f, q)
  end.

Definition addDecl (f : file) (d : decl) : res file :=
  match ident_of f.(f_idents) (decl_name d) with
  | Some _ => Err
  | None => Ok (mkFile f.(f_package) f.(f_version) f.(f_options) (f.(f_idents) ++ [d]) f.(f_external) f.(f_imports))
  end.
Definition no_idents (f : file) : bool := match f.(f_idents) with [] => true | _ => false end.
(** FindNext 299-365; the fuel is the number of lines. *)
Fixpoint findNext (fuel : nat) (f : file) (ls : list iline) : res file :=
  match fuel with
  | O => Hang
  | S fuel =>
    '(cs, ls) <- collectComments ls ;;
    let '(l, _) := next ls in
    w0 <- item l 0 ;;
    let k := toLower w0 in
    if k =b "version" then
      if 0 <=? f.(f_version) then Err else '(f, ls) <- parseVersion f ls ;; findNext fuel f ls
    else if k =b "options" then
      match f.(f_options) with
      | _ :: _ => Err
      | [] => if no_idents f then '(f, ls) <- parseOptions f ls ;; findNext fuel f ls else Err
      end
    else if k =b "import" then
      match f.(f_imports) with
      | Some _ => Err
      | None =>
        if no_idents f then
          '(is, ls) <- parseImport ls ;;
          findNext fuel (mkFile f.(f_package) f.(f_version) f.(f_options) f.(f_idents) f.(f_external) (Some is)) ls
        else Err
      end
    else if k =b "enum" then
      '(e, ls) <- parseEnum (commentLines cs) ls ;; f <- addDecl f (DEnum e) ;; findNext fuel f ls
    else if k =b "struct" then
      '(s, f, ls) <- parseStruct f (commentLines cs) ls ;; f <- addDecl f (DStruct s) ;; findNext fuel f ls
    else if l.(l_eof) then Ok f else Err
  end.
(** ParsePackage 272-295 *)
Definition parsePackage (ls : list iline) : res file :=
  ls <- skipComments ls ;;
  let '(l, q) := next ls in
  _ <- ok_if (negb (len l.(l_items) <? 3)) ;;
  w0 <- item l 0 ;;
  _ <- ok_if (w0 =b "package") ;;
  w1 <- item l 1 ;;
  _ <- ValidPackage w1 ;;
  _ <- commentOrEOL l 2 ;;
  findNext (S (length q)) (mkFile w1 (-1) [] [] [] None) q.
(** Validate 80-106; options.go:fileOptions and valIsSet 13-22. *)
Definition validate (f : file) : res file :=
  match f.(f_package) with
  | [] => Err
  | _ =>
    if (f.(f_version) =? -1) || (f.(f_version) =? 0) then
      if forallb (fun o => (o.(o_name) =b "IsSet") && match o.(o_args) with [] => true | _ => false end) f.(f_options) then
        Ok (mkFile f.(f_package) 0 f.(f_options) f.(f_idents) f.(f_external) f.(f_imports))
      else Err
    else Err
  end.
(** halfpike.Parse(ctx, content, file): the parser from Start, then Validate. *)
Definition parseFile (ls : list iline) : res file := f <- parsePackage ls ;; validate f.
End Parse.
