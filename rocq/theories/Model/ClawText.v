(** languages/go/clawtext: the text writer (writer.go) and the text reader (parser.go, clawtext.go).
    The io.Writer is one that does not fail, such as the bytes.Buffer of Marshal. *)
From Coq Require Import ZArith List Bool.
Import ListNotations.
From Verif.Model Require Import Base Utf8 Field MapApi Token Walk Escape Json TokenStream Ingest JsonRead.
Open Scope Z_scope.

(** ** The writer *)
(** Literals of 20-31 and 468-541: "@map {" and a newline; "@any(0x"; a comma, a blank and a quote; a
    quote and a parenthesis; "@any("; ") {". *)
Definition x_map : bytes := [64; 109; 97; 112; 32; 123; 10].
Definition x_any0x : bytes := [64; 97; 110; 121; 40; 48; 120].
Definition x_comma_quote : bytes := [44; 32; 34].
Definition x_quote_paren : bytes := [34; 41].
Definition x_any : bytes := [64; 97; 110; 121; 40].
Definition x_any_open : bytes := [41; 32; 123].
Definition x_end : bytes := [44; 10].

(** bytes.ReplaceAll of newlines by blanks, 534. *)
Definition inlined (b : bytes) : bytes := map (fun c => if c =? 10 then 32 else c) b.
(** bytes.TrimRight(b, " ,"), 536. *)
Fixpoint trimEnds (b : bytes) : bytes :=
  match b with c :: q => if (c =? 32) || (c =? 44) then trimEnds q else b | [] => [] end.
Definition trimRight (b : bytes) : bytes := rev (trimEnds (rev b)).

(** What the callback of writeClawtext keeps: the bytes written, state.depthStack (innermost first),
    state.depth, state.isTopLevel, state.inArray and writeErr.  state.inMap and state.pendingComma are
    never read. *)
Record tst := mkX { x_out : bytes; x_first : list bool; x_depth : nat; x_top : bool; x_arr : bool; x_err : res unit }.

Section Write.
(** strconv.AppendFloat(nil, f, 'g', -1, 32 or 64) and runtime.LookupTypeHash, as in Model/Json.v. *)
Variable appendFloat : kind -> Z -> bytes.
Variable lookup : bytes -> option (bytes * (bytes -> option tmsg)).
(** opts.UseEnumNumbers, opts.UseHexBytes, and the indentation (116-119). *)
Variable useEnumNumbers useHexBytes : bool.
Variable indent : bytes.

Section Value.
(** writeClawtext for the value inside an Any, 515. *)
Variable nested : tmsg -> res bytes.

(** 467-484 and 492-510. *)
Definition rawAnyText (h d : bytes) : bytes := x_any0x ++ appendHex h ++ x_comma_quote ++ base64 d ++ x_quote_paren.

(** writeValue 445-659: the bytes written. *)
Definition textValue (t : token) : res bytes :=
  let ty := t.(t_type) in
  if t.(t_isNil) then Ok j_null
  else if announced ty then Ok []
  else if ty =? FTAny then
    match lookup (hash16 t.(t_hash)) with
    | None => Ok (rawAnyText t.(t_hash) t.(t_bytes))
    | Some (name, unmarshal) =>
      match unmarshal t.(t_bytes) with
      | None => Ok (rawAnyText t.(t_hash) t.(t_bytes))
      | Some m => text <- nested m ;; Ok (x_any ++ name ++ x_any_open ++ trimRight (inlined text) ++ [125])
      end
    end
  else if t.(t_isEnum) then
    if useEnumNumbers && (ty =? FTUint8) then Ok (appendUint (getValue KU8 t))
    else if useEnumNumbers && (ty =? FTUint16) then Ok (appendUint (getValue KU16 t))
    else Ok t.(t_enumName)
  else if ty =? FTBool then Ok (if getValue KBool t =? 0 then j_false else j_true)
  else if ty =? FTInt8 then Ok (appendInt (getValue KI8 t))
  else if ty =? FTInt16 then Ok (appendInt (getValue KI16 t))
  else if ty =? FTInt32 then Ok (appendInt (getValue KI32 t))
  else if ty =? FTInt64 then Ok (appendInt (getValue KI64 t))
  else if ty =? FTUint8 then Ok (appendUint (getValue KU8 t))
  else if ty =? FTUint16 then Ok (appendUint (getValue KU16 t))
  else if ty =? FTUint32 then Ok (appendUint (getValue KU32 t))
  else if ty =? FTUint64 then Ok (appendUint (getValue KU64 t))
  else if ty =? FTFloat32 then
    let f := getValue KF32 t in if special32 f then Ok j_null else Ok (appendFloat KF32 f)
  else if ty =? FTFloat64 then
    let f := getValue KF64 t in if special64 f then Ok j_null else Ok (appendFloat KF64 f)
  else if ty =? FTString then Ok (textEscape t.(t_bytes))
  else if ty =? FTBytes then
    Ok (if useHexBytes then [48; 120] ++ appendHex t.(t_bytes) else 34 :: base64 t.(t_bytes) ++ [34])
  else Ok [].

(** writeIndent 435-442. *)
Definition indents (d : nat) : bytes := concat (repeat indent d).
Definition xput (b : bytes) (s : tst) : tst := mkX (s.(x_out) ++ b) s.(x_first) s.(x_depth) s.(x_top) s.(x_arr) s.(x_err).
Definition xdepth (d : nat) (s : tst) : tst := mkX s.(x_out) s.(x_first) d s.(x_top) s.(x_arr) s.(x_err).
Definition xpush (s : tst) : tst := mkX s.(x_out) (true :: s.(x_first)) s.(x_depth) s.(x_top) s.(x_arr) s.(x_err).
Definition xpop (s : tst) : tst := mkX s.(x_out) (tl s.(x_first)) s.(x_depth) s.(x_top) s.(x_arr) s.(x_err).
Definition xarr (b : bool) (s : tst) : tst := mkX s.(x_out) s.(x_first) s.(x_depth) s.(x_top) b s.(x_err).
Definition xlater (s : tst) : tst :=
  match s.(x_first) with
  | [] => s
  | _ :: q => mkX s.(x_out) (false :: q) s.(x_depth) s.(x_top) s.(x_arr) s.(x_err)
  end.
Definition xputRes (r : res bytes) (s : tst) : tst * bool :=
  match r with
  | Ok b => (xput b s, true)
  | Err => (mkX s.(x_out) s.(x_first) s.(x_depth) s.(x_top) s.(x_arr) Err, false)
  | Panic => (mkX s.(x_out) s.(x_first) s.(x_depth) s.(x_top) s.(x_arr) Panic, false)
  | Hang => (mkX s.(x_out) s.(x_first) s.(x_depth) s.(x_top) s.(x_arr) Hang, false)
  end.
(** The callback, 122-430. *)
Definition tyield (t : token) (s : tst) : tst * bool :=
  match t.(t_kind) with
  | TStructStart =>                                   (* 124-141 *)
    if s.(x_top) then (xpush (mkX s.(x_out) s.(x_first) s.(x_depth) false s.(x_arr) s.(x_err)), true)
    else (xpush (xdepth (S s.(x_depth)) (xput [123; 10] s)), true)
  | TStructEnd =>                                     (* 143-167 *)
    let s := xpop s in
    match s.(x_depth) with
    | O => (s, true)
    | S d => (xput (indents d ++ [125; 44; 10]) (xdepth d s), true)
    end
  | TListStart => (xarr true (xpush (xput [91] s)), true)    (* 169-175 *)
  | TListEnd => (xput [93; 44; 10] (xarr false (xpop s)), true)  (* 177-193 *)
  | TMapStart => (xpush (xdepth (S s.(x_depth)) (xput x_map s)), true)   (* 195-211 *)
  | TMapEnd =>                                        (* 213-234 *)
    let s := xdepth (pred s.(x_depth)) (xpop s) in (xput (indents s.(x_depth) ++ [125; 44; 10]) s, true)
  | TMapEntry =>                                      (* 236-281 *)
    let '(s, ok) := xputRes (textValue (set_type t.(t_valType) t))
                      (xput (indents s.(x_depth) ++ textEscape t.(t_keyBytes) ++ [58; 32]) (xlater s)) in
    if ok then ((if t.(t_valType) =? FTListAny then s else xput x_end s), true) else (s, false)
  | TField =>                                         (* 283-427 *)
    let s := if s.(x_arr) && match s.(x_first) with false :: _ => true | _ => false end then xput [44; 32] s else s in
    let s := xlater s in
    let s := match t.(t_name) with [] => s | n => xput (indents s.(x_depth) ++ n ++ [58; 32]) s end in
    if announced t.(t_type) then ((if t.(t_isNil) then xput (j_null ++ x_end) s else s), true)
    else
      let '(s, ok) := xputRes (textValue t) s in
      if ok then ((if s.(x_arr) then s else xput x_end s), true) else (s, false)
  end.
Definition textWith (m : tmsg) : res bytes :=
  let s := walk tst tyield m (mkX [] [] 0 true false (Ok tt)) in
  _ <- s.(x_err) ;; Ok s.(x_out).
End Value.

(** writeClawtext 112-432, Marshal and MarshalWriter (clawtext.go:57-76).  The fuel is the depth of Anys
    inside Anys. *)
Fixpoint writeText (fuel : nat) (m : tmsg) : res bytes :=
  match fuel with O => Hang | S f => textWith (writeText f) m end.
End Write.

(** ** The reader *)
(** halfpike.Line (github.com/johnsiilver/halfpike, not part of the repository): the words of a line,
    Items[i].Val, and Raw.  A parser sees a list of lines; hp.EOF says that there are no more. *)
Record line := mkLine { ln_items : list bytes; ln_raw : bytes }.

Fixpoint hasPrefix (p s : bytes) : bool :=
  match p, s with
  | [], _ => true
  | c :: p, d :: s => (c =? d) && hasPrefix p s
  | _, [] => false
  end.
Fixpoint contains (p s : bytes) : bool :=
  hasPrefix p s || match s with [] => false | _ :: q => contains p q end.
(** strings.HasSuffix(s, c) and strings.TrimSuffix(s, c) for one character. *)
Definition hasLast (c : Z) (s : bytes) : bool := match rev s with d :: _ => c =? d | [] => false end.
Definition trimLast (c : Z) (s : bytes) : bytes := if hasLast c s then removelast s else s.

(** parser.go:skipCommentsAndWhitespace 88-126; [block]: inside the loop of 109-118. *)
Definition blank_line (l : line) : bool :=
  match l.(ln_items) with [] => true | [w] => bytes_eqb w [10] | _ => false end.
Fixpoint skipLines (block : bool) (ls : list line) : list line :=
  match ls with
  | [] => []
  | l :: q =>
    if block then skipLines (negb (contains [42; 47] l.(ln_raw))) q
    else if blank_line l then skipLines false q
    else if hasPrefix [47; 47] (hd [] l.(ln_items)) then skipLines false q
    else if hasPrefix [47; 42] (hd [] l.(ln_items)) then skipLines (negb (contains [42; 47] l.(ln_raw))) q
    else ls
  end.

(** parser.go:isNumber 716-734. *)
Definition isDigit (c : Z) : bool := (48 <=? c) && (c <=? 57).
Definition isNumber (s : bytes) : bool :=
  match trimLast 44 s with
  | [] => false
  | c :: q =>
    if (c =? 45) || (c =? 43) then match q with [] => false | d :: _ => isDigit d end
    else isDigit c
  end.
(** strconv.ParseInt(s, 10, 64); None is an error. *)
Fixpoint digits (s : bytes) (v : Z) : option Z :=
  match s with
  | [] => Some v
  | c :: q => if isDigit c then digits q (v * 10 + (c - 48)) else None
  end.
Definition parseInt (s : bytes) : option Z :=
  let '(neg, s) := match s with 45 :: q => (true, q) | 43 :: q => (false, q) | _ => (false, s) end in
  match s with
  | [] => None
  | _ =>
    match digits s 0 with
    | None => None
    | Some v =>
      let v := if neg : bool then - v else v in
      if (- 2 ^ 63 <=? v) && (v <? 2 ^ 63) then Some v else None
    end
  end.
(** encoding/hex.DecodeString. *)
Fixpoint hexDecode (s : bytes) : option bytes :=
  match s with
  | [] => Some []
  | a :: b :: q =>
    match hexVal a, hexVal b, hexDecode q with
    | Some x, Some y, Some r => Some (x * 16 + y :: r)
    | _, _, _ => None
    end
  | _ => None
  end.
Definition isFloat (s : bytes) : bool := existsb (fun c => (c =? 46) || (c =? 101) || (c =? 69)) s.

(** The tokens yielded so far and the lines left; Err: the parser stops with an error.  The error itself is
    dropped by textToTokens (27).  Simplification: p.yield is taken to return true always; where Ingest
    stops, later tokens do not matter. *)
Definition pr (A : Type) : Type := list token * res A.
Definition pbind {A B} (x : pr A) (f : A -> pr B) : pr B :=
  match snd x with
  | Ok a => let y := f a in (fst x ++ fst y, snd y)
  | Err => (fst x, Err) | Panic => (fst x, Panic) | Hang => (fst x, Hang)
  end.
Definition yield (ts : list token) : pr unit := (ts, Ok tt).
Definition fail {A} : pr A := ([], Err).
Definition of_option {A} (o : option A) : pr A := match o with Some a => ([], Ok a) | None => fail end.
Definition of_res {A} (r : res A) : pr A := ([], r).

Section ReadText.
(** strconv.ParseFloat(s, 64): the bits; None is an error. *)
Variable parseFloat : bytes -> option Z.

(** emitNumber 684-713, as the token for the name, or the type and value of a map entry (584-598). *)
Definition setNumber (s : bytes) (t : token) : option token :=
  if isFloat s then match parseFloat s with Some f => Some (setValue KF64 f (set_type FTFloat64 t)) | None => None end
  else match parseInt s with Some n => Some (setValue KI64 n t) | None => None end.
Definition emitNumber (name s : bytes) : pr unit :=
  pbind (of_option (setNumber (trimLast 44 s) (tok0 TField name 0))) (fun t => yield [t]).
(** A bool, a string and an enum name in a token, e.g. 170-179, 224-229 and 280-286. *)
Definition setBool (b : bool) (t : token) : token := setValue KBool (if b then 1 else 0) (set_type FTBool t).
Definition setText (s : bytes) (t : token) : token := set_bytes s (set_type FTString t).
Definition setName (s : bytes) (t : token) : token := set_bytes s (set_enum (Some s) t).

(** emitArrayElement 451-486. *)
Definition emitArrayElement (v : bytes) : pr unit :=
  let v := trimLast 44 v in
  let t := tok0 TField [] 0 in
  if bytes_eqb v j_true then yield [setBool true t]
  else if bytes_eqb v j_false then yield [setBool false t]
  else if hasPrefix [34] v then pbind (of_res (unquoteString v)) (fun s => yield [setText s t])
  else if isNumber v then emitNumber [] v
  else yield [setName v t].

(** parseRawString 653-681: the string and the lines left. *)
Fixpoint backticks (s : bytes) : bytes := match s with 96 :: q => backticks q | _ => s end.
Fixpoint upto_backtick (s : bytes) : option bytes :=
  match s with [] => None | c :: q => if c =? 96 then Some [] else option_map (cons c) (upto_backtick q) end.
Fixpoint rawLines (acc : bytes) (ls : list line) : res (bytes * list line) :=
  match ls with
  | [] => Err
  | l :: q =>
    match upto_backtick l.(ln_raw) with
    | Some s => Ok (acc ++ 10 :: s, q)
    | None => rawLines (acc ++ 10 :: trimLast 10 l.(ln_raw)) q
    end
  end.
Definition parseRawString (token : bytes) (ls : list line) : res (bytes * list line) :=
  if 2 <=? len (filter (Z.eqb 96) token) then Ok (rev (backticks (rev (backticks token))), ls)
  else rawLines (match token with 96 :: q => q | _ => token end) ls.

(** The closing brace of a struct or a map, 310-316 and 532-538, and the end of an array, 370-375. *)
Definition closes (c : Z) (w : bytes) : bool := bytes_eqb w [c] || hasPrefix [c; 44] w.
Definition first_word (l : line) : res bytes := match l.(ln_items) with w :: _ => Ok w | [] => Panic end.

Section Nested.
(** parseNestedStruct, for the lines after the opening brace. *)
Variable nested : list line -> pr (list line).

(** The loops over the words of a line, 361-398 and 412-446: whether the array ended, and the lines
    left. *)
Fixpoint arrayItems (items : list bytes) (ls : list line) : pr (bool * list line) :=
  match items with
  | [] => ([], Ok (false, ls))
  | v :: q =>
    if closes 93 v then ([tok0 TListEnd [] 0], Ok (true, ls))
    else if bytes_eqb v [44] || bytes_eqb v [10] then arrayItems q ls
    else if bytes_eqb v [123] then
      pbind ([tok0 TStructStart [] 0], Ok tt) (fun _ => pbind (nested ls) (fun ls => arrayItems q ls))
    else pbind (emitArrayElement v) (fun _ => arrayItems q ls)
  end.
(** parseArrayElements 359-448: the loop over the lines, 401-447. *)
Fixpoint arrayLines (n : nat) (ls : list line) : pr (list line) :=
  match n with
  | O => ([], Hang)
  | S n =>
    match skipLines false ls with
    | [] => fail
    | l :: q => pbind (arrayItems l.(ln_items) q) (fun '(ended, ls) => if ended : bool then ([], Ok ls) else arrayLines n ls)
    end
  end.
(** parseArray 326-356, after the word that opens the array. *)
Definition parseArray (n : nat) (name : bytes) (items : list bytes) (ls : list line) : pr (list line) :=
  pbind (yield [tok0 TField name 0; tok0 TListStart [] 0]) (fun _ =>
  if match items with w :: _ => bytes_eqb w [93] | [] => false end then ([tok0 TListEnd [] 0], Ok ls)
  else pbind (arrayItems items ls) (fun '(ended, ls) => if ended : bool then ([], Ok ls) else arrayLines n ls)).

(** parseMapEntries 518-626. *)
Fixpoint mapLines (n : nat) (ls : list line) : pr (list line) :=
  match n with
  | O => ([], Hang)
  | S n =>
    match skipLines false ls with
    | [] => fail
    | l :: q =>
      pbind (of_res (first_word l)) (fun first =>
      if closes 125 first then ([tok0 TMapEnd [] 0], Ok q)
      else if negb (hasPrefix [34] first) then fail
      else pbind (of_res (unquoteString first)) (fun key =>
      match l.(ln_items) with
      | _ :: colon :: v :: _ =>
        if negb (bytes_eqb colon [58]) then fail
        else
          let v := trimLast 44 v in
          let e := set_keyBytes key (tok0 TMapEntry [] 0) in
          if hasPrefix [34] v then pbind (of_res (unquoteString v)) (fun s => pbind (yield [setText s e]) (fun _ => mapLines n q))
          else if bytes_eqb v j_true then pbind (yield [setBool true e]) (fun _ => mapLines n q)
          else if bytes_eqb v j_false then pbind (yield [setBool false e]) (fun _ => mapLines n q)
          else if isNumber v then pbind (of_option (setNumber v e)) (fun e => pbind (yield [e]) (fun _ => mapLines n q))
          else if bytes_eqb v [123] then
            pbind (yield [set_type FTStruct e; tok0 TStructStart [] 0]) (fun _ => pbind (nested q) (fun ls => mapLines n ls))
          else pbind (yield [setName v e]) (fun _ => mapLines n q)
      | _ => fail
      end))
    end
  end.
(** parseMap 489-515, after the word @map. *)
Definition parseMap (n : nat) (name : bytes) (items : list bytes) (ls : list line) : pr (list line) :=
  match items with
  | w :: _ =>
    if bytes_eqb w [123] then pbind (yield [tok0 TField name FTMap; tok0 TMapStart [] 0]) (fun _ => mapLines n ls)
    else fail
  | [] => fail
  end.

(** The value of a field, 154-291: [v] is its first word, [items] the words after it, [raw] the line. *)
Definition parseValue (n : nat) (name v : bytes) (items : list bytes) (raw : bytes) (ls : list line) : pr (list line) :=
  let t := tok0 TField name 0 in
  let done := fun ts => (ts, Ok ls) : pr (list line) in
  if bytes_eqb v j_null then done [set_nil t]
  else if bytes_eqb v j_true then done [setBool true t]
  else if bytes_eqb v j_false then done [setBool false t]
  else if bytes_eqb v [123] then
    pbind (yield [tok0 TField name FTStruct; tok0 TStructStart name 0]) (fun _ => nested ls)
  else if bytes_eqb v [91] then parseArray n name items ls
  else if bytes_eqb v [64; 109; 97; 112] then parseMap n name items ls
  else if hasPrefix [34] v then pbind (of_res (parseQuotedString v raw)) (fun s => done [setText s t])
  else if hasPrefix [96] v then pbind (of_res (parseRawString v ls)) (fun '(s, ls) => ([setText s t], Ok ls))
  else if hasPrefix [48; 120] v || hasPrefix [48; 88] v then
    let h := if hasPrefix [48; 120] v then drop 2 v else v in
    let h := if hasPrefix [48; 88] h then drop 2 h else h in
    pbind (of_option (hexDecode (trimLast 44 h))) (fun d => done [set_bytes d (set_type FTBytes t)])
  else if isNumber v then pbind (emitNumber name (trimLast 44 v)) (fun _ => done [])
  else done [setName (trimLast 44 v) t].

(** parseField 129-293. *)
Definition parseField (n : nat) (l : line) (ls : list line) : pr (list line) :=
  match l.(ln_items) with
  | w :: ((w1 :: items1) as items) =>
    let go := fun name items =>
      match items with
      | v :: q => if bytes_eqb v [10] then fail else parseValue n name v q l.(ln_raw) ls
      | [] => fail
      end in
    if hasLast 58 w then go (removelast w) items
    else if bytes_eqb w1 [58] then go w items1
    else fail
  | _ => fail
  end.
End Nested.

(** parseNestedStruct 296-323.  The fuel bounds the lines read. *)
Fixpoint parseNestedStruct (n : nat) (ls : list line) : pr (list line) :=
  match n with
  | O => ([], Hang)
  | S n =>
    match skipLines false ls with
    | [] => fail
    | l :: q =>
      pbind (of_res (first_word l)) (fun first =>
      if closes 125 first then ([tok0 TStructEnd [] 0], Ok q)
      else pbind (parseField (parseNestedStruct n) (S (length q)) l q) (fun ls => parseNestedStruct n ls))
    end
  end.
(** parseFields 54-85; what follows a closing brace is not read. *)
Fixpoint parseFields (n : nat) (ls : list line) : pr (list line) :=
  match n with
  | O => ([], Hang)
  | S n =>
    match skipLines false ls with
    | [] => ([tok0 TStructEnd [] 0], Ok [])
    | l :: q =>
      pbind (of_res (first_word l)) (fun first =>
      if bytes_eqb first [125] then ([tok0 TStructEnd [] 0], Ok q)
      else pbind (parseField (parseNestedStruct (S (length q))) (S (length q)) l q) (fun ls => parseFields n ls))
    end
  end.
(** textToTokens 21-30 and Start 44-51. *)
Definition textToTokens (ls : list line) : pr unit :=
  pbind (yield [tok0 TStructStart root_name 0]) (fun _ => pbind (parseFields (S (length ls)) ls) (fun _ => yield [])).

(** Unmarshal and UnmarshalReader, clawtext.go:95-126, into the struct [x] of type [id], from a reader
    that does not fail. *)
Variable lexer : bytes -> list line.
Variable E : env.
Variable ignoreUnknown : bool.
Definition UnmarshalText (id : nat) (x : list (bytes * fval)) (data : bytes) : res (list (bytes * fval)) :=
  let '(ts, r) := textToTokens (lexer data) in
  match r with
  | Ok _ | Err => Ingest E ignoreUnknown id x ts
  | Panic => Panic
  | Hang => Hang
  end.
End ReadText.
