(** String escaping and unescaping of clawjson and clawtext. *)
From Coq Require Import ZArith List Bool.
Import ListNotations.
From Verif.Model Require Import Base Utf8.
Open Scope Z_scope.

(** hexDigits[i] for 0 <= i < 16 (clawjson.go:556, clawtext/writer.go). *)
Definition hexDigit (i : Z) : Z := if i <? 10 then 48 + i else 97 + (i - 10).

(** clawjson.go:appendHex 559-564. *)
Definition appendHex (data : bytes) : bytes := flat_map (fun b => [hexDigit (b / 16); hexDigit (b mod 16)]) data.

(** One rune in the slow path: clawjson.go 526-548, clawtext/writer.go 675-698 (the same cases). *)
Definition escapeRune (r : Z) : bytes :=
  if r =? 34 then [92; 34]
  else if r =? 92 then [92; 92]
  else if r =? 10 then [92; 110]
  else if r =? 13 then [92; 114]
  else if r =? 9 then [92; 116]
  else if r <? 0x20 then [92; 117; 48; 48; hexDigit (r / 16); hexDigit (r mod 16)]
  else if 0x10FFFF <? r then [92; 117; 102; 102; 102; 100]
  else AppendRune r.

(** clawjson.go 512-519. *)
Definition needsEscape (s : bytes) : bool :=
  existsb (fun c => (c <? 0x20) || (c =? 34) || (c =? 92) || (0x7e <? c)) s.

(** clawjson.go:appendEscapedString 506-554, with dst empty. *)
Definition jsonEscape (s : bytes) : bytes :=
  34 :: (if needsEscape s then flat_map escapeRune (runes s) else s) ++ [34].

(** clawtext/writer.go:appendEscapedString 672-702, with dst empty. *)
Definition textEscape (s : bytes) : bytes := 34 :: flat_map escapeRune (runes s) ++ [34].

(** strconv.ParseUint(hex, 16, 32) on four characters; None is an error. *)
Definition hexVal (c : Z) : option Z :=
  if in_range 48 57 c then Some (c - 48)
  else if in_range 97 102 c then Some (c - 97 + 10)
  else if in_range 65 70 c then Some (c - 65 + 10)
  else None.
Definition parseHex4 (a b c d : Z) : option Z :=
  match hexVal a, hexVal b, hexVal c, hexVal d with
  | Some a, Some b, Some c, Some d => Some (((a * 16 + b) * 16 + c) * 16 + d)
  | _, _, _, _ => None
  end.

(** clawtext/parser.go:unquoteString, the loop of 748-785 over what is left of the text between the
    quotes.  Simplification: the four characters of an escape are bytes of the string, as in the
    code; an underscore, which ParseUint refuses with base 16, is refused here too. *)
Fixpoint unescape (s : bytes) : res bytes :=
  match s with
  | [] => Ok []
  | c :: q =>
    if c =? 92 then
      match q with
      | [] => Ok [c]
      | e :: q' =>
        if e =? 34 then r <- unescape q' ;; Ok (34 :: r)
        else if e =? 92 then r <- unescape q' ;; Ok (92 :: r)
        else if e =? 110 then r <- unescape q' ;; Ok (10 :: r)
        else if e =? 114 then r <- unescape q' ;; Ok (13 :: r)
        else if e =? 116 then r <- unescape q' ;; Ok (9 :: r)
        else if e =? 117 then
          match q' with
          | h1 :: h2 :: h3 :: h4 :: q'' =>
            match parseHex4 h1 h2 h3 h4 with
            | Some v => r <- unescape q'' ;; Ok (AppendRune v ++ r)
            | None => Err
            end
          | _ => Err
          end
        else r <- unescape q ;; Ok (c :: r)
      end
    else r <- unescape q ;; Ok (c :: r)
  end.
(** unquoteString 737-788. *)
Definition unquoteString (s : bytes) : res bytes :=
  match s with
  | q0 :: q =>
    match rev q with
    | q1 :: inner => if (q0 =? 34) && (q1 =? 34) then unescape (rev inner) else Err
    | [] => Err
    end
  | [] => Err
  end.

(** clawtext/parser.go:parseQuotedString 629-650.  [token] is the first token of the value and [raw]
    the raw line, as the lexer (github.com/johnsiilver/halfpike, not part of the repository) gives
    them; strings.TrimSpace is modelled for the white space of ASCII. *)
Definition trimComma (s : bytes) : bytes :=
  match rev s with 44 :: r => rev r | _ => s end.
Definition isSpace (c : Z) : bool := in_range 9 13 c || (c =? 32).
Fixpoint trimLeft (s : bytes) : bytes :=
  match s with c :: q => if isSpace c then trimLeft q else s | [] => [] end.
Definition trimSpace (s : bytes) : bytes := rev (trimLeft (rev (trimLeft s))).
Fixpoint afterColon (s : bytes) : option bytes :=
  match s with [] => None | c :: q => if c =? 58 then Some q else afterColon q end.
Definition parseQuotedString (token raw : bytes) : res bytes :=
  let s := trimComma token in
  match rev s with
  | 34 :: _ :: _ => unquoteString s
  | _ =>
    match afterColon raw with
    | None => Err
    | Some v => unquoteString (trimComma (trimSpace v))
    end
  end.
