(** What is asked of the lexer below the text reader, and the structs whose text can be read back. *)
From Coq Require Import ZArith List Bool.
Import ListNotations.
From Verif.Model Require Import Base Field Token Walk Ingest ClawText.
From Verif.Spec Require Import Text Message Values JsonRead.
Open Scope Z_scope.

(** ** Lexers *)
Section Words.
(** The characters that separate words. *)
Variable space : Z -> bool.
Fixpoint words_from (word : list Z) (rs : list Z) : list (list Z) :=
  let here := match word with [] => [] | _ => [rev word] end in
  match rs with
  | [] => here
  | r :: q => if space r then here ++ words_from [] q else words_from (r :: word) q
  end.
Definition words (rs : list Z) : list (list Z) := words_from [] rs.
(** The line of the characters [rs]: its words, and maybe the newline as another one; the newline may
    also be at the end of the raw text. *)
Definition line_of (rs : list Z) (l : line) : Prop :=
  (l.(ln_items) = map utf8 (words rs) \/ l.(ln_items) = map utf8 (words rs) ++ [[10]]) /\
  (l.(ln_raw) = utf8 rs \/ l.(ln_raw) = utf8 rs ++ [10]).
End Words.
(** A text of lines, each with its newline. *)
Definition text_of_lines (rss : list (list Z)) : bytes := flat_map (fun rs => utf8 rs ++ [10]) rss.
Definition line_chars (rs : list Z) : Prop := Forall scalar rs /\ ~ In 10 rs /\ ~ In 13 rs.
(** A line with a printable ASCII character other than a blank. *)
Definition visible (rs : list Z) : Prop := Exists (fun c => 33 <= c <= 126) rs.
(** A lexer that gives the words of every line of a text without empty lines, and maybe empty lines after
    them; blanks and tabs separate words, printable ASCII characters do not, and what other characters do
    is left open.  What it does with empty lines is left open too: it may drop them. *)
Definition splits (lexer : bytes -> list line) : Prop :=
  exists space : Z -> bool, space 32 = true /\ space 9 = true /\ (forall c, 33 <= c <= 126 -> space c = false) /\
    forall rss, Forall line_chars rss -> Forall visible rss -> exists ls extra, lexer (text_of_lines rss) = ls ++ extra /\
      Forall2 (line_of space) rss ls /\ Forall (fun l => l.(ln_items) = [] \/ l.(ln_items) = [[10]]) extra.

(** ** Structs whose text shows them *)
(** A letter or an underscore, then letters, digits and underscores. *)
Definition letter (c : Z) : Prop := 65 <= c <= 90 \/ 97 <= c <= 122 \/ c = 95.
Definition ident (b : bytes) : Prop :=
  match b with [] => False | c :: q => letter c /\ Forall (fun c => letter c \/ 48 <= c <= 57) q end.
Section Legible.
Variable E : env.
Variable enumNumbers hexBytes : bool.
(** An integer below 2^63; the bool false; a float that is zero; an enum value that has a name, or is
    zero, or is written as a number. *)
Inductive legible_num (k : kind) : option (list (bytes * Z)) -> Z -> Prop :=
| lg_int z : is_int k -> k <> KBool -> in_range k z -> z < 2 ^ 63 -> legible_num k None z
| lg_zero : legible_num k None 0
| lg_name tbl n z : is_int k -> in_range k z -> ident n ->
    In (n, z) tbl -> NoDup (map fst tbl) -> NoDup (map snd tbl) -> legible_num k (Some tbl) z
| lg_noname tbl : ~ In 0 (map snd tbl) -> legible_num k (Some tbl) 0
| lg_enum tbl z : enumNumbers = true -> k = KU8 \/ k = KU16 -> in_range k z -> legible_num k (Some tbl) z.
(** Text is Unicode without quotes; byte strings are written in hexadecimal, or empty. *)
Inductive legible_str : bool -> bytes -> Prop :=
| lg_text rs : Forall scalar rs -> ~ In 34 rs -> legible_str true (utf8 rs)
| lg_hex b : hexBytes = true -> Forall (fun c => 0 <= c <= 255) b -> legible_str false b
| lg_nobytes : legible_str false [].
(** Structs of such values, and of structs in which something is set.  There is no place for a list, a
    map, an Any value, or a struct that is not set. *)
Inductive legible : nat -> tmsg -> Prop :=
| lg_msg id fs : Forall2 (fun nt nv => fst nt = fst nv /\ legible_val (snd nt) (snd nv)) (snd (E id)) fs -> legible id (TMsg (fst (E id)) fs)
with legible_val : fty -> fval -> Prop :=
| lg_num k e z : legible_num k e z -> legible_val (TyNum k e) (FNum k z (enum_label e z))
| lg_str st b : legible_str st b -> legible_val (TyStr st) (FStr st b)
| lg_some id nm fs : legible id (TMsg nm fs) -> nothing_set fs = false -> legible_val (TyMsg id) (FMsg (Some (TMsg nm fs))).
(** Field names are identifiers. *)
Definition names_ident : Prop := forall id, Forall (fun nt => ident (fst nt)) (snd (E id)).
End Legible.

(** ** Comments *)
Definition starts (p w : bytes) : Prop := exists q, w = p ++ q.
Definition has (p w : list Z) : Prop := exists a b, w = a ++ p ++ b.
(** A comment that opens with its first line and is closed in its last one, and in no other. *)
Definition block {A} (opens closes : A -> Prop) (ls : list A) : Prop :=
  exists body last, ls = body ++ [last] /\ (exists l q, ls = l :: q /\ opens l) /\ Forall (fun l => ~ closes l) body /\ closes last.
(** Lines that are empty, a comment to the end of the line, or a block comment. *)
Inductive trivia : list line -> Prop :=
| tv_empty l : l.(ln_items) = [] \/ l.(ln_items) = [[10]] -> trivia [l]
| tv_line l w ws : l.(ln_items) = w :: ws -> starts [47; 47] w -> trivia [l]
| tv_block ls : block (fun l => exists w ws, l.(ln_items) = w :: ws /\ starts [47; 42] w) (fun l => has [42; 47] l.(ln_raw)) ls -> trivia ls.
(** [padded ls ls']: [ls'] has the lines [ls] and maybe others, between and around them, that say nothing. *)
Inductive padded : list line -> list line -> Prop :=
| pad_nil : padded [] []
| pad_keep l ls ls' : padded ls ls' -> padded (l :: ls) (l :: ls')
| pad_add t ls ls' : trivia t -> padded ls ls' -> padded ls (t ++ ls').
(** The line opens no comment, and no word of it a raw string, which may go on over the next lines. *)
Definition no_blocks (l : line) : Prop := ~ starts [47; 42] (hd [] l.(ln_items)) /\ Forall (fun w => ~ starts [96] w) l.(ln_items).

(** The same for the characters of a text. *)
Definition blank_char (c : Z) : Prop := c = 32 \/ c = 9.
Inductive comment : list (list Z) -> Prop :=
| cm_empty b : Forall blank_char b -> comment [b]
| cm_line b q : Forall blank_char b -> line_chars q -> comment [b ++ 47 :: 47 :: q]
| cm_block rss : Forall line_chars rss -> block (fun rs => exists b q, rs = b ++ 47 :: 42 :: q /\ Forall blank_char b) (has [42; 47]) rss -> comment rss.
Inductive commented : list (list Z) -> list (list Z) -> Prop :=
| cmt_nil : commented [] []
| cmt_keep rs rss rss' : commented rss rss' -> commented (rs :: rss) (rs :: rss')
| cmt_add c rss rss' : comment c -> commented rss rss' -> commented rss (c ++ rss').
Definition no_openings (rs : list Z) : Prop :=
  ~ In 96 rs /\ ~ exists a q, rs = a ++ 47 :: 42 :: q /\ Forall (fun c => ~ 33 <= c <= 126) a.
(** A lexer that splits lines into words, and a line of the same characters always in the same way; it
    drops the lines without words, or gives them. *)
Definition worded (space : Z -> bool) (rs : list Z) : bool := match words space rs with [] => false | _ => true end.
Definition splits_alike (lexer : bytes -> list line) : Prop :=
  exists space : Z -> bool, space 32 = true /\ space 9 = true /\ (forall c, 33 <= c <= 126 -> space c = false) /\
  exists (line_for : list Z -> line) (drops : bool), (forall rs, line_of space rs (line_for rs)) /\
    forall rss, Forall line_chars rss -> exists extra,
      lexer (text_of_lines rss) = map line_for (if drops then filter (worded space) rss else rss) ++ extra /\
      Forall (fun l => l.(ln_items) = [] \/ l.(ln_items) = [[10]]) extra.

(** Structs of numbers, strings and structs. *)
Definition plain_types (E : env) : Prop :=
  forall id, Forall (fun nt => match snd nt with TyNum _ _ | TyStr _ | TyMsg _ => True | _ => False end) (snd (E id)).
