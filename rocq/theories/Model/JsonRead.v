(** languages/go/clawjson/clawjson.go: the JSON reader.  The decoder is jsontext.Decoder of
    github.com/go-json-experiment/json, which is not part of the repository. *)
From Coq Require Import ZArith List Bool.
Import ListNotations.
From Verif.Model Require Import Base Field Token Walk TokenStream Ingest.
Open Scope Z_scope.

(** jsontext.Token: what Kind() says, with what String(), Int() and Bool() return. *)
Inductive jtok :=
| JOpen | JClose | JOpenArr | JCloseArr
| JString (s : bytes) | JNumber (n : Z) | JLit (b : bool) | JNullTok.

(** The variables of jsonToTokens, 696-702; the top of a stack is the head of the list. *)
Record jrst := mkR { r_ctx : list bool; r_key : list bool; r_name : bytes }.
(** 704-709, 711-716, 718-722. *)
Definition inObject (s : jrst) : bool := match s.(r_ctx) with [] => false | b :: _ => b end.
Definition expectKey (s : jrst) : bool := match s.(r_key) with [] => false | b :: _ => b end.
Definition setExpectKey (v : bool) (s : jrst) : jrst :=
  match s.(r_key) with [] => s | _ :: q => mkR s.(r_ctx) (v :: q) s.(r_name) end.
Definition with_name (n : bytes) (s : jrst) : jrst := mkR s.(r_ctx) s.(r_key) n.
(** 745. *)
Definition root_name : bytes := [114; 111; 111; 116].

(** The body of the loop, 733-868: the tokens it yields and the variables afterwards. *)
Definition jread1 (t : jtok) (s : jrst) : list token * jrst :=
  match t with
  | JOpen =>
    (match s.(r_name) with [] => [] | n => [tok0 TField n FTStruct] end ++
       [tok0 TStructStart (match s.(r_name) with [] => root_name | n => n end) 0],
     mkR (true :: s.(r_ctx)) (true :: s.(r_key)) [])
  | JClose => ([tok0 TStructEnd [] 0], setExpectKey true (mkR (tl s.(r_ctx)) (tl s.(r_key)) s.(r_name)))
  | JOpenArr =>
    (match s.(r_name) with [] => [] | n => [tok0 TField n 0] end ++ [tok0 TListStart [] 0],
     mkR (false :: s.(r_ctx)) (false :: s.(r_key)) [])
  | JCloseArr => ([tok0 TListEnd [] 0], setExpectKey true (mkR (tl s.(r_ctx)) (tl s.(r_key)) s.(r_name)))
  | JString b =>
    if inObject s && expectKey s then ([], setExpectKey false (with_name b s))
    else ([set_bytes b (tok0 TField s.(r_name) FTString)], setExpectKey true (with_name [] s))
  | JNumber n => ([setValue KI64 n (tok0 TField s.(r_name) 0)], setExpectKey true (with_name [] s))
  | JLit b => ([setValue KBool (if b then 1 else 0) (tok0 TField s.(r_name) FTBool)], setExpectKey true (with_name [] s))
  | JNullTok => ([set_nil (tok0 TField s.(r_name) 0)], setExpectKey true (with_name [] s))
  end.
(** The loop of 724-870: it ends with the tokens of the decoder, be it at the end of the input or at an
    error, of which nothing is said. *)
Fixpoint jread (ts : list jtok) (s : jrst) : list token :=
  match ts with
  | [] => []
  | t :: q => let '(out, s) := jread1 t s in out ++ jread q s
  end.
Definition jsonToTokens (ts : list jtok) : list token := jread ts (mkR [] [] []).

Section Read.
(** The tokens ReadToken returns before it returns an error (io.EOF included). *)
Variable decode : bytes -> list jtok.
Variable E : env.
Variable ignoreUnknown : bool.
(** Unmarshal and UnmarshalReader, 664-689, into the struct [x] of type [id], from a reader that does
    not fail. *)
Definition Unmarshal (id : nat) (x : list (bytes * fval)) (data : bytes) : res (list (bytes * fval)) :=
  Ingest E ignoreUnknown id x (jsonToTokens (decode data)).
End Read.
