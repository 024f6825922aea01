(** C90: a schema text is read as the schema it shows. *)
From Coq Require Import ZArith List Bool String Lia Permutation Sorted.
Import ListNotations.
From Verif.Model Require Import Base Utf8 Field Any ClawText Idl.
From Verif.Spec Require Import Text JsonGrammar ClawText Idl IdlText.
From Verif.Proofs Require Import BaseLemmas IngestProofs IdlBase IdlSound IdlFinal IdlText IdlTextTypes IdlTextFile.
From Verif.Properties Require Import Idl.
Local Open Scope Z_scope.

Section Any.
(** unicode.IsUpper, IsLower, IsLetter, IsNumber, IsSpace; strings.ToLower; Item.ToInt of the lexer: anything that
    is right on ASCII. *)
Variables isUpper isLower isLetter isNumber isSpace : Z -> bool.
Variable toLower : bytes -> bytes.
Variable toInt : bytes -> option Z.
Hypothesis tables : ascii_tables isUpper isLower isLetter isNumber isSpace toLower toInt.
Notation parse := (parseFile isUpper isLower isLetter isNumber isSpace toLower toInt).

(** Lines that show a schema are read as that schema, whatever its size; the files of the types of other packages
    are accepted schemas. *)
Theorem C90_lines F ext ls : schema_text isSpace F ext ls ->
  (forall w g, ext w = Some g -> schema_ok isUpper isLower isLetter isNumber g) ->
  exists f, parse (ls ++ [eofLine]) = Ok f /\ read_as f ext F.
Proof.
  intros S X. apply (text_read _ _ _ _ _ _ _ tables F ext ls S). intros w g E. specialize (X w g E).
  split; [exact (ok_names _ _ _ _ _ X)|]. intros e I. exact (proj1 (proj2 (ok_enums _ _ _ _ _ X e I))).
Qed.
(** The same for the characters of a text, with any spaces, tabs and empty lines, and a lexer that gives the words of
    every line that has some. *)
Theorem C90_text F ext (lexer : bytes -> list iline) rss :
  (forall rss, Forall line_chars rss -> lexer (text_of_lines rss) = lines_of isSpace rss ++ [eofLine]) ->
  Forall line_chars rss -> schema_text isSpace F ext (lines_of isSpace rss) ->
  (forall w g, ext w = Some g -> schema_ok isUpper isLower isLetter isNumber g) ->
  exists f, parse (lexer (text_of_lines rss)) = Ok f /\ read_as f ext F.
Proof. intros L C S X. rewrite (L rss C). exact (C90_lines F ext _ S X). Qed.
(** Lines show at most one schema. *)
Theorem C90_one F G ext ls : schema_text isSpace F ext ls -> schema_text isSpace G ext ls ->
  (forall w g, ext w = Some g -> schema_ok isUpper isLower isLetter isNumber g) ->
  F.(f_package) = G.(f_package) /\ F.(f_version) = G.(f_version) /\ F.(f_options) = G.(f_options) /\
  F.(f_imports) = G.(f_imports) /\ F.(f_idents) = G.(f_idents).
Proof.
  intros S S' X. destruct (C90_lines F ext ls S X) as (f & P & A1 & A2 & A3 & A4 & A5). destruct (C90_lines G ext ls S' X) as (f' & P' & B1 & B2 & B3 & B4 & B5).
  rewrite P in P'. injection P' as <-. repeat split; try congruence.
  clear - A5 B5. revert A5 B5. generalize (f_idents F), (f_idents G). induction (f_idents f) as [|d ds IH]; intros a b A B.
  - inversion A; inversion B; reflexivity.
  - inversion A as [|? x ? u X A']; subst. inversion B as [|? y ? v Y B']; subst. f_equal; [|apply IH; assumption].
    destruct d, x, y; cbn in X, Y; try contradiction; [congruence|]. destruct X as (X1 & X2 & X3), Y as (Y1 & Y2 & Y3).
    f_equal. destruct s0, s1. cbn in *. f_equal; try congruence. clear - X3 Y3. revert s_fields s_fields0 X3 Y3.
    induction (Idl.s_fields s) as [|fd fds IH]; intros a b A B; inversion A; inversion B; subst; [reflexivity|]. f_equal; [congruence|]. apply IH; assumption.
Qed.
End Any.

(** ** A case *)
Lemma ascii_up_low : ascii_tables up low (fun c => up c || low c) num spc lower parseInt.
Proof.
  constructor; unfold upper_letter, lower_letter, up, low, num, spc; intros; repeat split; try lia.
Qed.
(** The other package. *)
Definition wheels : list string := ["package parts"; "struct Wheel {"; "Size float32 @0"; "}"]%string.
Definition wheels_file : file := Eval vm_compute in match ascii_parse (text wheels) with Ok f => f | _ => newFile end.
Definition parts_ext (w : bytes) : option file := if w =b "parts.Wheel" then Some wheels_file else None.
(** The schema of car, Properties/Idl.v, with its types. *)
Definition car_shown : file := mkFile (lit "vehicles") 0 [mkOpt (lit "IsSet") []]
  [DStruct (mkStruct (lit "A car." ++ 10 :: lit "// It has wheels.") (lit "Car") [
     mkFd [] (lit "Name") 0 FTString false false [] false false None;
     mkFd (lit "Who made it") (lit "Make") 1 FTUint8 true false (lit "Maker") false false None;
     mkFd [] (lit "Wheels") 2 FTListStructs false true (lit "parts.Wheel") false false None;
     mkFd [] (lit "Spare") 3 FTStruct false false (lit "Car") true false None;
     mkFd [] (lit "Prices") 4 FTMap false false [] false false (Some (MInfo FTString FTMap [] (Some (MInfo FTUint8 FTAny [] None))))]);
   DEnum (mkEnum [] (lit "Maker") 8 [mkEV [] (lit "Tesla") 1; mkEV [] (lit "Unknown") 0])]
  [] (Some [(lit "parts", lit "github.com/a/parts"); (lit "p2", lit "github.com/b/parts")]).
Definition car_rss : list (list Z) := [] :: [32; 9] :: map lit car ++ [[]].
Ltac wordsok := vm_compute; repeat (constructor; [split; discriminate|]); constructor.
Ltac saysok := split; [vm_compute; reflexivity|split; [reflexivity|wordsok]].
Ltac plainline := exists []; split; [rewrite app_nil_r; saysok|left; reflexivity].
Ltac asideline q := exists (map lit q); split; [saysok|right; eexists _, _; split; [reflexivity|eexists; vm_compute; reflexivity]].
Ltac nm := eexists _, _; split; [vm_compute; reflexivity|]; split; [unfold upper_letter, lower_letter; lia|]; repeat (constructor; [unfold letter_or_digit, upper_letter, lower_letter; lia|]); constructor.
Ltac atn := eexists; split; [vm_compute; reflexivity|]; split; [split; [discriminate|repeat (constructor; [unfold digit; lia|]); constructor]|split; vm_compute; reflexivity].
Ltac kw := split; [apply all_letters; vm_compute; reflexivity|vm_compute; reflexivity].
Ltac noremark := exists []; split; constructor.
Definition car_lines : list iline := Eval vm_compute in lines_of spc car_rss.
Definition at_line (n : nat) : iline := Eval vm_compute in nth n car_lines eofLine.
Ltac atline := match goal with |- context [at_line ?n] => let x := eval vm_compute in (at_line n) in change (at_line n) with x end.
Ltac plain := atline; plainline.
Ltac aside q := atline; asideline q.
Ltac cmt q := eapply (co_cons _ (lit "//") (map lit q)); [atline; saysok|eexists; reflexivity| |].
Lemma ascii_lines rss : forallb (forallb (fun c => (0 <=? c) && (c <? 128) && negb (c =? 10) && negb (c =? 13))) rss = true -> Forall line_chars rss.
Proof.
  intros H. apply Forall_forall. intros rs I. apply (proj1 (forallb_forall _ _) H) in I.
  assert (X : forall c, In c rs -> 0 <= c < 128 /\ c <> 10 /\ c <> 13).
  { intros c J. apply (proj1 (forallb_forall _ _) I) in J. repeat (apply andb_prop in J; destruct J as [J ?]). lia. }
  repeat split.
  - apply Forall_forall. intros c J. specialize (X c J). unfold scalar. lia.
  - intros J. specialize (X _ J). lia.
  - intros J. specialize (X _ J). lia.
Qed.
Example car_shows : schema_text spc car_shown parts_ext (lines_of spc car_rss) /\ Forall line_chars car_rss /\
  (forall w g, parts_ext w = Some g -> schema_ok up low (fun c => up c || low c) num g).
Proof.
  split; [|split].
  2:{ apply ascii_lines. vm_compute. reflexivity. }
  2:{ intros w g E. unfold parts_ext in E. destruct (w =b "parts.Wheel"); [|discriminate]. injection E as <-.
      apply C91_accepted with (isSpace := spc) (toLower := lower) (toInt := parseInt) (ls := text wheels). vm_compute. reflexivity. }
  replace (lines_of spc car_rss) with
    ([at_line 0] ++ at_line 1 :: ([] ++ at_line 2 :: [] ++ at_line 3 :: [] ++ [at_line 4; at_line 5; at_line 6; at_line 7] ++ []) ++
     (([at_line 8; at_line 9] ++ at_line 10 ::
        ([at_line 11] ++ at_line 12 :: [] ++ at_line 13 :: [] ++ at_line 14 :: [] ++ at_line 15 :: [] ++ at_line 16 :: []) ++ [at_line 17] ++ [at_line 18]) ++
      ([] ++ at_line 19 :: ([] ++ at_line 20 :: [] ++ at_line 21 :: []) ++ [] ++ [at_line 22]) ++ []) ++ []) by (vm_compute; reflexivity).
  apply (sc spc car_shown parts_ext [at_line 0] [lit "The package of vehicles."] (at_line 1) _ true true _ [] []).
  - cmt ["The"; "package"; "of"; "vehicles."]%string; [|apply co_nil].
    change (lit "The package of vehicles.") with (lit "The" ++ 32 :: (lit "package" ++ 32 :: (lit "of" ++ 32 :: lit "vehicles."))). repeat constructor.
  - nm.
  - aside ["//"; "in"; "all"; "the"; "garages"]%string.
  - eapply ht_version; [apply co_nil|plain|].
    eapply ht_options; [apply co_nil| |].
    + split; [exists (map lit ["["; "IsSet("; ")"; "]"; "//"; "all"; "of"; "them"]%string); atline; saysok|]. exists (lit "options [ IsSet( ) ] // all of them"), [], [32], [32], [32], [32], [32], (lit "// all of them").
      split; [vm_compute; reflexivity|]. split; [apply Forall_forall; intros x I; vm_compute in I; repeat (destruct I as [<-|I]; [unfold scalar; lia|]); contradiction|].
      split; [intros I; vm_compute in I; repeat (destruct I as [I|I]; [discriminate|]); exact I|].
      split; [vm_compute; reflexivity|].
      repeat split; try discriminate; try (apply Forall_nil); try (constructor; [split; [reflexivity|discriminate]|apply Forall_nil]).
      right. eexists. vm_compute. reflexivity.
    + eapply ht_import; [apply co_nil| |apply ht_nil].
      exists (at_line 4), (lit "import"), [at_line 5; at_line 6], (at_line 7). split; [reflexivity|]. split; [kw|]. split; [plain|].
      split; [|split; [discriminate|split; [vm_compute; repeat constructor; cbn; intuition discriminate|plain]]].
      constructor; [|constructor; [|constructor]].
      * apply il_plain; [|atline; plainline]. split; [exists (lit "github.com/a"); reflexivity|].
        repeat split; try discriminate; apply not_in; vm_compute; repeat constructor; discriminate.
      * apply (il_renamed _ (lit "github.com/b/parts") (lit "parts")); [|nm|aside ["//"; "renamed"]%string]. split; [exists (lit "github.com/b"); reflexivity|].
        repeat split; try discriminate; apply not_in; vm_compute; repeat constructor; discriminate.
  - reflexivity.
  - reflexivity.
  - eapply ds_cons; [|eapply ds_cons; [|apply ds_nil]].
    + eapply (dt_struct _ _ [at_line 8; at_line 9] (lit "A car." ++ 10 :: lit "// It has wheels.") (at_line 10) (lit "Struct") (lit "Car")
        ([at_line 11] ++ at_line 12 :: [] ++ at_line 13 :: [] ++ at_line 14 :: [] ++ at_line 15 :: [] ++ at_line 16 :: [])
        [mkFd (lit "Who made it") (lit "Make") 1 FTUint8 true false (lit "Maker") false false None;
         mkFd [] (lit "Name") 0 FTString false false [] false false None;
         mkFd [] (lit "Wheels") 2 FTListStructs false true (lit "parts.Wheel") false false None;
         mkFd [] (lit "Spare") 3 FTStruct false false (lit "Car") true false None;
         mkFd [] (lit "Prices") 4 FTMap false false [] false false (Some (MInfo FTString FTMap [] (Some (MInfo FTUint8 FTAny [] None))))]
        _ [at_line 17]).
      * exists [lit "A car."; lit "It has wheels."]. split.
        -- cmt ["A"; "car."]%string.
           ++ change (lit "A car.") with (lit "A" ++ 32 :: lit "car."). repeat constructor.
           ++ cmt ["It"; "has"; "wheels."]%string; [|apply co_nil].
              change (lit "It has wheels.") with (lit "It" ++ 32 :: (lit "has" ++ 32 :: lit "wheels.")). repeat constructor.
        -- apply (kt_cons (lit "A car.") (lit "It has wheels.")). constructor.
      * kw.
      * nm.
      * plain.
      * apply (xt_cons _ _ _ [at_line 11] (lit "Who made it") (at_line 12) (lit "Make") (lit "Maker") (lit "@1") 1); [|nm|atn| |plain|].
        { exists [lit "Who made it"]. split; [|constructor]. cmt ["Who"; "made"; "it"]%string; [|apply co_nil].
          change (lit "Who made it") with (lit "Who" ++ 32 :: (lit "made" ++ 32 :: lit "it")). repeat constructor. }
        { change FTUint8 with (fst (declared_type (DEnum (mkEnum [] (lit "Maker") 8 [mkEV [] (lit "Tesla") 1; mkEV [] (lit "Unknown") 0])) false)).
          apply (fs_name _ _ _ _ _ _ false (lit "Maker")); [left; split; [nm|discriminate]|discriminate|]. apply sf_here; [right; left; reflexivity|reflexivity]. }
        apply (xt_cons _ _ _ [] [] (at_line 13) (lit "Name") (lit "string") (lit "@0") 0); [noremark|nm|atn| |aside ["//"; "the"; "name"]%string|].
        { apply (fs_builtin _ _ _ _ _ _ false "string" FTString FTListStrings). unfold builtin_types. cbn [In]. intuition. }
        apply (xt_cons _ _ _ [] [] (at_line 14) (lit "Wheels") (lit "[]parts.Wheel") (lit "@2") 2); [noremark|nm|atn| |plain|].
        { apply (fs_name _ _ _ _ _ _ true (lit "parts.Wheel") (DStruct (mkStruct [] (lit "Wheel") [mkFd [] (lit "Size") 0 FTFloat32 false false [] false false None]))).
          - right. exists (lit "parts"), (lit "Wheel"). split; [reflexivity|]. split; nm.
          - discriminate.
          - apply (sf_there _ _ _ (lit "parts") (lit "Wheel") wheels_file); [|eexists _, _; split; [reflexivity|left; reflexivity]|reflexivity|left; reflexivity|reflexivity].
            split; [reflexivity|split; apply not_in; vm_compute; repeat constructor; discriminate]. }
        apply (xt_cons _ _ _ [] [] (at_line 15) (lit "Spare") (lit "Car") (lit "@3") 3); [noremark|nm|atn| |plain|].
        { apply (fs_self _ _ _ _ _ _ false); [nm|discriminate]. }
        apply (xt_cons _ _ _ [] [] (at_line 16) (lit "Prices") (lit "map[string]map[uint8]Any") (lit "@4") 4); [noremark|nm|atn| |plain|apply xt_nil].
        { apply (fs_map _ _ _ _ _ _ (lit "map[" ++ lit "string" ++ 93 :: (lit "map[" ++ lit "uint8" ++ 93 :: lit "Any"))).
          apply (ms_map _ _ "string" FTString FTListStrings); [unfold builtin_types; cbn [In]; intuition|unfold key_types; cbn [In]; intuition|].
          apply (ms_plain _ _ "uint8" FTUint8 FTListUint8 "Any" FTAny FTListAny); [unfold builtin_types; cbn [In]; intuition|unfold key_types; cbn [In]; intuition|unfold builtin_types; cbn [In]; intuition]. }
      * discriminate.
      * apply perm_swap.
      * reflexivity.
      * cmt ["nothing"]%string; [apply spo_one|apply co_nil].
      * plain.
    + eapply (dt_enum _ _ [] [] (at_line 19) (lit "Enum") (lit "Maker") (lit "uint8") 8 ([] ++ at_line 20 :: [] ++ at_line 21 :: []) [mkEV [] (lit "Tesla") 1; mkEV [] (lit "Unknown") 0] [] []).
      * noremark.
      * kw.
      * nm.
      * left. reflexivity.
      * plain.
      * apply (vt_cons [] [] (at_line 20) (lit "Tesla") (lit "@1") 1); [noremark|nm|atn|plain|].
        apply (vt_cons [] [] (at_line 21) (lit "Unknown") (lit "@0") 0); [noremark|nm|atn|plain|apply vt_nil].
      * discriminate.
      * vm_compute. repeat constructor; cbn; intuition discriminate.
      * vm_compute. repeat constructor; cbn; intuition discriminate.
      * apply co_nil.
      * plain.
  - vm_compute. repeat constructor; cbn; intuition discriminate.
  - apply co_nil.
Qed.
Example car_read : exists f, ascii_parse (lines_of spc car_rss ++ [eofLine]) = Ok f /\ read_as f parts_ext car_shown.
Proof. apply C90_lines; [exact ascii_up_low|apply car_shows|apply car_shows]. Qed.
Print Assumptions C90_lines.
Print Assumptions C90_text.
Print Assumptions C90_one.
