(** C86: a text written by hand. *)
From Coq Require Import ZArith List Bool Lia ZifyBool Permutation Sorted String Ascii.
Import ListNotations.
From Verif.Model Require Import Base Utf8 Field MapApi Token Walk Json TokenStream Ingest JsonRead ClawText.
From Verif.Spec Require Import Text JsonGrammar Message MapSpec Values Ingest JsonRead ClawText ClawHand.
From Verif.Proofs Require Import BaseLemmas Utf8Proofs IngestProofs IngestTotal ClawTotal ClawHandProofs ClawPad.
From Verif.Properties Require Import ClawText.
From Verif.Spec Require Import Message ClawText ClawHand.
From Verif.Model Require Import Ingest ClawText.
Open Scope Z_scope.

(** ** C86: a text is read as the struct it shows *)
(** A text that shows a struct, as Spec/ClawHand.v says, is read as that struct, whatever the lexer, if it
    splits lines into words.  The text has no empty lines, which a lexer may drop.  Not all the texts that the documentation of the format shows are among them:
    see the theorems below. *)
Theorem C86_hand_partial parseFloat lexer E ig id fs rss : splits lexer -> names_ident E -> names_differ E ->
  shows_msg parseFloat E id fs rss -> Forall visible rss -> UnmarshalText parseFloat lexer E ig id (blank E id) (text_of_lines rss) = Ok fs.
Proof. apply hand_read. Qed.
(** Lines with comments and empty lines may be added to it. *)
Lemma alike_splits lexer : splits_alike lexer -> splits lexer.
Proof.
  intros (space & A & B & C & line_for & drops & L & H). exists space. repeat (split; [assumption|]). intros rss F V. destruct (H rss F) as (extra & Q & X).
  exists (map line_for rss), extra. split; [|split; [|exact X]].
  - rewrite Q. f_equal. f_equal. destruct drops; [|reflexivity]. clear -V C. induction V as [|rs rss V _ IH]; [reflexivity|]. cbn [filter].
    rewrite (ClawPad.visible_keep space C rs V), IH. reflexivity.
  - clear -L. induction rss; constructor; auto.
Qed.
Theorem C86_commented_partial parseFloat lexer E ig id fs rss rss' : splits_alike lexer -> names_ident E -> names_differ E ->
  shows_msg parseFloat E id fs rss -> Forall visible rss -> Forall line_chars rss -> Forall no_openings rss -> commented rss rss' ->
  UnmarshalText parseFloat lexer E ig id (blank E id) (text_of_lines rss') = Ok fs.
Proof. intros L A B S V F N C. rewrite (C84_comments parseFloat lexer E ig id _ rss rss' L C F N). apply hand_read; auto using alike_splits. Qed.

(** *** Texts of the documentation that are read otherwise *)
Definition tx (s : string) : list Z := map (fun c => Z.of_nat (nat_of_ascii c)) (list_ascii_of_string s).
Section Documented.
Variable parseFloat : bytes -> option Z.
Variable ig : bool.
Variable lexer : bytes -> list line.
Hypothesis LX : splits lexer.
Definition reads (ty : fty) (rss : list (list Z)) : res (list (bytes * fval)) :=
  UnmarshalText parseFloat lexer (one ty) ig 0 (blank (one ty) 0) (text_of_lines rss).
Ltac take_lines F :=
  match type of F with
  | Forall2 _ [] _ => inversion F; subst; clear F
  | Forall2 _ (_ :: _) _ =>
    let l := fresh "l" in let q := fresh "q" in let LO := fresh "LO" in let F' := fresh "F" in let IT := fresh "IT" in let RW := fresh "RW" in let items := fresh "items" in let raw := fresh "raw" in
    inversion F as [|? l ? q LO F']; subst; clear F; destruct LO as [IT RW]; destruct l as [items raw]; cbn [ln_items ln_raw] in IT, RW;
    take_lines F'; destruct IT as [IT|IT]; cbn in IT; subst items; destruct RW as [RW|RW]; cbn in RW; subst raw
  end.
Ltac misread := repeat split; unfold reads;
  match goal with |- context [text_of_lines ?l] => let v := eval vm_compute in l in change l with v end;
  apply (read_lines (fun _ _ => []) (fun _ => None)); [assumption|repeat (constructor; [apply (plain_dec (fun _ _ => []) (fun _ => None) (fun _ => None)); reflexivity|]); constructor|]; intros ls extra F SK; take_lines F; try reflexivity;
  unfold textToTokens; cbn [app List.length parseFields];
  repeat (match goal with |- context [skipLines false (?l :: ?q)] => replace (skipLines false (l :: q)) with (l :: q) by (vm_compute; reflexivity) end;
  cbn -[skipLines parseFields]; cbn [parseFields]); rewrite ?SK; try reflexivity;
  change (Pos.to_nat 2) with 2%nat; cbn -[skipLines]; rewrite ?SK; try reflexivity.
Theorem C86_true_refuted : reads (TyNum KBool None) [tx "n: true,"] = Ok [([110], FNum KBool 0 None)].
Proof. misread. Qed.
Theorem C86_list_refuted : reads (TyNums KI32 None) [tx "n: [8080, 8081, 8082],"] = Err.
Proof. misread. Qed.
Theorem C86_map_refuted : reads (TyMap KTStr VTStr 0) [tx "n: @map {"; tx "    ""env"": ""production"","; tx "},"] = Err.
Proof. misread. Qed.
Theorem C86_hex_refuted : reads (TyNum KU32 None) [tx "n: 0xFF,"] = Ok [([110], FNum KU32 0 None)].
Proof. misread. Qed.
Theorem C86_float_refuted : reads (TyNum KF64 None) [tx "n: 30,"] = Ok [([110], FNum KF64 30 None)].
Proof. misread. Qed.
Theorem C86_raw_refuted : reads (TyStr true) [tx "n: `This is a"; tx "multi-line`,"] = Ok [([110], FStr true (tx "This" ++ 10 :: tx "multi-line"))].
Proof. misread. Qed.
Theorem C86_raw_comma_refuted : reads (TyStr true) [tx "n: `abc`,"] = Ok [([110], FStr true (tx "abc`,"))].
Proof. misread. Qed.
Theorem C86_base64_refuted : reads (TyStr false) [tx "n: ""SGVsbG8="","] = Ok [([110], FStr false (tx "SGVsbG8="))].
Proof. misread. Qed.
(** null is an error for a struct, and for a string the text "null". *)
Theorem C86_null_refuted : reads (TyMsg 0) [tx "n: null,"] = Err.
Proof. misread. Qed.
Theorem C86_null_text_refuted : reads (TyStr true) [tx "n: null,"] = Ok [([110], FStr true (tx "null"))].
Proof. misread. Qed.
(** A string with a blank takes in the comment behind it, if a quote is in that. *)
Theorem C86_comment_refuted : reads (TyStr true) [tx "n: ""a b"", // or ""c"""] = Ok [([110], FStr true (tx "a b"", // or ""c"))].
Proof. misread. Qed.
Theorem C86_any_refuted : reads TyAny [tx "n: @any(Inner) {ID: 12345, Value: ""test value""},"] = Err.
Proof. misread. Qed.
Theorem C86_inline_refuted : reads (TyMsgs 0) [tx "n: ["; tx "  { },"; tx "],"] = Err.
Proof. misread. Qed.
End Documented.

(** *** A case *)
(** A struct of every sort of field. *)
Definition kit : env := fun id => match id with
  | 0%nat => (tx "Kit", [(tx "Active", TyNum KBool None); (tx "Port", TyNum KU16 None); (tx "Rate", TyNum KF64 None); (tx "Kind", TyNum KU8 (Some [(tx "Car", 1); (tx "Truck", 2)]));
      (tx "Title", TyStr true); (tx "Data", TyStr false); (tx "Note", TyStr true); (tx "Inner", TyMsg 1); (tx "Ports", TyNums KI32 None); (tx "Tags", TyStrs true);
      (tx "Parts", TyMsgs 1); (tx "Labels", TyMap KTStr VTStr 0); (tx "Left", TyNum KI64 None)])
  | _ => (tx "Part", [(tx "ID", TyNum KI32 None)])
  end.
Definition kit_text : list (list Z) :=
  [tx "Port: 8080, // the port"; tx "Active : true"; tx "  Rate: 1.5e1,"; tx "Kind: Truck,"; tx "Title: ""Hello\n wide world"","; tx "Data: 0x48fF,";
   tx "Note: `one"; tx " two"; tx "three`,"; tx "Inner: {"; tx "  ID: -7,"; tx "},"; tx "Ports: [ 80, 443, ],"; tx "Tags: ["; tx "  ""a"","; tx "  ""b"" , ""c"""; tx "],";
   tx "Parts: ["; tx "  {"; tx "    ID: 1,"; tx "  },"; tx "  {"; tx "  },"; tx "],"; tx "Labels: @map {"; tx "  ""z"" : ""last"","; tx "  ""a"" : ""first"","; tx "},"].
Definition kit_float (s : bytes) : option Z := if bytes_eqb s (tx "1.5e1") then Some 0x402E000000000000 else None.
Definition kit_fields : list (bytes * fval) :=
  [(tx "Active", FNum KBool 1 None); (tx "Port", FNum KU16 8080 None); (tx "Rate", FNum KF64 0x402E000000000000 None); (tx "Kind", FNum KU8 2 (Some (tx "Truck")));
   (tx "Title", FStr true (tx "Hello" ++ 10 :: tx " wide world")); (tx "Data", FStr false [0x48; 0xFF]); (tx "Note", FStr true (tx "one" ++ 10 :: tx " two" ++ 10 :: tx "three"));
   (tx "Inner", FMsg (Some (TMsg (tx "Part") [(tx "ID", FNum KI32 (-7) None)]))); (tx "Ports", FNums KI32 [(80, None); (443, None)]); (tx "Tags", FStrs true [tx "a"; tx "b"; tx "c"]);
   (tx "Parts", FMsgs [TMsg (tx "Part") [(tx "ID", FNum KI32 1 None)]; TMsg (tx "Part") [(tx "ID", FNum KI32 0 None)]]);
   (tx "Labels", FMap KTStr VTStr [(KStr (tx "a"), EStr (tx "first")); (KStr (tx "z"), EStr (tx "last"))]); (tx "Left", FNum KI64 0 None)].
Example kit_read : UnmarshalText kit_float demo_lexer kit false 0 (blank kit 0) (text_of_lines kit_text) = Ok kit_fields.
Proof. vm_compute. reflexivity. Qed.

Lemma spaced_blank c rs ws : blank_char c -> spaced rs ws -> spaced (c :: rs) ws.
Proof.
  intros C S. destruct S as [b B|b w B W|b w c' q ws B W C' S].
  - apply sp_nil. constructor; assumption.
  - apply (sp_one (c :: b) w); [constructor|]; assumption.
  - apply (sp_cons (c :: b) w); [constructor|..]; assumption.
Qed.
Lemma spaced_from rs : Forall (fun c => demo_space c = true \/ 33 <= c <= 126) rs ->
  forall acc, Forall (fun c => 33 <= c <= 126) acc -> spaced (rev acc ++ rs) (words_from demo_space acc rs).
Proof.
  assert (W : forall acc, acc <> [] -> Forall (fun c => 33 <= c <= 126) acc -> word (rev acc)).
  { intros acc N A. split; [intros Q; apply N; rewrite <- (rev_involutive acc), Q; reflexivity|apply Forall_rev; exact A]. }
  induction 1 as [|r rs R _ IH]; intros acc A; cbn [words_from].
  - rewrite app_nil_r. destruct acc as [|a acc]; [apply sp_nil; constructor|]. apply (sp_one []); [constructor|apply W; [discriminate|exact A]].
  - destruct (demo_space r) eqn:S.
    + assert (B : blank_char r) by (unfold demo_space in S; unfold blank_char; lia).
      specialize (IH [] ltac:(constructor)). cbn [rev app] in IH. destruct acc as [|a acc]; [apply spaced_blank; assumption|].
      apply (sp_cons []); [constructor|apply W; [discriminate|exact A]|exact B|exact IH].
    + destruct R as [R|R]; [discriminate|]. specialize (IH (r :: acc) ltac:(constructor; assumption)). cbn [rev] in IH. rewrite <- app_assoc in IH. exact IH.
Qed.
(** The words of a line, by computation. *)
Lemma spaced_by rs ws : forallb (fun c => demo_space c || (33 <=? c) && (c <=? 126)) rs = true -> words demo_space rs = ws -> spaced rs ws.
Proof.
  intros H <-. assert (G : Forall (fun c => demo_space c = true \/ 33 <= c <= 126) rs); [|exact (spaced_from rs G [] (Forall_nil _))]. rewrite forallb_forall in H. apply Forall_forall. intros c I. apply H in I. destruct (demo_space c); [left; reflexivity|right; lia].
Qed.
Lemma headed_by n rs ws : forallb (fun c => demo_space c || (33 <=? c) && (c <=? 126)) rs = true ->
  (words demo_space rs = (n ++ [58]) :: ws \/ words demo_space rs = n :: [58] :: ws) -> headed n rs ws.
Proof. intros H [Q|Q]; [exists [n ++ [58]]|exists [n; [58]]]; (split; [unfold heading; auto|]); apply spaced_by; auto. Qed.
Ltac line := first [apply headed_by; [reflexivity|first [left; cbv; reflexivity|right; cbv; reflexivity]] | apply spaced_by; [reflexivity|cbv; reflexivity]].
Ltac comma := first [right; reflexivity|left; reflexivity].
Ltac bare := left; reflexivity.
Ltac letters := repeat first [apply sl_nil | apply sl_plain; [unfold scalar; lia|lia|lia|lia|] | apply sl_esc; [cbn; intuition congruence|]].
Ltac fin := repeat constructor; unfold scalar; try lia; cbn; intuition (try discriminate; try lia).
Lemma sf_next k pf E id n ty v q rss : In (n, ty) (snd (E id)) -> shows_field pf E n ty v (firstn k rss) -> shows_fields pf E id q (skipn k rss) -> shows_fields pf E id ((n, v) :: q) rss.
Proof. intros A B C. rewrite <- (firstn_skipn k rss). eapply sf_cons; eassumption. Qed.
Lemma part_shown pf z rs tl w w' : headed (tx "ID") rs (w' :: tl) -> aside tl -> int_lit w z -> in_range KI32 z -> z < 2 ^ 63 -> ended w w' ->
  shows_msg pf kit 1 [(tx "ID", FNum KI32 z None)] [rs].
Proof.
  intros H A L R B EN. apply (sm_ _ _ _ [(tx "ID", FNum KI32 z None)]).
  - eapply (sf_next 1); [left; reflexivity| |apply sf_nil]; cbn [firstn skipn]. eapply sv_word; [exact H|exact A|]. apply (fw_num _ _ None w); [|exact EN]. apply nw_int; auto; [split|]; discriminate.
  - constructor; [intros []|constructor].
  - constructor; [|constructor]. split; [reflexivity|left; left; reflexivity].
Qed.

Definition kit_said : list (bytes * fval) := Eval vm_compute in
  map (fun n => (n, match assoc n kit_fields with Some v => v | None => FNum KBool 0 None end))
    [tx "Port"; tx "Active"; tx "Rate"; tx "Kind"; tx "Title"; tx "Data"; tx "Note"; tx "Inner"; tx "Ports"; tx "Tags"; tx "Parts"; tx "Labels"].
Lemma kit_shown : shows_msg kit_float kit 0 kit_fields kit_text.
Proof.
  apply (sm_ _ _ _ kit_said).
  - unfold kit_said. let v := eval vm_compute in kit_text in change kit_text with v.
    eapply (sf_next 1); [right; left; reflexivity| |]; cbn [firstn skipn].
    { eapply sv_word; [line|right; eexists _, _; split; [reflexivity|exists []; reflexivity]|]. apply (fw_num _ KU16 None (tx "8080") _ 8080); [|comma]. apply (nw_int _ KU16 None _ 8080); [split; discriminate|discriminate|apply (il_pos (tx "8080")); fin|cbn; lia|lia]. }
    eapply (sf_next 1); [left; reflexivity| |]; cbn [firstn skipn].
    { eapply sv_word; [line|left; reflexivity|]. apply (fw_bool _ None _ 1). constructor. }
    eapply (sf_next 1); [right; right; left; reflexivity| |]; cbn [firstn skipn].
    { eapply sv_word; [line|left; reflexivity|]. apply (fw_num _ KF64 None (tx "1.5e1") _ 0x402E000000000000); [|comma]. apply nw_float; [|reflexivity|lia|reflexivity].
      split; [repeat (apply Forall_cons; [cbn; lia|]); apply Forall_nil|]. split; [left; cbn; auto|]. exists 49, (tx ".5e1"). split; [left; reflexivity|lia]. }
    eapply (sf_next 1); [do 3 right; left; reflexivity| |]; cbn [firstn skipn].
    { eapply sv_word; [line|left; reflexivity|]. apply (fw_num _ KU8 (Some [(tx "Car", 1); (tx "Truck", 2)]) (tx "Truck") _ 2); [|comma]. apply nw_name; [reflexivity|apply ident_dec; reflexivity|cbn; intuition discriminate|right; left; reflexivity|fin]. }
    eapply (sf_next 1); [do 4 right; left; reflexivity| |]; cbn [firstn skipn].
    { match goal with |- shows_field _ _ _ _ _ ?b => change b with [[] ++ tx "Title" ++ [] ++ [58] ++ [32] ++ (34 :: tx "Hello\n wide world" ++ [34]) ++ [44] ++ []] end.
      apply (sv_text kit_float kit (tx "Title") [] [] [32] (tx "Hello\n wide world") [44] [] (tx "Hello" ++ 10 :: tx " wide world")); [constructor|constructor|repeat constructor|discriminate|constructor| |cbn; intuition discriminate|right; reflexivity].
      cbn. letters. }
    eapply (sf_next 1); [do 5 right; left; reflexivity| |]; cbn [firstn skipn].
    { eapply sv_word; [line|left; reflexivity|]. eapply (fw_hex _ (tx "48fF") [0x48; 0xFF]); [|comma]. cbn.
      eapply hx_cons; [apply hd_09; lia|apply hd_09; lia|reflexivity|]. eapply hx_cons; [apply hd_af; lia|apply hd_AF; lia|reflexivity|]. constructor. }
    eapply (sf_next 3); [do 6 right; left; reflexivity| |]; cbn [firstn skipn].
    { apply (sv_raw kit_float kit (tx "Note") (tx "Note: `one") (tx "one") [tx " two"] (tx "three") [44]); [line|cbn; intuition discriminate|fin|fin|fin|fin]. }
    eapply (sf_next 3); [do 7 right; left; reflexivity| |]; cbn [firstn skipn].
    { eapply (sv_msg kit_float kit (tx "Inner") 1 [(tx "ID", FNum KI32 (-7) None)] _ [] [tx "  ID: -7,"] (tx "},")); [line|left; reflexivity| |].
      - eapply part_shown; [line|left; reflexivity|apply (il_neg (tx "7")); fin|cbn; lia|cbn; lia|comma].
      - eexists _, []. split; [line|]. split; [comma|left; reflexivity]. }
    assert (N : forall w z, digits1 w -> numval w = z -> in_range KI32 z -> num_elem kit_float KI32 None (w ++ [44]) (z, None)).
    { intros w z D <- R. apply (ne_num kit_float KI32 None w _ (numval w)); [|right; reflexivity]. apply nw_int; [split; discriminate|discriminate|apply il_pos; exact D|exact R|cbn in R |- *; lia]. }
    eapply (sf_next 1); [do 8 right; left; reflexivity| |]; cbn [firstn skipn].
    { apply sv_nums. eapply (lt_one _ _ _ [tx "80,"; tx "443,"] (tx "],") []); [line| |comma|left; reflexivity].
      apply el_cons; [apply (N (tx "80") 80); [fin|reflexivity|cbn; lia]|]. apply el_cons; [apply (N (tx "443") 443); [fin|reflexivity|cbn; lia]|]. constructor. }
    eapply (sf_next 4); [do 9 right; left; reflexivity| |]; cbn [firstn skipn].
    { apply sv_strs. apply (lt_more _ _ (tx "Tags: [") [] [] [tx "  ""a"","; tx "  ""b"" , ""c"""] [[tx "a"]; [tx "b"; tx "c"]] (tx "],") [] (tx "],") [] []); [line|constructor| |line|constructor|comma|left; reflexivity].
      constructor; [eexists; split; [line|]; apply el_cons; [apply (se_text (tx "a") (tx "a")); [cbn; letters|comma]|constructor]|].
      constructor; [|constructor]. eexists; split; [line|]. apply el_cons; [apply (se_text (tx "b") (tx "b")); [cbn; letters|comma]|]. apply el_comma.
      apply el_cons; [apply (se_text (tx "c") (tx "c")); [cbn; letters|comma]|]. constructor. }
    assert (C : forall c rs w, spaced rs [w] -> ended [c] w -> closing c rs).
    { intros c rs w S EN. exists w, []. split; [exact S|]. split; [exact EN|left; reflexivity]. }
    eapply (sf_next 7); [do 10 right; left; reflexivity| |]; cbn [firstn skipn].
    { eapply (sv_msgs kit_float kit (tx "Parts") 1 _ _ ([tx "  {"; tx "    ID: 1,"; tx "  },"; tx "  {"; tx "  },"; tx "],"])); [line|].
      apply (ss_cons kit_float kit 1 _ (tx "  {") [tx "    ID: 1,"] (tx "  },") _ [tx "  {"; tx "  },"; tx "],"]); [line| |eapply C; [line|comma]|].
      - eapply part_shown; [line|left; reflexivity|apply (il_pos (tx "1")); fin|cbn; lia|cbn; lia|comma].
      - apply (ss_cons kit_float kit 1 _ (tx "  {") [] (tx "  },") _ [tx "],"]); [line| |eapply C; [line|comma]|].
        + apply (sm_ _ _ _ []); [apply sf_nil|constructor|]. constructor; [|constructor]. split; [reflexivity|]. right. split; [intros []|reflexivity].
        + apply ss_end. eapply C; [line|comma]. }
    eapply (sf_next 4); [do 11 right; left; reflexivity| |apply sf_nil]; cbn [firstn skipn].
    eapply (sv_map kit_float kit (tx "Labels") VTStr 0 [(KStr (tx "z"), EStr (tx "last")); (KStr (tx "a"), EStr (tx "first"))] _ _ [] [tx "  ""z"" : ""last"","; tx "  ""a"" : ""first"","; tx "},"]); [line|left; reflexivity| | | |].
    + apply (sn_word kit_float kit VTStr 0 (tx "z") (tx "z") _ _ (tx """last"",") []); [line|left; reflexivity|cbn; letters|apply ew_str, (se_text (tx "last") (tx "last")); [cbn; letters|comma]|].
      apply (sn_word kit_float kit VTStr 0 (tx "a") (tx "a") _ _ (tx """first"",") []); [line|left; reflexivity|cbn; letters|apply ew_str, (se_text (tx "first") (tx "first")); [cbn; letters|comma]|].
      apply sn_end. eapply C; [line|comma].
    + cbn. repeat constructor; cbn; intuition discriminate.
    + apply perm_swap.
    + cbn [map fst]. apply SSorted_cons; [apply SSorted_cons; [apply SSorted_nil|apply Forall_nil]|]. apply Forall_cons; [|apply Forall_nil]. exists []. right. exists 97, 122, [], []. split; [reflexivity|]. split; [reflexivity|lia].
  - cbn. repeat constructor; cbn; intuition discriminate.
  - unfold fills. cbn [kit snd kit_fields]. 
    repeat (apply Forall2_cons; [split; [reflexivity|first [left; cbn; solve [repeat (first [left; reflexivity|right])] | right; split; [cbn; intuition discriminate|reflexivity]]]|]). constructor.
Qed.
Example kit_by_theorem ig : UnmarshalText kit_float demo_lexer kit ig 0 (blank kit 0) (text_of_lines kit_text) = Ok kit_fields.
Proof.
  apply C86_hand_partial; [exact demo_lexer_splits| | |exact kit_shown|].
  - intros [|id]; cbn [kit snd]; repeat (apply Forall_cons; [apply ident_dec; reflexivity|]); constructor.
  - intros [|id]; repeat constructor; cbn; intuition discriminate.
  - assert (V : forallb (existsb (fun c => (33 <=? c) && (c <=? 126))) kit_text = true) by (vm_compute; reflexivity).
    rewrite forallb_forall in V. apply Forall_forall. intros rs I. apply V in I. apply existsb_exists in I as (c & IC & C). apply Exists_exists. exists c. split; [exact IC|lia].
Qed.

Print Assumptions C86_hand_partial.
Print Assumptions C86_commented_partial.
Print Assumptions C86_true_refuted.
Print Assumptions C86_list_refuted.
Print Assumptions C86_map_refuted.
Print Assumptions C86_hex_refuted.
Print Assumptions C86_float_refuted.
Print Assumptions C86_raw_refuted.
Print Assumptions C86_raw_comma_refuted.
Print Assumptions C86_base64_refuted.
Print Assumptions C86_null_refuted.
Print Assumptions C86_null_text_refuted.
Print Assumptions C86_comment_refuted.
Print Assumptions C86_any_refuted.
Print Assumptions C86_inline_refuted.
