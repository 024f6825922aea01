(** C82-C85: the text form of a struct. *)
From Coq Require Import ZArith List Bool Lia ZifyBool.
Import ListNotations.
From Verif.Model Require Import Base Utf8 Field MapApi Token Walk Escape Json TokenStream Ingest JsonRead ClawText.
From Verif.Spec Require Import Text Message Values Ingest JsonRead ClawText.
From Verif.Proofs Require Import BaseLemmas Utf8Proofs IngestProofs IngestTotal ClawTotal ClawLine ClawRound ClawErr ClawPad.
From Verif.Properties Require Import Ingest.
From Verif.Spec Require Import Message ClawText.
From Verif.Model Require Import Ingest ClawText.
Open Scope Z_scope.

(** ** C82: what is written is read *)
(** The text of a legible struct (Spec/ClawText.v), whose fields have names of letters, digits and
    underscores, is read as that struct, whatever the fields of other structs, the indentation, the
    options, and the lexer, if it splits lines into words. *)
Theorem C82_round_trip_partial appendFloat lookup enumNumbers hexBytes indent parseFloat E ig lexer fuel id fs :
  splits lexer -> (forall k, k = KF32 \/ k = KF64 -> appendFloat k 0 = [48]) -> Forall (fun c => c = 32 \/ c = 9) indent ->
  names_ident E -> names_differ E -> legible E enumNumbers hexBytes id (TMsg (fst (E id)) fs) ->
  exists data, writeText appendFloat lookup enumNumbers hexBytes indent (S fuel) (TMsg (fst (E id)) fs) = Ok data /\
    UnmarshalText parseFloat lexer E ig id (blank E id) data = Ok fs.
Proof. apply round_trip. Qed.

(** *** A lexer *)
Definition demo_space (c : Z) : bool := (c =? 32) || (c =? 9).
Fixpoint split_lines (acc : list Z) (rs : list Z) : list (list Z) :=
  match rs with
  | [] => match acc with [] => [] | _ => [rev acc] end
  | r :: q => if r =? 10 then rev acc :: split_lines [] q else split_lines (r :: acc) q
  end.
Definition demo_lexer (data : bytes) : list line :=
  map (fun rs => mkLine (map utf8 (words demo_space rs) ++ [[10]]) (utf8 rs ++ [10])) (split_lines [] (runes data)).
Lemma split_line rs : ~ In 10 rs -> forall acc q, split_lines acc (rs ++ 10 :: q) = (rev acc ++ rs) :: split_lines [] q.
Proof.
  induction rs as [|r rs IH]; intros N acc q; cbn [app split_lines].
  - rewrite app_nil_r. reflexivity.
  - destruct (Z.eqb_spec r 10); [subst; exfalso; apply N; left; reflexivity|]. rewrite IH by (intros I; apply N; right; exact I). cbn [rev]. rewrite <- app_assoc. reflexivity.
Qed.
Theorem demo_lexer_splits : splits demo_lexer.
Proof.
  exists demo_space. split; [reflexivity|]. split; [reflexivity|]. split; [intros c C; unfold demo_space; destruct (Z.eqb_spec c 32), (Z.eqb_spec c 9); lia || reflexivity|].
  intros rss F _. exists (demo_lexer (text_of_lines rss)), []. rewrite app_nil_r. split; [reflexivity|]. split; [|constructor].
  assert (T : text_of_lines rss = utf8 (flat_map (fun rs => rs ++ [10]) rss)).
  { clear. unfold text_of_lines. induction rss as [|rs rss IH]; [reflexivity|]. cbn [flat_map]. rewrite utf8_app, IH, utf8_app. reflexivity. }
  unfold demo_lexer. rewrite T, runes_utf8.
  - clear T. induction F as [|rs rss (A & B & C) _ IH]; [constructor|]. cbn [flat_map]. rewrite <- app_assoc. cbn [app]. rewrite (split_line rs B). cbn [rev app map].
    constructor; [|exact IH]. split; right; reflexivity.
  - clear T. induction F as [|rs rss (A & B & C) _ IH]; [constructor|]. cbn [flat_map]. rewrite !Forall_app. split; [split; [exact A|]|exact IH].
    constructor; [unfold scalar; lia|constructor].
Qed.

(** *** What is not read back *)
(** A struct of one field, n. *)
Definition one (ty : fty) : env := fun _ => ([84], [([110], ty)]).
Section Lost.
Variable appendFloat : kind -> Z -> bytes.
Variable lookup : bytes -> option (bytes * (bytes -> option tmsg)).
Variable indent : bytes.
Variable parseFloat : bytes -> option Z.
Variable ig : bool.
Variable lexer : bytes -> list line.
Hypothesis LX : splits lexer.
(** What comes of a struct of the type [one ty], with the value [v], when its text is read. *)
Definition comes_back (enumNumbers hexBytes : bool) (ty : fty) (v : fval) : res (list (bytes * fval)) :=
  data <- writeText appendFloat lookup enumNumbers hexBytes indent 1 (TMsg [84] [([110], v)]) ;;
  UnmarshalText parseFloat lexer (one ty) ig 0 (blank (one ty) 0) data.

Lemma words_ext (s1 s2 : Z -> bool) rs : (forall c, In c rs -> s1 c = s2 c) -> forall acc, words_from s1 acc rs = words_from s2 acc rs.
Proof.
  induction rs as [|r rs IH]; intros H acc; [reflexivity|]. cbn [words_from]. rewrite (H r) by (left; reflexivity).
  destruct (s2 r); rewrite IH by (intros c I; apply H; right; exact I); reflexivity.
Qed.
(** The lines of a text of blanks and printable ASCII characters. *)
Definition plainly (rs : list Z) : Prop := Forall (fun c => 32 <= c <= 126) rs /\ visible rs.
Lemma lexed rss : Forall plainly rss ->
  exists ls extra, lexer (text_of_lines rss) = ls ++ extra /\ Forall2 (line_of demo_space) rss ls /\ Forall (fun l => l.(ln_items) = [] \/ l.(ln_items) = [[10]]) extra.
Proof.
  intros F. destruct LX as (space & S32 & S9 & SP & H).
  destruct (H rss) as (ls & extra & A & B & C).
  { eapply Forall_impl; [|exact F]. cbn. intros rs [R _]. rewrite Forall_forall in R. split; [apply Forall_forall; intros c I; apply R in I; unfold scalar; lia|]. split; intros I; apply R in I; lia. }
  { eapply Forall_impl; [|exact F]. intros rs [_ V]. exact V. }
  exists ls, extra. split; [exact A|]. split; [|exact C]. clear -F B S32 S9 SP. induction B as [|rs l rss ls LO _ IH]; constructor; inversion F as [|? ? [R _] F']; subst; [|apply IH; exact F'].
  unfold line_of, words in *. rewrite (words_ext demo_space space); [exact LO|]. intros c I. rewrite Forall_forall in R. apply R in I. unfold demo_space.
  destruct (Z.eqb_spec c 32) as [->|N]; [rewrite S32; reflexivity|]. rewrite (SP c) by lia. destruct (Z.eqb_spec c 9); [lia|reflexivity].
Qed.
Lemma skip_extra extra : Forall (fun l => l.(ln_items) = [] \/ l.(ln_items) = [[10]]) extra -> skipLines false extra = [].
Proof. induction 1 as [|l extra [Q|Q] _ IH]; [reflexivity| |]; cbn [skipLines]; unfold blank_line; rewrite Q; exact IH. Qed.
Lemma plain_dec rs : forallb (fun c => (32 <=? c) && (c <=? 126)) rs && existsb (fun c => (33 <=? c) && (c <=? 126)) rs = true -> plainly rs.
Proof.
  intros H. apply andb_prop in H as [H V]. rewrite forallb_forall in H. split; [apply Forall_forall; intros c I; apply H in I; lia|].
  apply existsb_exists in V as (c & I & C). apply Exists_exists. exists c. split; [exact I|lia].
Qed.
(** Reading one line. *)
Lemma read_line ty rs r : plainly rs ->
  (forall l extra, line_of demo_space rs l -> skipLines false extra = [] ->
     (let '(ts, _) := textToTokens parseFloat (l :: extra) in Ingest (one ty) ig 0 (blank (one ty) 0) ts) = r) ->
  UnmarshalText parseFloat lexer (one ty) ig 0 (blank (one ty) 0) (utf8 rs ++ [10]) = r.
Proof.
  intros A H. destruct (lexed [rs] ltac:(auto)) as (ls & extra & L & F & X). cbn [text_of_lines flat_map] in L. rewrite app_nil_r in L.
  unfold UnmarshalText. rewrite L. inversion F as [|? l ? ls' LO F']; subst. inversion F'; subst. cbn [app].
  specialize (H l extra LO (skip_extra extra X)). pose proof (ends_tokens parseFloat (l :: extra)) as EN. unfold ends in EN.
  destruct (textToTokens parseFloat (l :: extra)) as [ts [u| | |]]; cbn [snd] in EN; [exact H|exact H|destruct EN|destruct EN].
Qed.
Ltac lost_by rs tac fin :=
  intros; unfold comes_back;
  match goal with |- bind ?w _ = _ => replace w with (Ok (utf8 rs ++ [10])) by (unfold writeText, textWith; tac) end; cbn [bind]; apply read_line; [apply plain_dec; vm_compute; reflexivity|];
  intros l extra LO SK; destruct LO as [[IT|IT] [RW|RW]]; destruct l as [items raw]; cbn [ln_items ln_raw] in IT, RW; subst items raw;
  unfold textToTokens; cbn [length parseFields]; 
  match goal with |- context [skipLines false (?l :: extra)] => replace (skipLines false (l :: extra)) with (l :: extra) by (vm_compute; reflexivity) end;
  cbn -[skipLines parseFields]; cbn [parseFields]; rewrite ?SK; fin.
Ltac lost rs := lost_by rs ltac:(reflexivity) ltac:(reflexivity).

(** true is read as false. *)
Theorem C82_true_refuted en hx : comes_back en hx (TyNum KBool None) (FNum KBool 1 None) = Ok [([110], FNum KBool 0 None)].
Proof. lost [110; 58; 32; 116; 114; 117; 101; 44]. Qed.
(** A struct, a list, a map or an Any that is not set makes the text unreadable; so does a list, and an Any
    value of a type that is not registered. *)
Theorem C82_unset_refuted en hx :
  comes_back en hx (TyMsg 0) (FMsg None) = Err /\ comes_back en hx (TyNums KI32 None) (FNums KI32 []) = Err /\
  comes_back en hx (TyStrs true) (FStrs true []) = Err /\ comes_back en hx (TyMsgs 0) (FMsgs []) = Err /\
  comes_back en hx (TyMap KTStr VTStr 0) (FMap KTStr VTStr []) = Err /\ comes_back en hx TyAny (FAny None) = Err /\ comes_back en hx TyAnys (FAnys []) = Err.
Proof. repeat split; lost [110; 58; 32; 110; 117; 108; 108; 44]. Qed.
Theorem C82_list_refuted en hx : comes_back en hx (TyNums KI32 None) (FNums KI32 [(1, None)]) = Err.
Proof. lost [110; 58; 32; 91; 49; 93; 44]. Qed.
Theorem C82_any_refuted en hx : lookup (repeat 0 16%nat) = None -> comes_back en hx TyAny (FAny (Some (repeat 0 16%nat, [1]))) = Err.
Proof. intros LK. lost_by [110; 58; 32; 64; 97; 110; 121; 40; 48; 120; 48; 48; 48; 48; 48; 48; 48; 48; 48; 48; 48; 48; 48; 48; 48; 48; 48; 48; 48; 48; 48; 48; 48; 48; 48; 48; 48; 48; 48; 48; 48; 48; 44; 32; 34; 65; 81; 61; 61; 34; 41; 44] ltac:(cbn in LK |- *; rewrite LK; reflexivity) ltac:(reflexivity). Qed.
(** The float 1.0 is read as the smallest positive float, 1.5 of 32 bits as zero. *)
Theorem C82_float_refuted en hx : appendFloat KF64 0x3FF0000000000000 = [49] -> comes_back en hx (TyNum KF64 None) (FNum KF64 0x3FF0000000000000 None) = Ok [([110], FNum KF64 1 None)].
Proof. intros AF. lost_by [110; 58; 32; 49; 44] ltac:(cbn; rewrite AF; reflexivity) ltac:(reflexivity). Qed.
Theorem C82_float32_refuted en hx : appendFloat KF32 0x3FC00000 = [49; 46; 53] -> parseFloat [49; 46; 53] = Some 0x3FF8000000000000 ->
  comes_back en hx (TyNum KF32 None) (FNum KF32 0x3FC00000 None) = Ok [([110], FNum KF32 0 None)].
Proof. intros AF PF.
  assert (EN : emitNumber parseFloat [110] [49; 46; 53] = ([setValue KF64 0x3FF8000000000000 (set_type FTFloat64 (tok0 TField [110] 0))], Ok tt)).
  { unfold emitNumber. change (trimLast 44 [49; 46; 53]) with [49; 46; 53]. unfold setNumber. change (isFloat [49; 46; 53]) with true. cbn iota. rewrite PF. reflexivity. }
  lost_by [110; 58; 32; 49; 46; 53; 44] ltac:(cbn; rewrite AF; reflexivity) ltac:(rewrite EN; cbn -[skipLines]; rewrite ?SK; reflexivity). Qed.
(** An integer of 2^63 or more makes the text unreadable. *)
Theorem C82_uint64_refuted en hx : comes_back en hx (TyNum KU64 None) (FNum KU64 (2 ^ 63) None) = Err.
Proof. lost [110; 58; 32; 57; 50; 50; 51; 51; 55; 50; 48; 51; 54; 56; 53; 52; 55; 55; 53; 56; 48; 56; 44]. Qed.
(** A byte string is read as its base64 text. *)
Theorem C82_bytes_refuted en : comes_back en false (TyStr false) (FStr false [1]) = Ok [([110], FStr false [65; 81; 61; 61])].
Proof. lost [110; 58; 32; 34; 65; 81; 61; 61; 34; 44]. Qed.
(** An enum value without a name is read as zero. *)
Theorem C82_enum_refuted hx : comes_back false hx (TyNum KU8 (Some [([82], 1)])) (FNum KU8 7 (Some [])) = Ok [([110], FNum KU8 0 (Some []))].
Proof. lost [110; 58; 32; 44]. Qed.
(** A quote and a blank in a string: the end is lost. *)
Theorem C82_quote_refuted en hx : comes_back en hx (TyStr true) (FStr true [120; 34; 32; 121]) = Ok [([110], FStr true [120; 92])].
Proof. lost [110; 58; 32; 34; 120; 92; 34; 32; 121; 34; 44]. Qed.

(** Reading several lines. *)
Lemma read_lines E id rss r : Forall plainly rss ->
  (forall ls extra, Forall2 (line_of demo_space) rss ls -> skipLines false extra = [] ->
     Ingest E ig id (blank E id) (fst (textToTokens parseFloat (ls ++ extra))) = r) ->
  UnmarshalText parseFloat lexer E ig id (blank E id) (text_of_lines rss) = r.
Proof.
  intros A H. destruct (lexed rss A) as (ls & extra & L & F & X).
  unfold UnmarshalText. rewrite L. 
  specialize (H ls extra F (skip_extra extra X)). pose proof (ends_tokens parseFloat (ls ++ extra)) as EN. unfold ends in EN.
  destruct (textToTokens parseFloat (ls ++ extra)) as [ts [u| | |]]; cbn [snd fst] in *; [exact H|exact H|destruct EN|destruct EN].
Qed.
Ltac split_lines F :=
  match type of F with
  | Forall2 _ [] _ => inversion F; subst; clear F
  | Forall2 _ (_ :: _) _ =>
    let l := fresh "l" in let q := fresh "q" in let LO := fresh "LO" in let F' := fresh "F" in let IT := fresh "IT" in let items := fresh "items" in let raw := fresh "raw" in
    inversion F as [|? l ? q LO F']; subst; clear F; destruct LO as [IT _]; destruct l as [items raw]; cbn [ln_items] in IT;
    split_lines F'; destruct IT as [IT|IT]; cbn in IT; subst items
  end.
(** A map is unreadable too. *)
Theorem C82_map_refuted en hx : indent = [32; 32; 32; 32] -> comes_back en hx (TyMap KTStr VTStr 0) (FMap KTStr VTStr [(KStr [107], EStr [118])]) = Err.
Proof.
  intros IND. unfold comes_back.
  match goal with |- bind ?w _ = _ => replace w with (Ok (text_of_lines [[110; 58; 32; 64; 109; 97; 112; 32; 123]; [32; 32; 32; 32; 34; 107; 34; 58; 32; 34; 118; 34; 44]; [125; 44]])) by (rewrite IND; reflexivity) end. cbn [bind].
  apply read_lines; [repeat (constructor; [apply plain_dec; reflexivity|]); constructor|]. intros ls extra F SK. split_lines F; reflexivity.
Qed.

(** ** C85: a text with errors is refused *)
(** Not always: what follows a closing brace that closes nothing is not read; *)
Theorem C85_brace_refuted : UnmarshalText parseFloat lexer (one (TyNum KI32 None)) ig 0 (blank (one (TyNum KI32 None)) 0)
  (text_of_lines [[125]; [110; 58; 32; 55; 44]; [110; 111; 32; 115; 117; 99; 104; 32; 116; 101; 120; 116]]) = Ok [([110], FNum KI32 0 None)].
Proof. apply read_lines; [repeat (constructor; [apply plain_dec; reflexivity|]); constructor|]. intros ls extra F SK. split_lines F; reflexivity. Qed.
(** nor what follows a value on its line, as here a second field and brackets; *)
Definition two : env := fun _ => ([84], [([110], TyNum KI32 None); ([109], TyNum KI32 None)]).
Theorem C85_line_refuted : UnmarshalText parseFloat lexer two ig 0 (blank two 0)
  (text_of_lines [[110; 58; 32; 55; 44; 32; 109; 58; 32; 56; 44; 32; 125; 32; 93]]) = Ok [([110], FNum KI32 7 None); ([109], FNum KI32 0 None)].
Proof.
  apply read_lines; [repeat (constructor; [apply plain_dec; reflexivity|]); constructor|]. intros ls extra F SK. split_lines F; unfold textToTokens; cbn [app length parseFields];
  match goal with |- context [skipLines false (?l :: extra)] => replace (skipLines false (l :: extra)) with (l :: extra) by (vm_compute; reflexivity) end;
  cbn -[skipLines parseFields]; cbn [parseFields]; rewrite ?SK; reflexivity.
Qed.
(** and an error after a struct in a list of numbers is not reported. *)
Theorem C85_list_refuted : UnmarshalText parseFloat lexer (one (TyNums KI32 None)) ig 0 (blank (one (TyNums KI32 None)) 0)
  (text_of_lines [[110; 58; 32; 91; 32; 123]; [120; 58; 32; 91; 32; 93]; [125]; [34; 110; 111; 32; 115; 117; 99; 104; 32; 116; 101; 120; 116]]) = Ok [([110], FNums KI32 [(0, None); (0, None); (0, None)])].
Proof. apply read_lines; [repeat (constructor; [apply plain_dec; reflexivity|]); constructor|]. intros ls extra F SK. split_lines F; reflexivity. Qed.
End Lost.

(** An error the parser stops at does make Unmarshal fail, although it is not passed on, when the struct and
    the structs in it have only numbers, strings and structs, and unknown fields are not to be ignored. *)
Theorem C85_reported_partial parseFloat lexer E id x data ts : plain_types E -> struct_of (snd (E id)) x ->
  textToTokens parseFloat (lexer data) = (ts, Err) -> UnmarshalText parseFloat lexer E false id x data = Err.
Proof.
  intros PT S T. unfold UnmarshalText. rewrite T. destruct (C78_any_tokens E false id x ts S) as [A|(y & A)]; [exact A|].
  exfalso. exact (error_refused E PT parseFloat (lexer data) ts id x T y A).
Qed.

(** ** C83: any text *)
(** Whatever the bytes and whatever the lexer makes of them, reading ends with a struct or an error. *)
Theorem C83_any_text parseFloat lexer E ig id x data : struct_of (snd (E id)) x ->
  UnmarshalText parseFloat lexer E ig id x data = Err \/ exists y, UnmarshalText parseFloat lexer E ig id x data = Ok y.
Proof.
  intros S. unfold UnmarshalText. pose proof (ends_tokens parseFloat (lexer data)) as EN. unfold ends in EN.
  destruct (textToTokens parseFloat (lexer data)) as [ts [u| | |]]; cbn [snd] in EN; try (apply C78_any_tokens, S); destruct EN.
Qed.

(** ** C84: comments *)
(** Empty lines, lines of comment and block comments, anywhere between the lines of a text, do not change
    what is read, nor whether it is refused, if the lines of the text open no comment or raw string. *)
Theorem C84_comments parseFloat lexer E ig id x rss rss' :
  splits_alike lexer -> commented rss rss' -> Forall line_chars rss -> Forall no_openings rss ->
  UnmarshalText parseFloat lexer E ig id x (text_of_lines rss') = UnmarshalText parseFloat lexer E ig id x (text_of_lines rss).
Proof. intros L C F N. unfold UnmarshalText. rewrite (text_same parseFloat lexer rss rss' L C F N). reflexivity. Qed.
(** The same for any lexer, in terms of the lines it gives. *)
Theorem C84_lines parseFloat lexer E ig id x data data' : padded (lexer data) (lexer data') -> Forall no_blocks (lexer data) ->
  UnmarshalText parseFloat lexer E ig id x data' = UnmarshalText parseFloat lexer E ig id x data.
Proof. intros P N. unfold UnmarshalText. rewrite (tokens_same parseFloat _ _ P N). reflexivity. Qed.
Theorem demo_lexer_alike : splits_alike demo_lexer.
Proof.
  exists demo_space. split; [reflexivity|]. split; [reflexivity|]. split; [intros c C; unfold demo_space; destruct (Z.eqb_spec c 32), (Z.eqb_spec c 9); lia || reflexivity|].
  exists (fun rs => mkLine (map utf8 (words demo_space rs) ++ [[10]]) (utf8 rs ++ [10])), false. split; [intros rs; split; right; reflexivity|].
  intros rss F. exists []. rewrite app_nil_r. split; [|constructor].
  assert (T : text_of_lines rss = utf8 (flat_map (fun rs => rs ++ [10]) rss)).
  { clear. unfold text_of_lines. induction rss as [|rs rss IH]; [reflexivity|]. cbn [flat_map]. rewrite utf8_app, IH, utf8_app. reflexivity. }
  unfold demo_lexer. rewrite T, runes_utf8.
  - f_equal. clear T. induction F as [|rs rss (A & B & C) _ IH]; [reflexivity|]. cbn [flat_map]. rewrite <- app_assoc. cbn [app]. rewrite (split_line rs B). rewrite IH. reflexivity.
  - clear T. induction F as [|rs rss (A & B & C) _ IH]; [constructor|]. cbn [flat_map]. rewrite !Forall_app. split; [split; [exact A|]|exact IH].
    constructor; [unfold scalar; lia|constructor].
Qed.

(** So is the lexer that drops empty lines. *)
Definition demo_dropping (data : bytes) : list line :=
  map (fun rs => mkLine (map utf8 (words demo_space rs) ++ [[10]]) (utf8 rs ++ [10])) (filter (worded demo_space) (split_lines [] (runes data))).
Theorem demo_dropping_alike : splits_alike demo_dropping.
Proof.
  exists demo_space. split; [reflexivity|]. split; [reflexivity|]. split; [intros c C; unfold demo_space; destruct (Z.eqb_spec c 32), (Z.eqb_spec c 9); lia || reflexivity|].
  exists (fun rs => mkLine (map utf8 (words demo_space rs) ++ [[10]]) (utf8 rs ++ [10])), true. split; [intros rs; split; right; reflexivity|].
  intros rss F. exists []. rewrite app_nil_r. split; [|constructor].
  assert (T : text_of_lines rss = utf8 (flat_map (fun rs => rs ++ [10]) rss)).
  { clear. unfold text_of_lines. induction rss as [|rs rss IH]; [reflexivity|]. cbn [flat_map]. rewrite utf8_app, IH, utf8_app. reflexivity. }
  unfold demo_dropping. rewrite T, runes_utf8.
  - do 2 f_equal. clear T. induction F as [|rs rss (A & B & C) _ IH]; [reflexivity|]. cbn [flat_map]. rewrite <- app_assoc. cbn [app]. rewrite (split_line rs B). rewrite IH. reflexivity.
  - clear T. induction F as [|rs rss (A & B & C) _ IH]; [constructor|]. cbn [flat_map]. rewrite !Forall_app. split; [split; [exact A|]|exact IH].
    constructor; [unfold scalar; lia|constructor].
Qed.

(** ** Cases *)
(** Car: Wheels int32, Color an enum with Red and Blue, Id bytes, Engine. Engine: Name string. *)
Definition car : env := fun id => match id with
  | 0%nat => ([67], [([87], TyNum KI32 None); ([67; 111], TyNum KU8 (Some [([82], 0); ([66], 1)])); ([73; 100], TyStr false); ([69], TyMsg 1)])
  | _ => ([69], [([78], TyStr true)])
  end.
Definition my_car : list (bytes * fval) :=
  [([87], FNum KI32 (-4) None); ([67; 111], FNum KU8 1 (Some [66])); ([73; 100], FStr false [0; 255]); ([69], FMsg (Some (TMsg [69] [([78], FStr true (utf8 [86; 0xFC; 32; 92]))])))].
Lemma ident_dec b : match b with [] => false | c :: q =>
  let l c := ((65 <=? c) && (c <=? 90)) || ((97 <=? c) && (c <=? 122)) || (c =? 95) in l c && forallb (fun c => l c || ((48 <=? c) && (c <=? 57))) q end = true -> ident b.
Proof.
  destruct b as [|c q]; [discriminate|]. cbn zeta. intros H. apply andb_prop in H as [A B]. split; [unfold letter; lia|].
  rewrite forallb_forall in B. apply Forall_forall. intros d I. apply B in I. unfold letter. lia.
Qed.
Example my_car_legible : legible car false true 0 (TMsg [67] my_car).
Proof.
  apply (lg_msg car false true 0). unfold my_car. cbn [car snd].
  apply Forall2_cons; [split; [reflexivity|]|]; cbn [fst snd].
  { apply (lg_num car false true KI32 None). apply lg_int; [split; discriminate|discriminate| |lia]. unfold in_range. cbn. lia. }
  apply Forall2_cons; [split; [reflexivity|]|]; cbn [fst snd].
  { apply (lg_num car false true KU8 (Some [([82], 0); ([66], 1)]) 1). apply (lg_name false KU8 _ [66]).
    - split; discriminate.
    - unfold in_range. cbn. lia.
    - apply ident_dec. reflexivity.
    - right. left. reflexivity.
    - repeat constructor; cbn; intuition discriminate.
    - repeat constructor; cbn; intuition discriminate. }
  apply Forall2_cons; [split; [reflexivity|]|]; cbn [fst snd].
  { apply lg_str, lg_hex; [reflexivity|]. repeat constructor; lia. }
  apply Forall2_cons; [split; [reflexivity|]|constructor]; cbn [fst snd].
  apply lg_some; [|reflexivity]. apply (lg_msg car false true 1). apply Forall2_cons; [split; [reflexivity|]|constructor]. cbn [fst snd].
  apply lg_str, lg_text; [repeat constructor; unfold scalar; lia|cbn; intuition discriminate].
Qed.
Example my_car_back : exists data,
  writeText (fun _ _ => [48]) (fun _ => None) false true [32; 32] 1 (TMsg [67] my_car) = Ok data /\
  UnmarshalText (fun _ => None) demo_lexer car true 0 (blank car 0) data = Ok my_car.
Proof.
  apply (C82_round_trip_partial (fun _ _ => [48]) (fun _ => None) false true [32; 32] (fun _ => None) car true demo_lexer 0 0 my_car demo_lexer_splits).
  - reflexivity.
  - repeat constructor.
  - intros [|id]; cbn [car snd]; repeat (apply Forall_cons; [apply ident_dec; reflexivity|]); constructor.
  - intros [|id]; repeat constructor; cbn; intuition discriminate.
  - exact my_car_legible.
Qed.
(** Comments in a text. *)
Definition plain_text : list (list Z) := [[87; 58; 32; 52; 44]; [69; 58; 32; 123]; [32; 78; 58; 32; 34; 120; 34]; [125]].
Definition commented_text : list (list Z) :=
  [[]; [87; 58; 32; 52; 44]; [32; 47; 47; 32; 97]; [69; 58; 32; 123]; [47; 42; 120]; [87; 58; 32; 53]; [42; 47]; [32; 78; 58; 32; 34; 120; 34]; [9]; [125]].
Example comments_case : commented plain_text commented_text /\ Forall line_chars plain_text /\ Forall no_openings plain_text /\
  UnmarshalText (fun _ => None) demo_lexer car false 0 (blank car 0) (text_of_lines plain_text) =
    Ok [([87], FNum KI32 4 None); ([67; 111], FNum KU8 0 (Some [82])); ([73; 100], FStr false []); ([69], FMsg (Some (TMsg [69] [([78], FStr true [120])])))].
Proof.
  split; [|split; [|split]].
  - unfold commented_text, plain_text. apply (cmt_add [_]); [apply cm_empty; constructor|]. apply cmt_keep.
    apply (cmt_add [_]); [apply (cm_line [32] [32; 97]); [repeat constructor|apply (line_app [32] [97]); [apply blanks_line|apply printable_line]; repeat constructor; unfold blanks; lia]|]. apply cmt_keep.
    apply (cmt_add [_; _; _]).
    { apply cm_block.
      - repeat constructor; unfold scalar; try lia; cbn; intuition discriminate.
      - exists [[47; 42; 120]; [87; 58; 32; 53]], [42; 47]. split; [reflexivity|]. split; [exists [47; 42; 120]; eexists; split; [reflexivity|]; exists [], [120]; split; [reflexivity|constructor]|]. split.
        + repeat constructor; rewrite <- contains_has; discriminate.
        + exists [], []. reflexivity. }
    apply cmt_keep. apply (cmt_add [_]); [apply cm_empty; constructor; [right; reflexivity|constructor]|]. repeat constructor.
  - repeat constructor; unfold scalar; try lia; cbn; intuition discriminate.
  - assert (D : forall rs, ~ In 96 rs -> ~ has [47; 42] rs -> no_openings rs).
    { intros rs A B. split; [exact A|]. intros (a & q & Q & _). apply B. exists a, q. exact Q. }
    repeat constructor; apply D; try (rewrite <- contains_has; discriminate); cbn; intuition discriminate.
  - vm_compute. reflexivity.
Qed.
(** An error in the text: a field without a value. *)
Example error_case : plain_types car /\ struct_of (snd (car 0%nat)) (blank car 0%nat) /\
  exists ts, textToTokens (fun _ => None) (demo_lexer (text_of_lines [[87; 58; 32; 52; 44]; [69; 58]])) = (ts, Err).
Proof.
  split; [intros [|id]; repeat constructor|]. split; [apply struct_of_fresh|]. eexists. vm_compute. reflexivity.
Qed.
Example any_text_case : UnmarshalText (fun _ => None) demo_lexer car false 0 (blank car 0) [123; 255; 10; 96] = Err.
Proof. vm_compute. reflexivity. Qed.

Print Assumptions C82_round_trip_partial.
Print Assumptions C82_true_refuted.
Print Assumptions C82_unset_refuted.
Print Assumptions C82_list_refuted.
Print Assumptions C82_any_refuted.
Print Assumptions C82_float_refuted.
Print Assumptions C82_float32_refuted.
Print Assumptions C82_uint64_refuted.
Print Assumptions C82_bytes_refuted.
Print Assumptions C82_enum_refuted.
Print Assumptions C82_quote_refuted.
Print Assumptions C82_map_refuted.
Print Assumptions C85_brace_refuted.
Print Assumptions C85_line_refuted.
Print Assumptions C85_list_refuted.
Print Assumptions C85_reported_partial.
Print Assumptions C83_any_text.
Print Assumptions C84_comments.
Print Assumptions C84_lines.
