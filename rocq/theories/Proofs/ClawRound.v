(** The text of a legible struct is read as the struct. *)
From Coq Require Import ZArith List Bool Lia ZifyBool.
Import ListNotations.
From Verif.Model Require Import Base Utf8 Field MapApi Token Walk Escape Json TokenStream Ingest JsonRead ClawText.
From Verif.Spec Require Import Text Message TokenGrammar Values Ingest JsonGrammar JsonRead ClawText.
From Verif.Proofs Require Import BaseLemmas Utf8Proofs JsonLits TokenVals WalkProofs WalkRun IngestProofs IngestWhole Rendering JsonReadProofs JsonRound ClawTotal ClawLine.
From Verif.Spec Require Import Message JsonGrammar JsonRead ClawText.
From Verif.Model Require Import Ingest ClawText.
Open Scope Z_scope.

Lemma get_as_i64 k z : is_int k -> in_range k z -> z < 2 ^ 63 -> k <> KBool -> getData k (putData KI64 z) = z.
Proof.
  intros (N1 & N2) R L NB.
  destruct k; try congruence; try (match goal with |- getData ?k _ = _ => change (getData k (putData k z) = z); apply get_put; exact R end).
  cbn [in_range] in R. unfold putData, getData, u64. apply Z.mod_small. lia.
Qed.
Lemma int_kept k z : is_int k -> kept k z = z.
Proof. intros (N1 & N2). destruct k; reflexivity || congruence. Qed.
Lemma zero_kept k : kept k 0 = 0.
Proof. destruct k; reflexivity. Qed.

Lemma kind_eq_dec (a b : kind) : {a = b} + {a <> b}.
Proof. decide equality. Qed.

Lemma ident_false : ident j_false.
Proof. split; [unfold letter; lia|]. repeat (apply Forall_cons; [left; unfold letter; lia|]). apply Forall_nil. Qed.

Section Round.
Variable appendFloat : kind -> Z -> bytes.
Variable lookup : bytes -> option (bytes * (bytes -> option tmsg)).
Variable enumNumbers hexBytes : bool.
Variable indent : bytes.
Variable pf : bytes -> option Z.
Variable E : env.
Variable ig : bool.
Variable space : Z -> bool.
Hypothesis S32 : space 32 = true.
Hypothesis S9 : space 9 = true.
Hypothesis SP : forall c, 33 <= c <= 126 -> space c = false.
Hypothesis ZERO : forall k, k = KF32 \/ k = KF64 -> appendFloat k 0 = [48].
Hypothesis IND : blanks indent.
Hypothesis NI : names_ident E.
Hypothesis ND : names_differ E.
Variable nested : tmsg -> res bytes.
Notation TV := (textValue appendFloat lookup enumNumbers hexBytes nested).
Notation TY := (tyield appendFloat lookup enumNumbers hexBytes indent nested).
Notation RUN := (run tst TY).
Notation RA := (reads_as pf space).

(** ** Values *)
Definition shown (ty : fty) (v : fval) : Prop :=
  exists vt t, RA vt t /\ (forall n, TV (ffield n v) = Ok (utf8 vt)) /\
    forall n, t_kind (t n) = TField /\ t_name (t n) = n /\ rval E ig ty v (t n) [].
Lemma int_shown k e z b : is_int k -> k <> KBool -> in_range k z -> z < 2 ^ 63 -> int_lit b z ->
  (forall n, TV (ffield n (FNum k z (enum_label e z))) = Ok b) -> shown (TyNum k e) (FNum k z (enum_label e z)).
Proof.
  intros KI NB R L LIT T. destruct (int_lit_chars b z LIT) as [C _]. pose proof (chars_printable b C) as P.
  assert (R63 : - 2 ^ 63 <= z) by (destruct KI; destruct k; cbn [in_range] in R; lia).
  exists b, (fun n => setValue KI64 z (tok0 TField n 0)). split; [apply (reads_word pf space S32 S9 SP); [exact P|apply word_int; [exact LIT|lia]]|].
  split; [intros n; rewrite T, (utf8_ascii b) by apply printable_ascii, P; reflexivity|].
  intros n. split; [reflexivity|]. split; [reflexivity|]. constructor. unfold tok_num. cbn [t_bytes setValue tok0].
  assert (G : getValue k (setValue KI64 z (tok0 TField n 0)) = z).
  { unfold getValue, setValue. cbn [t_data]. pose proof (get_as_i64 k z KI R L NB) as G.  exact G. }
  cbn [len length Z.of_nat Z.ltb]. destruct e; change (0 <? len []) with false; cbn iota; rewrite G; apply int_kept, KI.
Qed.
Lemma name_shown k e z nm : (ident nm \/ nm = []) -> 
  (forall n, TV (ffield n (FNum k z (enum_label e z))) = Ok nm) -> (forall n, kept k (tok_num k e (setName nm (tok0 TField n 0))) = z) ->
  shown (TyNum k e) (FNum k z (enum_label e z)).
Proof.
  intros I T G. assert (P : printable nm) by (destruct I as [I| ->]; [apply ident_printable, I|constructor]).
  exists nm, (fun n => setName nm (tok0 TField n 0)). split.
  - apply (reads_word pf space S32 S9 SP); [exact P|]. destruct I as [I| ->]; [apply word_ident, I|apply word_empty].
  - split; [intros n; rewrite T, (utf8_ascii nm) by apply printable_ascii, P; reflexivity|]. intros n. split; [reflexivity|]. split; [reflexivity|]. constructor. apply G.
Qed.
Lemma tv_int k z (Z1 : k <> KF32) (Z2 : k <> KF64) (Z3 : k <> KBool) n : in_range k z ->
  TV (ffield n (FNum k z None)) = Ok (match k with KU8 | KU16 | KU32 | KU64 => appendUint z | _ => appendInt z end).
Proof.
  intros R. assert (G : getValue k (ffield n (FNum k z None)) = z) by (unfold getValue; cbn [t_data ffield set_enum setValue]; apply get_put, R).
  unfold textValue. cbn zeta. destruct k; try congruence; cbn [ffield set_enum setValue tok0 t_isNil t_type t_isEnum num_ft] in *;
    match goal with |- context [getValue KI8 ?t] => idtac end;
    match type of G with ?x = _ => match goal with |- ?l = Ok (?f _) => change (Ok (f x) = Ok (f z)); rewrite G; reflexivity end end.
Qed.
Lemma tv_enum k z nm n : in_range k z -> TV (ffield n (FNum k z (Some nm))) =
  Ok (if enumNumbers && (match k with KU8 | KU16 => true | _ => false end) then appendUint z else nm).
Proof.
  intros R. assert (G : getValue k (ffield n (FNum k z (Some nm))) = z) by (unfold getValue; cbn [t_data ffield set_enum setValue]; apply get_put, R).
  unfold textValue. cbn zeta. destruct enumNumbers; cbn [andb]; destruct k; cbn [ffield set_enum setValue tok0 t_isNil t_type t_isEnum num_ft t_enumName] in *; try reflexivity.
  - change (Ok (appendUint (getValue KU8 (ffield n (FNum KU8 z (Some nm))))) = Ok (appendUint z)). unfold getValue. cbn [t_data ffield set_enum setValue]. rewrite get_put by exact R. reflexivity.
  - change (Ok (appendUint (getValue KU16 (ffield n (FNum KU16 z (Some nm))))) = Ok (appendUint z)). unfold getValue. cbn [t_data ffield set_enum setValue]. rewrite get_put by exact R. reflexivity.
Qed.
Lemma num_legible k e z : legible_num enumNumbers k e z -> shown (TyNum k e) (FNum k z (enum_label e z)).
Proof.
  intros L. destruct L as [z KI NB R LT| |tbl nm z KI R ID IN D1 D2|tbl NO|tbl z EN KK R].
  - apply (int_shown k None z (match k with KU8 | KU16 | KU32 | KU64 => appendUint z | _ => appendInt z end)); auto.
    + destruct k; try apply appendInt_ok; cbn [in_range] in R; apply appendUint_num; lia.
    + intros n. destruct KI. apply tv_int; auto.
  - destruct (kind_eq_dec k KBool) as [->|NB].
    { apply (name_shown KBool None 0 j_false); [left; exact ident_false|reflexivity|reflexivity]. }
    exists [48], (fun n => setValue KI64 0 (tok0 TField n 0)). split; [apply (reads_word pf space S32 S9 SP); [repeat constructor; lia|apply word_int; [apply (appendInt_ok 0)|lia]]|].
    split.
    + intros n. destruct (kind_eq_dec k KF32) as [->|N1]; [cbn; rewrite ZERO by auto; reflexivity|]. destruct (kind_eq_dec k KF64) as [->|N2]; [cbn; rewrite ZERO by auto; reflexivity|].
      rewrite tv_int by (auto; destruct k; cbn; lia). destruct k; reflexivity.
    + intros n. split; [reflexivity|]. split; [reflexivity|]. constructor. destruct k; reflexivity.
  - assert (EL : enum_label (Some tbl) z = Some nm) by (cbn; rewrite (in_by_value nm z tbl D2 IN); reflexivity).
    destruct (enumNumbers && match k with KU8 | KU16 => true | _ => false end) eqn:Q.
    + assert (KK : k = KU8 \/ k = KU16) by (destruct k; auto; rewrite andb_false_r in Q; discriminate).
      apply (int_shown k (Some tbl) z (appendUint z)); auto; try (destruct KK as [-> | ->]; (discriminate || (cbn in R; lia))).
      * apply appendUint_num. destruct KK as [-> | ->]; cbn in R; lia.
      * intros n. rewrite EL, tv_enum by exact R. rewrite Q. reflexivity.
    + apply (name_shown k (Some tbl) z nm); [auto|intros n; rewrite EL, tv_enum by exact R; rewrite Q; reflexivity|].
      intros n. unfold tok_num. cbn [t_bytes setName set_bytes]. pose proof (ident_nonempty nm ID).
      replace (0 <? len nm) with true by (symmetry; apply Z.ltb_lt; destruct nm; [congruence|rewrite len_cons; pose proof (len_nonneg nm); lia]).
      unfold by_name. rewrite (in_assoc (fun _ => 0) _ _ _ D1 IN). apply int_kept, KI.
  - assert (EL : enum_label (Some tbl) 0 = Some []) by (unfold enum_label; rewrite (no_by_value 0 tbl NO); reflexivity).
    assert (R : in_range k 0) by (destruct k; cbn; lia).
    destruct (enumNumbers && match k with KU8 | KU16 => true | _ => false end) eqn:Q.
    + assert (KK : k = KU8 \/ k = KU16) by (destruct k; auto; rewrite andb_false_r in Q; discriminate).
      apply (int_shown k (Some tbl) 0 (appendUint 0)); auto; try (destruct KK as [-> | ->]; (discriminate || (cbn in R; lia))).
      * destruct KK as [-> | ->]; split; discriminate.
      * apply appendUint_num. lia.
      * intros n. rewrite EL, tv_enum by exact R. rewrite Q. reflexivity.
    + apply (name_shown k (Some tbl) 0 []); [auto|intros n; rewrite EL, tv_enum by exact R; rewrite Q; reflexivity|].
      intros n. destruct k; reflexivity.
  - assert (KI : is_int k) by (destruct KK as [-> | ->]; split; discriminate).
    apply (int_shown k (Some tbl) z (appendUint z)); auto; try (destruct KK as [-> | ->]; (discriminate || (cbn in R; lia))).
    + apply appendUint_num. destruct KK as [-> | ->]; cbn in R; lia.
    + intros n. cbn [enum_label]. rewrite tv_enum by exact R. rewrite EN. destruct KK as [-> | ->]; reflexivity.
Qed.
Lemma str_legible st b : legible_str hexBytes st b -> shown (TyStr st) (FStr st b).
Proof.
  intros L. destruct L as [rs S NQ|b HB F|].
  - exists (quoted rs), (fun n => setText (utf8 rs) (tok0 TField n 0)). split; [apply reads_text; auto|]. destruct (quoted_utf8 rs S) as [U _].
    split; [intros n; rewrite U; reflexivity|]. intros n. split; [reflexivity|]. split; [reflexivity|]. constructor. reflexivity.
  - exists ([48; 120] ++ appendHex b), (fun n => set_bytes b (set_type FTBytes (tok0 TField n 0))).
    assert (P : printable ([48; 120] ++ appendHex b)) by (apply Forall_app; split; [repeat constructor; lia|apply appendHex_printable, F]).
    split; [apply (reads_word pf space S32 S9 SP); [exact P|apply word_hex, F]|].
    split; [intros n; rewrite (utf8_ascii _ (printable_ascii _ P)); unfold textValue; rewrite HB; reflexivity|]. intros n. split; [reflexivity|]. split; [reflexivity|]. constructor. reflexivity.
  - destruct hexBytes eqn:HB.
    + exists [48; 120], (fun n => set_bytes [] (set_type FTBytes (tok0 TField n 0))). split; [apply (reads_word pf space S32 S9 SP); [repeat constructor; lia|apply (word_hex pf []); constructor]|].
      split; [intros n; unfold textValue; rewrite HB; reflexivity|]. intros n. split; [reflexivity|]. split; [reflexivity|]. constructor. reflexivity.
    + exists [34; 34], (fun n => setText [] (tok0 TField n 0)). split; [apply (reads_text pf space S32 S9 SP []); [constructor|tauto]|].
      split; [intros n; unfold textValue; rewrite HB; reflexivity|]. intros n. split; [reflexivity|]. split; [reflexivity|]. constructor. reflexivity.
Qed.

(** ** The writer *)
Definition at_ (d : nat) (s : tst) : Prop := x_depth s = d /\ x_top s = false /\ x_arr s = false /\ x_err s = Ok tt.
Lemma later_same s : x_out (xlater s) = x_out s /\ x_depth (xlater s) = x_depth s /\ x_top (xlater s) = x_top s /\ x_arr (xlater s) = x_arr s /\ x_err (xlater s) = x_err s.
Proof. destruct s as [o f dp tp ar er]. destruct f; cbn; auto. Qed.
Lemma ty_scalar d t n b s : t_kind t = TField -> t_name t = n -> n <> [] -> announced (t_type t) = false -> TV t = Ok b -> at_ d s ->
  exists s', TY t s = (s', true) /\ at_ d s' /\ x_out s' = x_out s ++ indents indent d ++ n ++ [58; 32] ++ b ++ [44; 10].
Proof.
  intros K N NE A T (D & TP & AR & ER). unfold tyield. rewrite K, AR. cbn [andb]. cbv zeta.
  destruct (later_same s) as (L1 & L2 & L3 & L4 & L5). rewrite N. destruct n as [|c q]; [congruence|]. rewrite A, T. cbn [xputRes].
  destruct (xlater s) as [o f dp tp ar er']. cbn in *. subst. rewrite AR. eexists. split; [reflexivity|]. split; [repeat split; assumption|].
  cbn [x_out xput]. rewrite <- !app_assoc. cbn [app]. rewrite <- !app_assoc. reflexivity.
Qed.
Lemma ty_struct d n s : n <> [] -> at_ d s ->
  exists s', TY (tok0 TField n FTStruct) s = (s', true) /\ at_ d s' /\ x_out s' = x_out s ++ indents indent d ++ n ++ [58; 32].
Proof.
  intros NE (D & TP & AR & ER). unfold tyield. cbn [t_kind tok0 t_name t_type]. rewrite AR. cbn [andb]. cbv zeta.
  destruct (later_same s) as (L1 & L2 & L3 & L4 & L5). destruct n as [|c q]; [congruence|].
  destruct (xlater s) as [o f dp tp ar er']. cbn in *. subst. eexists. split; [reflexivity|]. split; [repeat split; assumption|].
  cbn [x_out xput]. reflexivity.
Qed.
Lemma ty_open d nm s : at_ d s -> exists s', TY (tok0 TStructStart nm 0) s = (s', true) /\ at_ (S d) s' /\ x_out s' = x_out s ++ [123; 10].
Proof.
  intros (D & TP & AR & ER). unfold tyield. cbn [t_kind tok0]. rewrite TP. destruct s as [o f dp tp ar er']. cbn in *. subst. eexists. split; [reflexivity|]. split; [repeat split; reflexivity|reflexivity].
Qed.
Lemma ty_close d nm s : at_ (S d) s -> exists s', TY (tok0 TStructEnd nm 0) s = (s', true) /\ at_ d s' /\ x_out s' = x_out s ++ indents indent d ++ [125; 44; 10].
Proof.
  intros (D & TP & AR & ER). unfold tyield. cbn [t_kind tok0]. cbv zeta. destruct s as [o f dp tp ar er']. cbn in *. subst. eexists. split; [reflexivity|]. split; [repeat split; reflexivity|reflexivity].
Qed.
Lemma indents_blanks d : blanks (indents indent d).
Proof. unfold indents, blanks. induction d; cbn; [constructor|]. apply Forall_app. split; [exact IND|exact IHd]. Qed.
Lemma text_app a b : text_of_lines (a ++ b) = text_of_lines a ++ text_of_lines b.
Proof. unfold text_of_lines. apply flat_map_app. Qed.

(** ** Fields *)
Definition vline (rs : list Z) : Prop := line_chars rs /\ visible rs.
Definition block (d : nat) (n : bytes) (ty : fty) (v : fval) : Prop := exists lines t b,
  Forall vline lines /\
  (forall s, at_ d s -> exists s', RUN (ffield n v :: fbody n v) s s' /\ at_ d s' /\ x_out s' = x_out s ++ text_of_lines lines) /\
  (forall ls rest j k, Forall2 (line_of space) lines ls -> (length (ls ++ rest) <= j)%nat ->
     exists l0 more, ls = l0 :: more /\ opens l0 /\ parseField pf (parseNestedStruct pf j) k l0 (more ++ rest) = (t :: b, Ok rest)) /\
  t_kind t = TField /\ t_name t = n /\ rval E ig ty v t b.
Lemma fline_chars pre n vt : blanks pre -> ident n -> line_chars vt -> line_chars (fline pre n vt).
Proof.
  intros B I L. unfold fline. apply line_app; [apply blanks_line, B|]. apply line_app; [apply line_app; apply printable_line; [apply ident_printable, I|repeat constructor; lia]|].
  change (32 :: vt) with ([32] ++ vt). apply line_app; [|exact L]. apply blanks_line. constructor; [auto|constructor].
Qed.
Lemma fline_vline pre n vt : blanks pre -> ident n -> line_chars vt -> vline (fline pre n vt).
Proof.
  intros B I L. split; [apply fline_chars; assumption|]. unfold fline. apply Exists_exists. exists 58. split; [|lia]. rewrite !in_app_iff. right; left; right; left; reflexivity.
Qed.
Lemma fline_utf8 pre n vt : blanks pre -> ident n -> utf8 (fline pre n vt) = pre ++ n ++ [58; 32] ++ utf8 vt.
Proof.
  intros B I. unfold fline. rewrite !utf8_app. change (32 :: vt) with ([32] ++ vt). rewrite utf8_app.
  rewrite (utf8_ascii pre) by apply blanks_ascii, B. rewrite (utf8_ascii n) by apply printable_ascii, ident_printable, I.
  change (utf8 [58]) with [58]. change (utf8 [32]) with [32]. rewrite <- !app_assoc. reflexivity.
Qed.
Lemma scalar_block d n ty v : ident n -> (match v with FNum _ _ _ | FStr _ _ => True | _ => False end) -> shown ty v -> block d n ty v.
Proof.
  intros I SC (vt & t & (LC & (w & ws & W) & RD) & T & G). pose proof (indents_blanks d) as B. pose proof (ident_nonempty n I) as NE.
  exists [fline (indents indent d) n (vt ++ [44])], (t n), []. destruct (G n) as (G1 & G2 & G3). split; [|split; [|split; [|auto]]].
  - constructor; [|constructor]. apply fline_vline; auto. apply line_app; [exact LC|]. apply printable_line. repeat constructor; lia.
  - intros s A. destruct (ty_scalar d (ffield n v) n (utf8 vt) s) as (s' & Y & A' & O); auto.
    + apply ffield_kind.
    + destruct v as [k z e|st b| | | | | | |]; try destruct SC; [destruct e; reflexivity|reflexivity].
    + destruct v as [k z e|st b| | | | | | |]; try destruct SC; [destruct k, e; reflexivity|destruct st; reflexivity].
    + exists s'. split; [|split; [exact A'|]].
      * apply run_cons. exists s'. split; [exact Y|]. destruct v; try destruct SC; reflexivity.
      * rewrite O. cbn [text_of_lines flat_map]. rewrite fline_utf8 by auto. rewrite utf8_app. change (utf8 [44]) with [44]. rewrite app_nil_r, <- !app_assoc. reflexivity.
  - intros ls rest j k F L. inversion F as [|? l0 ? more LO F']; subst. inversion F'; subst. exists l0, []. split; [reflexivity|]. split; [eapply fline_opens; eauto|]. 
    cbn [app]. eapply RD; eauto.
Qed.

(** ** The fields of a struct *)
Definition fields_read (d : nat) (decl : list (bytes * fty)) (fs : list (bytes * fval)) : Prop := exists lines toks,
  Forall vline lines /\
  (forall s, at_ d s -> exists s', RUN (ftoks fs) s s' /\ at_ d s' /\ x_out s' = x_out s ++ text_of_lines lines) /\
  (forall ls rest n, Forall2 (line_of space) lines ls -> (length (ls ++ rest) < n)%nat ->
     exists m, (length rest < m)%nat /\ parseNestedStruct pf n (ls ++ rest) = pbind (toks, Ok tt) (fun _ => parseNestedStruct pf m rest)) /\
  (forall ls rest n, Forall2 (line_of space) lines ls -> (length (ls ++ rest) < n)%nat ->
     exists m, (length rest < m)%nat /\ parseFields pf n (ls ++ rest) = pbind (toks, Ok tt) (fun _ => parseFields pf m rest)) /\
  (forall id done ddone, snd (E id) = ddone ++ decl -> map fst done = map fst ddone ->
     rfields E ig id (done ++ map (fun '(n, t) => (n, zero_value t)) decl) toks (done ++ fs)).
Lemma pbind_nil {A} (x : pr A) : pbind ([], Ok tt) (fun _ => x) = x.
Proof. destruct x. reflexivity. Qed.
Lemma pbind_app {A} a b (x : pr A) : pbind (a, Ok tt) (fun _ => pbind (b, Ok tt) (fun _ => x)) = pbind (a ++ b, Ok tt) (fun _ => x).
Proof. destruct x. unfold pbind. cbn [snd fst]. rewrite app_assoc. reflexivity. Qed.
Lemma opens_skip l q : opens l -> skipLines false (l :: q) = l :: q.
Proof. intros (A & B & C & _). cbn [skipLines]. rewrite A, B, C. reflexivity. Qed.
Lemma pbind_field {A B} ts (rest : A) (f : A -> pr B) : pbind (ts, Ok rest) f = pbind (ts, Ok tt) (fun _ => f rest).
Proof. reflexivity. Qed.
Lemma fields_ok d decl fs : Forall2 (fun nt nv => fst nt = fst nv /\ block d (fst nv) (snd nt) (snd nv)) decl fs -> fields_read d decl fs.
Proof.
  induction 1 as [|[n ty] [n' v] decl fs [EQ BL] _ IH].
  - exists [], []. split; [constructor|]. split; [intros s A; exists s; split; [apply run_nil|]; split; [exact A|symmetry; apply app_nil_r]|].
    split; [intros ls rest n F L; inversion F; subst; exists n; rewrite pbind_nil; auto|].
    split; [intros ls rest n F L; inversion F; subst; exists n; rewrite pbind_nil; auto|].
    intros id done ddone D M. constructor.
  - cbn [fst snd] in *. subst n'. destruct BL as (lines1 & t & b & LC1 & W1 & R1 & TK & TN & RV). destruct IH as (lines2 & toks & LC2 & W2 & N2 & P2 & F2).
    exists (lines1 ++ lines2), ((t :: b) ++ toks). split; [apply Forall_app; auto|]. split; [|split; [|split]].
    + intros s A. destruct (W1 s A) as (s1 & RN1 & A1 & O1). destruct (W2 s1 A1) as (s2 & RN2 & A2 & O2). exists s2. split; [|split; [exact A2|]].
      * change (ftoks ((n, v) :: fs)) with ((ffield n v :: fbody n v) ++ ftoks fs). apply run_app. eauto.
      * rewrite O2, O1, text_app, app_assoc. reflexivity.
    + intros ls rest m F L. apply Forall2_app_inv_l in F as (ls1 & ls2 & F1 & F2' & ->). rewrite <- app_assoc in L |- *.
      destruct m as [|m]; [lia|]. destruct (R1 ls1 (ls2 ++ rest) m (S (length (tl ls1 ++ ls2 ++ rest))) F1 ltac:(lia)) as (l0 & more & -> & OP & PF).
      cbn [app length tl] in *. cbn [parseNestedStruct]. rewrite (opens_skip l0 _ OP). destruct OP as (_ & _ & _ & w & FW & CL & _).
      rewrite FW. unfold of_res at 1. rewrite pbind_field, pbind_nil. rewrite CL. rewrite PF, pbind_field.
      destruct (N2 ls2 rest m F2' ltac:(rewrite !app_length in *; lia)) as (m' & LM & ->). exists m'. split; [exact LM|]. apply pbind_app.
    + intros ls rest m F L. apply Forall2_app_inv_l in F as (ls1 & ls2 & F1 & F2' & ->). rewrite <- app_assoc in L |- *.
      destruct m as [|m]; [lia|]. destruct (R1 ls1 (ls2 ++ rest) (S (length (tl ls1 ++ ls2 ++ rest))) (S (length (tl ls1 ++ ls2 ++ rest))) F1) as (l0 & more & -> & OP & PF).
      { destruct ls1; cbn [tl app length]; rewrite ?app_length; lia. }
      cbn [app length tl] in *. cbn [parseFields]. rewrite (opens_skip l0 _ OP). destruct OP as (_ & _ & _ & w & FW & _ & CL).
      rewrite FW. unfold of_res at 1. rewrite pbind_field, pbind_nil. rewrite CL. rewrite PF, pbind_field.
      destruct (P2 ls2 rest m F2' ltac:(rewrite !app_length in *; lia)) as (m' & LM & ->). exists m'. split; [exact LM|]. apply pbind_app.
    + intros id done ddone D M.
      assert (NA : ~ In n (map fst ddone)).
      { pose proof (ND id) as N. rewrite D, map_app in N. cbn [map fst] in N. apply NoDup_remove_2 in N. intros I. apply N. apply in_app_iff. auto. }
      cbn [map app]. apply (rf_cons E ig id _ ty v t b toks); auto; rewrite TN.
      * rewrite D, assoc_app_r by exact NA. cbn. rewrite bytes_eqb_refl. reflexivity.
      * rewrite assoc_app_r by (rewrite M; exact NA). cbn. rewrite bytes_eqb_refl. reflexivity.
      * rewrite set_field_app_r by (rewrite M; exact NA). cbn [set_field]. rewrite bytes_eqb_refl.
        specialize (F2 id (done ++ [(n, v)]) (ddone ++ [(n, ty)])). rewrite <- !app_assoc in F2. cbn [app] in F2. apply F2; [exact D|].
        rewrite !map_app, M. reflexivity.
Qed.
Lemma fields_rmsg d id fs : fields_read d (snd (E id)) fs -> exists lines toks,
  Forall vline lines /\
  (forall s, at_ d s -> exists s', RUN (ftoks fs) s s' /\ at_ d s' /\ x_out s' = x_out s ++ text_of_lines lines) /\
  (forall ls rest n, Forall2 (line_of space) lines ls -> (length (ls ++ rest) < n)%nat ->
     exists m, (length rest < m)%nat /\ parseNestedStruct pf n (ls ++ rest) = pbind (toks, Ok tt) (fun _ => parseNestedStruct pf m rest)) /\
  (forall ls rest n, Forall2 (line_of space) lines ls -> (length (ls ++ rest) < n)%nat ->
     exists m, (length rest < m)%nat /\ parseFields pf n (ls ++ rest) = pbind (toks, Ok tt) (fun _ => parseFields pf m rest)) /\
  forall a z, rmsg E ig id fs (tok0 TStructStart a 0 :: toks ++ [tok0 TStructEnd z 0]).
Proof.
  intros (lines & toks & A & B & C & D & F). exists lines, toks. do 4 (split; [assumption|]). intros a z. constructor; [reflexivity|reflexivity|].
  exact (F id [] [] eq_refl eq_refl).
Qed.

(** ** Structs *)
Lemma close_line d l : line_of space (indents indent d ++ [125; 44]) l -> exists more, l.(ln_items) = [125; 44] :: more.
Proof.
  intros [IT _]. rewrite (words_blanks space S32 S9) in IT by apply indents_blanks. rewrite (words_last space SP) in IT; [|discriminate|repeat constructor; lia].
  destruct IT as [IT|IT]; [exists []|exists [[10]]]; rewrite IT; reflexivity.
Qed.
Lemma msg_block d n id fs : ident n -> fields_read (S d) (snd (E id)) fs -> nothing_set fs = false -> 
  block d n (TyMsg id) (FMsg (Some (TMsg (fst (E id)) fs))).
Proof.
  intros I FR NS. destruct (fields_rmsg _ _ _ FR) as (lines & toks & LC & W & N2 & _ & RM). pose proof (indents_blanks d) as B. pose proof (ident_nonempty n I) as NE.
  exists (fline (indents indent d) n [123] :: lines ++ [indents indent d ++ [125; 44]]), (tok0 TField n FTStruct), (tok0 TStructStart n 0 :: toks ++ [tok0 TStructEnd [] 0]).
  split; [|split; [|split]].
  - constructor; [apply fline_vline; auto; apply printable_line; repeat constructor; lia|]. apply Forall_app. split; [exact LC|]. constructor; [|constructor].
    split; [apply line_app; [apply blanks_line, B|apply printable_line; repeat constructor; lia]|]. apply Exists_app. right. constructor. lia.
  - intros s A. change (ffield n (FMsg (Some (TMsg (fst (E id)) fs))) :: fbody n (FMsg (Some (TMsg (fst (E id)) fs)))) with
      (tok0 TField n FTStruct :: tok0 TStructStart (fst (E id)) 0 :: ftoks fs ++ [tok0 TStructEnd (fst (E id)) 0]).
    destruct (ty_struct d n s NE A) as (s1 & Y1 & A1 & O1). destruct (ty_open d (fst (E id)) s1 A1) as (s2 & Y2 & A2 & O2).
    destruct (W s2 A2) as (s3 & R3 & A3 & O3). destruct (ty_close d (fst (E id)) s3 A3) as (s4 & Y4 & A4 & O4). exists s4. split; [|split; [exact A4|]].
    + apply run_cons. exists s1. split; [exact Y1|]. apply run_cons. exists s2. split; [exact Y2|]. apply run_app. exists s3. split; [exact R3|]. apply run_cons. exists s4. split; [exact Y4|apply run_nil].
    + rewrite O4, O3, O2, O1. change (fline (indents indent d) n [123] :: lines ++ [indents indent d ++ [125; 44]]) with ([fline (indents indent d) n [123]] ++ lines ++ [indents indent d ++ [125; 44]]).
      rewrite !text_app. cbn [text_of_lines flat_map]. rewrite fline_utf8 by auto. rewrite utf8_app. rewrite (utf8_ascii (indents indent d)) by apply blanks_ascii, B.
      change (utf8 [123]) with [123]. change (utf8 [125; 44]) with [125; 44]. rewrite !app_nil_r, <- !app_assoc. reflexivity.
  - intros ls rest j k F L. inversion F as [|? l0 ? more LO F']; subst. apply Forall2_app_inv_l in F' as (ls1 & ls2 & F1 & F2 & ->).
    inversion F2 as [|? lc ? ? LCL F3]; subst. inversion F3; subst. exists l0, (ls1 ++ [lc]). split; [reflexivity|].
    assert (WD : words space [123] = [[123]]) by (apply (words_last space SP); [discriminate|repeat constructor; lia]).
    split; [eapply fline_opens; eauto|]. 
    destruct (parse_line pf space S32 S9 SP (parseNestedStruct pf j) k _ n [123] l0 ((ls1 ++ [lc]) ++ rest) _ _ B I LO WD ltac:(discriminate)) as (items & ->).
    change (utf8 [123]) with [123]. unfold parseValue. cbn zeta. change (bytes_eqb [123] j_null) with false. change (bytes_eqb [123] j_true) with false. change (bytes_eqb [123] j_false) with false. change (bytes_eqb [123] [123]) with true. cbn iota.
    rewrite <- app_assoc. cbn [app]. destruct (N2 ls1 (lc :: rest) j F1) as (m & LM & ->).
    { cbn [app length] in L. rewrite <- app_assoc in L. cbn [app] in L. lia. }
    destruct m as [|m]; [cbn in LM; lia|]. destruct (close_line d lc LCL) as (mi & IT). cbn [parseNestedStruct].
    assert (SK : skipLines false (lc :: rest) = lc :: rest) by (cbn [skipLines]; unfold blank_line; rewrite IT; destruct mi; reflexivity).
    rewrite SK. unfold first_word. rewrite IT. reflexivity.
  - split; [reflexivity|]. split; [reflexivity|]. apply rv_msg; [reflexivity|apply RM|exact NS].
Qed.
Lemma legible_blocks m : forall id, legible E enumNumbers hexBytes id m -> forall d, exists fs, m = TMsg (fst (E id)) fs /\ fields_read d (snd (E id)) fs.
Proof.
  induction m as [nm fs IH] using tmsg_ind'. intros id L d. inversion L as [id' fs' F]; subst. exists fs. split; [reflexivity|]. apply fields_ok. clear L.
  pose proof (NI id) as IDS. revert IH IDS. generalize (snd (E id)) F. clear F. intros decl F. induction F as [|[n ty] [n' v] decl fs [EQ LV] _ IHF]; intros H IDS; [constructor|].
  inversion H as [|? ? H1 H2]; subst. inversion IDS as [|? ? I1 I2]; subst. cbn [fst snd] in *. subst n'. constructor; [|apply IHF; auto]. cbn [fst snd]. split; [reflexivity|].
  inversion LV as [k e z LN|st b LS|id2 nm fs2 LM NS]; subst.
  - apply scalar_block; [exact I1|exact I|apply num_legible, LN].
  - apply scalar_block; [exact I1|exact I|apply str_legible, LS].
  - cbn [vsub] in H1. destruct (H1 id2 LM (S d)) as (fs3 & EQ & FR). inversion EQ; subst. apply msg_block; auto.
Qed.
(** ** The whole text *)
Lemma text_written id fs : legible E enumNumbers hexBytes id (TMsg (fst (E id)) fs) -> exists lines toks,
  Forall vline lines /\ textWith appendFloat lookup enumNumbers hexBytes indent nested (TMsg (fst (E id)) fs) = Ok (text_of_lines lines) /\
  (forall ls rest n, Forall2 (line_of space) lines ls -> (length (ls ++ rest) < n)%nat ->
     exists m, (length rest < m)%nat /\ parseFields pf n (ls ++ rest) = pbind (toks, Ok tt) (fun _ => parseFields pf m rest)) /\
  forall a z, rmsg E ig id fs (tok0 TStructStart a 0 :: toks ++ [tok0 TStructEnd z 0]).
Proof.
  intros L. destruct (legible_blocks _ id L 0) as (fs' & EQ & FR). inversion EQ; subst fs'. destruct (fields_rmsg _ _ _ FR) as (lines & toks & LC & W & _ & P2 & RM).
  exists lines, toks. split; [exact LC|]. split; [|split; assumption].
  destruct (W (mkX [] [true] 0 false false (Ok tt)) ltac:(repeat split)) as (s' & RN & A & O). destruct A as (A1 & A2 & A3 & A4).
  unfold textWith. rewrite (walk_run tst TY (TMsg (fst (E id)) fs) _ (xpop s')).
  - destruct s' as [o f dp tp ar er']. cbn in *. subst. reflexivity.
  - change (mtoks (TMsg (fst (E id)) fs)) with (tok0 TStructStart (fst (E id)) 0 :: ftoks fs ++ [tok0 TStructEnd (fst (E id)) 0]).
    apply run_cons. eexists. split; [reflexivity|]. apply run_app. exists s'. split; [exact RN|]. apply run_cons. exists (xpop s'). split; [|apply run_nil].
    destruct s' as [o f dp tp ar er']. cbn in *. subst. reflexivity.
Qed.
End Round.

Lemma round_trip appendFloat lookup enumNumbers hexBytes indent pf E ig lexer fuel id fs :
  splits lexer -> (forall k, k = KF32 \/ k = KF64 -> appendFloat k 0 = [48]) -> blanks indent -> names_ident E -> names_differ E ->
  legible E enumNumbers hexBytes id (TMsg (fst (E id)) fs) ->
  exists data, writeText appendFloat lookup enumNumbers hexBytes indent (S fuel) (TMsg (fst (E id)) fs) = Ok data /\
    UnmarshalText pf lexer E ig id (blank E id) data = Ok fs.
Proof.
  intros (space & S32 & S9 & SP & LX) ZERO IND NI ND L.
  destruct (text_written appendFloat lookup enumNumbers hexBytes indent pf E ig space S32 S9 SP ZERO IND NI ND (writeText appendFloat lookup enumNumbers hexBytes indent fuel) id fs L)
    as (lines & toks & LC & W & P & RM).
  exists (text_of_lines lines). split; [exact W|]. destruct (LX lines (Forall_impl _ (fun a H => proj1 H) LC) (Forall_impl _ (fun a H => proj2 H) LC)) as (ls & extra & LE & F & X).
  unfold UnmarshalText. rewrite LE. unfold textToTokens. destruct (P ls extra (S (length (ls ++ extra))) F ltac:(lia)) as (m & LM & ->).
  destruct m as [|m]; [lia|].
  assert (SK : skipLines false extra = []).
  { clear -X. induction X as [|l extra [Q|Q] _ IH]; [reflexivity| |]; cbn [skipLines]; unfold blank_line; rewrite Q; exact IH. }
  cbn [parseFields]. rewrite SK. unfold pbind, yield. cbn [fst snd app].
  rewrite app_nil_r. rewrite <- (app_nil_r (_ :: toks ++ _)). apply render_ingest. apply RM.
Qed.
