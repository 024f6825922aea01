(** C79, C80, C81: the JSON reader, alone and after the writer. *)
From Coq Require Import ZArith List Bool Lia ZifyBool.
Import ListNotations.
From Verif.Model Require Import Base Field MapApi Token Walk TokenStream Escape Json Ingest JsonRead.
From Verif.Spec Require Import Text JsonGrammar Message Values Ingest JsonRead.
From Verif.Proofs Require Import BaseLemmas WalkProofs IngestProofs IngestWhole IngestExt Rendering JsonLits JsonProofs JsonReadProofs JsonRound JsonLexer.
From Verif.Properties Require Import Ingest Json.
From Verif.Spec Require Import Message JsonGrammar.
From Verif.Model Require Import Ingest.
Open Scope Z_scope.

Lemma text_names E : names_text E -> forall id, ~ In [] (map fst (snd (E id))).
Proof.
  intros NT id I. specialize (NT id). rewrite Forall_forall in NT. apply in_map_iff in I as (nt & EQ & I). destruct (NT nt I) as (rs & NE & _ & Q).
  rewrite EQ in Q. symmetry in Q. revert Q. apply utf8_nonempty. exact NE.
Qed.

(** ** C80: documents *)
(** A document that shows a struct ([reads_msg]: the members in any order, missing ones, members to be
    ignored, any escapes in the strings) is read as that struct. *)
Theorem C80_document decode intOf E ig id b j fs :
  decodes decode intOf -> names_differ E -> names_text E -> jtext b j -> distinct j -> reads_msg E ig id j fs ->
  Unmarshal decode E ig id (blank E id) b = Ok fs.
Proof.
  intros (DT & DI) ND NT J D R. unfold Unmarshal. rewrite (DT b j J D).
  apply reads_ingest; auto; [apply text_names; exact NT|apply (distinct_udistinct j b); assumption].
Qed.
(** A member that is not a field of the type is an error when unknown fields are not ignored. *)
Lemma rfields_pre E ig id x l y : rfields E ig id x l y -> forall n k ts rest, content ts = l ++ rest -> (length (content ts) < k)%nat -> (length (content ts) <= n)%nat ->
  exists k' ts', fields_loop E ig (ingest_from E ig n) k (snd (E id)) x ts = fields_loop E ig (ingest_from E ig n) k' (snd (E id)) y ts' /\ content ts' = rest /\ (length rest < k')%nat.
Proof.
  induction 1 as [id x|id x ty v t0 b q y Kt At Ax RV _ IH|id x t0 b q y Kt IG At SK _ IH]; intros n k ts rest C L N.
  - exists k, ts. rewrite C in L. auto.
  - destruct k; [lia|]. cbn [fields_loop]. rewrite Next_content, C. rewrite <- !app_comm_cons. rewrite Kt. cbn [tkind_eqb negb]. rewrite At, Ax.
    rewrite C in L, N. rewrite <- app_comm_cons in L, N. cbn [length] in L, N. rewrite <- app_assoc in L, N |- *.
    destruct (proj1 (proj2 (proj2 (render_all E ig))) ty v t0 b RV n (mkTS (b ++ q ++ rest) None) (q ++ rest) eq_refl) as (ts' & -> & C'); [cbn [content ts_peeked ts_src]; lia|]. cbn [bind].
    rewrite app_length in L, N. apply (IH n k ts' rest); auto; rewrite C'; lia.
  - destruct k; [lia|]. cbn [fields_loop]. rewrite Next_content, C. rewrite <- !app_comm_cons. rewrite Kt. cbn [tkind_eqb negb]. rewrite At, IG. rewrite IG in IH.
    rewrite C in L, N. rewrite <- app_comm_cons in L, N. cbn [length] in L, N. rewrite <- app_assoc in L, N |- *.
    destruct (SK (mkTS (b ++ q ++ rest) None) (q ++ rest) eq_refl) as (ts' & -> & C'). cbn [bind].
    rewrite app_length in L, N. apply (IH n k ts' rest); auto; rewrite C'; lia.
Qed.
(** The members before [post] are taken in; then comes [post]. *)
Lemma pre_members decode intOf E ig id b l post fs :
  decodes decode intOf -> names_differ E -> names_text E -> jtext b (JObj (l ++ post)) -> distinct (JObj (l ++ post)) -> reads_msg E ig id (JObj l) fs ->
  exists n k ts, Unmarshal decode E ig id (blank E id) b = ('(x, _) <- fields_loop E ig (ingest_from E ig n) k (snd (E id)) fs ts ;; Ok x) /\
    content ts = flat_map (fun kv => jout intOf (utf8 (fst kv)) (snd kv)) post ++ [tok0 TStructEnd [] 0] /\ (length (content ts) < k)%nat.
Proof.
  intros (DT & DI) ND NT J D R. unfold Unmarshal. rewrite (DT b _ J D). rewrite jsonToTokens_doc.
  assert (U : udistinct (JObj l)).
  { pose proof (distinct_udistinct _ b J D) as U. inversion U as [| | | | |? U1 U2]; subst. constructor.
    - rewrite map_app in U1. clear -U1. induction l as [|a l IH]; [constructor|]. cbn [map app] in *. inversion U1 as [|? ? H1 H2]; subst. constructor; [|apply IH; exact H2].
      intros I. apply H1. apply in_or_app. left. exact I.
    - apply Forall_app in U2. apply U2. }
  destruct (proj2 (all_shown intOf DI E ig ND (text_names E NT) (JObj l) U) id fs R) as (l' & EQ & X). injection EQ as <-.
  specialize (X (tok0 TStructStart root_name 0) (tok0 TStructEnd [] 0) eq_refl eq_refl). 
  assert (RF : rfields E ig id (blank E id) (flat_map (fun kv => jout intOf (utf8 (fst kv)) (snd kv)) l) fs).
  { inversion X as [? ? ? body e _ _ RF]. match goal with Q : _ ++ [_] = _ ++ [_] |- _ => apply app_inj_tail in Q as (Q & _); rewrite <- Q end. exact RF. }
  unfold Ingest. cbn [jout announce app start_name]. rewrite flat_map_app, <- app_assoc.
  set (rest := flat_map _ post ++ [tok0 TStructEnd [] 0]).
  set (pre := flat_map _ l) in *.
  unfold NewTokenStream. cbn [left ts_src ts_peeked length]. cbn [ingest_from].
  rewrite (expect_ok TStructStart _ (tok0 TStructStart root_name 0) (pre ++ rest)) by reflexivity. cbn [bind].
  match goal with |- context [fields_loop E ig (ingest_from E ig ?n) ?k _ _ ?ts] => destruct (rfields_pre E ig id (blank E id) pre fs RF n k ts rest eq_refl) as (k' & ts' & EQ & C & L) end.
  - rewrite ?left_content. cbn [left ts_src ts_peeked content]. lia.
  - cbn [content ts_peeked ts_src]. unfold left. cbn [ts_peeked ts_src length]. lia.
  - rewrite EQ. do 3 eexists. split; [reflexivity|]. split; [exact C|]. rewrite C. exact L.
Qed.
Theorem C80_unknown_refused decode intOf E id b l rs j post fs :
  decodes decode intOf -> names_differ E -> names_text E -> jtext b (JObj (l ++ (rs, j) :: post)) -> distinct (JObj (l ++ (rs, j) :: post)) ->
  reads_msg E false id (JObj l) fs -> rs <> [] -> ~ In (utf8 rs) (map fst (snd (E id))) ->
  Unmarshal decode E false id (blank E id) b = Err.
Proof.
  intros DC ND NT J D R NN NI. destruct (pre_members decode intOf E false id b l ((rs, j) :: post) fs DC ND NT J D R) as (n & k & ts & -> & C & L).
  destruct k as [|k]; [lia|]. cbn [fields_loop]. rewrite Next_content, C. cbn [flat_map fst snd].
  assert (X : exists t q, jout intOf (utf8 rs) j = t :: q /\ t_kind t = TField /\ t_name t = utf8 rs).
  { pose proof (utf8_nonempty rs NN) as N. destruct j; cbn [jout]; unfold announce; destruct (utf8 rs) as [|c n0]; try congruence; cbn [app]; do 2 eexists; split; reflexivity || (split; reflexivity). }
  destruct X as (t & q & -> & K & N). cbn [app]. rewrite K, N. cbn [tkind_eqb negb]. rewrite assoc_none by exact NI. reflexivity.
Qed.
(** An unknown member that is an array is an error even when unknown fields are ignored. *)
Theorem C80_unknown_array_refuted decode intOf E id b l rs js post fs :
  decodes decode intOf -> names_differ E -> names_text E -> jtext b (JObj (l ++ (rs, JArr js) :: post)) -> distinct (JObj (l ++ (rs, JArr js) :: post)) ->
  reads_msg E true id (JObj l) fs -> rs <> [] -> ~ In (utf8 rs) (map fst (snd (E id))) ->
  Unmarshal decode E true id (blank E id) b = Err.
Proof.
  intros DC ND NT J D R NN NI. destruct (pre_members decode intOf E true id b l ((rs, JArr js) :: post) fs DC ND NT J D R) as (n & k & ts & -> & C & L).
  destruct k as [|k]; [lia|]. cbn [fields_loop]. rewrite Next_content, C. cbn [flat_map fst snd].
  pose proof (utf8_nonempty rs NN) as N. cbn [jout]. unfold announce. destruct (utf8 rs) as [|c n0] eqn:Q; try congruence. cbn [app t_kind tok0 t_name tkind_eqb negb].
  rewrite assoc_none by exact NI. change (SkipValue ?s (tok0 TField (c :: n0) 0)) with (Ok s). cbn [bind].
  destruct k as [|k]; [exfalso; rewrite C in L; cbn [flat_map fst snd jout] in L; rewrite Q in L; cbn in L; lia|]. cbn [fields_loop]. rewrite Next_content. cbn [content ts_peeked ts_src app t_kind tok0 tkind_eqb negb]. reflexivity.
Qed.

(** ** C79: what the writer writes is read back *)
(** For structs of the values that JSON carries ([readable]): the reader returns the struct the writer
    was given, in every field. *)
Theorem C79_round_trip_partial decode intOf appendFloat lookup enumNumbers E ig id nm fs n :
  decodes decode intOf -> prints_floats appendFloat -> (forall k, k = KF32 \/ k = KF64 -> appendFloat k 0 = [48]) -> registry_ok string_key lookup ->
  names_differ E -> names_text E -> readable E enumNumbers id (TMsg nm fs) ->
  exists b, writeJSON appendFloat lookup enumNumbers (S n) (TMsg nm fs) = Ok b /\ Unmarshal decode E ig id (blank E id) b = Ok fs.
Proof.
  intros DC PF Z0 RO ND NT R.
  destruct (C73_represents_partial appendFloat lookup enumNumbers (TMsg nm fs) n PF RO) as (b & j & W & J & M).
  { apply (msg_fit enumNumbers (fun _ _ _ _ => True) (fun _ _ => True) E NT (Z.of_nat n) string_key _ id R). }
  destruct (msg_reads appendFloat Z0 enumNumbers _ _ _ E ig ND NT (TMsg nm fs) id j R M) as (D & fs' & EQ & RM). injection EQ as _ <-.
  exists b. split; [exact W|]. apply (C80_document decode intOf E ig id b j fs); assumption.
Qed.

(** What is lost.  In each case [b] is what the writer writes, and every decoder reads it so. *)
Section Lost.
Variables (decode : bytes -> list jtok) (intOf : list Z -> Z).
Hypothesis DC : decodes decode intOf.
Variable appendFloat : kind -> Z -> bytes.
Variable n : nat.
Definition one_field (ty : fty) : env := fun _ => ([84], [([97], ty)]).
Definition none : bytes -> option (bytes * (bytes -> option tmsg)) := fun _ => None.
Definition write (v : fval) : res bytes := writeJSON appendFloat none false (S n) (TMsg [84] [([97], v)]).
Definition read (ty : fty) (b : bytes) : res (list (bytes * fval)) := Unmarshal decode (one_field ty) false 0 (blank (one_field ty) 0) b.
(** The document has the one member a. *)
Definition doc (q : list Z) : list Z := 123 :: 34 :: 97 :: 34 :: 58 :: q ++ [125].
Lemma doc_tokens q j : jtext q j -> distinct j -> decode (doc q) = JOpen :: JString [97] :: tokens_of intOf j ++ [JClose].
Proof.
  intros J D. destruct DC as (DT & _).
  rewrite (DT (doc q) (JObj [([97], j)])).
  - cbn [tokens_of flat_map]. rewrite app_nil_r. reflexivity.
  - apply (jt_obj [34 :: 97 :: 34 :: 58 :: q] [([97], j)]). constructor; [|constructor]. apply (jm_ [34; 97; 34] q [97] j); [|exact J].
    apply (js [97] [97]). apply (jc_plain 97 [] []); [unfold scalar; lia|lia|lia|lia|constructor].
  - constructor; [repeat constructor; intros []|]. constructor; [exact D|constructor].
Qed.
Lemma doc_read ty q j : jtext q j -> distinct j -> read ty (doc q) =
  Ingest (one_field ty) false 0 (blank (one_field ty) 0) (tok0 TStructStart root_name 0 :: jout intOf [97] j ++ [tok0 TStructEnd [] 0]).
Proof.
  intros J D. unfold read, Unmarshal. rewrite (doc_tokens q j J D).
  replace (JOpen :: JString [97] :: tokens_of intOf j ++ [JClose]) with (tokens_of intOf (JObj [([97], j)])) by (cbn [tokens_of flat_map]; rewrite app_nil_r; reflexivity).
  rewrite jsonToTokens_doc. cbn [jout announce app flat_map]. rewrite app_nil_r. reflexivity.
Qed.
Lemma int_doc v : jtext (appendInt v) (JNum (appendInt v)) /\ intOf (appendInt v) = saturate v.
Proof. destruct (appendInt_ok v) as (A & B). split; [constructor; exact A|]. apply (proj2 DC). exact B. Qed.
Lemma str_doc s : Forall plain s -> jtext (34 :: s ++ [34]) (JStr s).
Proof. intros P. constructor. apply jstring_plain. exact P. Qed.

(** The float 1 is written as 1 and read as the bits of the integer 1, which is the float 5e-324. *)
Theorem C79_float_refuted : appendFloat KF64 4607182418800017408 = [49] ->
  exists b, write (FNum KF64 4607182418800017408 None) = Ok b /\ read (TyNum KF64 None) b = Ok [([97], FNum KF64 1 None)].
Proof.
  intros H. exists (doc [49]). split; [unfold write; cbn; rewrite H; reflexivity|].
  rewrite (doc_read _ [49] (JNum [49])); [|apply (int_doc 1)|constructor]. cbn [jout]. change (intOf [49]) with (intOf (appendInt 1)). rewrite (proj2 (int_doc 1)). vm_compute. reflexivity.
Qed.
(** Unsigned numbers from 2^63 become 2^63 - 1. *)
Theorem C79_uint64_refuted : exists b, write (FNum KU64 9223372036854775813 None) = Ok b /\ read (TyNum KU64 None) b = Ok [([97], FNum KU64 9223372036854775807 None)].
Proof.
  exists (doc (appendInt 9223372036854775813)). split; [vm_compute; reflexivity|].
  rewrite (doc_read _ _ (JNum (appendInt 9223372036854775813))); [|apply int_doc|constructor]. cbn [jout]. rewrite (proj2 (int_doc _)). vm_compute. reflexivity.
Qed.
(** The bytes of a bytes field become the bytes of their base64 text. *)
Theorem C79_bytes_refuted : exists b, write (FStr false [0]) = Ok b /\ read (TyStr false) b = Ok [([97], FStr false [65; 65; 61; 61])].
Proof.
  exists (doc [34; 65; 65; 61; 61; 34]). split; [vm_compute; reflexivity|].
  rewrite (doc_read _ _ (JStr [65; 65; 61; 61])); [|apply (str_doc [65; 65; 61; 61]); repeat constructor; unfold plain; lia|constructor]. vm_compute. reflexivity.
Qed.
(** A number that the enum has no name for becomes zero. *)
Theorem C79_enum_refuted : let e := Some [([82], 1)] in
  exists b, write (FNum KU8 7 (enum_label e 7)) = Ok b /\ read (TyNum KU8 e) b = Ok [([97], FNum KU8 0 (Some []))].
Proof.
  exists (doc [34; 34]). split; [vm_compute; reflexivity|].
  rewrite (doc_read _ _ (JStr [])); [|apply (str_doc []); constructor|constructor]. vm_compute. reflexivity.
Qed.
(** Any map with an entry is an error. *)
Theorem C79_map_refuted : exists b, write (FMap KTStr VTStr [(KStr [107], EStr [118])]) = Ok b /\ read (TyMap KTStr VTStr 0) b = Err.
Proof.
  exists (doc [123; 34; 107; 34; 58; 34; 118; 34; 125]). split; [vm_compute; reflexivity|].
  rewrite (doc_read _ _ (JObj [([107], JStr [118])])).
  - vm_compute. reflexivity.
  - apply (jt_obj [[34; 107; 34; 58; 34; 118; 34]] [([107], JStr [118])]). constructor; [|constructor]. apply (jm_ [34; 107; 34] [34; 118; 34]); [apply (jstring_plain [107])|apply (str_doc [118])]; repeat constructor; unfold plain; lia.
  - constructor; [repeat constructor; intros []|]. repeat constructor.
Qed.
(** And so is any Any. *)
Theorem C79_any_refuted : exists b, write (FAny (Some (repeat 0 16, [0]))) = Ok b /\ read TyAny b = Err.
Proof.
  exists (doc (123 :: 34 :: at_type ++ [34; 58; 34] ++ repeat 48 32 ++ [34; 44; 34] ++ at_value ++ [34; 58; 34; 65; 65; 61; 61; 34; 125])). split; [vm_compute; reflexivity|].
  rewrite (doc_read _ _ (JObj [(at_type, JStr (repeat 48 32)); (at_value, JStr [65; 65; 61; 61])])).
  - vm_compute. reflexivity.
  - apply (jt_obj [34 :: at_type ++ [34; 58; 34] ++ repeat 48 32 ++ [34]; 34 :: at_value ++ [34; 58; 34; 65; 65; 61; 61; 34]] [(at_type, JStr (repeat 48 32)); (at_value, JStr [65; 65; 61; 61])]).
    constructor; [|constructor; [|constructor]].
    + apply (jm_ (34 :: at_type ++ [34]) (34 :: repeat 48 32 ++ [34])); [apply jstring_plain|apply str_doc]; repeat constructor; unfold plain; lia.
    + apply (jm_ (34 :: at_value ++ [34]) (34 :: [65; 65; 61; 61] ++ [34])); [apply jstring_plain|apply str_doc]; repeat constructor; unfold plain; lia.
  - constructor; [|repeat constructor]. constructor; [intros [H|[]]; discriminate|repeat constructor; intros []].
Qed.
End Lost.

(** ** C81: any data *)
(** Whatever the decoder makes of the data, and whatever the data: an error or a struct. *)
Theorem C81_any_data decode E ig id x data : struct_of (snd (E id)) x ->
  Unmarshal decode E ig id x data = Err \/ exists y, Unmarshal decode E ig id x data = Ok y.
Proof. intros S. apply C78_any_tokens. exact S. Qed.
(** If the decoder gives only some of the tokens of a document that shows a struct (the data end
    early, or have an error), reading is an error. *)
Lemma jread_app a b : forall s, exists s', jread (a ++ b) s = jread a s ++ jread b s'.
Proof.
  induction a as [|t a IH]; intros s; [exists s; reflexivity|]. cbn [app jread]. destruct (jread1 t s) as [out s1]. destruct (IH s1) as (s' & ->). exists s'. apply app_assoc.
Qed.
Theorem C81_cut_short decode intOf E ig id b j fs data p t q :
  decodes decode intOf -> names_differ E -> names_text E -> jtext b j -> distinct j -> reads_msg E ig id j fs ->
  decode data = p -> decode b = p ++ t :: q -> Unmarshal decode E ig id (blank E id) data = Err.
Proof.
  intros (DT & DI) ND NT J D R P T. destruct (C81_any_data decode E ig id (blank E id) data (struct_of_fresh E id)) as [H|(r & H)]; [exact H|]. exfalso.
  unfold Unmarshal in H. rewrite P in H. rewrite (DT b j J D) in T.
  pose proof (distinct_udistinct j b J D) as U. destruct (proj2 (all_shown intOf DI E ig ND (text_names E NT) j U) id fs R) as (l & -> & X).
  assert (OUT : exists a c, jsonToTokens (tokens_of intOf (JObj l)) = jsonToTokens p ++ a :: c).
  { rewrite T. unfold jsonToTokens. 
    assert (L : exists q', t :: q = q' ++ [JClose]).
    { cbn [tokens_of] in T. destruct (exists_last (l := t :: q)) as (q' & z & Z); [discriminate|]. rewrite Z in T |- *. rewrite app_comm_cons, app_assoc in T. apply app_inj_tail in T as (_ & <-). eauto. }
    destruct L as (q' & ->). destruct (jread_app p (q' ++ [JClose]) (mkR [] [] [])) as (s' & ->). destruct (jread_app q' [JClose] s') as (s2 & ->).
    cbn [jread jread1]. destruct (jread q' s') as [|z1 z2]; [do 2 eexists; reflexivity|]. do 2 eexists. reflexivity. }
  destruct OUT as (a & c & OUT). unfold Ingest in H. apply bind_ok in H as ([r' s] & H & _).
  apply (ingest_from_ext (a :: c) E ig _ (S (length (jsonToTokens (tokens_of intOf (JObj l)))))) in H; [|unfold NewTokenStream, left; cbn [ts_src ts_peeked]; rewrite OUT, app_length; cbn [length]; lia].
  unfold ext, NewTokenStream in H. cbn [ts_src ts_peeked] in H. rewrite <- OUT in H.
  specialize (X (tok0 TStructStart root_name 0) (tok0 TStructEnd [] 0) eq_refl eq_refl).
  pose proof (proj1 (render_all E ig) id fs _ X (S (length (jsonToTokens (tokens_of intOf (JObj l))))) (mkTS (jsonToTokens (tokens_of intOf (JObj l))) None) []) as G.
  rewrite app_nil_r in G. cbn [content ts_peeked ts_src] in G. specialize (G (jsonToTokens_doc intOf (JObj l)) ltac:(lia)).
  rewrite H in G. destruct s as [s1 s2]. cbn in G. inversion G. destruct s1; discriminate.
Qed.

(** The conditions can be met: a decoder, and a struct with an integer, text that needs escapes, an enum,
    a nested struct, lists, an unset float and an empty map. *)
Definition js_env : env := fun id => match id with
  | O => ([84], [([97], TyNum KI32 None); ([98], TyStr true); ([99], TyNum KU8 (Some [([82], 1); ([71], 2)])); ([100], TyMsg 1); ([101], TyStrs true);
                 ([102], TyNum KF64 None); ([103], TyNums KBool None); ([104], TyMsgs 1); ([105], TyMap KTStr VTStr 0)])
  | _ => ([85], [([120], TyNum KI8 None)])
  end.
Definition js_fs : list (bytes * fval) :=
  [([97], FNum KI32 (-70000) None); ([98], FStr true [34; 104; 10]); ([99], FNum KU8 2 (Some [71])); ([100], FMsg (Some (TMsg [85] [([120], FNum KI8 5 None)])));
   ([101], FStrs true [[104; 105]; []]); ([102], FNum KF64 0 None); ([103], FNums KBool [(1, None); (0, None)]); ([104], FMsgs [TMsg [85] [([120], FNum KI8 (-1) None)]]);
   ([105], FMap KTStr VTStr [])].
Definition zero_float : kind -> Z -> bytes := fun _ _ => [48].
Lemma js_names : names_differ js_env /\ names_text js_env.
Proof.
  split; intros [|id]; cbn.
  - repeat (constructor; [cbn; intros H; repeat (destruct H as [H|H]; [discriminate|]); exact H|]); constructor.
  - repeat (constructor; [cbn; intros H; repeat (destruct H as [H|H]; [discriminate|]); exact H|]); constructor.
  - repeat (constructor; [match goal with |- exists rs, _ /\ _ /\ ?n = _ => exists n end; split; [discriminate|]; split; [repeat constructor; unfold scalar; lia|reflexivity]|]). constructor.
  - repeat (constructor; [match goal with |- exists rs, _ /\ _ /\ ?n = _ => exists n end; split; [discriminate|]; split; [repeat constructor; unfold scalar; lia|reflexivity]|]). constructor.
Qed.
Lemma js_inner z : -128 <= z < 128 -> readable js_env false 1 (TMsg [85] [([120], FNum KI8 z None)]).
Proof.
  intros R. apply (ra_msg js_env false 1). constructor; [|constructor]. split; [reflexivity|]. cbn [snd]. apply (ra_num js_env false KI8 None). constructor; [split; discriminate|cbn; lia|lia].
Qed.
Example C79_case :
  decodes lexer intv /\ prints_floats zero_float /\ (forall k, k = KF32 \/ k = KF64 -> zero_float k 0 = [48]) /\ registry_ok string_key none /\
  names_differ js_env /\ names_text js_env /\ readable js_env false 0 (TMsg [84] js_fs) /\
  exists b, writeJSON zero_float none false 1 (TMsg [84] js_fs) = Ok b /\ len b = 105 /\ Unmarshal lexer js_env false 0 (blank js_env 0) b = Ok js_fs.
Proof.
  split; [exact lexer_decodes|]. split; [intros k v _ _ _; apply (jn_pos [48] [] []); constructor|]. split; [reflexivity|].
  split; [split; intros; discriminate|]. split; [apply js_names|]. split; [apply js_names|]. split.
  - apply (ra_msg js_env false 0). unfold js_fs.
    repeat (apply Forall2_cons; [split; [reflexivity|]; cbn [snd]|]); [..|apply Forall2_nil].
    + apply (ra_num js_env false KI32 None). constructor; [split; discriminate|cbn; lia|lia].
    + constructor. apply (ra_text [34; 104; 10]). repeat constructor; unfold scalar; lia.
    + apply (ra_num js_env false KU8 (Some [([82], 1); ([71], 2)]) 2). apply (ra_name false KU8 _ [71]); [split; discriminate|cbn; lia|repeat constructor; unfold scalar; lia|discriminate|cbn; auto| |];
        repeat (constructor; [cbn; intros H; repeat (destruct H as [H|H]; [discriminate|]); exact H|]); constructor.
    + apply ra_some; [apply js_inner; lia|reflexivity].
    + constructor. constructor; [apply (ra_text [104; 105]); repeat constructor; unfold scalar; lia|]. constructor; [apply (ra_text []); constructor|constructor].
    + apply (ra_num js_env false KF64 None). apply ra_zero.
    + constructor. repeat (constructor; [split; [constructor; [split; discriminate|cbn; lia|cbn; lia]|reflexivity]|]). constructor.
    + apply ra_onemsg. apply js_inner. lia.
    + constructor.
  - eexists. split; [vm_compute; reflexivity|]. split; vm_compute; reflexivity.
Qed.
(** A document with the members in another order, most of them missing, one to be ignored and an escape:
    {"zz":{"q":[]},"b":"A","a":12}. *)
Definition js_doc : list Z :=
  [123; 34; 122; 122; 34; 58; 123; 34; 113; 34; 58; 91; 93; 125; 44; 34; 98; 34; 58; 34; 92; 117; 48; 48; 52; 49; 34; 44; 34; 97; 34; 58; 49; 50; 125].
Definition js_val : jv := JObj [([122; 122], JObj [([113], JArr [])]); ([98], JStr [65]); ([97], JNum [49; 50])].
Definition js_read : list (bytes * fval) := set_field [97] (FNum KI32 12 None) (set_field [98] (FStr true [65]) (blank js_env 0)).
Example C80_case : jtext js_doc js_val /\ distinct js_val /\ reads_msg js_env true 0 js_val js_read /\
  Unmarshal lexer js_env true 0 (blank js_env 0) js_doc = Ok js_read /\ Unmarshal lexer js_env false 0 (blank js_env 0) js_doc = Err.
Proof.
  split; [|split; [|split; [|split; vm_compute; reflexivity]]].
  - apply (jt_obj [[34; 122; 122; 34; 58; 123; 34; 113; 34; 58; 91; 93; 125]; [34; 98; 34; 58; 34; 92; 117; 48; 48; 52; 49; 34]; [34; 97; 34; 58; 49; 50]]).
    constructor; [|constructor; [|constructor; [|constructor]]].
    + apply (jm_ [34; 122; 122; 34] [123; 34; 113; 34; 58; 91; 93; 125] [122; 122]); [apply (jstring_plain [122; 122]); repeat constructor; unfold plain; lia|].
      apply (jt_obj [[34; 113; 34; 58; 91; 93]] [([113], JArr [])]). constructor; [|constructor]. apply (jm_ [34; 113; 34] [91; 93]); [apply (jstring_plain [113]); repeat constructor; unfold plain; lia|].
      apply (jt_arr [] []). constructor.
    + apply (jm_ [34; 98; 34] [34; 92; 117; 48; 48; 52; 49; 34] [98]); [apply (jstring_plain [98]); repeat constructor; unfold plain; lia|].
      constructor. apply (js [92; 117; 48; 48; 52; 49] [65]). apply (jc_uni [48; 48; 52; 49] 65 [] []); [|unfold scalar; lia|constructor].
      apply (h4 48 48 52 49 (48 - 48) (48 - 48) (52 - 48) (49 - 48)); constructor; lia.
    + apply (jm_ [34; 97; 34] [49; 50] [97]); [apply (jstring_plain [97]); repeat constructor; unfold plain; lia|]. apply (int_doc lexer intv lexer_decodes 12).
  - constructor; [repeat (constructor; [cbn; intros H; repeat (destruct H as [H|H]; [discriminate|]); exact H|]); constructor|].
    repeat constructor. intros [].
  - apply rd_msg.
    + apply Forall2_cons; [split; [reflexivity|]; left; exists [97], (JNum [49; 50]); split; [cbn; auto|split; [reflexivity|]]|].
      { apply (rd_num js_env true KI32 None (JNum [49; 50]) 12). constructor; [split; discriminate|discriminate| |cbn; lia|lia]. apply (il_pos [49; 50]). split; [discriminate|repeat constructor; unfold digit; lia]. }
      apply Forall2_cons; [split; [reflexivity|]; left; exists [98], (JStr [65]); split; [cbn; auto|split; [reflexivity|]]|].
      { apply rd_str. apply (rt_text [65]). }
      repeat (apply Forall2_cons; [split; [reflexivity|]; right; split; [cbn; intros H; repeat (destruct H as [H|H]; [discriminate|]); exact H|reflexivity]|]). apply Forall2_nil.
    + constructor; [right; split; [reflexivity|split; [discriminate|exact I]]|]. constructor; [left; cbn; auto|]. constructor; [left; cbn; auto|constructor].
Qed.

Print Assumptions C80_document.
Print Assumptions C80_unknown_refused.
Print Assumptions C80_unknown_array_refuted.
Print Assumptions C79_round_trip_partial.
Print Assumptions C79_float_refuted.
Print Assumptions C79_uint64_refuted.
Print Assumptions C79_bytes_refuted.
Print Assumptions C79_enum_refuted.
Print Assumptions C79_map_refuted.
Print Assumptions C79_any_refuted.
Print Assumptions C81_any_data.
Print Assumptions C81_cut_short.
