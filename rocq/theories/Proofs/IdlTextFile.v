(** What a schema text shows is what the parser reads: declarations, the head and the file. *)
From Coq Require Import ZArith List Bool Lia String Permutation Sorted.
Import ListNotations.
From Verif.Model Require Import Base Utf8 Field Any ClawText Idl.
From Verif.Spec Require Import Text JsonGrammar ClawText Idl IdlText.
From Verif.Proofs Require Import BaseLemmas Utf8Proofs IngestProofs IdlBase IdlSound IdlFinal IdlText IdlTextTypes.
Local Open Scope Z_scope.

(** ** Sorting *)
Lemma insertBy_rel {A B} (R : A -> B -> Prop) (ka : A -> Z) (kb : B -> Z) (K : forall x y, R x y -> ka x = kb y) x y a b :
  R x y -> Forall2 R a b -> Forall2 R (insertBy ka x a) (insertBy kb y b).
Proof.
  intros X H. induction H as [|u v a b U H IH]; [constructor; [exact X|constructor]|]. cbn [insertBy].
  rewrite (K x y X), (K u v U). destruct (kb y <=? kb v); constructor; auto.
Qed.
Lemma sortBy_rel {A B} (R : A -> B -> Prop) (ka : A -> Z) (kb : B -> Z) (K : forall x y, R x y -> ka x = kb y) a b :
  Forall2 R a b -> Forall2 R (sortBy ka a) (sortBy kb b).
Proof. intros H. unfold sortBy. induction H as [|x y a b X H IH]; [constructor|]. cbn [fold_right]. apply insertBy_rel; auto. Qed.
Lemma same_keys {A} (key : A -> Z) a : forall b, NoDup (map key a) -> Permutation a b -> map key a = map key b -> a = b.
Proof.
  induction a as [|x a IH]; intros b N P E; [apply Permutation_nil in P; auto|].
  destruct b as [|y b]; [discriminate|]. cbn [map] in *. injection E as E1 E2. inversion_clear N as [|? ? NI N'].
  assert (y = x).
  { assert (I : In y (x :: a)) by (apply Permutation_in with (y :: b); [apply Permutation_sym; exact P|left; reflexivity]).
    destruct I as [->|I]; [reflexivity|]. exfalso. apply NI. rewrite E1. apply in_map. exact I. }
  subst y. f_equal. apply IH; auto. exact (Permutation_cons_inv P).
Qed.
Lemma sort_numbers {A} (key : A -> Z) a b n : Permutation a b -> map key b = map Z.of_nat (seq 0 n) -> sortBy key a = b.
Proof.
  intros P E. assert (Q : Permutation (sortBy key a) b) by (eapply Permutation_trans; [apply sortBy_perm|exact P]).
  assert (M : map key (sortBy key a) = map key b).
  { apply sorted_unique; [apply sorted_map, sortBy_sorted|rewrite E; apply seq_sorted|apply Permutation_map; exact Q]. }
  apply (same_keys key); auto. rewrite M, E. apply FinFun.Injective_map_NoDup; [intros u v; lia|apply seq_NoDup].
Qed.
Lemma check_fits fs : forall ids, Forall (fun fd => 0 <= fd_index fd /\ nth_error ids (Z.to_nat (fd_index fd)) = Some false) fs -> NoDup (map fd_index fs) ->
  checkIds ids fs = Ok tt.
Proof.
  induction fs as [|fd fs IH]; intros ids H N; [reflexivity|]. inversion_clear H as [|? ? [P X] H']. cbn [map] in N. inversion_clear N as [|? ? NI N'].
  cbn [checkIds]. rewrite X. apply IH; [|exact N']. apply Forall_forall. intros y I. destruct (proj1 (Forall_forall _ _) H' y I) as [P' X'].
  split; [exact P'|]. rewrite nth_error_set. destruct (Nat.eqb_spec (Z.to_nat (fd_index fd)) (Z.to_nat (fd_index y))) as [E|_]; [|exact X'].
  exfalso. apply NI. replace (fd_index fd) with (fd_index y) by lia. apply in_map. exact I.
Qed.
Lemma check_numbers fs fs' : map fd_index fs = map fd_index fs' -> forall fs0, Permutation fs' fs0 -> map fd_index fs0 = map Z.of_nat (seq 0 (length fs0)) ->
  checkIds (repeat false (length fs)) fs = Ok tt.
Proof.
  intros E fs0 P M.
  assert (Q : Permutation (map fd_index fs) (map Z.of_nat (seq 0 (length fs0)))) by (rewrite E, <- M; apply Permutation_map; exact P).
  assert (L : length fs = length fs0).
  { rewrite <- (map_length fd_index fs), E, map_length. apply Permutation_length. exact P. }
  apply check_fits.
  - apply Forall_forall. intros fd I. assert (J : In (fd_index fd) (map Z.of_nat (seq 0 (length fs0)))) by (eapply Permutation_in; [exact Q|apply in_map; exact I]).
    apply in_map_iff in J. destruct J as (k & K & J). apply in_seq in J. split; [lia|]. rewrite <- K, Nat2Z.id.
    rewrite nth_error_repeat; [reflexivity|lia].
  - eapply Permutation_NoDup; [apply Permutation_sym; exact Q|]. apply FinFun.Injective_map_NoDup; [intros u v; lia|apply seq_NoDup].
Qed.

Lemma all_printable w : forallb (fun c => (33 <=? c) && (c <=? 126)) w = true -> Forall (fun c => 33 <= c <= 126) w.
Proof. intros H. apply Forall_forall. intros c I. apply (proj1 (forallb_forall _ _) H) in I. lia. Qed.
Lemma all_letters w : forallb (fun c => ((65 <=? c) && (c <=? 90)) || ((97 <=? c) && (c <=? 122))) w = true -> Forall (fun c => upper_letter c \/ lower_letter c) w.
Proof. intros H. apply Forall_forall. intros c I. apply (proj1 (forallb_forall _ _) H) in I. unfold upper_letter, lower_letter. lia. Qed.
Lemma word_comment w : ~ In 47 w -> isComment w = false.
Proof. intros N. apply (prefix_no _ _ 47); [left; reflexivity|exact N]. Qed.
Lemma tname_comment w : tname w -> isComment w = false.
Proof. intros N. apply word_comment, tname_no; [exact N|nochar]. Qed.
Lemma keyword_comment k w : keyword k w -> isComment w = false.
Proof. intros [L _]. apply word_comment. intros I. pose proof (proj1 (Forall_forall _ _) L 47 I) as X. cbn in X. nochar. Qed.
Lemma tname_brace w : tname w -> (w =b "}") = false.
Proof. intros (c & q & -> & U & _). apply beq_neq. intros E. injection E as E _. revert U. rewrite E. nochar. Qed.
Lemma comment_brace w : starts [47; 47] w -> (w =b "}") = false.
Proof. intros [q ->]. reflexivity. Qed.
Definition withExt (f : file) (e : list bytes) : file := mkFile (f_package f) (f_version f) (f_options f) (f_idents f) e (f_imports f).
Lemma withExt_id f : withExt f (f_external f) = f.
Proof. destruct f. reflexivity. Qed.
Lemma u16_id i : 0 <= i < 65536 -> u16 i = i.
Proof. intros. unfold u16. apply Z.mod_small. lia. Qed.

Section Tables.
Variables isUpper isLower isLetter isNumber isSpace : Z -> bool.
Variable toLower : bytes -> bytes.
Variable toInt : bytes -> option Z.
Hypothesis T : ascii_tables isUpper isLower isLetter isNumber isSpace toLower toInt.
Section File.
Variable F : file.
Variable ext : bytes -> option file.
Hypothesis Unique : NoDup (map decl_name (f_idents F)).
Hypothesis Names : Forall (fun d => tname (decl_name d)) (f_idents F).
Hypothesis Sizes : sizes_ok (f_idents F).
Hypothesis Ext : forall w g, ext w = Some g -> NoDup (map decl_name (f_idents g)) /\ sizes_ok (f_idents g).
Notation fieldLoop := (fieldLoop isLower isLetter isNumber).
Notation enumLoop := (enumLoop isLower isLetter isNumber).

(** ** Structs *)
Lemma field_comments cs ts : comments cs ts -> forall f self pend have r, fieldLoop f self (cs ++ r) pend have = fieldLoop f self r (pend ++ ts) have.
Proof.
  intros C. induction C as [|l w q t ls ts S St Sp C IH]; intros f self pend have r; [rewrite app_nil_r; reflexivity|].
  cbn [app Idl.fieldLoop]. rewrite (says_item l _ 0 w S eq_refl). cbn [bind]. rewrite (comment_brace w St), (proj1 (proj2 S)), (starts_comment w St).
  rewrite (says_text l w q t S Sp), IH, <- app_assoc. reflexivity.
Qed.
Definition reads_field (a b : sfield) : Prop := fd_index a = fd_index b /\ resolves F ext a b.
Lemma shown_index self c n i w fd : field_shown F ext self c n i w fd -> fd_index fd = i.
Proof. intros H. destruct H; reflexivity. Qed.
Lemma fields_read self0 done rest : f_idents F = done ++ DStruct self0 :: rest ->
  forall ls fds', fields_text F ext (s_name self0) ls fds' -> forall f have r, Forall2 alike (f_idents f) done -> f_imports f = f_imports F ->
  exists fds e, fieldLoop f (s_name self0) (ls ++ r) [] have = fieldLoop (withExt f e) (s_name self0) r [] (have ++ fds) /\ Forall2 reads_field fds fds'.
Proof.
  intros FI ls fds' H. induction H as [|cs c l n w a i fd' ls fds' (ts & C & KT) TN AN FS LS H IH]; intros f have r A I.
  - exists [], (f_external f). rewrite withExt_id, app_nil_r. split; [reflexivity|constructor].
  - rewrite <- app_assoc. rewrite (field_comments cs ts C). cbn [app].
    change (fieldLoop f (s_name self0) (l :: ls ++ r) ts have) with
      (w0 <- item l 0 ;;
       if w0 =b "}" then _ <- commentOrEOL l 1 ;; Ok (have, f, ls ++ r)
       else if l.(l_eof) then Err
       else if isComment w0 then fieldLoop f (s_name self0) (ls ++ r) (ts ++ [commentText l]) have
       else '(fd, ext) <- parseField isLower isLetter isNumber f (s_name self0) (commentLines ts) l ;; fieldLoop (addExternal f ext) (s_name self0) (ls ++ r) [] (have ++ [fd])).
    rewrite (line_item l _ 0 n LS eq_refl). cbn [bind]. rewrite (tname_brace n TN), (line_eof l _ LS), (tname_comment n TN).
    destruct (at_ok a i AN) as [AE AR].
    destruct (type_reads F ext Unique Names Sizes Ext f self0 done rest c n i w fd' FI A I FS) as (t & ex & TE & R).
    unfold parseField. rewrite (line_eof l _ LS). cbn [negb ok_if bind]. rewrite (line_long l _ 3 LS) by (vm_compute; discriminate). cbn [ok_if bind].
    rewrite (line_item l _ 0 n LS eq_refl). cbn [bind]. rewrite (tname_valid _ _ _ _ _ _ _ T n TN). cbn [bind].
    rewrite (line_item l _ 1 w LS eq_refl). cbn [bind]. rewrite TE. cbn [bind].
    rewrite (line_item l _ 2 a LS eq_refl). cbn [bind]. rewrite AE. cbn [bind].
    replace (65535 <? i) with false by (symmetry; apply Z.ltb_ge; lia). cbn [negb ok_if bind].
    rewrite (line_end l _ 3 LS eq_refl). cbn [bind]. rewrite (u16_id i AR), (kept_lines c ts KT).
    destruct (IH (addExternal f ex) (have ++ [fdOf c n i t]) r A I) as (fds & e & E & Q).
    exists (fdOf c n i t :: fds), e. split; [|constructor; [split; [symmetry; exact (shown_index _ _ _ _ _ _ FS)|exact R]|exact Q]].
    unfold fdOf in E at 1. rewrite E, <- app_assoc. reflexivity.
Qed.
Definition reads_decl (d d' : decl) : Prop :=
  match d, d' with
  | DEnum e, DEnum e' => e = e'
  | DStruct s, DStruct s' => s_name s = s_name s' /\ s_comment s = s_comment s' /\ Forall2 (resolves F ext) (s_fields s) (s_fields s')
  | _, _ => False
  end.
Lemma reads_alike d d' : reads_decl d d' -> alike d d'.
Proof. destruct d, d'; cbn; try contradiction; [auto|tauto]. Qed.

(** ** Enums *)
Lemma enum_comments cs ts : comments cs ts -> forall pend have r, enumLoop (cs ++ r) pend have = enumLoop r (pend ++ ts) have.
Proof.
  intros C. induction C as [|l w q t ls ts S St Sp C IH]; intros pend have r; [rewrite app_nil_r; reflexivity|].
  cbn [app Idl.enumLoop]. rewrite (says_item l _ 0 w S eq_refl). cbn [bind]. rewrite (comment_brace w St), (proj1 (proj2 S)), (starts_comment w St).
  rewrite (says_text l w q t S Sp), IH, <- app_assoc. reflexivity.
Qed.
Lemma values_read ls vs : values_text ls vs -> forall have r, NoDup (map ev_name (have ++ vs)) -> NoDup (map ev_value (have ++ vs)) ->
  enumLoop (ls ++ r) [] have = enumLoop r [] (have ++ vs).
Proof.
  intros H. induction H as [|cs c l n a i ls vs (ts & C & KT) TN AN LS H IH]; intros have r N1 N2; [rewrite app_nil_r; reflexivity|].
  rewrite <- app_assoc, (enum_comments cs ts C). cbn [app Idl.enumLoop].
  rewrite (line_item l _ 0 n LS eq_refl). cbn [bind]. rewrite (tname_brace n TN), (line_eof l _ LS), (tname_comment n TN).
  destruct (at_ok a i AN) as [AE AR].
  rewrite (line_long l _ 3 LS) by (vm_compute; discriminate). cbn [ok_if bind]. rewrite (tname_valid _ _ _ _ _ _ _ T n TN). cbn [bind].
  replace (existsb (fun v => bytes_eqb (ev_name v) n) have) with false.
  - rewrite (line_item l _ 1 a LS eq_refl). cbn [bind]. rewrite AE. cbn [bind].
    replace (i <? 0) with false by (symmetry; apply Z.ltb_ge; lia). cbn [negb ok_if bind]. rewrite (u16_id i AR).
    replace (existsb (fun v => ev_value v =? i) have) with false.
    + rewrite (line_end l _ 2 LS eq_refl). cbn [bind app]. rewrite (kept_lines c ts KT), IH; rewrite <- app_assoc; [reflexivity|exact N1|exact N2].
    + symmetry. apply not_true_iff_false. intros X. apply existsb_exists in X. destruct X as (v & V1 & V2). apply Z.eqb_eq in V2.
      rewrite map_app in N2. cbn [map ev_value] in N2. apply NoDup_remove_2 in N2. apply N2. apply in_or_app. left. rewrite <- V2. apply in_map. exact V1.
  - symmetry. apply not_true_iff_false. intros X. apply existsb_exists in X. destruct X as (v & V1 & V2). apply bytes_eqb_eq in V2.
    rewrite map_app in N1. cbn [map ev_name] in N1. apply NoDup_remove_2 in N1. apply N1. apply in_or_app. left. rewrite <- V2. apply in_map. exact V1.
Qed.
Lemma same_keyword k k' w : keyword k w -> toLower w = lit k' -> lit k = lit k'.
Proof. intros K E. rewrite (lower_lit _ _ _ _ _ _ _ T k w K) in E. exact E. Qed.
Lemma enum_read l k n sz size ls vs cs' ts' cl c q :
  tname n -> In (sz, size) [(lit "uint8", 8); (lit "uint16", 16)] -> line_says l [k; n; sz; lit "{"] ->
  values_text ls vs -> vs <> [] -> NoDup (map ev_name vs) -> NoDup (map ev_value vs) -> comments cs' ts' -> line_says cl [lit "}"] ->
  parseEnum isLower isLetter isNumber c (l :: ls ++ cs' ++ cl :: q) = Ok (mkEnum c n size vs, q).
Proof.
  intros TN SZ LS V NE N1 N2 C LC. unfold parseEnum. cbn [next].
  rewrite (line_long l _ 5 LS) by (vm_compute; discriminate). cbn [ok_if bind].
  rewrite (line_item l _ 1 n LS eq_refl). cbn [bind]. rewrite (tname_valid _ _ _ _ _ _ _ T n TN). cbn [bind].
  rewrite (line_item l _ 2 sz LS eq_refl). cbn [bind].
  assert (X : (if sz =b "uint8" then Ok 8 else if sz =b "uint16" then Ok 16 else Err) = Ok size).
  { destruct SZ as [SZ|[SZ|[]]]; injection SZ as <- <-; reflexivity. }
  rewrite X. cbn [bind]. rewrite (line_item l _ 3 (lit "{") LS eq_refl). cbn [bind]. rewrite beq_refl. cbn [ok_if bind].
  rewrite (line_end l _ 4 LS eq_refl). cbn [bind]. rewrite (values_read ls vs V []) by assumption. cbn [app].
  rewrite (enum_comments cs' ts' C). cbn [Idl.enumLoop]. rewrite (line_item cl _ 0 (lit "}") LC eq_refl). cbn [bind]. rewrite beq_refl.
  rewrite (line_end cl _ 1 LC eq_refl). cbn [bind]. destruct vs; [contradiction|reflexivity].
Qed.
Lemma struct_read f self0 done rest l k ls fds cs' ts' cl c q :
  f_idents F = done ++ DStruct self0 :: rest -> Forall2 alike (f_idents f) done -> f_imports f = f_imports F ->
  tname (s_name self0) -> line_says l [k; s_name self0; lit "{"] ->
  fields_text F ext (s_name self0) ls fds -> fds <> [] -> Permutation fds (s_fields self0) ->
  map fd_index (s_fields self0) = map Z.of_nat (seq 0 (length (s_fields self0))) ->
  comments cs' ts' -> line_says cl [lit "}"] ->
  exists fs e, parseStruct isLower isLetter isNumber f c (l :: ls ++ cs' ++ cl :: q) = Ok (mkStruct c (s_name self0) fs, withExt f e, q) /\
    Forall2 (resolves F ext) fs (s_fields self0).
Proof.
  intros FI A I TN LS FT NE P M C LC. unfold parseStruct. cbn [next].
  rewrite (line_long l _ 3 LS) by (vm_compute; discriminate). cbn [ok_if bind].
  rewrite (line_item l _ 1 _ LS eq_refl). cbn [bind]. rewrite (tname_valid _ _ _ _ _ _ _ T _ TN). cbn [bind].
  rewrite (line_item l _ 2 (lit "{") LS eq_refl). cbn [bind]. rewrite beq_refl. cbn [ok_if bind].
  rewrite (line_end l _ 3 LS eq_refl). cbn [bind].
  destruct (fields_read self0 done rest FI ls fds FT f [] (cs' ++ cl :: q) A I) as (fs & e & E & R). rewrite E. clear E. cbn [app].
  rewrite (field_comments cs' ts' C). cbn [Idl.fieldLoop]. rewrite (line_item cl _ 0 (lit "}") LC eq_refl). cbn [bind]. rewrite beq_refl.
  rewrite (line_end cl _ 1 LC eq_refl). cbn [bind].
  exists (sortBy fd_index fs), e. split.
  - destruct fs as [|x fs]; [inversion R; subst; contradiction|].
    rewrite (check_numbers (x :: fs) fds) with (fs0 := s_fields self0); [reflexivity| |exact P|exact M].
    clear - R. induction R as [|a b u v [X _] R IH]; [reflexivity|]. cbn [map]. rewrite X, IH. reflexivity.
  - rewrite <- (sort_numbers fd_index fds (s_fields self0) _ P M).
    assert (S : Forall2 reads_field (sortBy fd_index fs) (sortBy fd_index fds)) by (apply sortBy_rel; [intros x y [X _]; exact X|exact R]).
    clear - S. induction S as [|a b u v [_ X] S IH]; constructor; auto.
Qed.

(** ** Declarations *)
Notation findNext := (findNext isUpper isLower isLetter isNumber isSpace toLower toInt).
Definition plusDecl (f : file) (d : decl) (e : list bytes) : file :=
  mkFile (f_package f) (f_version f) (f_options f) (f_idents f ++ [d]) e (f_imports f).
Lemma add_ok f e done rest d d' : f_idents F = done ++ d' :: rest -> Forall2 alike (f_idents f) done -> decl_name d = decl_name d' ->
  addDecl (withExt f e) d = Ok (plusDecl f d e).
Proof.
  intros FI A E. unfold addDecl. cbn [withExt f_idents].
  pose proof (alike_find _ _ (decl_name d) A) as X. pose proof (find_decl done (decl_name d)) as Y.
  destruct (ident_of done (decl_name d)) as [x|].
  - exfalso. destruct Y as [Y1 Y2]. pose proof Unique as U. rewrite FI, map_app in U. cbn [map] in U. apply NoDup_remove_2 in U. apply U.
    apply in_or_app. left. rewrite <- E, <- Y2. apply in_map. exact Y1.
  - destruct (ident_of (f_idents f) (decl_name d)); [contradiction|]. reflexivity.
Qed.
Lemma decl_read f fuel done rest ls d' q :
  f_idents F = done ++ d' :: rest -> Forall2 alike (f_idents f) done -> f_imports f = f_imports F -> decl_text F ext ls d' ->
  exists d e, findNext (S fuel) f (ls ++ q) = findNext fuel (plusDecl f d e) q /\ reads_decl d d'.
Proof.
  intros FI A I H. destruct H as [cs c l k n sz size ls vs cs' ts cl (ts0 & C & KT) K TN SZ LS V NE N1 N2 C' LC
    |cs c l k n ls fds fds' cs' ts cl (ts0 & C & KT) K TN LS FT NE P M C' LC].
  - exists (DEnum (mkEnum c n size vs)), (f_external f). split; [|reflexivity].
    repeat (rewrite <- app_assoc; cbn [app]). cbn [Idl.findNext].
    rewrite (collect_comments cs ts0 l); [|exact C|exact (line_proper l k _ LS (keyword_comment _ _ K))]. cbn [bind next].
    rewrite (line_item l _ 0 k LS eq_refl). cbn [bind]. rewrite (lower_lit _ _ _ _ _ _ _ T _ _ K).
    change (lit "enum" =b "version") with false. change (lit "enum" =b "options") with false. change (lit "enum" =b "import") with false.
    change (lit "enum" =b "enum") with true. cbv iota. rewrite (kept_lines c ts0 KT).
    rewrite (enum_read l k n sz size ls vs cs' ts cl c q TN SZ LS V NE N1 N2 C' LC). cbn [bind].
    rewrite <- (withExt_id f) at 1. rewrite (add_ok f _ done rest _ _ FI A eq_refl). reflexivity.
  - destruct (struct_read f (mkStruct c n fds') done rest l k ls fds cs' ts cl c q FI A I TN LS FT NE P M C' LC) as (fs & e & E & R).
    exists (DStruct (mkStruct c n fs)), e. split; [|repeat split; exact R].
    repeat (rewrite <- app_assoc; cbn [app]). cbn [Idl.findNext].
    rewrite (collect_comments cs ts0 l); [|exact C|exact (line_proper l k _ LS (keyword_comment _ _ K))]. cbn [bind next].
    rewrite (line_item l _ 0 k LS eq_refl). cbn [bind]. rewrite (lower_lit _ _ _ _ _ _ _ T _ _ K).
    change (lit "struct" =b "version") with false. change (lit "struct" =b "options") with false. change (lit "struct" =b "import") with false.
    change (lit "struct" =b "enum") with false. change (lit "struct" =b "struct") with true. cbv iota. rewrite (kept_lines c ts0 KT), E. cbn [bind s_name].
    rewrite (add_ok f e done rest (DStruct (mkStruct c n fs)) _ FI A eq_refl). reflexivity.
Qed.
Lemma decl_lines ls d : decl_text F ext ls d -> (0 < length ls)%nat.
Proof. intros H. destruct H; rewrite app_length; cbn [length]; lia. Qed.
Definition sameHead (f g : file) : Prop :=
  f_package f = f_package g /\ f_version f = f_version g /\ f_options f = f_options g /\ f_imports f = f_imports g.
Lemma decls_read ls ds : decls_text F ext ls ds -> forall f fuel done q,
  f_idents F = done ++ ds -> Forall2 reads_decl (f_idents f) done -> f_imports f = f_imports F -> (length (ls ++ q) < fuel)%nat ->
  exists fuel' f', findNext fuel f (ls ++ q) = findNext fuel' f' q /\ (length q < fuel')%nat /\ Forall2 reads_decl (f_idents f') (f_idents F) /\ sameHead f f'.
Proof.
  intros H. induction H as [|ls d' ls' ds D H IH]; intros f fuel done q FI A I L.
  - exists fuel, f. rewrite app_nil_r in FI. subst done. repeat split; auto.
  - rewrite <- app_assoc in *. pose proof (decl_lines ls d' D) as DL. rewrite app_length in L. destruct fuel as [|fuel]; [lia|].
    assert (A' : Forall2 alike (f_idents f) done) by (clear - A; induction A; constructor; auto using reads_alike).
    destruct (decl_read f fuel done ds ls d' (ls' ++ q) FI A' I D) as (d & e & E & R).
    rewrite E. destruct (IH (plusDecl f d e) fuel (done ++ [d']) q) as (fuel' & f' & E' & L' & A2 & S').
    + rewrite <- app_assoc. exact FI.
    + apply Forall2_app; [exact A|constructor; [exact R|constructor]].
    + exact I.
    + lia.
    + exists fuel', f'. repeat split; auto; apply S'.
Qed.
End File.

(** ** The head *)
Notation findNext := (findNext isUpper isLower isLetter isNumber isSpace toLower toInt).
(** The file behind a part of the head. *)
Definition headFile (pkg : bytes) (v o : bool) (i : option (list (bytes * bytes))) : file :=
  mkFile pkg (if v then 0 else -1) (if o then [mkOpt (lit "IsSet") []] else []) [] [] i.
Lemma hasLast_app a c : hasLast c (a ++ [c]) = true.
Proof. unfold hasLast. rewrite rev_app_distr. cbn. apply Z.eqb_refl. Qed.
Lemma path_valid path n : path_of path n -> validImportPath (quoted path) = Some path /\ pkgFromImpPath path = n.
Proof.
  intros ((p & E) & N47 & NE & N34).
  assert (TR : trim 34 (quoted path) = path).
  { unfold trim, quoted. cbn [trimLeft]. rewrite Z.eqb_refl.
    assert (TL : forall s, ~ In 34 s -> trimLeft 34 s = s).
    { intros [|c s] X; [reflexivity|]. cbn [trimLeft]. destruct (Z.eqb_spec c 34) as [->|]; [exfalso; apply X; left; reflexivity|reflexivity]. }
    assert (PN : path <> []) by (subst path; destruct p; discriminate).
    assert (X : trimLeft 34 (path ++ [34]) = path ++ [34]).
    { destruct path as [|c path]; [contradiction|]. cbn [app trimLeft]. destruct (Z.eqb_spec c 34) as [->|]; [exfalso; apply N34; left; reflexivity|reflexivity]. }
    rewrite X, rev_app_distr. cbn [rev app trimLeft]. rewrite Z.eqb_refl, TL; [apply rev_involutive|]. intros Y. apply N34. apply in_rev. exact Y. }
  split.
  - unfold validImportPath. change (hasPrefix [34] (quoted path)) with true. unfold quoted at 1. change (34 :: path ++ [34]) with ((34 :: path) ++ [34]).
    rewrite hasLast_app. cbn [negb orb]. rewrite TR.
    replace (existsb (fun c => c =? 47) path) with true.
    + cbn [negb]. replace (hasLast 47 path) with false; [reflexivity|]. symmetry. apply not_true_iff_false. intros H.
      unfold hasLast in H. rewrite E in H. change (47 :: n) with ([47] ++ n) in H. rewrite !rev_app_distr in H.
      destruct (rev n) as [|c r] eqn:R; [apply NE; rewrite <- (rev_involutive n), R; reflexivity|]. cbn [app] in H. apply Z.eqb_eq in H.
      apply N47. rewrite (in_rev n), R. left. lia.
    + symmetry. apply existsb_exists. exists 47. split; [rewrite E; apply in_or_app; right; left; reflexivity|reflexivity].
  - unfold pkgFromImpPath. rewrite E. clear E TR. induction p as [|c p IH].
    + cbn [app splitAt]. rewrite Z.eqb_refl. rewrite (splitAt_whole 47 n N47). reflexivity.
    + cbn [app splitAt]. destruct (Z.eqb_spec c 47).
      * destruct (splitAt 47 (p ++ 47 :: n)) eqn:S; [exfalso; exact (splitAt_ne _ _ S)|]. exact IH.
      * destruct (splitAt 47 (p ++ 47 :: n)) as [|w ws] eqn:S; [exfalso; exact (splitAt_ne _ _ S)|].
        destruct ws as [|w2 ws]; [|exact IH]. exfalso. destruct (splitAt_inv 47 _ _ _ S) as [NI [[_ X]|(q & _ & X)]]; [|exact (splitAt_ne _ _ X)].
        apply NI. rewrite <- X. apply in_or_app. right. left. reflexivity.
Qed.
Lemma imports_read es is : Forall2 import_line es is -> forall have l q, NoDup (map fst (have ++ is)) -> line_says l [lit ")"] ->
  importLoop isUpper isLetter isNumber (es ++ l :: q) have = Ok (have ++ is, q).
Proof.
  intros H. induction H as [|e i es is L H IH]; intros have l q N LC.
  - cbn [app importLoop]. rewrite (line_eof l _ LC), (line_item l _ 0 _ LC eq_refl). cbn [bind]. rewrite beq_refl, (line_end l _ 1 LC eq_refl).
    cbn [bind]. rewrite app_nil_r. reflexivity.
  - assert (AD : forall n p, i = (n, p) -> addImport have n p = Ok (have ++ [(n, p)])).
    { intros n p ->. unfold addImport. replace (existsb _ have) with false; [reflexivity|]. symmetry. apply not_true_iff_false. intros X.
      apply existsb_exists in X. destruct X as (v & V1 & V2). apply bytes_eqb_eq in V2.
      rewrite map_app in N. cbn [map fst] in N. apply NoDup_remove_2 in N. apply N. apply in_or_app. left. rewrite <- V2. apply in_map. exact V1. }
    assert (GO : importLoop isUpper isLetter isNumber (es ++ l :: q) (have ++ [i]) = Ok (have ++ i :: is, q)).
    { rewrite (IH (have ++ [i]) l q); [rewrite <- app_assoc; reflexivity|rewrite <- app_assoc; exact N|exact LC]. }
    assert (QC : forall path, isComment (quoted path) = false) by reflexivity.
    cbn [app importLoop]. destruct L as [path n P L|path n m P PN L]; destruct (path_valid path n P) as [E1 E2].
    + rewrite (line_eof e _ L), (line_item e _ 0 _ L eq_refl). cbn [bind]. change (quoted path =b ")") with false. cbv iota.
      rewrite (line_words e _ L) by (repeat constructor). rewrite E1, E2, (AD n path eq_refl). exact GO.
    + rewrite (line_eof e _ L), (line_item e _ 0 _ L eq_refl). cbn [bind].
      assert (NB : (m =b ")") = false). { destruct PN as (c & r & -> & U & _). apply beq_neq. intros X. injection X as X _. revert U. rewrite X. nochar. }
      assert (NC : isComment m = false) by (apply word_comment, pname_no; [exact PN|nochar|lia]).
      rewrite NB, (line_words e _ L) by (repeat constructor; assumption). rewrite (pname_valid _ _ _ _ _ _ _ T m PN). cbn [bind].
      rewrite E1, (AD m path eq_refl). exact GO.
Qed.
Lemma import_read ls is q : import_text ls is -> parseImport isUpper isLetter isNumber (ls ++ q) = Ok (is, q).
Proof.
  intros (o & k & es & c & -> & K & LO & H & NE & N & LC). unfold parseImport. cbn [app next].
  rewrite (line_long o _ 3 LO) by (vm_compute; discriminate). cbn [ok_if bind].
  rewrite (line_item o _ 1 _ LO eq_refl). cbn [bind]. rewrite beq_refl. cbn [ok_if bind].
  rewrite (line_end o _ 2 LO eq_refl), (line_eof o _ LO). cbn [bind]. rewrite <- app_assoc. cbn [app].
  rewrite (imports_read es is H [] c q N LC). cbn [bind app]. destruct is; [contradiction|reflexivity].
Qed.

(** Options. *)
Notation spaces := (spaces isSpace).
Lemma drop_spaces b r q : spaces b -> lineSpace isSpace r = false -> dropSpaces isSpace (b ++ r :: q) = r :: q.
Proof.
  intros S N. induction S as [|c b [C1 C2] S IH]; cbn [app dropSpaces]; [rewrite N; reflexivity|].
  unfold lineSpace at 1. rewrite C1. replace (c =? 10) with false by (symmetry; apply Z.eqb_neq; exact C2). exact IH.
Qed.
Lemma print_space c : 33 <= c <= 126 -> isSpace c = false.
Proof. exact (at_print _ _ _ _ _ _ _ T c). Qed.
Lemma print_line c : 33 <= c <= 126 -> lineSpace isSpace c = false.
Proof. intros H. unfold lineSpace. rewrite (print_space c H). reflexivity. Qed.
Lemma take_word w b q : Forall (fun c => 33 <= c <= 126) w -> spaces b -> b <> [] -> takeWord isSpace (w ++ b ++ q) = (w, b ++ q).
Proof.
  intros W S NE. induction W as [|c w C W IH].
  - destruct b as [|x b]; [contradiction|]. inversion_clear S as [|? ? [X _] ?]. cbn [app takeWord]. rewrite X. reflexivity.
  - cbn [app takeWord]. rewrite (print_space c C), IH. reflexivity.
Qed.
Lemma space_char c : isSpace c = true -> c <> 91 /\ c <> 93 /\ c <> 40 /\ c <> 44.
Proof. intros S. repeat split; intros ->; rewrite print_space in S by lia; discriminate. Qed.
Notation optLoop := (optLoop isLetter isNumber isSpace).
Lemma opt_spaces b : spaces b -> forall fuel q o buff last lns, (length b < fuel)%nat ->
  isSpace last || (last =? 44) || (last =? 41) || (lns =? 91) = true ->
  exists last' fuel', optLoop fuel (b ++ q) o buff last lns = optLoop fuel' q o buff last' lns /\ (fuel' + length b = fuel)%nat.
Proof.
  intros S. induction S as [|c b [C1 C2] S IH]; intros fuel q o buff last lns L H; [exists last, fuel; split; [reflexivity|cbn; lia]|].
  destruct fuel as [|fuel]; [cbn in L; lia|]. cbn [length] in L. cbn [app Idl.optLoop].
  destruct (space_char c C1) as (N1 & N2 & N3 & N4).
  rewrite (proj2 (Z.eqb_neq c 91) N1), (proj2 (Z.eqb_neq c 93) N2), (proj2 (Z.eqb_neq c 40) N3), (proj2 (Z.eqb_neq c 44) N4), C1, H.
  destruct (IH fuel q o buff c lns) as (l' & f' & E & LE); [lia|rewrite C1; reflexivity|]. exists l', f'. rewrite E. split; [reflexivity|cbn [length]; lia].
Qed.
Lemma opt_letters w : Forall (fun c => upper_letter c \/ lower_letter c) w -> forall fuel q o buff last lns, (length w < fuel)%nat -> w <> [] ->
  exists last' lns' fuel', optLoop fuel (w ++ q) o buff last lns = optLoop fuel' q o (buff ++ w) last' lns' /\ (fuel' + length w = fuel)%nat.
Proof.
  intros W. induction W as [|c w C W IH]; intros fuel q o buff last lns L NE; [contradiction|].
  destruct fuel as [|fuel]; [cbn in L; lia|]. cbn [length] in L. cbn [app Idl.optLoop].
  assert (R : 65 <= c <= 122 /\ c <> 91 /\ c <> 93) by (unfold upper_letter, lower_letter in C; lia).
  rewrite (proj2 (Z.eqb_neq c 91)), (proj2 (Z.eqb_neq c 93)), (proj2 (Z.eqb_neq c 40)), (proj2 (Z.eqb_neq c 44)) by lia.
  rewrite (print_space c) by lia. rewrite (letter_ok _ _ _ _ _ _ _ T c) by (destruct C as [C|C]; [left|right; left]; exact C).
  destruct w as [|d w].
  - eexists _, _, fuel. split; [reflexivity|cbn; lia].
  - destruct (IH fuel q o (buff ++ [c]) c c) as (l' & n' & f' & E & LE); [lia|discriminate|]. exists l', n', f'.
    rewrite E, <- app_assoc. split; [reflexivity|cbn [length] in *; lia].
Qed.
Lemma args_read b : spaces b -> forall q lns, q <> [] -> parseArgs isLetter isNumber isSpace (b ++ 41 :: q) [] false [] lns = Ok ([], 41, q).
Proof.
  intros S. induction S as [|c b [C1 C2] S IH]; intros q lns NE; cbn [app parseArgs].
  - rewrite (print_space 41) by lia. destruct (at_close _ _ _ _ _ _ _ T) as [X Y]. rewrite X, Y. cbn [Z.eqb Pos.eqb orb]. destruct q; [contradiction|reflexivity].
  - rewrite C1. apply IH. exact NE.
Qed.
Lemma tail_read b tl : spaces b -> (tl = [] \/ starts [47; 47] tl) -> optTail isSpace (b ++ tl) = Ok tt.
Proof.
  intros S H. induction S as [|c b [C1 C2] S IH]; cbn [app optTail]; [|rewrite C1; exact IH].
  destruct H as [->|[q ->]]; [reflexivity|]. cbn [app optTail]. rewrite (print_space 47) by lia. reflexivity.
Qed.
Lemma upto_line rs : ~ In 10 rs -> upto [10] (rs ++ [10]) = rs.
Proof.
  induction rs as [|c rs IH]; intros N; [reflexivity|]. cbn [app upto hasPrefix].
  destruct (Z.eqb_spec 10 c) as [<-|]; [exfalso; apply N; left; reflexivity|]. cbn [andb]. f_equal. apply IH. intros I. apply N. right. exact I.
Qed.
Lemma options_read l : options_line isSpace l -> optionsParse isLetter isNumber isSpace l = Ok [mkOpt (lit "IsSet") []].
Proof.
  intros ((ws & SA) & rs & b0 & b1 & b2 & b3 & b4 & b5 & tl & RAW & SC & N10 & E & S0 & S1 & NE & S2 & S3 & S4 & S5 & TL).
  unfold optionsParse. rewrite (says_item l _ 0 _ SA eq_refl). cbn [bind]. rewrite beq_refl. cbn [ok_if bind].
  assert (RU : runes (l_raw l) = rs ++ [10]).
  { rewrite RAW. replace (utf8 rs ++ [10]) with (utf8 (rs ++ [10])) by (unfold utf8; rewrite flat_map_app; reflexivity).
    apply runes_utf8. apply Forall_app. split; [exact SC|]. constructor; [|constructor]. unfold scalar. lia. }
  rewrite RU. set (body := lit "[" ++ b2 ++ lit "IsSet(" ++ b3 ++ lit ")" ++ b4 ++ lit "]" ++ b5 ++ tl) in *.
  assert (D : dropSpaces isSpace (rs ++ [10]) = lit "options" ++ b1 ++ body ++ [10]).
  { rewrite E, <- !app_assoc. apply (drop_spaces b0 111); [exact S0|]. apply print_line. lia. }
  rewrite D, (take_word (lit "options") b1 (body ++ [10])); [|apply all_printable; reflexivity|exact S1|exact NE]. rewrite beq_refl. cbn [ok_if bind].
  assert (D1 : dropSpaces isSpace (b1 ++ body ++ [10]) = body ++ [10]).
  { unfold body. rewrite <- !app_assoc. apply (drop_spaces b1 91); [exact S1|]. apply print_line. lia. }
  rewrite D1, upto_line.
  2:{ intros I. apply N10. rewrite E. apply in_or_app. right. apply in_or_app. right. apply in_or_app. right. exact I. }
  change (hasPrefix [91] body) with true. cbn [ok_if bind].
  assert (LB : length body = (length b2 + length b3 + length b4 + length (b5 ++ tl) + 9)%nat).
  { unfold body. rewrite !app_length. cbn. lia. }
  rewrite LB. unfold body. clear D D1 RU E LB body. remember (length (b5 ++ tl)) as m eqn:M. clear M.
  change (lit "[" ++ b2 ++ lit "IsSet(" ++ b3 ++ lit ")" ++ b4 ++ lit "]" ++ b5 ++ tl) with (91 :: b2 ++ lit "IsSet" ++ 40 :: b3 ++ 41 :: b4 ++ 93 :: b5 ++ tl).
  change (optLoop (S (length b2 + length b3 + length b4 + m + 9)) (91 :: b2 ++ lit "IsSet" ++ 40 :: b3 ++ 41 :: b4 ++ 93 :: b5 ++ tl) [] [] 0 0) with
    (optLoop (length b2 + length b3 + length b4 + m + 9) (b2 ++ lit "IsSet" ++ 40 :: b3 ++ 41 :: b4 ++ 93 :: b5 ++ tl) [] [] 91 (if isSpace 91 then 0 else 91)).
  rewrite (print_space 91) by lia.
  destruct (opt_spaces b2 S2 (length b2 + length b3 + length b4 + m + 9)%nat (lit "IsSet" ++ 40 :: b3 ++ 41 :: b4 ++ 93 :: b5 ++ tl) [] [] 91 91) as (l1 & f1 & -> & L1);
    [lia|rewrite (print_space 91) by lia; reflexivity|].
  destruct (opt_letters (lit "IsSet")) with (fuel := f1) (q := 40 :: b3 ++ 41 :: b4 ++ 93 :: b5 ++ tl) (o := @nil option_) (buff := @nil Z) (last := l1) (lns := 91) as (l2 & n2 & f2 & E2 & L2);
    [apply all_letters; reflexivity|cbn; lia|discriminate|].
  rewrite E2. clear E2. cbn [app]. cbn [length lit list_ascii_of_string map] in L2. destruct f2 as [|f2]; [lia|]. cbn [Idl.optLoop].
  cbn [Z.eqb Pos.eqb]. change (lit "IsSet") with (73 :: lit "sSet") at 1. cbv iota.
  rewrite (args_read b3 S3) by (destruct b4; discriminate). cbn [bind].
  destruct (opt_spaces b4 S4 f2 (93 :: b5 ++ tl) ([] ++ [mkOpt (flat_map AppendRune (lit "IsSet")) []]) [] 41 41) as (l3 & f3 & E3 & L3); [lia|rewrite orb_true_r; reflexivity|].
  rewrite E3. destruct f3 as [|f3]; [lia|]. cbn [Idl.optLoop Z.eqb Pos.eqb app bind]. rewrite (tail_read b5 tl S5 TL). reflexivity.
Qed.
Lemma head_read pkg v o i hls v' o' i' : head_text isSpace v o i hls v' o' i' -> forall fuel q, (length (hls ++ q) < fuel)%nat ->
  exists fuel', findNext fuel (headFile pkg v o i) (hls ++ q) = findNext fuel' (headFile pkg v' o' i') q /\ (length q < fuel')%nat.
Proof.
  intros H. induction H as [v o i|cs ts l ls o i v' o' i' C L H IH|cs ts l ls v i v' o' i' C L H IH|cs ts im is ls v o v' o' i' C L H IH]; intros fuel q Q.
  - exists fuel. split; [reflexivity|exact Q].
  - destruct fuel as [|fuel]; [lia|]. rewrite !app_length in Q. cbn [length] in Q. destruct (IH fuel q) as (fuel' & E & LE); [rewrite app_length; lia|].
    exists fuel'. split; [|exact LE]. rewrite <- E, <- app_assoc. cbn [app Idl.findNext].
    rewrite (collect_comments cs ts l); [|exact C|exact (line_proper l _ _ L eq_refl)]. cbn [bind next].
    rewrite (line_item l _ 0 _ L eq_refl). cbn [bind]. rewrite (at_tolower _ _ _ _ _ _ _ T) by (apply all_letters; reflexivity).
    change (map lower_ascii (lit "version") =b "version") with true. cbn [headFile f_version]. cbn [Z.leb Z.compare].
    unfold parseVersion. cbn [next]. rewrite (line_long l _ 3 L) by (vm_compute; discriminate). cbn [ok_if bind].
    rewrite (line_item l _ 0 _ L eq_refl). cbn [bind]. rewrite beq_refl. cbn [ok_if bind]. rewrite (line_item l _ 1 _ L eq_refl). cbn [bind].
    rewrite (at_zero _ _ _ _ _ _ _ T), (line_end l _ 2 L eq_refl). reflexivity.
  - destruct fuel as [|fuel]; [lia|]. rewrite !app_length in Q. cbn [length] in Q. destruct (IH fuel q) as (fuel' & E & LE); [rewrite app_length; lia|].
    exists fuel'. split; [|exact LE]. rewrite <- E, <- app_assoc. cbn [app Idl.findNext]. pose proof L as ((ws & SA) & _).
    rewrite (collect_comments cs ts l); [|exact C|]. 2:{ split; [apply SA|]. eexists. split; [exact (says_item l _ 0 _ SA eq_refl)|reflexivity]. }
    cbn [bind next].
    rewrite (says_item l _ 0 _ SA eq_refl). cbn [bind]. rewrite (at_tolower _ _ _ _ _ _ _ T) by (apply all_letters; reflexivity).
    change (map lower_ascii (lit "options") =b "version") with false. change (map lower_ascii (lit "options") =b "options") with true.
    cbn [headFile f_options no_idents f_idents]. unfold parseOptions. cbn [next]. rewrite (options_read l L). reflexivity.
  - destruct fuel as [|fuel]; [lia|].
    assert (LI : (0 < length im)%nat) by (destruct L as (? & ? & ? & ? & -> & _); cbn; lia).
    rewrite !app_length in Q. destruct (IH fuel q) as (fuel' & E & LE); [rewrite app_length; lia|].
    exists fuel'. split; [|exact LE]. rewrite <- E, <- !app_assoc. cbn [Idl.findNext].
    pose proof L as (ol & k & es & cl & EQ & K & LO & _).
    assert (CC : collectComments (cs ++ im ++ ls ++ q) = Ok (ts, im ++ ls ++ q)).
    { rewrite EQ. cbn [app]. apply collect_comments; [exact C|]. exact (line_proper ol k _ LO (keyword_comment _ _ K)). }
    rewrite CC. cbn [bind]. replace (next (im ++ ls ++ q)) with (ol, tl (im ++ ls ++ q)) by (rewrite EQ; reflexivity).
    rewrite (line_item ol _ 0 _ LO eq_refl). cbn [bind]. rewrite (lower_lit _ _ _ _ _ _ _ T _ _ K).
    change (lit "import" =b "version") with false. change (lit "import" =b "options") with false. change (lit "import" =b "import") with true. cbv iota.
    cbn [headFile f_imports no_idents f_idents]. rewrite (import_read im is (ls ++ q) L). reflexivity.
Qed.
(** ** The file *)
Lemma decl_shape F ext ls d : decl_text F ext ls d -> tname (decl_name d) /\ forall e, d = DEnum e -> e_size e = 8 \/ e_size e = 16.
Proof.
  intros H. destruct H as [cs c l k n sz size ls vs cs' ts cl R K TN SZ|cs c l k n ls fds fds' cs' ts cl R K TN]; (split; [exact TN|]); intros e E; [|discriminate].
  injection E as <-. cbn [e_size]. destruct SZ as [SZ|[SZ|[]]]; injection SZ as _ <-; auto.
Qed.
Lemma decls_shape F ext ls ds : decls_text F ext ls ds -> Forall (fun d => tname (decl_name d)) ds /\ sizes_ok ds.
Proof.
  intros H. induction H as [|ls d ls' ds D H [IH1 IH2]]; [split; [constructor|intros e []]|]. destruct (decl_shape F ext ls d D) as [N S].
  split; [constructor; assumption|]. intros e [E|I]; [exact (S e E)|exact (IH2 e I)].
Qed.
Lemma text_read F ext ls : schema_text isSpace F ext ls ->
  (forall w g, ext w = Some g -> NoDup (map decl_name (f_idents g)) /\ sizes_ok (f_idents g)) ->
  exists f, parseFile isUpper isLower isLetter isNumber isSpace toLower toInt (ls ++ [eofLine]) = Ok f /\ read_as f ext F.
Proof.
  intros H Ext. destruct H as [cs ts l hls v o dls cs' ts' C PN LP HT VE OE DT U C'].
  destruct (decls_shape F ext dls _ DT) as [Names Sizes].
  unfold parseFile, parsePackage. rewrite <- app_assoc. cbn [app].
  rewrite (skip_comments cs ts l); [|exact C|exact (line_proper l _ _ LP eq_refl)]. cbn [bind next].
  rewrite (line_long l _ 3 LP) by (vm_compute; discriminate). cbn [ok_if bind]. rewrite (line_item l _ 0 _ LP eq_refl). cbn [bind].
  rewrite beq_refl. cbn [ok_if bind]. rewrite (line_item l _ 1 _ LP eq_refl). cbn [bind]. rewrite (pname_valid _ _ _ _ _ _ _ T _ PN). cbn [bind].
  rewrite (line_end l _ 2 LP eq_refl). cbn [bind]. rewrite <- !app_assoc.
  change (mkFile (f_package F) (-1) [] [] [] None) with (headFile (f_package F) false false None).
  destruct (head_read (f_package F) _ _ _ _ _ _ _ HT (S (length (hls ++ dls ++ cs' ++ [eofLine]))) (dls ++ cs' ++ [eofLine])) as (fuel & E & L); [lia|].
  rewrite E. clear E.
  destruct (decls_read F ext U Names Sizes Ext dls _ DT (headFile (f_package F) v o (f_imports F)) fuel [] (cs' ++ [eofLine])) as (fuel' & f' & E & L' & A & SH);
    [reflexivity|constructor|reflexivity|exact L|].
  rewrite E. clear E. destruct fuel' as [|fuel']; [lia|]. cbn [findNext]. rewrite (collect_end cs' ts' C'). cbn [bind next item eofLine l_items nth_error].
  rewrite (at_tolower _ _ _ _ _ _ _ T []) by constructor. cbn [map].
  change ([] =b "version") with false. change ([] =b "options") with false. change ([] =b "import") with false. change ([] =b "enum") with false.
  change ([] =b "struct") with false. change (l_eof eofLine) with true. cbn [bind]. unfold validate. destruct SH as (S1 & S2 & S3 & S4). cbn [headFile f_package f_version f_options f_imports] in *.
  rewrite <- S1, <- S2, <- S3. destruct (f_package F) as [|pc pq] eqn:PK; [destruct PN as (? & ? & X & _); discriminate|].
  assert (B : forallb (fun x => (o_name x =b "IsSet") && match o_args x with [] => true | _ :: _ => false end) (if o then [mkOpt (lit "IsSet") []] else []) = true) by (destruct o; reflexivity).
  rewrite B.
  assert (V : ((if v then 0 else -1) =? -1) || ((if v then 0 else -1) =? 0) = true) by (destruct v; reflexivity). rewrite V.
  eexists. split; [reflexivity|]. unfold read_as. cbn [f_package f_version f_options f_imports f_idents]. rewrite PK, VE, OE, <- S4. repeat split.
  set (g := mkFile _ _ _ _ _ _).
  assert (AG : Forall2 alike (f_idents g) (f_idents F)) by (cbn; clear - A; induction A; constructor; eauto using reads_alike).
  assert (IG : f_imports g = f_imports F) by reflexivity.
  assert (G : forall ds ds', Forall2 (reads_decl F ext) ds ds' -> Forall2 (same_decl g ext) ds ds'); [|exact (G _ _ A)].
  clearbody g. clear - AG IG. intros ds ds' A. induction A as [|d d' ds ds' R A IH]; constructor; [|exact IH].
  destruct d, d'; cbn in R |- *; try contradiction; [exact R|]. destruct R as (R1 & R2 & R3). repeat split; auto.
  clear - R3 AG IG. induction R3 as [|a b u w X R3 IH]; constructor; [exact (X g AG IG)|exact IH].
Qed.
End Tables.
