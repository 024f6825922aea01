(** C155: the descriptors of a generated package. *)
From Coq Require Import ZArith List Bool String Lia Permutation Sorted.
Import ListNotations.
From Verif.Model Require Import Base Utf8 Field Any ClawText Idl GoNames ReflectDescr.
From Verif.Spec Require Import Idl ReflectDescr.
From Verif.Proofs Require Import BaseLemmas IngestProofs IdlBase IdlText IdlSound GoNames VendorFind ReflectDescr.
From Verif.Properties Require Import Idl.
Local Open Scope Z_scope.

Section Any.
(** unicode.IsUpper, IsLower, IsLetter, IsNumber, IsSpace; strings.ToLower; Item.ToInt of the lexer: anything. *)
Variables isUpper isLower isLetter isNumber isSpace : Z -> bool.
Variable toLower : bytes -> bytes.
Variable toInt : bytes -> option Z.
Notation parse := (parseFile isUpper isLower isLetter isNumber isSpace toLower toInt).
(** An accepted schema and the descriptor of its package. *)
Variables (ls : list iline) (f : file) (p : pkgD).
Hypothesis parsed : parse ls = Ok f.
Hypothesis described : describe f = Ok p.

Lemma described_parts : exists gs, groupsOf (sortN e_name (enums f)) = Ok gs /\ p = mkP f.(f_package) (orNil gs) (orNil (sortN s_name (structs f))).
Proof. pose proof described as D. unfold describe in D. destruct (groupsOf _) as [gs| | |]; try discriminate. cbn [bind] in D. injection D as <-. eauto. Qed.
Lemma some_structs : structs f <> [] -> p.(p_structs) = Some (sortN s_name (structs f)).
Proof.
  intros N. destruct described_parts as (gs & _ & ->). cbn [p_structs]. unfold orNil. destruct (sortN s_name (structs f)) eqn:E; [|reflexivity].
  exfalso. apply N. apply Permutation_nil. rewrite <- E. apply sortN_perm.
Qed.
Lemma names_differ : NoDup (map decl_name f.(f_idents)).
Proof. exact (ok_names _ _ _ _ _ (parse_sound _ _ _ _ _ _ _ _ _ parsed)). Qed.

(** Structs of the package are found by their names, and only those. *)
Theorem C155_structs n : structs f <> [] -> exists r, StructsByName p n = Ok r /\ finds (structs f) (fun s => s.(s_name) = n) r.
Proof.
  intros N. unfold StructsByName. rewrite (some_structs N). cbn [on]. eexists. split; [reflexivity|].
  eapply finds_perm; [apply sortN_perm|]. apply find_unique.
  - eapply Permutation_NoDup; [apply Permutation_map; symmetry; apply sortN_perm|]. apply (decl_names f names_differ).
  - intros s. apply same_iff.
Qed.
(** By number they come in the order of their names, each once. *)
Theorem C155_structs_listed : structs f <> [] -> exists l, Permutation l (structs f) /\ StronglySorted (fun a b => name_le a.(s_name) b.(s_name)) l /\
  (forall i s, nth_error l i = Some s -> StructsGet p (Z.of_nat i) = Ok s) /\ (forall i, i < 0 \/ len l <= i -> StructsGet p i = Panic).
Proof.
  intros N. exists (sortN s_name (structs f)). split; [apply sortN_perm|]. split; [apply sortN_sorted|]. unfold StructsGet. rewrite (some_structs N). cbn [on]. split.
  - intros i s E. apply at_ok; [lia|]. rewrite Nat2Z.id. exact E.
  - intros i. apply at_panic.
Qed.
(** The fields of a struct by number: the number of the field. *)
Theorem C155_field_number s : In s (structs f) ->
  (forall fd, In fd s.(s_fields) -> FieldDescrByIndex s fd.(fd_index) = Ok fd) /\ (forall i, i < 0 \/ len s.(s_fields) <= i -> FieldDescrByIndex s i = Panic).
Proof.
  intros I. split; [|intros i; apply at_panic]. apply in_structs in I. apply in_split in I. destruct I as (b & a & I).
  destruct (ok_structs _ _ _ _ _ (parse_sound _ _ _ _ _ _ _ _ _ parsed) _ _ _ I) as (_ & _ & X & _). intros fd J. apply In_nth_error in J. destruct J as [i J].
  assert (L : (i < length (s_fields s))%nat) by (apply nth_error_Some; congruence).
  assert (E : fd_index fd = Z.of_nat i).
  { apply (f_equal (fun l => nth_error l i)) in X. rewrite !nth_error_map, J in X. cbn [option_map] in X.
    rewrite (nth_error_nth' (seq 0 (length (s_fields s))) 0%nat) in X by (rewrite seq_length; exact L). rewrite seq_nth in X by exact L. cbn [option_map] in X. injection X as ->. reflexivity. }
  unfold FieldDescrByIndex. rewrite E. apply at_ok; [lia|]. rewrite Nat2Z.id. exact J.
Qed.
(** By name: where the first byte of the name is not that of a lower case letter. *)
Theorem C155_field_name s b n : In s (structs f) -> NoDup (map fd_name s.(s_fields)) -> isLower b = false ->
  exists r, FieldDescrByName isLower s (b :: n) = Ok r /\ finds s.(s_fields) (fun fd => fd.(fd_name) = b :: n) r.
Proof.
  intros I N L. unfold FieldDescrByName. rewrite L. eexists. split; [reflexivity|]. apply find_unique; [exact N|]. intros fd. apply same_iff.
Qed.
(** No name at all and names with such a first byte panic, as the method says of lower case names. *)
Theorem C155_field_name_panics s n : (n = [] \/ exists b q, n = b :: q /\ isLower b = true) -> FieldDescrByName isLower s n = Panic.
Proof. intros [->|(b & q & -> & L)]; [reflexivity|]. unfold FieldDescrByName. rewrite L. reflexivity. Qed.
(** So every field whose name begins with an ASCII letter is found. *)
Theorem C155_ascii_field_partial s fd : In s (structs f) -> NoDup (map fd_name s.(s_fields)) -> In fd s.(s_fields) -> 0 <= hd 0 fd.(fd_name) < 128 ->
  FieldDescrByName isLower s fd.(fd_name) = Ok (Some fd).
Proof.
  intros I N J A. pose proof I as I0. apply in_structs in I. apply in_split in I. destruct I as (before & a & I).
  destruct (ok_structs _ _ _ _ _ (parse_sound _ _ _ _ _ _ _ _ _ parsed) _ _ _ I) as (_ & _ & _ & F). rewrite Forall_forall in F. destruct (F fd J) as [(r & q & R & _ & L & _) _].
  destruct (fd_name fd) as [|b n] eqn:E; [discriminate R|]. cbn [hd] in A.
  assert (RB : r = b).
  { unfold runes in R. cbn [length range_fuel] in R. unfold DecodeRune in R. destruct (Z.ltb_spec b 0x80); [|lia]. injection R as <- _. reflexivity. }
  subst r. destruct (C155_field_name s b n I0 N L) as (o & -> & W). destruct o as [x|].
  - destruct W as (_ & _ & U). rewrite (U fd J E). reflexivity.
  - exfalso. exact (W fd J E).
Qed.
Lemma some_enums : enums f <> [] -> exists gs, groupsOf (sortN e_name (enums f)) = Ok gs /\ p.(p_enums) = Some gs.
Proof.
  intros N. destruct described_parts as (gs & G & ->). exists gs. split; [exact G|]. cbn [p_enums]. unfold orNil. destruct gs; [|reflexivity].
  exfalso. apply groups_ok in G. inversion G as [E|]. apply N. apply Permutation_nil. rewrite E. apply sortN_perm.
Qed.
(** By number enums come in the order of their names, each once. *)
Theorem C155_enums_listed : enums f <> [] -> exists l, Permutation l (enums f) /\ StronglySorted (fun a b => name_le a.(e_name) b.(e_name)) l /\
  (forall i e, nth_error l i = Some e -> exists g, EnumsGet p (Z.of_nat i) = Ok g /\ g.(g_name) = e.(e_name) /\ EnumsByName p e.(e_name) = Ok (Some g)) /\
  (forall i, i < 0 \/ len l <= i -> EnumsGet p i = Panic).
Proof.
  intros N. destruct (some_enums N) as (gs & G & E). exists (sortN e_name (enums f)). split; [apply sortN_perm|]. split; [apply sortN_sorted|].
  unfold EnumsGet, EnumsByName. rewrite E. cbn [on]. apply groups_ok in G.
  assert (ND : NoDup (map e_name (sortN e_name (enums f)))) by (eapply Permutation_NoDup; [apply Permutation_map; symmetry; apply sortN_perm|]; apply (decl_names f names_differ)).
  split.
  - revert ND G. generalize (sortN e_name (enums f)). intros l ND G i e K.
    assert (X : exists g, nth_error gs i = Some g /\ g.(g_name) = e.(e_name)).
    { clear - G K. revert i K. induction G as [|e' g' es gs X G IH]; intros [|i] K; try discriminate; [|exact (IH i K)]. injection K as ->. exists g'. split; [reflexivity|apply X]. }
    destruct X as (g & X & Y). exists g. split; [apply at_ok; [lia|]; rewrite Nat2Z.id; exact X|]. split; [exact Y|]. f_equal.
    assert (NG : NoDup (map g_name gs)).
    { replace (map g_name gs) with (map e_name l); [exact ND|]. clear - G. induction G as [|e' g' es gs X G IH]; [reflexivity|]. cbn [map]. rewrite IH. f_equal. symmetry. apply X. }
    pose proof (find_unique g_name gs (fun g => bytes_eqb g.(g_name) e.(e_name)) e.(e_name) NG (fun a => same_iff _ _)) as W. destruct (find _ gs) as [h|].
    + destruct W as (_ & _ & U). rewrite (U g); [reflexivity|eapply nth_error_In; exact X|exact Y].
    + exfalso. apply (W g); [eapply nth_error_In; exact X|exact Y].
  - intros i H. apply at_panic. unfold len in *. replace (length gs) with (length (sortN e_name (enums f))); [exact H|]. clear - G. induction G; cbn [length]; congruence.
Qed.
(** Where there are none all lookups panic. *)
Theorem C155_none n i : (enums f = [] -> EnumsByName p n = Panic /\ EnumsGet p i = Panic) /\ (structs f = [] -> StructsByName p n = Panic /\ StructsGet p i = Panic).
Proof.
  destruct described_parts as (gs & G & ->). split; intros N; rewrite N in *; cbn [sortN fold_right groupsOf] in *; [injection G as <-|]; split; reflexivity.
Qed.
(** Enums are found by their names, with as many values and bits as declared; a value is found by its name and by its
    number, which is also its place. *)
Theorem C155_enums n : enums f <> [] -> exists r, EnumsByName p n = Ok r /\
  match r with
  | None => forall e, In e (enums f) -> e.(e_name) <> n
  | Some g => exists e, In e (enums f) /\ e.(e_name) = n /\ g.(g_name) = n /\ g.(g_size) = e.(e_size) /\ g.(g_len) = len e.(e_vals) /\
    (forall m, finds e.(e_vals) (fun v => v.(ev_name) = m) (GroupByName g m)) /\
    (forall i, finds e.(e_vals) (fun v => v.(ev_value) = i) (GroupByValue g i)) /\
    (forall v, In v e.(e_vals) -> GroupGet g v.(ev_value) = Ok v) /\ (forall i, i < 0 \/ g.(g_len) <= i -> GroupGet g i = Panic)
  end.
Proof.
  intros N. destruct (some_enums N) as (gs & G & E). unfold EnumsByName. rewrite E. cbn [on]. eexists. split; [reflexivity|].
  apply groups_ok in G. destruct (find _ gs) as [g|] eqn:F.
  - apply find_some in F. destruct F as [I F]. apply same_iff in F.
    assert (X : exists e, In e (sortN e_name (enums f)) /\ OrderByValues e = Ok g.(g_vals) /\ g.(g_name) = e.(e_name) /\ g.(g_len) = len e.(e_vals) /\ g.(g_size) = e.(e_size)).
    { clear - G I. induction G as [|e g' es gs X G IH]; [destruct I|]. destruct I as [->|I]; [exists e; split; [left; reflexivity|exact X]|]. destruct (IH I) as (e' & J & Y). exists e'. split; [right; exact J|exact Y]. }
    destruct X as (e & J & O & A & B & C). assert (J' : In e (enums f)) by (eapply Permutation_in; [apply sortN_perm|exact J]).
    pose proof (proj1 (in_enums f e) J') as JD. destruct (C93_order _ _ _ _ _ _ _ ls f e parsed JD) as [_ Q]. destruct (Q _ O) as [P V]. clear Q.
    destruct (ok_enums _ _ _ _ _ (parse_sound _ _ _ _ _ _ _ _ _ parsed) _ JD) as (_ & _ & _ & _ & NN & NV).
    exists e. split; [exact J'|]. split; [congruence|]. split; [exact F|]. split; [exact C|]. split; [exact B|]. split; [|split; [|split]].
    + intros m. eapply finds_perm; [exact P|]. apply find_unique; [eapply Permutation_NoDup; [apply Permutation_map; symmetry; exact P|exact NN]|]. intros v. apply same_iff.
    + intros i. eapply finds_perm; [exact P|]. apply find_unique; [eapply Permutation_NoDup; [apply Permutation_map; symmetry; exact P|exact NV]|]. intros v. apply Z.eqb_eq.
    + intros v K. apply (Permutation_in _ (Permutation_sym P)) in K. apply In_nth_error in K. destruct K as [i K].
      assert (L : (i < length (e_vals e))%nat) by (rewrite <- (Permutation_length P); apply nth_error_Some; congruence).
      apply (f_equal (fun l => nth_error l i)) in V. rewrite !nth_error_map, K in V. cbn [option_map] in V.
      rewrite (nth_error_nth' (seq 0 (length (e_vals e))) 0%nat) in V by (rewrite seq_length; exact L). rewrite seq_nth in V by exact L. cbn [option_map] in V. injection V as V.
      unfold GroupGet. rewrite V. apply at_ok; [lia|]. cbn [plus]. rewrite Nat2Z.id. exact K.
    + intros i H. apply at_panic. unfold len in *. rewrite (Permutation_length P), B in *. exact H.
  - intros e I W. assert (J : In e (sortN e_name (enums f))) by (eapply Permutation_in; [symmetry; apply sortN_perm|exact I]).
    assert (X : exists g, In g gs /\ g.(g_name) = e.(e_name)).
    { clear - G J. induction G as [|e' g' es gs X G IH]; [destruct J|]. destruct J as [->|J]; [exists g'; split; [left; reflexivity|apply X]|]. destruct (IH J) as (g & K & Y). exists g. split; [right; exact K|exact Y]. }
    destruct X as (g & K & Y). pose proof (find_none _ _ F g K) as Z0. cbn beta in Z0. rewrite Y, W in Z0. rewrite (proj2 (same_iff n n) eq_refl) in Z0. discriminate.
Qed.
End Any.

(** There is a descriptor exactly if the numbers of each enum have no gap (C93). *)
Theorem C155_described f : (exists p, describe f = Ok p) <-> forall e, In e (enums f) -> exists l, OrderByValues e = Ok l.
Proof.
  unfold describe. split.
  - intros [p H]. destruct (groupsOf _) as [gs| | |] eqn:G; try discriminate. intros e I. apply (proj1 (groups_iff _) (ex_intro _ gs G)). eapply Permutation_in; [symmetry; apply sortN_perm|exact I].
  - intros H. destruct (proj2 (groups_iff (sortN e_name (enums f)))) as [gs ->]; [|cbn [bind]; eauto]. intros e I. apply H. eapply Permutation_in; [apply sortN_perm|exact I].
Qed.

(** ** Cases *)
Definition car_descr : pkgD := Eval vm_compute in match describe car_file with Ok p => p | _ => mkP [] None None end.
Example car_described : describe car_file = Ok car_descr /\ structs car_file <> [] /\ enums car_file <> [] /\
  (exists s, StructsByName car_descr (lit "Car") = Ok (Some s) /\ NoDup (map fd_name s.(s_fields)) /\ exists fd, In fd s.(s_fields) /\ 0 <= hd 0 fd.(fd_name) < 128) /\
  (exists g v, EnumsByName car_descr (lit "Maker") = Ok (Some g) /\ GroupByName g (lit "Tesla") = Some v /\ GroupByValue g 1 = Some v).
Proof.
  split; [vm_compute; reflexivity|]. split; [discriminate|]. split; [discriminate|]. split.
  - eexists. split; [vm_compute; reflexivity|]. split; [cbn; repeat (constructor; [intros H; repeat (destruct H as [H|H]; [discriminate|]); destruct H|]); constructor|].
    eexists. split; [left; reflexivity|]. cbn. lia.
  - eexists _, _. split; [vm_compute; reflexivity|]. split; vm_compute; reflexivity.
Qed.
(** Greek capital letters with accents, U+1F08 to U+1F0F, are upper case letters of three bytes, of which the first, 0xE1, is
    a lower case letter of its own as a rune. *)
Definition up2 (c : Z) : bool := up c || ((0x1F08 <=? c) && (c <=? 0x1F0F)).
Definition low2 (c : Z) : bool := low c || (c =? 0xE1).
Definition greek : list iline := [ln "package p"; ln "struct S {"; mkL [[0xE1; 0xBC; 0x88]; lit "bool"; lit "@0"; [10]] false []; ln "}"; eofLine].
Theorem C155_field_name_refuted : exists f p s fd, parseFile up2 low2 (fun c => up2 c || low2 c) num spc lower parseInt greek = Ok f /\ describe f = Ok p /\
  StructsByName p (lit "S") = Ok (Some s) /\ NoDup (map fd_name s.(s_fields)) /\ In fd s.(s_fields) /\ FieldDescrByName low2 s fd.(fd_name) = Panic.
Proof.
  eexists _, _, _, _. split; [vm_compute; reflexivity|]. split; [vm_compute; reflexivity|]. split; [vm_compute; reflexivity|].
  split; [cbn; constructor; [intros []|constructor]|]. split; [left; reflexivity|]. vm_compute. reflexivity.
Qed.
(** In a package without enums the lookup of one does not give nil. *)
Theorem C155_no_enums_refuted : exists f p, ascii_parse (text twice) = Ok f /\ describe f = Ok p /\ forall n, EnumsByName p n = Panic.
Proof. eexists _, _. split; [vm_compute; reflexivity|]. split; [vm_compute; reflexivity|]. intros n. reflexivity. Qed.

Print Assumptions C155_structs.
Print Assumptions C155_structs_listed.
Print Assumptions C155_field_number.
Print Assumptions C155_field_name.
Print Assumptions C155_ascii_field_partial.
Print Assumptions C155_enums.
Print Assumptions C155_enums_listed.
Print Assumptions C155_none.
Print Assumptions C155_field_name_panics.
Print Assumptions C155_described.
Print Assumptions C155_field_name_refuted.
Print Assumptions C155_no_enums_refuted.
