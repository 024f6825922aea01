(** C141, C142, C143: the tables of the fields of Structs. *)
From Coq Require Import ZArith List Bool String Lia Relations.
Import ListNotations.
From Verif.Model Require Import Base Utf8 Field Any ClawText Idl Mapping.
From Verif.Spec Require Import Idl Mapping.
From Verif.Proofs Require Import IdlSound Mapping.
From Verif.Properties Require Idl.
Local Open Scope Z_scope.

(** ** C141 *)
(** Init ends, however the tables refer to each other, and prepares exactly the tables that can be reached, each
    once; those that were prepared before are left alone. *)
Theorem C141_init h m s fuel : in_memory h -> closed h s -> (m < length h)%nat -> (length h < fuel)%nat ->
  exists s' new, Init fuel h m s = Ok s' /\ s'.(m_log) = new ++ s.(m_log) /\ NoDup new /\ closed h s' /\
  (forall x, s'.(m_init) x = true <-> s.(m_init) x = true \/ reached h m x) /\
  (forall x, In x new <-> reached h m x /\ s.(m_init) x = false).
Proof. apply init_spec. Qed.
(** A program starts: the packages run their init functions one after the other.  At the end every table of
    every package, and everything below, was prepared exactly once, and nothing else. *)
Theorem C141_program h ms fuel : in_memory h -> Forall (fun m => (m < length h)%nat) ms -> (length h < fuel)%nat ->
  exists s, initPackage fuel h ms fresh = Ok s /\ NoDup s.(m_log) /\
  (forall x, In x s.(m_log) <-> exists m, In m ms /\ reached h m x) /\
  (forall x, In x s.(m_log) <-> s.(m_init) x = true).
Proof.
  intros W L F. destruct (package_gen h ms W L fresh fuel (closed_fresh h) F) as (s & new & R & E & N & C & I & J).
  cbn in E. rewrite app_nil_r in E. exists s. rewrite E. split; [exact R|]. split; [exact N|].
  assert (K : forall x, In x new <-> m_init s x = true) by (intros x; rewrite J; cbn; intuition).
  split; [|exact K]. intros x. rewrite K, I. cbn. intuition discriminate.
Qed.
(** In what order the packages come makes no difference to what is prepared. *)
Theorem C141_order h ms ms' fuel : in_memory h -> Forall (fun m => (m < length h)%nat) ms -> (length h < fuel)%nat ->
  (forall m, In m ms <-> In m ms') ->
  exists s s', initPackage fuel h ms fresh = Ok s /\ initPackage fuel h ms' fresh = Ok s' /\ forall x, s.(m_init) x = s'.(m_init) x.
Proof.
  intros W L F E. assert (L' : Forall (fun m => (m < length h)%nat) ms') by (rewrite Forall_forall in *; intros x I; apply L, E, I).
  destruct (C141_program h ms fuel W L F) as (s & R & _ & A & B). destruct (C141_program h ms' fuel W L' F) as (s' & R' & _ & A' & B').
  exists s, s'. split; [exact R|]. split; [exact R'|]. intros x. apply Bool.eq_iff_eq_true. rewrite <- B, <- B', A, A'.
  split; intros (m & I & K); exists m; (split; [apply E; exact I|exact K]).
Qed.
(** A second call does nothing. *)
Theorem C141_again h m s fuel : s.(m_init) m = true -> Init (S fuel) h m s = Ok s.
Proof. intros E. cbn [Init]. rewrite E. reflexivity. Qed.

(** ** C142 *)
(** Validate accepts exactly the tables in which every field below is described in full and no Struct holds itself;
    it reports what is missing in the others, if no Struct holds itself. *)
Theorem C142_validate_partial h m n : in_memory h -> (m < length h)%nat -> (length h < n)%nat ->
  (validateMap n h m = Ok tt <-> all_described h m /\ no_recursion h m) /\
  (no_recursion h m -> ~ all_described h m -> validateMap n h m = Err).
Proof. intros W L B. destruct (validate_spec h m n W L B) as (A1 & A2 & _). auto. Qed.
(** With a Struct that holds itself and nothing missing, Validate never returns: the stack overflows. *)
Theorem C142_recursive h m : in_memory h -> (m < length h)%nat -> all_described h m -> ~ no_recursion h m -> forall n, validateMap n h m = Hang.
Proof. intros W L D R. destruct (validate_spec h m (S (length h)) W L) as (_ & _ & A); [lia|]. auto. Qed.
(** MustValidate panics exactly for what Validate reports, and never takes a bad table. *)
Theorem C142_must h m n : in_memory h -> (m < length h)%nat -> (length h < n)%nat ->
  (mustValidate n h m = Ok tt <-> all_described h m /\ no_recursion h m) /\
  (no_recursion h m -> ~ all_described h m -> mustValidate n h m = Panic) /\
  mustValidate n h m <> Err.
Proof.
  intros W L B. destruct (C142_validate_partial h m n W L B) as (A & E). rewrite <- A. unfold mustValidate.
  split; [destruct (validateMap n h m) as [[]| | |]; split; congruence|].
  split; [intros R D; rewrite (E R D); reflexivity|destruct (validateMap n h m) as [[]| | |]; discriminate].
Qed.
(** ByName gives the first field of the name and panics if there is none. *)
Theorem C142_byName fs n : (forall d, byName fs n = Ok d <-> exists a b, fs = a ++ d :: b /\ d.(d_name) = n /\ forall x, In x a -> x.(d_name) <> n) /\
  (byName fs n = Panic <-> ~ In n (map d_name fs)).
Proof. split; [intros d; apply byName_spec|apply byName_panic]. Qed.

(** ** C143 *)
Section Any.
(** unicode.IsUpper, IsLower, IsLetter, IsNumber, IsSpace; strings.ToLower; Item.ToInt of the lexer; a dot is neither a
    letter nor a number. *)
Variables isUpper isLower isLetter isNumber isSpace : Z -> bool.
Variable toLower : bytes -> bytes.
Variable toInt : bytes -> option Z.
Notation parse := (parseFile isUpper isLower isLetter isNumber isSpace toLower toInt).

(** The code that is generated for an accepted schema can be initialized if and only if no struct of it holds itself, as a
    field, in a list, as the value of a map or through other structs of the file. *)
Theorem C143_exact ls f ext : isLetter 46 = false -> isNumber 46 = false -> parse ls = Ok f ->
  (go_accepts f ext <-> forall s, ~ clos_trans_1n struct (mentions f) s s).
Proof. intros D1 D2 P. apply parse_sound in P. apply (accepts_iff isUpper isLower isLetter isNumber D1 D2 f ext P). Qed.
(** It can if every struct uses only structs declared above it. *)
Theorem C143_ordered_partial ls f ext : isLetter 46 = false -> isNumber 46 = false -> parse ls = Ok f ->
  (forall s t, mentions f s t -> above f t s) -> go_accepts f ext.
Proof. intros D1 D2 P. apply parse_sound in P. apply (ordered_accepts isUpper isLower isLetter isNumber D1 D2 f ext P). Qed.
(** It never can if a struct has a field of its own type, which clawc takes and marks as such. *)
Theorem C143_self ls f ext s fd : isLetter 46 = false -> isNumber 46 = false -> parse ls = Ok f ->
  In (DStruct s) f.(f_idents) -> In fd s.(s_fields) -> fd.(fd_ident) = s.(s_name) -> ~ go_accepts f ext.
Proof.
  intros D1 D2 P I J E G. rewrite (C143_exact ls f ext D1 D2 P) in G. apply (G s). constructor. split; [exact I|]. split; [exact I|].
  exists fd. auto.
Qed.
End Any.

(** ** Cases *)
(** A person with parents and a home; the home has a map of its residents. *)
Definition plain (n : string) : descr := mkD (lit n) FTString None false 0 0 None.
Definition person : list descr := [plain "Name"; mkD (lit "Parents") FTListStructs (Some 0%nat) false 0 0 None; mkD (lit "Home") FTStruct (Some 1%nat) false 0 0 None].
Definition home : list descr := [plain "Street"; mkD (lit "Residents") FTMap None true FTString FTStruct (Some 0%nat)].
Definition other : list descr := [plain "Word"].
Definition town : heap := [person; home; other].
Example town_memory : in_memory town.
Proof.
  intros m c (fs & f & F & I & K). destruct m as [|[|[|m]]]; cbn in F; [injection F as <-|injection F as <-|injection F as <-|destruct m; discriminate];
    cbn in I; repeat (destruct I as [<-|I]; [cbn in K; destruct K as [K|K]; first [discriminate|injection K as <-; cbn; lia]|]); destruct I.
Qed.
Example C141_case : exists s, initPackage 4 town [1; 0]%nat fresh = Ok s /\ s.(m_log) = [0; 1]%nat /\ s.(m_init) 2%nat = false /\
  closed town fresh /\ Forall (fun m => (m < length town)%nat) [1; 0]%nat.
Proof. eexists. split; [vm_compute; reflexivity|]. split; [reflexivity|]. split; [reflexivity|]. split; [apply closed_fresh|]. repeat constructor. Qed.
(** Without the recursion. *)
Definition house : heap := [other; [plain "Street"; mkD (lit "Rooms") FTListStructs (Some 0%nat) false 0 0 None; mkD (lit "Doors") FTMap None true FTUint8 FTStruct (Some 0%nat)];
  [mkD (lit "Bad") FTMap None true FTBytes FTString None]; [mkD (lit "Worse") FTStruct None false 0 0 None]].
Example house_memory : in_memory house.
Proof.
  intros m c (fs & f & F & I & K). destruct m as [|[|[|[|m]]]]; cbn in F; [injection F as <-|injection F as <-|injection F as <-|injection F as <-|destruct m; discriminate];
    cbn in I; repeat (destruct I as [<-|I]; [cbn in K; destruct K as [K|K]; first [discriminate|injection K as <-; cbn; lia]|]); destruct I.
Qed.
Example C142_case : validateMap 5 house 1 = Ok tt /\ all_described house 1 /\ no_recursion house 1 /\
  validateMap 5 house 2 = Err /\ validateMap 5 house 3 = Err /\ mustValidate 5 house 3 = Panic.
Proof.
  assert (V : validateMap 5 house 1 = Ok tt) by reflexivity. split; [exact V|].
  assert (A := proj1 (proj1 (C142_validate_partial house 1 5 house_memory ltac:(cbn; lia) ltac:(cbn; lia))) V).
  split; [apply A|]. split; [apply A|]. repeat split.
Qed.
Example C142_case_name : exists d, byName person (lit "Home") = Ok d /\ d.(d_mapping) = Some 1%nat /\ byName person (lit "Age") = Panic.
Proof. eexists. split; [reflexivity|]. split; reflexivity. Qed.
(** Not every table that makes sense is accepted: a person who has parents, or a list of Structs of the own type in the
    form in which the documentation of FieldDescr has it, without a Mapping. *)
Theorem C142_validate_refuted : in_memory town /\ all_described town 0 /\ forall n, validateMap n town 0 = Hang.
Proof.
  assert (D : all_described town 0).
  { intros c fs f R F I. clear R.
    assert (J : In f (person ++ home ++ other)).
    { destruct c as [|[|[|c]]]; cbn [town nth_error] in F; [injection F as <-|injection F as <-|injection F as <-|destruct c; discriminate];
        rewrite !in_app_iff; auto. }
    clear c fs F I. cbn in J. repeat (destruct J as [J|J]; [subst f; split; cbn|]); [..|destruct J].
    all: try (intros [K|K]; discriminate). all: intros K; try discriminate.
    split; [reflexivity|]. split; [vm_compute; tauto|intros _; discriminate]. }
  split; [exact town_memory|]. split; [exact D|]. apply C142_recursive; [exact town_memory|cbn; lia|exact D|].
  intros N. apply (N 0%nat); [constructor|]. constructor. eexists _, _. split; [reflexivity|]. split; [right; left; reflexivity|]. left. split; [right; reflexivity|reflexivity].
Qed.
Theorem C142_own_type_refuted : forall n, (0 < n)%nat -> validateMap n [[mkD (lit "Next") FTStruct None false 0 0 None]] 0 = Err.
Proof. intros [|n] L; [lia|]. reflexivity. Qed.

(** Schemas. *)
Definition letter (c : Z) : bool := (Idl.up c || Idl.low c).
Definition good : list string := ["package p"; "struct Leaf {"; "  N string @0"; "}"; "struct Twig {"; "  Leaves []Leaf @0"; "  Named map[string]Leaf @1"; "}"]%string.
Example C143_case : exists f leaf twig, Idl.ascii_parse (Idl.text good) = Ok f /\ f.(f_idents) = [DStruct leaf; DStruct twig] /\
  mentions f twig leaf /\ (forall s t, mentions f s t -> above f t s) /\ letter 46 = false /\ Idl.num 46 = false.
Proof.
  eexists _, _, _. split; [vm_compute; reflexivity|]. split; [cbn [f_idents]; reflexivity|]. split.
  - split; [right; left; reflexivity|]. split; [left; reflexivity|]. eexists. split; [left; reflexivity|]. left. reflexivity.
  - split; [|split; reflexivity]. intros s t (Is & It & fd & Ifd & K). cbn in Is, It.
    destruct It as [It|[It|[]]]; injection It as <-.
    + destruct Is as [Is|[Is|[]]]; injection Is as <-.
      * cbn in Ifd. destruct Ifd as [<-|[]]. destruct K as [K|(k & v & n & K)]; discriminate.
      * exists [], [], []. reflexivity.
    + destruct Is as [Is|[Is|[]]]; injection Is as <-; cbn in Ifd.
      * destruct Ifd as [<-|[]]. destruct K as [K|(k & v & n & K)]; discriminate.
      * destruct Ifd as [<-|[<-|[]]]; destruct K as [K|(k & v & n & K)]; discriminate.
Qed.
(** clawc takes a list node; the Go compiler does not take what it makes of it.  Nor for two structs that use each other. *)
Definition node : list string := ["package p"; "struct Node {"; "  Next Node @0"; "}"]%string.
Definition pair_ : list string := ["package p"; "struct Egg {"; "  Of Hen @0"; "}"; "struct Hen {"; "  Eggs []Egg @0"; "}"]%string.
Theorem C143_refuted : (exists f, Idl.ascii_parse (Idl.text node) = Ok f /\ forall ext, ~ go_accepts f ext) /\
  (exists f, Idl.ascii_parse (Idl.text pair_) = Ok f /\ forall ext, ~ go_accepts f ext).
Proof.
  split.
  - eexists. split; [vm_compute; reflexivity|]. intros ext G. eapply G. constructor. split; [left; reflexivity|]. split; [left; reflexivity|].
    eexists _, _. split; [left; reflexivity|]. split; [reflexivity|]. left. reflexivity.
  - eexists. split; [vm_compute; reflexivity|]. intros ext G. eapply G. eapply Relation_Operators.t1n_trans.
    + split; [left; reflexivity|]. split; [right; left; reflexivity|]. eexists _, _. split; [left; reflexivity|]. split; [vm_compute; reflexivity|]. left. reflexivity.
    + constructor. split; [right; left; reflexivity|]. split; [left; reflexivity|]. eexists _, _. split; [left; reflexivity|]. split; [vm_compute; reflexivity|]. left. reflexivity.
Qed.

Print Assumptions C141_init.
Print Assumptions C141_program.
Print Assumptions C141_order.
Print Assumptions C141_again.
Print Assumptions C142_validate_partial.
Print Assumptions C142_recursive.
Print Assumptions C142_must.
Print Assumptions C142_byName.
Print Assumptions C142_validate_refuted.
Print Assumptions C142_own_type_refuted.
Print Assumptions C143_exact.
Print Assumptions C143_ordered_partial.
Print Assumptions C143_self.
Print Assumptions C143_refuted.
