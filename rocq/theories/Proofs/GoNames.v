From Coq Require Import String Permutation ZArith List Bool Lia.
Import ListNotations.
From Verif.Model Require Import Base Utf8 Field Any Idl GoNames.
From Verif.Spec Require Import Idl GoNames.
From Verif.Proofs Require Mapping.
Local Open Scope Z_scope.

Definition eqb_eq := Mapping.Any_eqb.

(** ** Prefixes and suffixes *)
Fixpoint strip (p n : bytes) : option bytes :=
  match p, n with
  | [], _ => Some n
  | a :: p, b :: n => if a =? b then strip p n else None
  | _ :: _, [] => None
  end.
Lemma strip_iff p : forall n r, strip p n = Some r <-> n = p ++ r.
Proof.
  induction p as [|a p IH]; intros n r; cbn; [split; [intros [= ->]|intros ->]; reflexivity|].
  destruct n as [|b n]; [split; discriminate|]. destruct (Z.eqb_spec a b) as [->|N].
  - rewrite IH. split; [intros ->; reflexivity|intros [= ->]; reflexivity].
  - split; [discriminate|intros [= E _]; congruence].
Qed.
Definition stripEnd (s n : bytes) : option bytes := option_map (@rev Z) (strip (rev s) (rev n)).
Lemma stripEnd_iff s n r : stripEnd s n = Some r <-> n = r ++ s.
Proof.
  unfold stripEnd. split.
  - destruct (strip (rev s) (rev n)) as [q|] eqn:E; [|discriminate]. cbn. intros [= <-]. apply strip_iff in E.
    rewrite <- (rev_involutive n), E, rev_app_distr, rev_involutive. reflexivity.
  - intros ->. assert (E : strip (rev s) (rev (r ++ s)) = Some (rev r)) by (apply strip_iff; apply rev_app_distr). rewrite E. cbn. rewrite rev_involutive. reflexivity.
Qed.
Definition is_some {A} (o : option A) : bool := match o with Some _ => true | None => false end.

(** ** Names that are not made *)
Section Free.
Variables P S W : list bytes.
Definition freeb (n : bytes) : bool :=
  negb (existsb (fun p => is_some (strip p n)) P) && negb (existsb (fun s => is_some (stripEnd s n)) S) && negb (existsb (bytes_eqb n) W).
Hypothesis W0 : In [] W.

Lemma free_prefix p n r : In p P -> freeb n = true -> n <> p ++ r.
Proof.
  intros I F E. apply strip_iff in E. unfold freeb in F. rewrite !andb_true_iff, !negb_true_iff in F. destruct F as ((F & _) & _).
  assert (K : existsb (fun p => is_some (strip p n)) P = true) by (apply existsb_exists; exists p; rewrite E; auto). congruence.
Qed.
Lemma free_suffix s n r : In s S -> freeb n = true -> n <> r ++ s.
Proof.
  intros I F E. apply stripEnd_iff in E. unfold freeb in F. rewrite !andb_true_iff, !negb_true_iff in F. destruct F as ((_ & F) & _).
  assert (K : existsb (fun s => is_some (stripEnd s n)) S = true) by (apply existsb_exists; exists s; rewrite E; auto). congruence.
Qed.
Lemma free_word n : freeb n = true -> ~ In n W.
Proof.
  intros F I. unfold freeb in F. rewrite !andb_true_iff, !negb_true_iff in F. destruct F as (_ & F).
  assert (K : existsb (bytes_eqb n) W = true) by (apply existsb_exists; exists n; split; [exact I|apply eqb_eq; reflexivity]). congruence.
Qed.

(** A prefix, and a suffix, of no free name. *)
Definition badP (q : bytes) : bool := existsb (fun p => is_some (strip p q)) P.
Definition badS (t : bytes) : bool := existsb (fun s => is_some (stripEnd s t)) S.
Lemma badP_free q n r : badP q = true -> freeb n = true -> n <> q ++ r.
Proof.
  intros B F E. apply existsb_exists in B. destruct B as (p & I & B). destruct (strip p q) as [q'|] eqn:X; [|discriminate]. apply strip_iff in X. subst q.
  rewrite <- app_assoc in E. exact (free_prefix _ _ _ I F E).
Qed.
Lemma badS_free t n r : badS t = true -> freeb n = true -> n <> r ++ t.
Proof.
  intros B F E. apply existsb_exists in B. destruct B as (s & I & B). destruct (stripEnd s t) as [t'|] eqn:X; [|discriminate]. apply stripEnd_iff in X. subst t.
  rewrite app_assoc in E. exact (free_suffix _ _ _ I F E).
Qed.

(** m ++ s1 = m' ++ s2 only if m = m', or one of them ends with what no free name ends with. *)
Definition tails (s1 s2 : bytes) : bool :=
  match stripEnd s2 s1 with Some t => match t with [] => true | _ => badS t end | None => true end &&
  match stripEnd s1 s2 with Some t => match t with [] => true | _ => badS t end | None => true end.
Lemma app_cases (a b c d : bytes) : a ++ b = c ++ d -> (exists x, a = c ++ x /\ d = x ++ b) \/ (exists x, c = a ++ x /\ b = x ++ d).
Proof.
  revert c. induction a as [|x a IH]; intros c E; [right; exists c; auto|]. destruct c as [|y c].
  - left. exists (x :: a). split; [reflexivity|]. symmetry. exact E.
  - cbn in E. injection E as -> E. destruct (IH c E) as [(z & -> & ->)|(z & -> & ->)]; [left|right]; exists z; auto.
Qed.
Lemma tails_ok m1 s1 m2 s2 : tails s1 s2 = true -> freeb m1 = true -> freeb m2 = true -> m1 ++ s1 = m2 ++ s2 -> m1 = m2 /\ s1 = s2.
Proof.
  intros T F1 F2 E. unfold tails in T. apply andb_true_iff in T. destruct T as (T1 & T2). destruct (app_cases _ _ _ _ E) as [(x & -> & ->)|(x & -> & ->)].
  - assert (X : stripEnd s1 (x ++ s1) = Some x) by (apply stripEnd_iff; reflexivity). rewrite X in T2. destruct x as [|c x]; [rewrite app_nil_r; auto|].
    destruct (badS_free _ _ m2 T2 F1 eq_refl).
  - assert (X : stripEnd s2 (x ++ s2) = Some x) by (apply stripEnd_iff; reflexivity). rewrite X in T1. destruct x as [|c x]; [rewrite app_nil_r; auto|].
    destruct (badS_free _ _ m1 T1 F2 eq_refl).
Qed.

(** q ++ m1 ++ s1 = m2 ++ s2, q not empty: impossible. *)
Definition splits (q : bytes) : list (bytes * bytes) := map (fun i => (firstn i q, skipn i q)) (seq 0 (length q)).
Definition heads (q s1 s2 : bytes) : bool :=
  badP q &&
  forallb (fun ab => match strip (snd ab) s2 with
                     | None => true
                     | Some r => match stripEnd s1 r with None => true | Some m => negb (freeb m) || negb (freeb (fst ab)) end
                     end) (splits q).
Lemma heads_ok q m1 s1 m2 s2 : heads q s1 s2 = true -> freeb m1 = true -> freeb m2 = true -> q ++ m1 ++ s1 <> m2 ++ s2.
Proof.
  intros H F1 F2 E. unfold heads in H. apply andb_true_iff in H. destruct H as (B & H). destruct (app_cases _ _ _ _ E) as [(x & -> & K)|(x & -> & K)].
  - destruct x as [|c x].
    + rewrite app_nil_r in B. apply (badP_free m2 m2 [] B F2). rewrite app_nil_r. reflexivity.
    + rewrite forallb_forall in H. assert (I : In (m2, c :: x) (splits (m2 ++ c :: x))).
      { unfold splits. apply in_map_iff. exists (length m2). split; [rewrite firstn_app, skipn_app, firstn_all, skipn_all, PeanoNat.Nat.sub_diag; cbn; rewrite app_nil_r; reflexivity|].
        apply in_seq. rewrite app_length. cbn. lia. }
      specialize (H _ I). cbn [fst snd] in H. assert (X : strip (c :: x) s2 = Some (m1 ++ s1)) by (apply strip_iff; exact K). rewrite X in H.
      assert (Y : stripEnd s1 (m1 ++ s1) = Some m1) by (apply stripEnd_iff; reflexivity). rewrite Y, F1, F2 in H. discriminate.
  - exact (badP_free _ _ x B F2 eq_refl).
Qed.

Definition compat (k1 k2 : form) : bool :=
  let '(p1, s1) := k1 in let '(p2, s2) := k2 in
  match strip p2 p1 with
  | Some [] => tails s1 s2
  | Some q => heads q s1 s2
  | None => match strip p1 p2 with Some q => heads q s2 s1 | None => true end
  end.
Lemma compat_ok k1 k2 m1 m2 : compat k1 k2 = true -> freeb m1 = true -> freeb m2 = true -> dress k1 m1 = dress k2 m2 -> k1 = k2 /\ m1 = m2.
Proof.
  destruct k1 as (p1, s1), k2 as (p2, s2). unfold compat, dress. cbn [fst snd]. intros C F1 F2 E.
  destruct (app_cases _ _ _ _ E) as [(q & Ep & Es)|(q & Ep & Es)].
  - assert (X : strip p2 p1 = Some q) by (apply strip_iff; exact Ep). rewrite X in C. destruct q as [|c q].
    + rewrite app_nil_r in Ep. subst p2. cbn in Es. destruct (tails_ok m1 s1 m2 s2 C F1 F2 (eq_sym Es)) as (-> & ->). auto.
    + destruct (heads_ok (c :: q) m1 s1 m2 s2 C F1 F2). symmetry. exact Es.
  - destruct q as [|c q].
    + rewrite app_nil_r in Ep. subst p2. assert (X : strip p1 p1 = Some []) by (apply strip_iff; symmetry; apply app_nil_r). rewrite X in C.
      cbn in Es. destruct (tails_ok m1 s1 m2 s2 C F1 F2 Es) as (-> & ->). auto.
    + assert (X : strip p2 p1 = None). { destruct (strip p2 p1) as [r|] eqn:X; [|reflexivity]. apply strip_iff in X. subst p2. apply (f_equal (@length Z)) in X. rewrite !app_length in X. cbn in X. lia. }
      assert (Y : strip p1 p2 = Some (c :: q)) by (apply strip_iff; exact Ep). rewrite X, Y in C. destruct (heads_ok (c :: q) m2 s2 m1 s1 C F2 F1). symmetry. exact Es.
Qed.
(** A dressed free name is none of the words l. *)
Definition undress (k : form) (x : bytes) : option bytes := match strip (fst k) x with Some r => stripEnd (snd k) r | None => None end.
Definition apart (l : list bytes) (k : form) : bool := forallb (fun x => match undress k x with Some m => negb (freeb m) | None => true end) l.
Lemma apart_ok l k m : apart l k = true -> freeb m = true -> ~ In (dress k m) l.
Proof.
  intros A F I. unfold apart in A. rewrite forallb_forall in A. specialize (A _ I). unfold undress, dress in A.
  assert (X : strip (fst k) (fst k ++ m ++ snd k) = Some (m ++ snd k)) by (apply strip_iff; reflexivity). rewrite X in A.
  assert (Y : stripEnd (snd k) (m ++ snd k) = Some m) by (apply stripEnd_iff; reflexivity). rewrite Y, F in A. discriminate.
Qed.

(** Dressed names are distinct. *)
Variable K : list form.
Hypothesis COK : forallb (fun a => forallb (compat a) K) K = true.
Lemma dressed_distinct (items : list (form * bytes)) : (forall k m, In (k, m) items -> In k K /\ freeb m = true) -> NoDup items ->
  NoDup (map (fun i => dress (fst i) (snd i)) items).
Proof.
  intros H N. induction N as [|(k, m) items Ni N IH]; [constructor|]. cbn [map]. constructor.
  - intros I. apply in_map_iff in I. destruct I as ((k', m') & E & I). cbn [fst snd] in E.
    destruct (H k m (or_introl eq_refl)) as (K1 & F1). destruct (H k' m' (or_intror I)) as (K2 & F2).
    rewrite forallb_forall in COK. specialize (COK _ K1). rewrite forallb_forall in COK. specialize (COK _ K2).
    destruct (compat_ok k k' m m' COK F1 F2 (eq_sym E)) as (<- & <-). contradiction.
  - apply IH. intros k' m' I. apply H. right. exact I.
Qed.
End Free.

(** ** Lists *)
Lemma NoDup_flat_map {A B} (g : A -> list B) l : NoDup l -> (forall a, In a l -> NoDup (g a)) ->
  (forall a b x, In a l -> In b l -> In x (g a) -> In x (g b) -> a = b) -> NoDup (flat_map g l).
Proof.
  intros N. induction N as [|a l Na N IH]; intros H D; [constructor|]. cbn [flat_map]. apply Mapping.NoDup_both.
  - apply H. left. reflexivity.
  - apply IH; [intros b I; apply H; right; exact I|]. intros b c x I J. apply D; right; assumption.
  - intros x I J. apply in_flat_map in J. destruct J as (b & J & K). assert (a = b) by (apply (D a b x); [left; reflexivity|right; exact J|exact I|exact K]). subst b. contradiction.
Qed.
Lemma NoDup_app_both {A} (l1 l2 : list A) : NoDup (l1 ++ l2) -> NoDup l1 /\ NoDup l2 /\ forall x, In x l1 -> In x l2 -> False.
Proof.
  induction l1 as [|a l1 IH]; cbn; intros N; [split; [constructor|]; split; [exact N|intros x []]|]. inversion N as [|? ? Na N']; subst. destruct (IH N') as (A1 & A2 & A3).
  split; [constructor; [intros I; apply Na; apply in_or_app; auto|exact A1]|]. split; [exact A2|].
  intros x [<-|I] J; [apply Na; apply in_or_app; auto|eauto].
Qed.
Lemma flat_map_inj {A B} (g : A -> list B) l a b x : NoDup (flat_map g l) -> In a l -> In b l -> In x (g a) -> In x (g b) -> a = b.
Proof.
  induction l as [|c l IH]; cbn [flat_map]; intros N I J X Y; [destruct I|]. apply NoDup_app_both in N. destruct N as (N1 & N2 & D).
  destruct I as [->|I], J as [->|J]; [reflexivity| | |auto].
  - destruct (D x X). apply in_flat_map. eauto.
  - destruct (D x Y). apply in_flat_map. eauto.
Qed.
Lemma flat_map_part {A B} (g : A -> list B) l a : NoDup (flat_map g l) -> In a l -> NoDup (g a).
Proof.
  induction l as [|c l IH]; cbn [flat_map]; intros N I; [destruct I|]. apply NoDup_app_both in N. destruct N as (N1 & N2 & _). destruct I as [->|I]; auto.
Qed.
Lemma map_inj_in {A B} (g : A -> B) l a b : NoDup (map g l) -> In a l -> In b l -> g a = g b -> a = b.
Proof.
  induction l as [|c l IH]; cbn [map]; intros N I J E; [destruct I|]. inversion N as [|? ? Na N']; subst.
  destruct I as [->|I], J as [->|J]; [reflexivity| | |auto].
  - destruct Na. rewrite E. apply in_map. exact J.
  - destruct Na. rewrite <- E. apply in_map. exact I.
Qed.

(** ** The methods of a struct *)
Definition MP : list bytes := map lit ["Set"; "IsSet"; "SafeGet"]%string.
Definition MS : list bytes := map lit ["List"; "Len"; "Get"; "Append"; "Map"; "Set"; "Delete"; "Has"; "Raw"]%string.
Definition MW : list bytes := [] :: map lit method_words.
Definition MK : list form := [fm "" ""; fm "SafeGet" ""; fm "Set" ""; fm "IsSet" ""; fm "Set" "Raw"; fm "" "List"; fm "" "Len"; fm "" "Get"; fm "" "Append"; fm "" "AppendRaw";
  fm "" "Map"; fm "" "Set"; fm "" "GetRaw"; fm "" "ListLen"; fm "" "Delete"; fm "" "Has"; fm "" "Raw"].
Lemma MK_compat : forallb (fun a => forallb (compat MP MS MW a) MK) MK = true.
Proof. vm_compute. reflexivity. Qed.
Lemma MK_apart : forallb (apart MP MS MW fixedMethods) MK = true.
Proof. vm_compute. reflexivity. Qed.
Lemma not_some {A} (g : A -> option bytes) (Q : A -> Prop) l : (forall a, In a l -> ~ Q a) -> (forall a r, g a = Some r -> Q a) -> existsb (fun a => is_some (g a)) l = false.
Proof.
  intros H G. destruct (existsb _ _) eqn:E; [|reflexivity]. apply existsb_exists in E. destruct E as (a & I & E). destruct (g a) as [r|] eqn:X; [|discriminate].
  destruct (H a I). eauto.
Qed.
Lemma freeb_intro P S W n : (forall p r, In p P -> n <> p ++ r) -> (forall s r, In s S -> n <> r ++ s) -> ~ In n W -> freeb P S W n = true.
Proof.
  intros HP HS HW. unfold freeb. rewrite !andb_true_iff, !negb_true_iff. split; [split|].
  - apply (not_some (fun p => strip p n) (fun p => exists r, n = p ++ r)); [intros p I (r & E); exact (HP p r I E)|]. intros p r E. exists r. apply strip_iff. exact E.
  - apply (not_some (fun s => stripEnd s n) (fun s => exists r, n = r ++ s)); [intros s I (r & E); exact (HS s r I E)|]. intros s r E. exists r. apply stripEnd_iff. exact E.
  - destruct (existsb _ W) eqn:E; [|reflexivity]. apply existsb_exists in E. destruct E as (w & I & E). apply eqb_eq in E. subst w. contradiction.
Qed.
Lemma free_field_b n : free_field n -> freeb MP MS MW n = true.
Proof.
  intros (N & HP & HS & HW). apply freeb_intro.
  - intros p r I E. unfold MP in I. apply in_map_iff in I. destruct I as (p' & <- & I). apply (HP p' I). exists r. exact E.
  - intros s r I E. unfold MS in I. apply in_map_iff in I. destruct I as (s' & <- & I). apply (HS s' I). exists r. exact E.
  - intros [<-|I]; [congruence|]. apply in_map_iff in I. destruct I as (w & E & I). apply (HW w I). symmetry. exact E.
Qed.
Definition forms_of (isSet : bool) (fd : sfield) : list form := fieldForms fd ++ (if isSet then [fm "IsSet" ""] else []).
Definition form_eqb (a b : form) : bool := bytes_eqb (fst a) (fst b) && bytes_eqb (snd a) (snd b).
Lemma form_eqb_eq a b : form_eqb a b = true <-> a = b.
Proof. unfold form_eqb. rewrite andb_true_iff, !eqb_eq. destruct a, b; cbn. split; [intros (-> & ->); reflexivity|intros [= -> ->]; auto]. Qed.
Fixpoint nodupb (l : list form) : bool := match l with [] => true | a :: l => negb (existsb (form_eqb a) l) && nodupb l end.
Lemma nodupb_ok l : nodupb l = true -> NoDup l.
Proof.
  induction l as [|a l IH]; cbn; intros H; [constructor|]. apply andb_true_iff in H. destruct H as (A & B). apply negb_true_iff in A. constructor; [|auto].
  intros I. assert (E : existsb (form_eqb a) l = true) by (apply existsb_exists; exists a; split; [exact I|apply form_eqb_eq; reflexivity]). congruence.
Qed.
Definition formsb (l : list form) : bool := nodupb l && forallb (fun k => existsb (form_eqb k) MK) l.
Lemma formsb_ok l : formsb l = true -> NoDup l /\ forall k, In k l -> In k MK.
Proof.
  intros H. apply andb_true_iff in H. destruct H as (A & B). split; [apply nodupb_ok; exact A|]. intros k I. rewrite forallb_forall in B. specialize (B k I).
  apply existsb_exists in B. destruct B as (k' & J & E). apply form_eqb_eq in E. subst k'. exact J.
Qed.
Lemma field_forms isSet fd : NoDup (forms_of isSet fd) /\ forall k, In k (forms_of isSet fd) -> In k MK.
Proof.
  apply formsb_ok. unfold forms_of, fieldForms.
  destruct (fd_type fd =? FTBytes); [destruct isSet; vm_compute; reflexivity|]. destruct (fd_type fd =? FTListStructs); [destruct isSet; vm_compute; reflexivity|].
  destruct (fd_type fd =? FTMap).
  { destruct (fd_map fd) as [[k v w n]|]; [|destruct isSet; vm_compute; reflexivity]. destruct (negb (bytes_eqb w [])); [destruct isSet; vm_compute; reflexivity|].
    destruct n; [destruct isSet; vm_compute; reflexivity|]. destruct (v =? FTAny); [destruct isSet; vm_compute; reflexivity|].
    destruct (v =? FTListAny); destruct isSet; vm_compute; reflexivity. }
  destruct (fd_type fd =? FTAny); [destruct isSet; vm_compute; reflexivity|]. destruct (fd_type fd =? FTListAny); destruct isSet; vm_compute; reflexivity.
Qed.
Lemma fixed_nodup : NoDup fixedMethods.
Proof. repeat (constructor; [intros I; cbn in I; repeat (destruct I as [I|I]; [discriminate|]); exact I|]). constructor. Qed.
Definition mitems (isSet : bool) (fds : list sfield) : list (form * bytes) := flat_map (fun fd => map (fun k => (k, fd.(fd_name))) (forms_of isSet fd)) fds.
Lemma methods_items isSet fds : flat_map (fieldMethods isSet) fds = map (fun i => dress (fst i) (snd i)) (mitems isSet fds).
Proof.
  induction fds as [|fd fds IH]; [reflexivity|]. cbn [flat_map mitems]. rewrite map_app. fold (mitems isSet fds). rewrite <- IH. f_equal.
  unfold fieldMethods. rewrite map_map. reflexivity.
Qed.
Theorem methods_nodup isSet fds : NoDup (map fd_name fds) -> Forall (fun fd => free_field fd.(fd_name)) fds -> NoDup (methods isSet fds).
Proof.
  intros N F. rewrite Forall_forall in F. unfold methods. rewrite methods_items.
  assert (IT : forall k m, In (k, m) (mitems isSet fds) -> In k MK /\ freeb MP MS MW m = true).
  { intros k m I. apply in_flat_map in I. destruct I as (fd & I & J). apply in_map_iff in J. destruct J as (k' & [= -> <-] & J).
    split; [apply (proj2 (field_forms isSet fd)); exact J|apply free_field_b, F; exact I]. }
  apply Mapping.NoDup_both; [exact fixed_nodup| |].
  - apply (dressed_distinct MP MS MW MK MK_compat); [exact IT|]. apply NoDup_flat_map.
    + exact (NoDup_map_inv _ _ N).
    + intros fd I. apply FinFun.Injective_map_NoDup; [intros a b [= ->]; reflexivity|]. apply field_forms.
    + intros a b (k, m) I J X Y. apply in_map_iff in X. apply in_map_iff in Y. destruct X as (k1 & [= -> <-] & _), Y as (k2 & [= -> E] & _).
      symmetry in E. exact (map_inj_in fd_name fds a b N I J E).
  - intros x I J. apply in_map_iff in J. destruct J as ((k, m) & <- & J). destruct (IT k m J) as (Kk & Fm). cbn [fst snd] in I.
    assert (A := MK_apart). rewrite forallb_forall in A. exact (apart_ok MP MS MW fixedMethods k m (A k Kk) Fm I).
Qed.

(** ** The top level *)
Definition PP : list bytes := map lit ["New"; "XXX"]%string.
Definition PS : list bytes := map lit ["ByName"; "ByValue"; "Raw"]%string.
Definition PW : list bytes := [] :: map lit ["SyntaxVersion"; "PackageDescr"; "s"; "_package"; "_packagePath"]%string.
Definition PK : list form := enumForms ++ structForms.
Definition allFixed : list bytes := map lit ["SyntaxVersion"; "_package"; "_packagePath"; "XXXStructDescrs"; "XXXPackageDescr"; "PackageDescr"; "XXXEnumGroups"]%string.
Lemma PK_compat : forallb (fun a => forallb (compat PP PS PW a) PK) PK = true.
Proof. vm_compute. reflexivity. Qed.
Lemma PK_apart : forallb (apart PP PS PW allFixed) PK = true.
Proof. vm_compute. reflexivity. Qed.
Lemma fixed_incl f : incl (fixedNames f) allFixed.
Proof.
  unfold fixedNames, allFixed. intros x I. apply in_app_or in I. destruct I as [I|I].
  - apply in_map_iff in I. destruct I as (w & <- & I). apply in_map. cbn in *. tauto.
  - destruct (enums f); [destruct I|]. destruct I as [<-|[]]. apply in_map. cbn. tauto.
Qed.
Lemma fixedNames_nodup f : NoDup (fixedNames f).
Proof.
  unfold fixedNames. destruct (enums f);
  repeat (constructor; [intros I; cbn in I; repeat (destruct I as [I|I]; [discriminate|]); exact I|]); constructor.
Qed.
Definition eitems (e : enum) : list (form * bytes) := map (fun k => (k, e.(e_name))) enumForms ++ map (fun v => (fm "" "", ev_name v)) e.(e_vals).
Definition sitems (s : struct) : list (form * bytes) := map (fun k => (k, s.(s_name))) structForms.
Lemma dress_plain n : dress (fm "" "") n = n.
Proof. unfold dress. cbn. apply app_nil_r. Qed.
Lemma package_items f : packageNames f = fixedNames f ++ map (fun i => dress (fst i) (snd i)) (flat_map eitems (enums f) ++ flat_map sitems (structs f)).
Proof.
  unfold packageNames. f_equal. rewrite map_app. f_equal.
  - induction (enums f) as [|e l IH]; [reflexivity|]. cbn [flat_map]. rewrite map_app, IH. f_equal. unfold enumNames, eitems. rewrite map_app, !map_map. f_equal.
    apply map_ext. intros v. cbn [fst snd]. symmetry. apply dress_plain.
  - induction (structs f) as [|s l IH]; [reflexivity|]. cbn [flat_map]. rewrite map_app, IH. reflexivity.
Qed.
Lemma in_enums f e : In e (enums f) <-> In (DEnum e) f.(f_idents).
Proof.
  unfold enums. rewrite in_flat_map. split.
  - intros ([e'|s] & I & J); [destruct J as [->|[]]; exact I|destruct J].
  - intros I. exists (DEnum e). split; [exact I|left; reflexivity].
Qed.
Lemma in_structs f s : In s (structs f) <-> In (DStruct s) f.(f_idents).
Proof.
  unfold structs. rewrite in_flat_map. split.
  - intros ([e|s'] & I & J); [destruct J|destruct J as [->|[]]; exact I].
  - intros I. exists (DStruct s). split; [exact I|left; reflexivity].
Qed.
Lemma nodup_enums f : NoDup (map decl_name f.(f_idents)) -> NoDup (enums f).
Proof.
  unfold enums. induction (f_idents f) as [|d l IH]; cbn [map flat_map]; intros N; [constructor|]. inversion N as [|? ? Na N']; subst. destruct d as [e|s]; [|exact (IH N')].
  cbn. constructor; [|exact (IH N')]. intros I. apply Na. apply in_flat_map in I. destruct I as ([e'|s'] & I & J); [destruct J as [->|[]]|destruct J].
  apply in_map with (f := decl_name) in I. exact I.
Qed.
Lemma nodup_structs f : NoDup (map decl_name f.(f_idents)) -> NoDup (structs f).
Proof.
  unfold structs. induction (f_idents f) as [|d l IH]; cbn [map flat_map]; intros N; [constructor|]. inversion N as [|? ? Na N']; subst. destruct d as [e|s]; [exact (IH N')|].
  cbn. constructor; [|exact (IH N')]. intros I. apply Na. apply in_flat_map in I. destruct I as ([e'|s'] & I & J); [destruct J|destruct J as [->|[]]].
  apply in_map with (f := decl_name) in I. exact I.
Qed.

Section Package.
Variable f : file.
Hypothesis ND : NoDup (schema_names f).
Hypothesis FR : forall n, In n (schema_names f) -> freeb PP PS PW n = true.

Lemma decl_in d : In d f.(f_idents) -> In (decl_name d) (schema_names f).
Proof. intros I. apply in_or_app. left. apply in_map. exact I. Qed.
Lemma val_in e v : In e (enums f) -> In v e.(e_vals) -> In (ev_name v) (schema_names f).
Proof. intros I J. apply in_or_app. right. apply in_flat_map. exists e. split; [exact I|]. apply in_map. exact J. Qed.
Lemma val_apart e v d : In e (enums f) -> In v e.(e_vals) -> In d f.(f_idents) -> ev_name v <> decl_name d.
Proof.
  intros I J K E. destruct (NoDup_app_both _ _ ND) as (_ & _ & D). apply (D (decl_name d)); [apply in_map; exact K|]. rewrite <- E.
  apply in_flat_map. exists e. split; [exact I|]. apply in_map. exact J.
Qed.
Lemma in_eitems e k m : In (k, m) (eitems e) <-> (In k enumForms /\ m = e.(e_name)) \/ (k = fm "" "" /\ In m (map ev_name e.(e_vals))).
Proof.
  unfold eitems. rewrite in_app_iff, !in_map_iff. split.
  - intros [(k' & [= -> <-] & I)|(v & [= <- <-] & I)]; [left; auto|right; split; [reflexivity|]]. exists v. auto.
  - intros [(I & ->)|(-> & v & <- & I)]; [left; exists k; auto|right; exists v; auto].
Qed.
Lemma in_sitems s k m : In (k, m) (sitems s) <-> In k structForms /\ m = s.(s_name).
Proof.
  unfold sitems. rewrite in_map_iff. split; [intros (k' & [= -> <-] & I); auto|intros (I & ->); exists k; auto].
Qed.
Lemma items_nodup : NoDup (flat_map eitems (enums f) ++ flat_map sitems (structs f)).
Proof.
  destruct (NoDup_app_both _ _ ND) as (N1 & N2 & _).
  apply Mapping.NoDup_both.
  - apply NoDup_flat_map; [exact (nodup_enums f N1)| |].
    + intros e I. unfold eitems. apply Mapping.NoDup_both.
      * apply FinFun.Injective_map_NoDup; [intros a b [= ->]; reflexivity|]. apply nodupb_ok. vm_compute. reflexivity.
      * rewrite <- (map_map ev_name (fun n => (fm "" "", n))). apply FinFun.Injective_map_NoDup; [intros a b [= ->]; reflexivity|]. exact (flat_map_part _ _ _ N2 I).
      * intros (k, m) X Y. apply in_map_iff in X. apply in_map_iff in Y. destruct X as (k1 & [= -> <-] & _), Y as (v & [= _ E] & J).
        apply (val_apart e v (DEnum e) I J); [apply in_enums; exact I|exact E].
    + intros e e' (k, m) I J X Y. apply in_eitems in X. apply in_eitems in Y.
      assert (EE : forall e e', In e (enums f) -> In e' (enums f) -> In (e_name e) (map ev_name (e_vals e')) -> False).
      { intros a b Ia Ib V. apply in_map_iff in V. destruct V as (v & E & V). apply (val_apart b v (DEnum a) Ib V); [apply in_enums; exact Ia|exact E]. }
      destruct X as [(_ & ->)|(_ & X)], Y as [(_ & Y)|(_ & Y)].
      * assert (D : DEnum e = DEnum e') by (apply (map_inj_in decl_name f.(f_idents)); [exact N1|apply in_enums; exact I|apply in_enums; exact J|exact Y]). injection D as ->. reflexivity.
      * destruct (EE e e' I J Y).
      * subst m. destruct (EE e' e J I X).
      * exact (flat_map_inj (fun e => map ev_name (e_vals e)) (enums f) e e' m N2 I J X Y).
  - apply NoDup_flat_map; [exact (nodup_structs f N1)| |].
    + intros s I. apply FinFun.Injective_map_NoDup; [intros a b [= ->]; reflexivity|]. apply nodupb_ok. vm_compute. reflexivity.
    + intros s s' (k, m) I J X Y. apply in_sitems in X. apply in_sitems in Y. destruct X as (_ & ->), Y as (_ & Y).
      assert (D : DStruct s = DStruct s') by (apply (map_inj_in decl_name f.(f_idents)); [exact N1|apply in_structs; exact I|apply in_structs; exact J|exact Y]). injection D as ->. reflexivity.
  - intros (k, m) X Y. apply in_flat_map in X. apply in_flat_map in Y. destruct X as (e & I & X), Y as (s & J & Y). apply in_eitems in X. apply in_sitems in Y. destruct Y as (_ & ->).
    destruct X as [(_ & E)|(_ & X)].
    + assert (D : DStruct s = DEnum e) by (apply (map_inj_in decl_name f.(f_idents)); [exact N1|apply in_structs; exact J|apply in_enums; exact I|exact E]). discriminate.
    + apply in_map_iff in X. destruct X as (v & E & X). apply (val_apart e v (DStruct s) I X); [apply in_structs; exact J|exact E].
Qed.
Theorem package_nodup : NoDup (packageNames f).
Proof.
  rewrite package_items.
  assert (IT : forall k m, In (k, m) (flat_map eitems (enums f) ++ flat_map sitems (structs f)) -> In k PK /\ freeb PP PS PW m = true).
  { intros k m I. apply in_app_or in I. destruct I as [I|I]; apply in_flat_map in I; destruct I as (x & I & J).
    - apply in_eitems in J. destruct J as [(J & ->)|(-> & J)].
      + split; [apply in_or_app; left; exact J|]. apply FR. apply (decl_in (DEnum x)). apply in_enums. exact I.
      + split; [left; reflexivity|]. apply in_map_iff in J. destruct J as (v & <- & J). apply FR. exact (val_in x v I J).
    - apply in_sitems in J. destruct J as (J & ->). split; [apply in_or_app; right; exact J|]. apply FR. apply (decl_in (DStruct x)). apply in_structs. exact I. }
  apply Mapping.NoDup_both; [apply fixedNames_nodup| |].
  - exact (dressed_distinct PP PS PW PK PK_compat _ IT items_nodup).
  - intros x I J. apply in_map_iff in J. destruct J as ((k, m) & <- & J). destruct (IT k m J) as (Kk & Fm). cbn [fst snd] in I.
    assert (A := PK_apart). rewrite forallb_forall in A. exact (apart_ok PP PS PW allFixed k m (A k Kk) Fm (fixed_incl f _ I)).
Qed.
End Package.

Section Schema.
Variables isUpper isLower isLetter isNumber : Z -> bool.
Hypothesis low_s : isLower 115 = true.
Hypothesis no_under : isLetter 95 = false.
Lemma free_type_b n : type_name isLower isLetter isNumber n -> free_type n -> freeb PP PS PW n = true.
Proof.
  intros (r & q & R & L & U & _) (HP & HS & HW). apply freeb_intro.
  - intros p x I E. unfold PP in I. apply in_map_iff in I. destruct I as (p' & <- & I). apply (HP p' I). exists x. exact E.
  - intros s x I E. unfold PS in I. apply in_map_iff in I. destruct I as (s' & <- & I). apply (HS s' I). exists x. exact E.
  - intros I. cbn [PW In map] in I. destruct I as [<-|[<-|[<-|[<-|[<-|[<-|[]]]]]]].
    + discriminate.
    + apply (HW "SyntaxVersion"%string); [left; reflexivity|reflexivity].
    + apply (HW "PackageDescr"%string); [right; left; reflexivity|reflexivity].
    + vm_compute in R. injection R as <- _. congruence.
    + vm_compute in R. injection R as <- _. congruence.
    + vm_compute in R. injection R as <- _. congruence.
Qed.
Lemma schema_names_ok f n : schema_ok isUpper isLower isLetter isNumber f -> In n (schema_names f) -> type_name isLower isLetter isNumber n.
Proof.
  intros OK I. apply in_app_or in I. destruct I as [I|I].
  - apply in_map_iff in I. destruct I as ([e|s] & <- & I).
    + exact (proj1 (ok_enums _ _ _ _ _ OK e I)).
    + apply in_split in I. destruct I as (a & b & E). exact (proj1 (ok_structs _ _ _ _ _ OK _ _ _ E)).
  - apply in_flat_map in I. destruct I as (e & I & J). apply in_enums in I. destruct (ok_enums _ _ _ _ _ OK e I) as (_ & _ & _ & F & _).
    apply in_map_iff in J. destruct J as (v & <- & J). rewrite Forall_forall in F. exact (proj1 (F v J)).
Qed.
End Schema.

(** What is declared under its own name. *)
Lemma flat_map_perm {A B} (g g1 g2 : A -> list B) l : (forall a, Permutation (g a) (g1 a ++ g2 a)) -> Permutation (flat_map g l) (flat_map g1 l ++ flat_map g2 l).
Proof.
  intros H. induction l as [|a l IH]; [reflexivity|]. cbn [flat_map]. rewrite (H a), IH, <- !app_assoc. apply Permutation_app_head. apply Permutation_app_swap_app.
Qed.
Lemma decl_perm l : Permutation (map decl_name l)
  (map e_name (flat_map (fun d => match d with DEnum e => [e] | DStruct _ => [] end) l) ++ map s_name (flat_map (fun d => match d with DStruct s => [s] | DEnum _ => [] end) l)).
Proof.
  induction l as [|[e|s] l IH]; [reflexivity| |]; cbn [map flat_map app decl_name].
  - constructor. exact IH.
  - rewrite IH. apply Permutation_middle.
Qed.
Lemma map_flat_map {A B} (g : A -> B) l : map g l = flat_map (fun a => [g a]) l.
Proof. induction l as [|a l IH]; [reflexivity|]. cbn. rewrite IH. reflexivity. Qed.
Lemma package_needed f : NoDup (packageNames f) -> NoDup (schema_names f).
Proof.
  set (eo := fun e : enum => map (fun k => dress k e.(e_name)) (tl enumForms)).
  set (so := fun s : struct => map (fun k => dress k s.(s_name)) (tl structForms)).
  assert (P : Permutation (packageNames f) (schema_names f ++ (fixedNames f ++ flat_map eo (enums f) ++ flat_map so (structs f)))).
  { assert (PE : Permutation (flat_map enumNames (enums f)) (map e_name (enums f) ++ flat_map (fun e => map ev_name e.(e_vals)) (enums f) ++ flat_map eo (enums f))).
    { rewrite map_flat_map. rewrite (flat_map_perm enumNames (fun e => [e_name e]) (fun e => map ev_name e.(e_vals) ++ eo e)).
      - apply Permutation_app_head. apply flat_map_perm. intros e. reflexivity.
      - intros e. unfold enumNames. change (map (fun k => dress k (e_name e)) enumForms) with (dress (fm "" "") (e_name e) :: eo e). rewrite dress_plain. cbn [app]. constructor. apply Permutation_app_comm. }
    assert (PT : Permutation (flat_map structNames (structs f)) (map s_name (structs f) ++ flat_map so (structs f))).
    { rewrite map_flat_map. apply flat_map_perm. intros s. unfold structNames. change (map (fun k => dress k (s_name s)) structForms) with (dress (fm "" "") (s_name s) :: so s). rewrite dress_plain. reflexivity. }
    unfold packageNames, schema_names. rewrite PE, PT, decl_perm. fold (enums f) (structs f).
    generalize (map e_name (enums f)) (map s_name (structs f)) (flat_map (fun e => map ev_name (e_vals e)) (enums f)) (flat_map eo (enums f)) (flat_map so (structs f)) (fixedNames f).
    intros a b c d e g. rewrite <- !app_assoc.
    transitivity (a ++ g ++ c ++ d ++ b ++ e); [apply Permutation_app_swap_app|]. apply Permutation_app_head.
    transitivity (g ++ c ++ b ++ d ++ e); [do 2 apply Permutation_app_head; apply Permutation_app_swap_app|].
    transitivity (g ++ b ++ c ++ d ++ e); [apply Permutation_app_head; apply Permutation_app_swap_app|].
    transitivity (b ++ g ++ c ++ d ++ e); [apply Permutation_app_swap_app|]. apply Permutation_app_head. apply Permutation_app_swap_app. }
  intros N. apply (Permutation_NoDup P) in N. exact (proj1 (NoDup_app_both _ _ N)).
Qed.
Lemma freeb_spec P S W n : freeb P S W n = true -> (forall p r, In p P -> n <> p ++ r) /\ (forall s r, In s S -> n <> r ++ s) /\ ~ In n W.
Proof.
  unfold freeb. rewrite !andb_true_iff, !negb_true_iff. intros ((HP & HS) & HW). split; [|split].
  - intros p r I E. assert (X : existsb (fun p => is_some (strip p n)) P = true) by (apply existsb_exists; exists p; split; [exact I|rewrite (proj2 (strip_iff p n r) E); reflexivity]). congruence.
  - intros s r I E. assert (X : existsb (fun s => is_some (stripEnd s n)) S = true) by (apply existsb_exists; exists s; split; [exact I|rewrite (proj2 (stripEnd_iff s n r) E); reflexivity]). congruence.
  - intros I. assert (X : existsb (bytes_eqb n) W = true) by (apply existsb_exists; exists n; split; [exact I|apply eqb_eq; reflexivity]). congruence.
Qed.
