(** Lemmas for C158. *)
From Coq Require Import ZArith List Bool String Lia.
Import ListNotations.
From Verif.Model Require Import Base Field Any ClawText Idl PkgNames.
From Verif.Spec Require Import PkgNames.
From Verif.Proofs Require Import BaseLemmas IngestProofs IdlBase Methods.
Local Open Scope Z_scope.

Definition pkg_shapes : list (string * string) := enumShapes ++ structShapes.
Notation ends := (""%string :: pkg_ends).

Definition pkg_ends_ok : bool := forallb (fun s => forallb (fun s' =>
  match before (lit s) (lit s') with None => true | Some t => isIn t ends && (negb (bytes_eqb t []) || (s =? s')%string) end) ends) ends.
Lemma pkg_ends_are_ok : pkg_ends_ok = true.
Proof. vm_compute. reflexivity. Qed.
Lemma pkg_ends_half n n' s s' t : pkg_free n -> In s ends -> In s' ends -> n = n' ++ t -> lit s' = t ++ lit s -> n = n' /\ s = s'.
Proof.
  intros (_ & _ & E & _) I I' -> L. pose proof pkg_ends_are_ok as K. unfold pkg_ends_ok in K. rewrite forallb_forall in K. specialize (K s I). cbv beta in K.
  rewrite forallb_forall in K. specialize (K s' I'). rewrite L, before_app in K. apply andb_true_iff in K. destruct K as (K & K').
  apply isIn_ok in K. destruct K as (u & [<-|U] & ->); [|destruct (E u n' U eq_refl)].
  change (lit "") with (@nil Z) in *. cbn in K'. apply String.eqb_eq in K'. rewrite app_nil_r. auto.
Qed.
Lemma pkg_ends_same n n' s s' : pkg_free n -> pkg_free n' -> In s ends -> In s' ends -> n ++ lit s = n' ++ lit s' -> n = n' /\ s = s'.
Proof.
  intros F F' I I' E. destruct (split_both _ _ _ _ E) as [(t & A & B)|(t & A & B)].
  - destruct (pkg_ends_half n' n s' s t F' I' I A B) as (-> & ->). auto.
  - exact (pkg_ends_half n n' s s' t F I I' A B).
Qed.
(** A name and an end do not begin as a generated name does. *)
Lemma pkg_starts_apart n s p r : pkg_free n -> In p pkg_starts -> In s ends -> n ++ lit s = lit p ++ r -> False.
Proof.
  intros (NE & ST & _) P I E.
  destruct n as [|a n]; [destruct (NE eq_refl)|].
  destruct n as [|b n]; [|destruct n as [|c n]].
  - cbn [In pkg_starts] in P. destruct P as [<-|[<-|[]]]; cbn [In pkg_ends] in I; repeat (destruct I as [<-|I]; [discriminate E|]); destruct I.
  - cbn [In pkg_starts] in P. destruct P as [<-|[<-|[]]]; cbn [In pkg_ends] in I; repeat (destruct I as [<-|I]; [discriminate E|]); destruct I.
  - cbn [In pkg_starts] in P. destruct P as [<-|[<-|[]]].
    + injection E as -> -> -> _. apply (ST "New"%string n); [cbn; tauto|reflexivity].
    + injection E as -> -> -> _. apply (ST "XXX"%string n); [cbn; tauto|reflexivity].
Qed.
Lemma wrap_same n n' ps ps' : pkg_free n -> pkg_free n' -> In ps pkg_shapes -> In ps' pkg_shapes -> wrap n ps = wrap n' ps' -> n = n' /\ ps = ps'.
Proof.
  assert (C : forall ps, In ps pkg_shapes -> In (snd ps) ends /\ (fst ps = ""%string \/
      In (fst ps) ["New"; "XXXNew"; "XXXTypeHash"; "XXXMapping"; "XXXStructDescr"; "XXXEnumGroup"]%string)).
  { intros q I. cbn in I. repeat (destruct I as [<-|I]; [cbn; tauto|]). destruct I. }
  assert (D : forall p, In p ["New"; "XXXNew"; "XXXTypeHash"; "XXXMapping"; "XXXStructDescr"; "XXXEnumGroup"]%string ->
      exists b r, In b pkg_starts /\ lit p = lit b ++ r).
  { intros p I. cbn in I. destruct I as [<-|I]; [exists "New"%string, []; cbn; auto|].
    exists "XXX"%string. cbn [pkg_starts In]. repeat (destruct I as [<-|I]; [eexists; split; [right; left; reflexivity|reflexivity]|]). destruct I. }
  intros F F' I I' E. unfold wrap in E. destruct (C ps I) as (B & A), (C ps' I') as (B' & A').
  assert (Q : fst ps = fst ps').
  { destruct A as [A|A], A' as [A'|A'].
    - congruence.
    - exfalso. rewrite A in E. destruct (D _ A') as (b & r & X & Y). rewrite Y, <- app_assoc in E. exact (pkg_starts_apart _ _ _ _ F X B E).
    - exfalso. rewrite A' in E. destruct (D _ A) as (b & r & X & Y). rewrite Y, <- app_assoc in E. symmetry in E. exact (pkg_starts_apart _ _ _ _ F' X B' E).
    - cbn [In] in A, A'. destruct A as [A|[A|[A|[A|[A|[A|[]]]]]]], A' as [A'|[A'|[A'|[A'|[A'|[A'|[]]]]]]]; rewrite <- A, <- A' in E |- *; try reflexivity; discriminate E. }
  rewrite Q in E. apply app_inv_head in E. destruct (pkg_ends_same n n' _ _ F F' B B' E) as (-> & R). split; [reflexivity|]. destruct ps, ps'; cbn in *; congruence.
Qed.

Definition pkg_fixed_ok : bool := forallb (fun w => forallb (fun ps =>
  match after (lit (fst ps)) (lit w) with None => true | Some r => match before (lit (snd ps)) r with None => true | Some n =>
    isIn n pkg_taken || isIn (firstn 3 n) pkg_starts end end)
  pkg_shapes) pkgFixed.
Lemma pkg_fixed_are_ok : pkg_fixed_ok = true.
Proof. vm_compute. reflexivity. Qed.
Lemma pkg_fixed_apart n w ps : pkg_free n -> In w pkgFixed -> In ps pkg_shapes -> lit w <> wrap n ps.
Proof.
  intros (_ & ST & _ & T) W I E. pose proof pkg_fixed_are_ok as K. unfold pkg_fixed_ok in K. rewrite forallb_forall in K. specialize (K w W). cbv beta in K.
  rewrite forallb_forall in K. specialize (K ps I). unfold wrap in E. rewrite E, after_app, before_app in K. apply orb_true_iff in K.
  destruct K as [K|K]; apply isIn_ok in K; destruct K as (u & U & Q); [exact (T u U Q)|].
  apply (ST u (skipn 3 n) U). rewrite <- Q. symmetry. apply firstn_skipn.
Qed.

(** Names with what is around them. *)
Definition items (d : decl) : list (bytes * (string * string)) :=
  match d with
  | DEnum e => map (pair e.(e_name)) enumShapes ++ map (fun v => (ev_name v, ("", "")%string)) e.(e_vals)
  | DStruct s => map (pair s.(s_name)) structShapes
  end.
Lemma items_names d : declNames d = map (fun i => wrap (fst i) (snd i)) (items d).
Proof.
  destruct d as [e|s]; cbn [declNames items]; [rewrite map_app, !map_map; f_equal; apply map_ext; intros v; unfold wrap; cbn [fst snd]; change (lit "") with (@nil Z);
    rewrite app_nil_r; reflexivity|rewrite map_map; reflexivity].
Qed.
Lemma items_words d i : In i (items d) -> In (fst i) (decl_words d) /\ In (snd i) pkg_shapes.
Proof.
  unfold pkg_shapes. destruct d as [e|s]; cbn [items decl_words]; intros I.
  - apply in_app_or in I. destruct I as [I|I]; apply in_map_iff in I; destruct I as (x & <- & I); cbn [fst snd].
    + split; [left; reflexivity|apply in_or_app; left; exact I].
    + split; [right; apply in_map; exact I|left; reflexivity].
  - apply in_map_iff in I. destruct I as (x & <- & I). cbn [fst snd]. split; [left; reflexivity|apply in_or_app; right; exact I].
Qed.
Lemma items_nodup d : NoDup (decl_words d) -> NoDup (items d).
Proof.
  destruct d as [e|s]; cbn [items decl_words]; intros N.
  - inversion N as [|? ? X N']; subst. apply NoDup_app'.
    + apply NoDup_map_on; [intros x y _ _ E; congruence|]. repeat (constructor; [cbn; intuition discriminate|]). constructor.
    + rewrite <- (map_map ev_name (fun n => (n, ("", "")%string))). apply NoDup_map_on; [intros x y _ _ E; congruence|exact N'].
    + intros x A B. apply in_map_iff in A, B. destruct A as (ps & <- & _), B as (v & E & V). injection E as E _. apply X. rewrite <- E. apply in_map. exact V.
  - apply NoDup_map_on; [intros x y _ _ E; congruence|]. repeat (constructor; [cbn; intuition discriminate|]). constructor.
Qed.
Lemma NoDup_app_inv {A} (l l' : list A) : NoDup (l ++ l') -> NoDup l /\ NoDup l' /\ forall x, In x l -> ~ In x l'.
Proof.
  induction l as [|x l IH]; cbn; intros N; [split; [constructor|split; [exact N|intros x []]]|].
  inversion N as [|? ? X N']; subst. destruct (IH N') as (P & Q & R). rewrite in_app_iff in X. split; [constructor; tauto|split; [exact Q|]].
  intros y [<-|Y]; [tauto|exact (R y Y)].
Qed.
Lemma all_items ds : NoDup (flat_map decl_words ds) -> NoDup (flat_map items ds).
Proof.
  induction ds as [|d ds IH]; cbn; intros N; [constructor|]. apply NoDup_app_inv in N. destruct N as (P & Q & R).
  apply NoDup_app'; [apply items_nodup; exact P|exact (IH Q)|]. intros i A B. apply items_words in A. apply in_flat_map in B. destruct B as (d' & D & B).
  apply items_words in B. apply (R (fst i) (proj1 A)). apply in_flat_map. exists d'. tauto.
Qed.
Lemma names_items ds : flat_map declNames ds = map (fun i => wrap (fst i) (snd i)) (flat_map items ds).
Proof. induction ds as [|d ds IH]; [reflexivity|]. cbn [flat_map]. rewrite map_app, IH, items_names. reflexivity. Qed.
Lemma pkg_all f : NoDup (schema_words f) -> (forall n, In n (schema_words f) -> pkg_free n) -> NoDup (pkgNames f).
Proof.
  intros N F. assert (G : forall i, In i (flat_map items (f_idents f)) -> pkg_free (fst i) /\ In (snd i) pkg_shapes).
  { intros i I. apply in_flat_map in I. destruct I as (d & D & I). apply items_words in I. split; [|tauto]. apply F. apply in_flat_map. exists d. tauto. }
  unfold pkgNames. apply NoDup_app'.
  - vm_compute. repeat (constructor; [cbn; intuition discriminate|]). constructor.
  - rewrite names_items. apply NoDup_map_on; [|apply all_items; exact N]. intros x y X Y E. destruct (G x X) as (A & B), (G y Y) as (A' & B').
    destruct (wrap_same _ _ _ _ A A' B B' E). destruct x, y; cbn in *; congruence.
  - intros x A B. apply in_map_iff in A. destruct A as (w & <- & W). rewrite names_items in B. apply in_map_iff in B. destruct B as (i & E & I).
    destruct (G i I) as (P & Q). apply (pkg_fixed_apart _ _ _ P W Q). symmetry. exact E.
Qed.
(** The names of the schema are among those of the package. *)
Lemma words_names f n : In n (schema_words f) -> In n (pkgNames f).
Proof.
  intros I. apply in_flat_map in I. destruct I as (d & D & I). unfold pkgNames. apply in_or_app. right. apply in_flat_map. exists d. split; [exact D|].
  destruct d as [e|s]; cbn [decl_words declNames] in *.
  - destruct I as [<-|I]; [left; unfold wrap; cbn [fst snd]; change (lit "") with (@nil Z); rewrite app_nil_r; reflexivity|apply in_or_app; right; exact I].
  - destruct I as [<-|[]]. left. unfold wrap. cbn [fst snd]. change (lit "") with (@nil Z). rewrite app_nil_r. reflexivity.
Qed.
