(** Lemmas for C157. *)
From Coq Require Import ZArith List Bool String Lia.
Import ListNotations.
From Verif.Model Require Import Base Field Any ClawText Idl Methods.
From Verif.Spec Require Import Methods.
From Verif.Proofs Require Import BaseLemmas IngestProofs IdlBase.
Local Open Scope Z_scope.

Definition all_shapes : list (string * string) :=
  map (fun s => (""%string, s)) (""%string :: taken_ends) ++ [("SafeGet", ""); ("Set", ""); ("Set", "Raw"); ("IsSet", "")]%string.
Lemma shapes_all t m ps : In ps (shapes t m) -> In ps all_shapes.
Proof.
  unfold shapes, mapShapes. intros H.
  repeat match type of H with In _ (if ?b then _ else _) => destruct b end;
    [| |destruct m as [[k v w n]|]; [destruct w, n; try destruct (v =? FTAny); try destruct (v =? FTListAny)|]| | |];
    cbn in H; repeat (destruct H as [<-|H]; [cbn; tauto|]); destruct H.
Qed.

(** Two ways to take a word apart. *)
Lemma split_both {A} (a b c d : list A) : a ++ b = c ++ d -> (exists t, c = a ++ t /\ b = t ++ d) \/ (exists t, a = c ++ t /\ d = t ++ b).
Proof.
  revert c. induction a as [|x a IH]; intros c E; [left; exists c; auto|]. destruct c as [|y c]; [right; exists (x :: a); auto|].
  cbn in E. injection E as -> E. destruct (IH c E) as [(t & -> & ->)|(t & -> & ->)]; [left|right]; exists t; auto.
Qed.
(** What is left of [d] before the end [b], if that is its end. *)
Fixpoint before (b d : bytes) : option bytes :=
  if bytes_eqb d b then Some [] else match d with [] => None | x :: d => option_map (cons x) (before b d) end.
Lemma before_app t b : before b (t ++ b) = Some t.
Proof.
  induction t as [|x t IH].
  - cbn [app]. destruct b; cbn [before]; rewrite bytes_eqb_refl; reflexivity.
  - cbn [app before]. rewrite IH. destruct (bytes_eqb (x :: t ++ b) b) eqn:E; [|reflexivity].
    apply bytes_eqb_eq in E. apply (f_equal (@length Z)) in E. cbn in E. rewrite app_length in E. lia.
Qed.
Definition isIn (w : bytes) (l : list string) : bool := existsb (fun s => bytes_eqb (lit s) w) l.
Lemma isIn_ok w l : isIn w l = true -> exists s, In s l /\ w = lit s.
Proof. intros H. apply existsb_exists in H. destruct H as (s & I & E). apply bytes_eqb_eq in E. eauto. Qed.

Definition ends_ok : bool := forallb (fun s => forallb (fun s' =>
  match before (lit s) (lit s') with None => true | Some t => isIn t (""%string :: taken_ends) && (negb (bytes_eqb t []) || (s =? s')%string) end)
  (""%string :: taken_ends)) (""%string :: taken_ends).
Lemma ends_are_ok : ends_ok = true.
Proof. vm_compute. reflexivity. Qed.
Lemma ends_half n n' s s' t : free n -> In s (""%string :: taken_ends) -> In s' (""%string :: taken_ends) ->
  n = n' ++ t -> lit s' = t ++ lit s -> n = n' /\ s = s'.
Proof.
  intros (_ & _ & E & _) I I' -> L. pose proof ends_are_ok as K. unfold ends_ok in K. rewrite forallb_forall in K. specialize (K s I). cbv beta in K.
  rewrite forallb_forall in K. specialize (K s' I'). rewrite L, before_app in K. apply andb_true_iff in K. destruct K as (K & K').
  apply isIn_ok in K. destruct K as (u & [<-|U] & ->); [|destruct (E u n' U eq_refl)].
  change (lit "") with (@nil Z) in *. cbn in K'. apply String.eqb_eq in K'. rewrite app_nil_r. auto.
Qed.
Lemma ends_same n n' s s' : free n -> free n' -> In s (""%string :: taken_ends) -> In s' (""%string :: taken_ends) ->
  n ++ lit s = n' ++ lit s' -> n = n' /\ s = s'.
Proof.
  intros F F' I I' E. destruct (split_both _ _ _ _ E) as [(t & A & B)|(t & A & B)].
  - destruct (ends_half n' n s' s t F' I' I A B) as (-> & ->). auto.
  - exact (ends_half n n' s s' t F I I' A B).
Qed.

(** A name and an end do not begin as a setter does. *)
Definition starts_ok : bool := forallb (fun p => forallb (fun s =>
  forallb (fun k => let b := skipn k (lit p) in
     negb (bytes_eqb (firstn (length b) (lit s)) b) || bytes_eqb b [] || isIn (skipn (length b) (lit s)) (""%string :: "Raw"%string :: nil)) (seq 0 8))
  (""%string :: taken_ends)) taken_starts.
Lemma starts_are_ok : starts_ok = true.
Proof. vm_compute. reflexivity. Qed.
Lemma starts_apart n n' s s' p : free n -> free n' -> In p taken_starts -> In s (""%string :: taken_ends) -> In s' [""; "Raw"]%string ->
  n ++ lit s = lit p ++ n' ++ lit s' -> False.
Proof.
  intros F F' P I I' E. destruct (split_both _ _ _ _ E) as [(t & A & B)|(t & A & B)].
  2: { destruct F as (_ & ST & _). exact (ST p t P A). }
  pose proof starts_are_ok as K. unfold starts_ok in K. rewrite forallb_forall in K. specialize (K p P). cbv beta in K. rewrite forallb_forall in K.
  specialize (K s I). cbv beta in K. rewrite forallb_forall in K. specialize (K (length n)). cbv zeta in K.
  assert (SK : skipn (length n) (lit p) = t) by (rewrite A, skipn_app, skipn_all, PeanoNat.Nat.sub_diag; reflexivity).
  rewrite SK, B in K. rewrite firstn_app, firstn_all, PeanoNat.Nat.sub_diag, firstn_O, app_nil_r, bytes_eqb_refl in K.
  rewrite skipn_app, skipn_all, PeanoNat.Nat.sub_diag in K. cbn [negb orb app skipn] in K.
  assert (L : (length (lit p) <= 7)%nat) by (cbn in P; destruct P as [<-|[<-|[<-|[]]]]; cbn; lia).
  assert (Q : (length n <= 7)%nat) by (rewrite A, app_length in L; lia).
  assert (SQ : In (length n) (seq 0 8)) by (apply in_seq; lia). specialize (K SQ).
  apply orb_true_iff in K. destruct K as [K|K].
  - apply bytes_eqb_eq in K. subst t. rewrite app_nil_r in A. destruct F as (_ & ST & _). apply (ST p [] P). rewrite app_nil_r. congruence.
  - apply isIn_ok in K. destruct K as (u & U & W). destruct F' as (NE & _ & EN & _).
    assert (N : n' ++ lit s' = lit u) by exact W.
    destruct U as [<-|[<-|[]]].
    + apply app_eq_nil in N. tauto.
    + destruct I' as [<-|[<-|[]]].
      * change (lit "") with (@nil Z) in N. rewrite app_nil_r in N. apply (EN "Raw"%string []); [cbn; tauto|exact N].
      * apply NE. apply (app_inv_tail (lit "Raw")). exact N.
Qed.

(** The methods that all have. *)
Fixpoint after (p w : bytes) : option bytes :=
  match p, w with [], _ => Some w | x :: p, y :: w => if x =? y then after p w else None | _ :: _, [] => None end.
Lemma after_app p w : after p (p ++ w) = Some w.
Proof. induction p as [|x p IH]; [reflexivity|]. cbn. rewrite Z.eqb_refl. exact IH. Qed.
Definition fixed_ok : bool := forallb (fun w => forallb (fun ps =>
  match after (lit (fst ps)) (lit w) with None => true | Some r => match before (lit (snd ps)) r with None => true | Some n => isIn n taken end end)
  all_shapes) fixedMethods.
Lemma fixed_are_ok : fixed_ok = true.
Proof. vm_compute. reflexivity. Qed.
Lemma fixed_apart n w ps : free n -> In w fixedMethods -> In ps all_shapes -> lit w <> lit (fst ps) ++ n ++ lit (snd ps).
Proof.
  intros (_ & _ & _ & T) W I E. pose proof fixed_are_ok as K. unfold fixed_ok in K. rewrite forallb_forall in K. specialize (K w W). cbv beta in K.
  rewrite forallb_forall in K. specialize (K ps I). rewrite E, after_app, before_app in K. apply isIn_ok in K. destruct K as (u & U & Q). exact (T u U Q).
Qed.

Lemma shape_same n n' ps ps' : free n -> free n' -> In ps all_shapes -> In ps' all_shapes ->
  lit (fst ps) ++ n ++ lit (snd ps) = lit (fst ps') ++ n' ++ lit (snd ps') -> n = n' /\ ps = ps'.
Proof.
  assert (C : forall ps, In ps all_shapes -> (fst ps = ""%string /\ In (snd ps) (""%string :: taken_ends)) \/
      (In (fst ps) taken_starts /\ In (snd ps) [""; "Raw"]%string /\ In (snd ps) (""%string :: taken_ends))).
  { intros q I. unfold all_shapes in I. apply in_app_or in I. destruct I as [I|I].
    - left. apply in_map_iff in I. destruct I as (s & <- & I). auto.
    - right. cbn in I. repeat (destruct I as [<-|I]; [cbn; tauto|]). destruct I. }
  intros F F' I I' E. destruct (C ps I) as [(A & B)|(A & B & D)], (C ps' I') as [(A' & B')|(A' & B' & D')].
  - rewrite A, A' in E. destruct (ends_same n n' _ _ F F' B B' E) as (-> & Q). split; [reflexivity|]. destruct ps, ps'; cbn in *; congruence.
  - exfalso. rewrite A in E. exact (starts_apart n n' _ _ _ F F' A' B B' E).
  - exfalso. rewrite A' in E. symmetry in E. exact (starts_apart n' n _ _ _ F' F A B' B E).
  - assert (Q : fst ps = fst ps').
    { cbn [taken_starts In] in A, A'. destruct A as [A|[A|[A|[]]]], A' as [A'|[A'|[A'|[]]]]; rewrite <- A, <- A' in E |- *; try reflexivity; discriminate E. }
    rewrite Q in E. apply app_inv_head in E. destruct (ends_same n n' _ _ F F' D D' E) as (-> & R). split; [reflexivity|]. destruct ps, ps'; cbn in *; congruence.
Qed.

Lemma shapes_nodup t m : NoDup (shapes t m).
Proof.
  unfold shapes, mapShapes.
  repeat match goal with |- NoDup (if ?b then _ else _) => destruct b end;
    [| |destruct m as [[k v w n]|]; [destruct w, n; try destruct (v =? FTAny); try destruct (v =? FTListAny)|]| | |];
    cbn [app]; repeat (constructor; [cbn; intuition discriminate|]); constructor.
Qed.
Lemma shapes_no_isset t m : ~ In ("IsSet", "")%string (shapes t m).
Proof.
  unfold shapes, mapShapes.
  repeat match goal with |- ~ In _ (if ?b then _ else _) => destruct b end;
    [| |destruct m as [[k v w n]|]; [destruct w, n; try destruct (v =? FTAny); try destruct (v =? FTListAny)|]| | |]; cbn; intuition discriminate.
Qed.
(** The shapes of all methods of a field. *)
Definition shapes_of (isSet : bool) (fd : sfield) : list (string * string) :=
  shapes fd.(fd_type) fd.(fd_map) ++ (if isSet then [("IsSet", "")]%string else []).
Lemma shapes_of_all isSet fd ps : In ps (shapes_of isSet fd) -> In ps all_shapes.
Proof.
  intros I. apply in_app_or in I. destruct I as [I|I]; [exact (shapes_all _ _ _ I)|]. destruct isSet; [destruct I as [<-|[]]; cbn; tauto|destruct I].
Qed.
Lemma names_of isSet self fd : map snd (fieldMethods isSet self fd) = map (fun ps => lit (fst ps) ++ fd.(fd_name) ++ lit (snd ps)) (shapes_of isSet fd).
Proof.
  unfold fieldMethods, shapes_of. rewrite !map_app, map_map. f_equal. destruct isSet; [|reflexivity]. cbn [map fst snd]. change (lit "") with (@nil Z). rewrite app_nil_r. reflexivity.
Qed.
Lemma NoDup_app' {A} (l l' : list A) : NoDup l -> NoDup l' -> (forall x, In x l -> ~ In x l') -> NoDup (l ++ l').
Proof.
  intros N N' D. induction N as [|x l X N IH]; [exact N'|]. cbn. constructor; [|apply IH; intros y Y; apply D; right; exact Y].
  intros I. apply in_app_or in I. destruct I as [I|I]; [exact (X I)|exact (D x (or_introl eq_refl) I)].
Qed.
Lemma NoDup_map_on {A B} (f : A -> B) l : (forall x y, In x l -> In y l -> f x = f y -> x = y) -> NoDup l -> NoDup (map f l).
Proof.
  intros I N. induction N as [|x l X N IH]; cbn; constructor.
  - intros Y. apply in_map_iff in Y. destruct Y as (y & E & Y). apply X. rewrite (I x y); [exact Y|left; reflexivity|right; exact Y|congruence].
  - apply IH. intros a b A' B'. apply I; right; assumption.
Qed.
Lemma field_names isSet self fd : free fd.(fd_name) -> NoDup (map snd (fieldMethods isSet self fd)).
Proof.
  intros F. rewrite names_of. apply NoDup_map_on.
  - intros x y X Y E. apply shapes_of_all in X, Y. exact (proj2 (shape_same _ _ x y F F X Y E)).
  - unfold shapes_of. apply NoDup_app'; [apply shapes_nodup|destruct isSet; [constructor; [intros []|constructor]|constructor]|].
    intros x X Y. destruct isSet; [destruct Y as [<-|[]]; exact (shapes_no_isset _ _ X)|destruct Y].
Qed.
Lemma all_names isSet self fds : NoDup (map fd_name fds) -> Forall (fun fd => free fd.(fd_name)) fds -> NoDup (map snd (methods isSet self fds)).
Proof.
  intros N F. unfold methods. rewrite map_app, map_map. cbn [snd]. apply NoDup_app'.
  - vm_compute. repeat (constructor; [cbn; intuition discriminate|]). constructor.
  - induction fds as [|fd fds IH]; [constructor|]. cbn [map] in N. inversion N as [|? ? X N']; subst. inversion F as [|? ? F1 F2]; subst.
    cbn [flat_map]. rewrite map_app. apply NoDup_app'; [apply field_names; exact F1|exact (IH N' F2)|].
    intros x A B. rewrite names_of in A. apply in_map_iff in A. destruct A as (ps & <- & I). apply in_map_iff in B. destruct B as (m & E & B).
    apply in_flat_map in B. destruct B as (fd' & D & B). apply (in_map snd) in B. rewrite names_of in B. apply in_map_iff in B. destruct B as (ps' & E' & I').
    rewrite Forall_forall in F2. rewrite <- E' in E. apply shapes_of_all in I, I'.
    destruct (shape_same _ _ ps' ps (F2 fd' D) F1 I' I E) as (Q & _). apply X. rewrite <- Q. apply in_map. exact D.
  - intros x A B. apply in_map_iff in A. destruct A as (w & <- & W). apply in_map_iff in B. destruct B as (m & E & B).
    apply in_flat_map in B. destruct B as (fd' & D & B). apply (in_map snd) in B. rewrite names_of, E in B. apply in_map_iff in B. destruct B as (ps & E' & I).
    rewrite Forall_forall in F. apply (fixed_apart (fd_name fd') w ps (F fd' D) W (shapes_of_all _ _ _ I)). symmetry. exact E'.
Qed.
