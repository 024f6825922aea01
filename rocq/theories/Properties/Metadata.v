(** C59: metadata keys are case-insensitive. *)
From Coq Require Import String.
From Verif.Model Require Import Base Any Registry Metadata ErrText Target.
From Verif.Proofs Require Import BaseLemmas.
From Verif.Properties Require Import Registry Target.
From Coq Require Import Lia List Permutation.
Open Scope list_scope. Open Scope Z_scope.

Section C59.
Variable ToLower : bytes -> bytes.
Notation Get := (Get ToLower). Notation Set_ := (Set_ ToLower). Notation Delete := (Delete ToLower).

(** Two spellings of a key. *)
Definition same (k k' : bytes) : Prop := ToLower k = ToLower k'.
Definition sameb (k k' : bytes) : bool := if list_eq_dec Z.eq_dec (ToLower k) (ToLower k') then true else false.

(** A history of updates, and the value a key has after it: that of the last update of the
    key in any spelling. *)
Inductive mdop := MSet (k v : bytes) | MDelete (k : bytes) | MClone | MAppend (kv : list (bytes * bytes)).
Definition md_step (md : MD) (o : mdop) : MD :=
  match o with
  | MSet k v => Set_ md k v
  | MDelete k => Delete md k
  | MClone => Clone md
  | MAppend kv =>
      match AppendToContext ToLower (Some md) (flat_map (fun p => [fst p; snd p]) kv) with Ok md => md | _ => md end
  end.
Definition after_one (k : bytes) (x : option bytes) (o : mdop) : option bytes :=
  match o with
  | MSet k' v => if sameb k k' then Some v else x
  | MDelete k' => if sameb k k' then None else x
  | MClone => x
  | MAppend kv => fold_left (fun x p => if sameb k (fst p) then Some (snd p) else x) kv x
  end.
Definition after (k : bytes) (h : list mdop) (x : option bytes) : option bytes := fold_left (after_one k) h x.

Lemma beq_refl a : bytes_eqb a a = true.
Proof. now apply beq_spec. Qed.
Lemma find_del md k k' : reg_find k (md_del md k') = if bytes_eqb k k' then None else reg_find k md.
Proof.
  induction md as [|[k0 v] md IH]; cbn; [destruct (bytes_eqb k k'); auto|].
  destruct (bytes_eqb k' k0) eqn:E1.
  - rewrite IH. apply beq_spec in E1. subst k0. destruct (bytes_eqb k k'); auto.
  - cbn. rewrite IH. destruct (bytes_eqb k k0) eqn:E2; auto. apply beq_spec in E2. subst k0.
    destruct (bytes_eqb k k') eqn:E3; auto. apply beq_spec in E3. subst. rewrite beq_refl in E1. discriminate.
Qed.
Lemma find_put md k k' v : reg_find k (md_put md k' v) = if bytes_eqb k k' then Some v else reg_find k md.
Proof. unfold md_put. cbn. rewrite find_del. destruct (bytes_eqb k k'); auto. Qed.
Lemma sameb_eqb k k' : bytes_eqb (ToLower k) (ToLower k') = sameb k k'.
Proof.
  unfold sameb. destruct (list_eq_dec Z.eq_dec _ _) as [->|N]; [apply beq_refl|].
  destruct (bytes_eqb _ _) eqn:E; auto. apply beq_spec in E. congruence.
Qed.
Lemma append_loop kv : forall md, exists md', Append_loop ToLower md (flat_map (fun p => [fst p; snd p]) kv) = Ok md' /\
  forall k, Get md' k = fold_left (fun x p => if sameb k (fst p) then Some (snd p) else x) kv (Get md k).
Proof.
  induction kv as [|[k v] kv IH]; intros md; [exists md; auto|].
  destruct (IH (Set_ md k v)) as (md' & E & H). exists md'. split; [exact E|]. intros k0. rewrite H. cbn [fold_left fst snd]. f_equal.
  unfold Metadata.Get, Metadata.Set_. rewrite find_put, sameb_eqb. reflexivity.
Qed.

(** For every history of updates through the API: a lookup gives the last value set under
    any spelling of the key. *)
Theorem C59_lookup : forall h md k, Get (fold_left md_step h md) k = after k h (Get md k).
Proof.
  induction h as [|o h IH]; intros md k; [reflexivity|]. cbn [fold_left]. rewrite IH. unfold after. cbn [fold_left]. f_equal.
  destruct o as [k' v|k'| |kv]; cbn [md_step after_one].
  - unfold Metadata.Get, Metadata.Set_. rewrite find_put, sameb_eqb. reflexivity.
  - unfold Metadata.Get, Metadata.Delete. rewrite find_del, sameb_eqb. reflexivity.
  - reflexivity.
  - cbn [AppendToContext]. unfold Clone. destruct (append_loop kv md) as (md' & E & H). rewrite E. apply H.
Qed.
(** New is the same as setting the pairs one after the other. *)
Theorem C59_new : forall kv, exists md, New ToLower (flat_map (fun p => [fst p; snd p]) kv) = Ok md /\
  forall k, Get md k = fold_left (fun x p => if sameb k (fst p) then Some (snd p) else x) kv None.
Proof.
  intros kv. unfold New.
  assert (O : Nat.odd (length (flat_map (fun p : bytes * bytes => [fst p; snd p]) kv)) = false).
  { induction kv as [|p kv IH]; [reflexivity|]. cbn [flat_map app length]. now rewrite Nat.odd_succ_succ. }
  rewrite O. clear O.
  assert (E : forall kv md, New_loop ToLower md (flat_map (fun p => [fst p; snd p]) kv) =
    Append_loop ToLower md (flat_map (fun p => [fst p; snd p]) kv)).
  { induction kv0 as [|[k v] kv0 IH]; intros md; [reflexivity|]. apply IH. }
  rewrite E. destruct (append_loop kv []) as (md & E1 & E2). eauto.
Qed.
(** Respelling the keys of the history and of the lookup changes nothing. *)
Inductive respelled : mdop -> mdop -> Prop :=
| RSet k k' v : same k k' -> respelled (MSet k v) (MSet k' v)
| RDel k k' : same k k' -> respelled (MDelete k) (MDelete k')
| RClone : respelled MClone MClone
| RApp kv kv' : Forall2 (fun p p' => same (fst p) (fst p') /\ snd p = snd p') kv kv' -> respelled (MAppend kv) (MAppend kv').
Theorem C59_case_insensitive : forall h h' md k k', Forall2 respelled h h' -> same k k' ->
  Get (fold_left md_step h md) k = Get (fold_left md_step h' md) k'.
Proof.
  intros h h' md k k' HF HK. rewrite !C59_lookup.
  assert (S : forall a b, same a b -> sameb k a = sameb k' b).
  { intros a b Hab. unfold sameb. rewrite HK, Hab. reflexivity. }
  assert (E : Get md k = Get md k') by (unfold Metadata.Get; now rewrite HK).
  rewrite E. generalize (Get md k'). induction HF as [|o o' h h' HO HF IH]; intros x; [reflexivity|].
  unfold after in *. cbn [fold_left]. rewrite IH. f_equal. destruct HO as [a b v Hab|a b Hab| |kv kv' HP]; cbn [after_one]; auto.
  - now rewrite (S a b Hab).
  - now rewrite (S a b Hab).
  - clear -HP S. revert x. induction HP as [|p p' kv kv' [H1 H2] HP IH]; intros x; [reflexivity|]. cbn [fold_left].
    rewrite (S _ _ H1), H2. apply IH.
Qed.

(** *** Wire form *)
Hypothesis L_idem : forall s, ToLower (ToLower s) = ToLower s.

(** Metadata made by the API has lower-case, distinct keys. *)
Definition lowered (md : MD) : Prop := Forall (fun e => ToLower (fst e) = fst e) md /\ NoDup (map fst md).
Lemma del_in md k e : In e (md_del md k) -> In e md /\ fst e <> k.
Proof.
  induction md as [|[k0 v] md IH]; cbn; [tauto|]. destruct (bytes_eqb k k0) eqn:E.
  - intros H. apply IH in H. tauto.
  - intros [<-|H]; [|apply IH in H; tauto]. split; auto. cbn. intros ->. rewrite beq_refl in E. discriminate.
Qed.
Lemma del_lowered md k : lowered md -> lowered (md_del md k).
Proof.
  intros [H1 H2]. split.
  - rewrite Forall_forall in *. intros e He. apply del_in in He. apply H1. tauto.
  - induction md as [|[k0 v] md IH]; cbn; [constructor|]. inversion H2; subst. apply Forall_inv_tail in H1.
    destruct (bytes_eqb k k0); auto. cbn. constructor; auto. intros C. apply in_map_iff in C. destruct C as (e & E & C).
    apply del_in in C. apply H3. apply in_map_iff. exists e. tauto.
Qed.
Lemma put_lowered md k v : lowered md -> lowered (md_put md (ToLower k) v).
Proof.
  intros H. apply (del_lowered md (ToLower k)) in H. destruct H as [H1 H2]. split; [constructor; [apply L_idem|auto]|]. cbn.
  constructor; auto. intros C. apply in_map_iff in C. destruct C as (e & E & C). apply del_in in C. tauto.
Qed.
Lemma run_lowered h : forall md, lowered md -> lowered (fold_left md_step h md).
Proof.
  induction h as [|o h IH]; intros md H; [auto|]. cbn [fold_left]. apply IH. destruct o; cbn [md_step].
  - now apply put_lowered.
  - now apply del_lowered.
  - auto.
  - cbn [AppendToContext]. unfold Clone. revert md H. induction kv as [|[k v] kv IH2]; intros md H; [auto|].
    cbn [flat_map fst snd app Append_loop]. specialize (IH2 (Set_ md k v) (put_lowered _ _ _ H)).
    destruct (Append_loop _ _ _); auto.
Qed.
Lemma find_nodup k l : NoDup (map fst l) -> forall v, In (k, v) l -> reg_find k l = Some (v : bytes).
Proof.
  induction l as [|[k0 v0] l IH]; cbn; [tauto|]. intros ND v. inversion ND; subst. intros [E|H].
  - injection E as -> ->. now rewrite beq_refl.
  - destruct (bytes_eqb k k0) eqn:E; auto. apply beq_spec in E. subst. exfalso. apply H1. apply in_map_iff. exists (k0, v). auto.
Qed.
Lemma find_none k (l : list (bytes * bytes)) : ~ In k (map fst l) -> reg_find k l = None.
Proof.
  induction l as [|[k0 v0] l IH]; cbn; [auto|]. intros N. destruct (bytes_eqb k k0) eqn:E; auto. apply beq_spec in E. subst. exfalso. auto.
Qed.
Lemma find_perm k l l' : NoDup (map fst l) -> Permutation l l' -> reg_find k l = reg_find k (l' : list (bytes * bytes)).
Proof.
  intros ND P. assert (ND' : NoDup (map fst l')) by (eapply Permutation_NoDup; [apply Permutation_map; eauto|auto]).
  destruct (in_dec (list_eq_dec Z.eq_dec) k (map fst l)) as [I|I].
  - apply in_map_iff in I. destruct I as ([k0 v] & <- & I). cbn. rewrite (find_nodup k0 l ND v I).
    symmetry. apply find_nodup; auto. eapply Permutation_in; eauto.
  - rewrite !find_none; auto. intros C. apply I. eapply Permutation_in; [apply Permutation_sym, Permutation_map; eauto|auto].
Qed.
Lemma FromMsgs_find k l : Forall (fun e => ToLower (fst e) = fst e) l -> NoDup (map fst l) ->
  reg_find k (FromMsgs ToLower l) = reg_find k l.
Proof.
  intros HF ND. unfold FromMsgs.
  assert (G : forall md, (forall k, In k (map fst l) -> reg_find k md = None) ->
    reg_find k (fold_left (fun md m => md_put md (ToLower (fst m)) (snd m)) l md) =
    match reg_find k l with Some v => Some v | None => reg_find k md end).
  { induction l as [|[k0 v] l IH]; intros md HM; [reflexivity|]. inversion ND; subst. pose proof (Forall_inv HF) as HL.
    apply Forall_inv_tail in HF. cbn [fold_left fst snd] in *. rewrite HL. rewrite IH; auto.
    - rewrite find_put. cbn [reg_find]. destruct (bytes_eqb k k0) eqn:E; auto. apply beq_spec in E. subst. rewrite find_none by auto. auto.
    - intros k1 H. rewrite find_put. destruct (bytes_eqb k1 k0) eqn:E.
      + apply beq_spec in E. subst. contradiction.
      + apply HM. right. auto. }
  rewrite G by auto. cbn. destruct (reg_find k l); auto.
Qed.
(** Metadata built by any history of updates comes back from its wire form, in whatever
    order the map was iterated: every lookup gives the same. *)
Theorem C59_wire_roundtrip : forall h wire, let md := fold_left md_step h [] in
  Permutation (ToMsgs md) wire -> forall k, Get (FromMsgs ToLower wire) k = Get md k.
Proof.
  intros h wire md P k.
  assert (HL : lowered md) by (apply run_lowered; split; cbn; constructor).
  destruct HL as [HF ND]. unfold Metadata.Get.
  assert (HF' : Forall (fun e => ToLower (fst e) = fst e) wire).
  { rewrite Forall_forall in *. intros e He. apply HF. eapply Permutation_in; [apply Permutation_sym; eauto|auto]. }
  assert (ND' : NoDup (map fst wire)) by (eapply Permutation_NoDup; [apply Permutation_map; eauto|auto]).
  rewrite FromMsgs_find by auto. symmetry. apply find_perm; auto.
Qed.
(** Whatever arrives from the peer is normalised. *)
Theorem C59_received_is_lowered : forall wire, lowered (FromMsgs ToLower wire).
Proof.
  intros wire. unfold FromMsgs. assert (G : forall md, lowered md ->
    lowered (fold_left (fun md m => md_put md (ToLower (fst m)) (snd m)) wire md)).
  { induction wire as [|m wire IH]; intros md H; [auto|]. cbn [fold_left]. apply IH. now apply put_lowered. }
  apply G. split; constructor.
Qed.
End C59.

(** Metadata not made by the API -- MD is a map type, and a literal may have any keys --
    is not found under its own key, and comes back from the wire changed. *)
Theorem C59_literal_refuted : exists (md : MD) (k v : bytes),
  md = [(k, v)] /\ Get ascii_lower md k = None /\ Get ascii_lower (FromMsgs ascii_lower (ToMsgs md)) k = Some v.
Proof. exists [(text "Key"%string, [1])], (text "Key"%string), [1]. repeat split. Qed.
Theorem C59_odd_arguments_panic : forall md k, AppendToContext ascii_lower (Some md) [k] = Panic /\ AppendToContext ascii_lower None [k] = Panic.
Proof. intros. split; reflexivity. Qed.
Print Assumptions C59_lookup.
Print Assumptions C59_new.
Print Assumptions C59_case_insensitive.
Print Assumptions C59_wire_roundtrip.
Print Assumptions C59_received_is_lowered.
Print Assumptions C59_literal_refuted.
Print Assumptions C59_odd_arguments_panic.

Example demo_metadata :
  (forall s, ascii_lower (ascii_lower s) = ascii_lower s) /\
  let h := [MSet (text "Token"%string) [1]; MSet (text "trace"%string) [2]; MSet (text "TOKEN"%string) [3]; MDelete (text "Trace"%string)] in
  Get ascii_lower (fold_left (md_step ascii_lower) h []) (text "tOKEN"%string) = Some [3] /\
  Get ascii_lower (fold_left (md_step ascii_lower) h []) (text "trace"%string) = None.
Proof. split; [apply ascii_lower_ok|]. split; reflexivity. Qed.
