(** Descriptors of a generated package. *)
From Coq Require Import ZArith List Bool String Lia Permutation Sorted.
Import ListNotations.
From Verif.Model Require Import Base Utf8 Field Any ClawText Idl GoNames ReflectDescr.
From Verif.Spec Require Import Idl ReflectDescr.
From Verif.Proofs Require Import BaseLemmas IngestProofs IdlBase IdlText IdlSound GoNames VendorFind.
Local Open Scope Z_scope.

Lemma nameLe_iff a : forall b, nameLe a b = true <-> name_le a b.
Proof.
  induction a as [|x a IH]; intros [|y b]; cbn [nameLe].
  - split; [intros _; left; exists []; reflexivity|reflexivity].
  - split; [intros _; left; exists (y :: b); reflexivity|reflexivity].
  - split; [discriminate|]. intros [[r H]|(p & u & v & a' & b' & _ & H & _)]; [discriminate|destruct p; discriminate].
  - rewrite orb_true_iff, andb_true_iff, Z.ltb_lt, Z.eqb_eq, IH. split.
    + intros [H|(<- & [[r ->]|(p & u & v & a' & b' & -> & -> & L)])].
      * right. exists [], x, y, a, b. auto.
      * left. exists r. reflexivity.
      * right. exists (x :: p), u, v, a', b'. auto.
    + intros [[r H]|(p & u & v & a' & b' & A & B & L)].
      * injection H as -> ->. right. split; [reflexivity|]. left. exists r. reflexivity.
      * destruct p as [|c p]; cbn [app] in A, B; injection A as -> ->; injection B as -> ->; [left; exact L|]. right. split; [reflexivity|]. right. exists p, u, v, a', b'. auto.
Qed.
Lemma nameLe_total a : forall b, nameLe a b = false -> nameLe b a = true.
Proof.
  induction a as [|x a IH]; intros [|y b]; cbn [nameLe]; try discriminate; [reflexivity|].
  intros H. apply orb_false_iff in H. destruct H as [H1 H2]. apply Z.ltb_ge in H1. apply orb_true_iff. destruct (Z.eqb_spec x y) as [->|N].
  - right. rewrite Z.eqb_refl. cbn [andb] in *. apply IH. exact H2.
  - left. apply Z.ltb_lt. lia.
Qed.
Lemma nameLe_trans a : forall b c, nameLe a b = true -> nameLe b c = true -> nameLe a c = true.
Proof.
  induction a as [|x a IH]; intros [|y b] [|z c]; cbn [nameLe]; try discriminate; try reflexivity.
  rewrite !orb_true_iff, !andb_true_iff, !Z.ltb_lt, !Z.eqb_eq. intros [H|[-> H]] [G|[-> G]]; [left; lia|left; lia|left; lia|right; split; [reflexivity|]]. eapply IH; eassumption.
Qed.
Section Sort.
Context {A : Type}.
Variable name : A -> bytes.
Lemma insertN_perm x l : Permutation (insertN name x l) (x :: l).
Proof. induction l as [|y l IH]; cbn [insertN]; [reflexivity|]. destruct (nameLe _ _); [reflexivity|]. rewrite IH. apply perm_swap. Qed.
Lemma sortN_perm l : Permutation (sortN name l) l.
Proof. unfold sortN. induction l as [|x l IH]; cbn [fold_right]; [reflexivity|]. rewrite insertN_perm, IH. reflexivity. Qed.
Lemma insertN_sorted x l : StronglySorted (fun a b => nameLe (name a) (name b) = true) l -> StronglySorted (fun a b => nameLe (name a) (name b) = true) (insertN name x l).
Proof.
  induction 1 as [|y l S IH F]; cbn [insertN]; [repeat constructor|]. destruct (nameLe (name x) (name y)) eqn:E.
  - constructor; [constructor; assumption|]. constructor; [exact E|]. eapply Forall_impl; [|exact F]. intros z Z. eapply nameLe_trans; eassumption.
  - constructor; [exact IH|]. rewrite insertN_perm. constructor; [apply nameLe_total; exact E|exact F].
Qed.
Lemma sortN_sorted l : StronglySorted (fun a b => name_le (name a) (name b)) (sortN name l).
Proof.
  assert (S : StronglySorted (fun a b => nameLe (name a) (name b) = true) (sortN name l)).
  { unfold sortN. induction l; cbn [fold_right]; [constructor|apply insertN_sorted; assumption]. }
  induction S as [|x q S IH F]; constructor; [exact IH|]. eapply Forall_impl; [|exact F]. intros z. apply nameLe_iff.
Qed.
End Sort.
Lemma find_unique {A B} (key : A -> B) (l : list A) (f : A -> bool) (k : B) : NoDup (map key l) -> (forall a, f a = true <-> key a = k) -> finds l (fun a => key a = k) (find f l).
Proof.
  intros N F. destruct (find f l) as [a|] eqn:E; unfold finds.
  - apply find_some in E. destruct E as [I X]. apply F in X. split; [exact I|]. split; [exact X|]. intros b J Y.
    revert N I J. clear E || idtac. clear F. induction l as [|c l IH]; cbn [map In]; intros N I J; [destruct I|]. apply NoDup_cons_iff in N. destruct N as [N1 N2].
    destruct I as [->|I], J as [->|J]; auto; exfalso; apply N1; [rewrite X, <- Y|rewrite Y, <- X]; apply in_map; assumption.
  - intros a I X. apply F in X. rewrite (find_none _ _ E a I) in X. discriminate.
Qed.
Lemma finds_perm {A} (l l' : list A) P r : Permutation l l' -> finds l P r -> finds l' P r.
Proof.
  intros E. destruct r as [a|]; cbn [finds].
  - intros (I & X & U). split; [eapply Permutation_in; eassumption|]. split; [exact X|]. intros b J. apply U. eapply Permutation_in; [symmetry; exact E|exact J].
  - intros U a I. apply U. eapply Permutation_in; [symmetry; exact E|exact I].
Qed.
Lemma groups_ok es gs : groupsOf es = Ok gs -> Forall2 (fun e g => OrderByValues e = Ok g.(g_vals) /\ g.(g_name) = e.(e_name) /\ g.(g_len) = len e.(e_vals) /\ g.(g_size) = e.(e_size)) es gs.
Proof.
  revert gs. induction es as [|e es IH]; cbn [groupsOf]; intros gs H; [injection H as <-; constructor|].
  destruct (OrderByValues e) as [vs| | |] eqn:O; try discriminate. cbn [bind] in H. destruct (groupsOf es) as [l| | |]; try discriminate. cbn [bind] in H. injection H as <-.
  constructor; [auto|apply IH; reflexivity].
Qed.
Lemma groups_iff es : (exists gs, groupsOf es = Ok gs) <-> forall e, In e es -> exists l, OrderByValues e = Ok l.
Proof.
  induction es as [|e es IH]; cbn [groupsOf]; [split; [intros _ e []|eauto]|]. split.
  - intros [gs H]. destruct (OrderByValues e) as [vs| | |] eqn:O; try discriminate. cbn [bind] in H. destruct (groupsOf es) as [l| | |]; try discriminate.
    intros x [<-|I]; [eauto|]. apply IH; [eauto|exact I].
  - intros H. destruct (H e (or_introl eq_refl)) as [l ->]. cbn [bind]. destruct (proj2 IH) as [gs ->]; [intros x I; apply H; right; exact I|]. cbn [bind]. eauto.
Qed.
Lemma decl_names f : NoDup (map decl_name f.(f_idents)) -> NoDup (map s_name (structs f)) /\ NoDup (map e_name (enums f)).
Proof.
  unfold structs, enums. generalize f.(f_idents). clear f. intros l. induction l as [|d l IH]; cbn [map flat_map]; intros N; [split; constructor|].
  apply NoDup_cons_iff in N. destruct N as [N1 N2]. destruct (IH N2) as [A B]. destruct d as [e|s]; cbn [app map].
  - split; [exact A|]. constructor; [|exact B]. intros I. apply N1. apply in_map_iff in I. destruct I as (x & E & I). apply in_flat_map in I. destruct I as (d & I & J). destruct d; [destruct J as [->|[]]|destruct J].
    apply in_map_iff. exists (DEnum x). auto.
  - split; [|exact B]. constructor; [|exact A]. intros I. apply N1. apply in_map_iff in I. destruct I as (x & E & I). apply in_flat_map in I. destruct I as (d & I & J). destruct d; [destruct J|destruct J as [->|[]]].
    apply in_map_iff. exists (DStruct x). auto.
Qed.
Lemma at_ok {A} (l : list A) i a : 0 <= i -> (at_ l i = Ok a <-> nth_error l (Z.to_nat i) = Some a).
Proof. intros I. unfold at_. destruct (Z.ltb_spec i 0); [lia|]. destruct (nth_error l (Z.to_nat i)); split; congruence. Qed.
Lemma at_panic {A} (l : list A) i : i < 0 \/ len l <= i -> at_ l i = Panic.
Proof.
  unfold at_, len. intros H. destruct (Z.ltb_spec i 0); [reflexivity|]. rewrite (proj2 (nth_error_None l (Z.to_nat i))); [reflexivity|]. lia.
Qed.
