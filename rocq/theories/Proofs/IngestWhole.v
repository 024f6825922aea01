(** A message that Walk shows of a struct is what Ingest makes of its tokens. *)
From Coq Require Import ZArith List Bool Lia ZifyBool.
Import ListNotations.
From Coq Require Import Sorting.Sorted.
From Verif.Model Require Import Base Field MapApi Token Walk TokenStream Ingest.
From Verif.Spec Require Import Message MapSpec TokenGrammar Values Ingest.
From Verif.Proofs Require Import BaseLemmas MapLemmas TokenVals WalkProofs IngestProofs.
From Verif.Properties Require Import Tokens.
Open Scope Z_scope.

Lemma assoc_none {A} n (l : list (bytes * A)) : ~ In n (map fst l) -> assoc n l = None.
Proof.
  induction l as [|[m a] l IH]; cbn; [reflexivity|]. intros H. destruct (bytes_eqb n m) eqn:Q; [|apply IH; tauto].
  apply bytes_eqb_eq in Q. subst. tauto.
Qed.
Lemma assoc_some_in {A} n (l : list (bytes * A)) a : assoc n l = Some a -> In (n, a) l.
Proof.
  induction l as [|[m b] l IH]; cbn; [discriminate|]. destruct (bytes_eqb n m) eqn:Q; [|auto].
  apply bytes_eqb_eq in Q. intros H. inversion H. subst. auto.
Qed.
Lemma assoc_app_r {A} n (a b : list (bytes * A)) : ~ In n (map fst a) -> assoc n (a ++ b) = assoc n b.
Proof.
  induction a as [|[m x] a IH]; cbn; [reflexivity|]. intros H. destruct (bytes_eqb n m) eqn:Q; [|apply IH; tauto].
  apply bytes_eqb_eq in Q. subst. tauto.
Qed.
Lemma set_field_app_r n v (a b : list (bytes * fval)) : ~ In n (map fst a) -> set_field n v (a ++ b) = a ++ set_field n v b.
Proof.
  induction a as [|[m x] a IH]; cbn; [reflexivity|]. intros H. destruct (bytes_eqb n m) eqn:Q; [|rewrite IH by tauto; reflexivity].
  apply bytes_eqb_eq in Q. subst. tauto.
Qed.
Lemma upsert_last kt es k e : keys_ok kt (map fst es) -> key_ok kt k -> Forall (fun x => key_lt kt (fst x) k) es -> upsert kt es k e = es ++ [(k, e)].
Proof.
  intros H K F. induction es as [|[k0 e0] es IH]; [reflexivity|]. cbn [upsert app]. inversion F as [|? ? F0 F']; subst. cbn in F0.
  destruct H as [S FO]. inversion S; subst. inversion FO; subst.
  destruct (compare_spec kt k0 k) as [[-> C]|[[-> C]|[-> C]]]; auto; cbn.
  - rewrite IH; auto. split; assumption.
  - exfalso. apply (lt_not_same kt _ _ F0 C).
  - exfalso. apply (key_lt_irr kt k0). eapply key_lt_trans; eauto.
Qed.

Section Whole.
Variable E : env.
Hypothesis ND : names_differ E.

(** ** The conditions of [known] follow *)
Section Known.
Variable ig : bool.
Variable other : fval -> Prop.
Definition wk (m : tmsg) : Prop := forall id, whole E id m -> known E ig other id m.
Lemma exact_fits ty v : vsub wk v -> exact_val E ty v -> fits E ig other ty v.
Proof.
  intros S X. inversion X; subst; cbn [vsub] in S; constructor; auto.
  - apply H.
  - eapply Forall_impl; [|exact H]. cbn. tauto.
  - rewrite Forall_forall in *. intros m I. apply S; auto.
  - rewrite Forall_forall in *. intros ke I. destruct (H0 _ I) as [K X']. split; [exact K|].
    specialize (S _ I). inversion X'; subst; constructor; auto. cbn in S. match goal with H : _ = snd ke |- _ => rewrite <- H in S end. apply S. assumption.
Qed.
Lemma forall2_assoc {B} (R : fty -> B -> Prop) decl : forall fs, NoDup (map fst decl) -> Forall2 (fun nt nv => fst nt = fst nv /\ R (snd nt) (snd nv)) decl fs ->
  Forall (fun nv => exists ty, assoc (fst nv) decl = Some ty /\ R ty (snd nv)) fs.
Proof.
  intros fs N F.
  assert (G : forall pre, (forall nv, In nv decl -> ~ In (fst nv) (map fst pre)) -> Forall (fun nv => exists ty, assoc (fst nv) (pre ++ decl) = Some ty /\ R ty (snd nv)) fs).
  { induction F as [|[n t] [n' v] decl fs [Q H] F IH]; intros pre D; [constructor|]. cbn in Q, H. subst n'. inversion N; subst. constructor.
    - exists t. cbn [fst snd]. rewrite assoc_app_r by (apply (D (n, t)); left; reflexivity). cbn. rewrite bytes_eqb_refl. auto.
    - replace (pre ++ (n, t) :: decl) with ((pre ++ [(n, t)]) ++ decl) by (rewrite <- app_assoc; reflexivity). apply IH; [assumption|].
      intros nv I. rewrite map_app, in_app_iff. intros [J|J]; [apply (D nv); [right; exact I|exact J]|]. cbn in J. destruct J as [J|[]].
      apply H2. rewrite J. apply in_map. exact I. }
  apply (G []). auto.
Qed.
Lemma whole_known m : wk m.
Proof.
  induction m as [nm fs H] using tmsg_ind'. intros id W. inversion W as [? ? F Q]; subst. constructor.
  apply forall2_assoc in F; [|apply ND]. rewrite Forall_forall in *. intros [n v] I. destruct (F _ I) as (ty & A & X). cbn [fst snd] in *.
  apply (known_declared _ _ _ _ _ ty); [exact A|]. apply exact_fits; [|exact X]. apply (H (n, v) I).
Qed.

End Known.

(** ** Taking over into a new struct *)
Definition wm (m : tmsg) : Prop := forall id, whole E id m -> TMsg (fst (E id)) (merge E id (blank E id) m) = m.
Lemma map_wm id l : Forall wm l -> Forall (whole E id) l -> map (fun m => TMsg (fst (E id)) (merge E id (blank E id) m)) l = l.
Proof. induction 1 as [|m l H _ IH]; intros F; [reflexivity|]. inversion F; subst. cbn. rewrite H, IH by assumption. reflexivity. Qed.
Lemma fold_upsert kt vt id : forall es o, Forall (fun ke => esub wm (snd ke)) es -> Forall (fun ke => key_ok kt (fst ke) /\ exact_entry E vt id (snd ke)) es ->
  keys_ok kt (map fst (o ++ es)) -> fold_left (fun o ke => upsert kt o (fst ke) (entry E id (snd ke))) es o = o ++ es.
Proof.
  induction es as [|[k e] es IH]; intros o S F K; [rewrite app_nil_r; reflexivity|]. cbn [fold_left fst snd].
  inversion S as [|? ? Se S']; subst. inversion F as [|? ? [Kk X] F']; subst. cbn [fst snd] in *.
  assert (EE : entry E id e = e). { inversion X; subst; try reflexivity. cbn in Se |- *. rewrite Se by assumption. reflexivity. }
  rewrite EE. assert (K' := K). rewrite map_app in K'. apply keys_ok_app in K' as (Ko & Kr & L).
  rewrite upsert_last; [|exact Ko|exact Kk|].
  - rewrite IH; auto; rewrite <- app_assoc; [reflexivity|exact K].
  - rewrite Forall_map in L. eapply Forall_impl; [|exact L]. cbn. intros x FL. inversion FL; assumption.
Qed.
Lemma absorb_exact ty v : vsub wm v -> exact_val E ty v -> absorb E ty (zero_value ty) v = v.
Proof.
  intros S X. inversion X; subst; try reflexivity.
  - cbn. destruct H as [_ H]. rewrite H. reflexivity.
  - change (FMsg (if nothing_set (merge E id (blank E id) (TMsg nm fs)) then None else Some (TMsg (fst (E id)) (merge E id (blank E id) (TMsg nm fs)))) = FMsg (Some (TMsg nm fs))).
    specialize (S id H). remember (merge E id (blank E id) (TMsg nm fs)) as r. injection S as S1 S2. rewrite S1, S2, H0. reflexivity.
  - cbn. f_equal. rewrite <- (map_id l) at 2. apply map_ext_in. intros [z nm] I. rewrite Forall_forall in H. destruct (H _ I) as [_ Q]. cbn in *. rewrite <- Q. reflexivity.
  - cbn. f_equal. apply map_wm; assumption.
  - cbn [zero_value]. rewrite absorb_map. f_equal. apply (fold_upsert kt vt); auto. split; [exact H|]. cbn. rewrite Forall_map.
    eapply Forall_impl; [|exact H0]. cbn. tauto.
  - destruct x as [h d]. cbn in H0 |- *. replace (len d =? 0) with false; [reflexivity|]. destruct d; [contradiction|]. rewrite len_cons. pose proof (len_nonneg d). lia.
  - destruct l; reflexivity.
Qed.
Lemma fold_mstep id decl fs : Forall (fun nv => vsub wm (snd nv)) fs -> Forall2 (fun nt nv => fst nt = fst nv /\ exact_val E (snd nt) (snd nv)) decl fs ->
  forall pdecl pfs, snd (E id) = pdecl ++ decl -> map fst pdecl = map fst pfs ->
  fold_left (mstep E id) fs (pfs ++ map (fun '(n, t) => (n, zero_value t)) decl) = pfs ++ fs.
Proof.
  intros S F. revert S. induction F as [|[n t] [n' v] decl fs [Q X] F IH]; intros S pdecl pfs D PF; [reflexivity|].
  cbn in Q, X. subst n'. inversion S as [|? ? Sv S']; subst. cbn [snd] in Sv. cbn [fold_left map].
  assert (NI : ~ In n (map fst pdecl)).
  { pose proof (ND id) as N. rewrite D, map_app in N. cbn in N. apply NoDup_remove_2 in N. rewrite in_app_iff in N. tauto. }
  assert (NI' : ~ In n (map fst pfs)) by (rewrite <- PF; exact NI).
  unfold mstep at 2. cbn [fst snd]. rewrite D, assoc_app_r by exact NI. rewrite assoc_app_r by exact NI'. cbn [assoc]. rewrite bytes_eqb_refl.
  rewrite set_field_app_r by exact NI'. cbn [set_field]. rewrite bytes_eqb_refl. rewrite absorb_exact by assumption.
  replace (pfs ++ (n, v) :: map (fun '(n, t) => (n, zero_value t)) decl) with ((pfs ++ [(n, v)]) ++ map (fun '(n, t) => (n, zero_value t)) decl) by (rewrite <- app_assoc; reflexivity).
  rewrite (IH S' (pdecl ++ [(n, t)]) (pfs ++ [(n, v)])).
  - rewrite <- app_assoc. reflexivity.
  - rewrite <- app_assoc. exact D.
  - rewrite !map_app, PF. reflexivity.
Qed.
Lemma whole_merge m : wm m.
Proof.
  induction m as [nm fs H] using tmsg_ind'. intros id W. inversion W as [? ? F Q]; subst. f_equal. rewrite merge_eq.
  apply (fold_mstep id (snd (E id)) fs H F [] []); reflexivity.
Qed.
End Whole.
