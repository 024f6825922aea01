(** A walk whose callback never stops it on the tokens it is given. *)
From Coq Require Import ZArith List Bool Lia.
Import ListNotations.
From Verif.Model Require Import Base Field MapApi Token Walk.
From Verif.Spec Require Import TokenGrammar.
From Verif.Proofs Require Import WalkProofs.
Open Scope Z_scope.

Section Run.
Variable S : Type.
Variable yield : token -> S -> S * bool.
Definition run (ts : list token) (s s' : S) : Prop := emits S yield ts s = (s', true).
Lemma run_nil s : run [] s s. Proof. reflexivity. Qed.
Lemma emits_app a b s : emits S yield (a ++ b) s = (let '(s1, ok) := emits S yield a s in if ok then emits S yield b s1 else (s1, false)).
Proof.
  revert s. induction a as [|t a IH]; intros s; [reflexivity|]. cbn [emits app]. destruct (yield t s) as [s1 []]; [apply IH|reflexivity].
Qed.
Lemma run_app a b s s' : run (a ++ b) s s' <-> exists s1, run a s s1 /\ run b s1 s'.
Proof.
  unfold run. rewrite emits_app. destruct (emits S yield a s) as [s1 []]; split.
  - intros H. exists s1. auto.
  - intros (s2 & E & H). inversion E. subst. exact H.
  - discriminate.
  - intros (s2 & E & H). discriminate.
Qed.
Lemma run_cons t b s s' : run (t :: b) s s' <-> exists s1, yield t s = (s1, true) /\ run b s1 s'.
Proof.
  unfold run. cbn [emits]. destruct (yield t s) as [s1 []]; split.
  - intros H. exists s1. auto.
  - intros (s2 & E & H). inversion E. subst. exact H.
  - discriminate.
  - intros (s2 & E & H). discriminate.
Qed.
Definition wr (m : tmsg) : Prop := forall s s', run (mtoks m) s s' -> walk S yield m s = s'.
Lemma entry_run t vt e s s' : esub wr e -> run (eentry t vt e :: ebody e) s s' -> walk_entry S yield t vt e s = (s', true).
Proof.
  intros H R. destruct e as [z|b|o|o|l|]; cbn [walk_entry]; try exact R.
  - destruct o as [m|]; [|exact R]. cbn [esub] in H. apply run_cons in R as (s1 & E & R).
    cbn [emits]. cbn [eentry] in E. rewrite E. apply f_equal2; [exact (H _ _ R)|reflexivity].
  - destruct o as [[h d]|]; exact R.
Qed.
Lemma field_run n v s s' : vsub wr v -> run (ffield n v :: fbody n v) s s' -> walk_field S yield n v s = (s', true).
Proof.
  intros H R. destruct v as [k z e|st b|o|k l|st l|l|kt vt es|o|l]; cbn [walk_field]; try exact R.
  - destruct o as [m|]; [|exact R]. cbn [vsub] in H. apply run_cons in R as (s1 & E & R).
    cbn [emits]. cbn [ffield] in E. rewrite E. apply f_equal2; [exact (H _ _ R)|reflexivity].
  - destruct l; exact R.
  - destruct l; exact R.
  - destruct l as [|m l]; [exact R|]. cbn [vsub] in H.
    change (fbody n (FMsgs (m :: l))) with (set_len (len (m :: l)) (tok0 TListStart n FTListStructs) :: flat_map mtoks (m :: l) ++ [tok0 TListEnd n 0]) in R.
    change (ffield n (FMsgs (m :: l))) with (tok0 TField n FTListStructs) in R.
    apply run_cons in R as (s1 & E1 & R). apply run_cons in R as (s2 & E2 & R). apply run_app in R as (s3 & R3 & R4).
    cbn [emits]. rewrite E1, E2. 
    assert (E : forall l s s', Forall wr l -> run (flat_map mtoks l) s s' ->
      (fix items (l : list tmsg) (s : S) : S := match l with [] => s | m :: q => items q (walk S yield m s) end) l s = s').
    { clear. induction l as [|m l IH]; intros s s' F R; [inversion R; reflexivity|]. inversion F as [|? ? H F']; subst.
      cbn [flat_map] in R. apply run_app in R as (s1 & R1 & R2). rewrite (H _ _ R1). apply IH; assumption. }
    assert (X := E (m :: l) _ _ H R3). match goal with |- (let '(_, _) := yield _ ?y in _) = _ => replace y with s3 by (symmetry; exact X) end.
    exact R4.
  - destruct es as [|ke es]; [exact R|]. cbn [vsub] in H.
    change (fbody n (FMap kt vt (ke :: es))) with (set_len (len (ke :: es)) (set_map kt vt (tok0 TMapStart n 0)) :: etoks n kt vt (ke :: es) ++ [tok0 TMapEnd n 0]) in R.
    change (ffield n (FMap kt vt (ke :: es))) with (set_map kt vt (tok0 TField n FTMap)) in R.
    apply run_cons in R as (s1 & E1 & R). apply run_cons in R as (s2 & E2 & R). apply run_app in R as (s3 & R3 & R4).
    cbn [emits]. rewrite E1, E2.
    assert (E : forall es s s', Forall (fun ke => esub wr (snd ke)) es -> run (etoks n kt vt es) s s' ->
      (fix entries (es : list (mkey * mentry)) (s : S) : S * bool :=
         match es with
         | [] => (s, true)
         | (k, e) :: q => let '(s, ok) := walk_entry S yield (entry_tok n kt vt k) vt e s in if ok then entries q s else (s, false)
         end) es s = (s', true)).
    { clear. induction es as [|[k e] es IH]; intros s s' F R; [inversion R; reflexivity|]. inversion F as [|? ? H F']; subst. cbn [snd] in H.
      unfold etoks in R. cbn [flat_map] in R.
      change (eentry (entry_tok n kt vt k) vt e :: ebody e ++ ?x) with ((eentry (entry_tok n kt vt k) vt e :: ebody e) ++ x) in R.
      apply run_app in R as (s1 & R1 & R2). rewrite (entry_run _ _ _ _ _ H R1). apply IH; assumption. }
    assert (X := E _ _ _ H R3). match goal with |- (let '(_, _) := ?y in _) = _ => replace y with (s3, true) by (symmetry; exact X) end.
    exact R4.
  - destruct o as [[h d]|]; exact R.
  - destruct l; exact R.
Qed.
Lemma walk_run m : wr m.
Proof.
  induction m as [n fs H] using tmsg_ind'. intros s s' R. cbn [walk].
  change (mtoks (TMsg n fs)) with (tok0 TStructStart n 0 :: ftoks fs ++ [tok0 TStructEnd n 0]) in R.
  apply run_cons in R as (s1 & E1 & R). apply run_app in R as (s2 & R2 & R3). rewrite E1.
  assert (E : forall fs s s', Forall (fun nv => vsub wr (snd nv)) fs -> run (ftoks fs) s s' ->
     (fix fields (fs : list (bytes * fval)) (s : S) : S * bool :=
           match fs with
           | [] => (s, true)
           | (n, v) :: q => let '(s, ok) := walk_field S yield n v s in if ok then fields q s else (s, false)
           end) fs s = (s', true)).
  { clear. induction fs as [|[n v] fs IH]; intros s s' F R; [inversion R; reflexivity|]. inversion F as [|? ? H F']; subst. cbn [snd] in H.
    unfold ftoks in R. cbn [flat_map] in R. change (ffield n v :: fbody n v ++ ?x) with ((ffield n v :: fbody n v) ++ x) in R.
    apply run_app in R as (s1 & R1 & R2). rewrite (field_run _ _ _ _ H R1). apply IH; assumption. }
  match goal with |- (let '(_, _) := ?y in _) = _ => replace y with (s2, true) by (symmetry; exact (E _ _ _ H R2)) end.
  apply run_cons in R3 as (s3 & E3 & R3). inversion R3. subst. rewrite E3. reflexivity.
Qed.
End Run.
