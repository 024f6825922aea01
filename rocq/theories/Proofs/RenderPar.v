(** The goroutines of Render and getImports: an invariant of all their runs. *)
From Coq Require Import String.
From Verif.Model Require Import Base Any Registry ErrText Escape Idl Render.
From Coq Require Import Lia List Permutation Bool.
Import ListNotations.
Open Scope list_scope.

Section Par.
Variables J A E : Type.
Variable work : J -> bool -> A + E.
Variable parent : bool.
Notation par := (par J A E). Notation step := (par_step work parent). Notation run := (par_run work parent).

Definition appended (g : J * gor A E) : list (J * A) := match snd g with GAppended a => [(fst g, a)] | _ => [] end.
Definition gor_ok (c : bool) (err : option E) (g : J * gor A E) : Prop :=
  match snd g with
  | GTodo => True
  | GGot a | GAppended a => exists v, work (fst g) v = inl a
  | GFailed e => exists v, work (fst g) v = inr e /\ (v = true -> c = true)
  | GSent | GReturned => err <> None
  end.
Record inv (js : list J) (s : par) : Prop := {
  i_jobs : map fst (p_gors s) = js;
  i_out : Permutation (p_out s) (flat_map appended (p_gors s));
  i_ok : Forall (gor_ok (p_cancelled s) (p_err s)) (p_gors s);
  i_err : forall e, p_err s = Some e -> exists j v, In j js /\ work j v = inr e /\ (parent = false -> v = false);
  i_cancel : parent = false -> p_cancelled s = true -> p_err s <> None }.

Lemma inv_init js : inv js (par_init js).
Proof.
  constructor; cbn.
  - rewrite map_map. cbn. apply map_id.
  - induction js as [|j js IH]; [constructor|]. exact IH.
  - induction js as [|j js IH]; constructor; [exact I|exact IH].
  - discriminate.
  - discriminate.
Qed.
Lemma ok_mono c err c' err' g : (c = true -> c' = true) -> (err <> None -> err' <> None) -> gor_ok c err g -> gor_ok c' err' g.
Proof.
  intros C Er. unfold gor_ok. destruct (snd g); auto. intros (v & W & V). exists v. auto.
Qed.
Lemma inv_step js s t : inv js s -> step s t -> inv js t.
Proof.
  intros [I1 I2 I3 I4 I5] S. destruct S as [j l1 l2 out err c view V|j a l1 l2 out err c|j e l1 l2 out err c|j l1 l2 out err c|g out err P];
    cbn [p_gors p_out p_err p_cancelled] in *.
  - constructor; cbn [p_gors p_out p_err p_cancelled]; auto.
    + rewrite <- I1, !map_app. reflexivity.
    + rewrite I2, !flat_map_app. cbn. destruct (work j view); reflexivity.
    + apply Forall_app in I3. destruct I3 as [A1 A2]. inversion A2; subst. apply Forall_app. split; auto. constructor; auto.
      unfold gor_ok. cbn. destruct (work j view) eqn:W; eauto.
  - constructor; cbn [p_gors p_out p_err p_cancelled]; auto.
    + rewrite <- I1, !map_app. reflexivity.
    + rewrite I2, !flat_map_app. cbn. rewrite <- app_assoc. apply Permutation_app_head. apply Permutation_app_comm.
    + apply Forall_app in I3. destruct I3 as [A1 A2]. inversion A2; subst. apply Forall_app. split; auto.
  - apply Forall_app in I3. destruct I3 as [A1 A2]. inversion A2 as [|? ? B A3]; subst.
    assert (N : match err with None => Some e | Some _ => err end <> None) by (destruct err; discriminate).
    constructor; cbn [p_gors p_out p_err p_cancelled].
    + rewrite !map_app. reflexivity.
    + rewrite I2, !flat_map_app. reflexivity.
    + apply Forall_app. split; [|constructor].
      * eapply Forall_impl; [|exact A1]. intros g. apply ok_mono; auto.
      * exact N.
      * eapply Forall_impl; [|exact A3]. intros g. apply ok_mono; auto.
    + intros e' E'. destruct err as [e0|]; [auto|]. injection E' as <-. destruct B as (v & W & V). cbn [fst] in W.
      exists j, v. split; [rewrite map_app; apply in_app_iff; right; now left|]. split; [auto|]. intros P.
      destruct v; [|reflexivity]. exfalso. apply (I5 P (V eq_refl)). reflexivity.
    + intros _ _. exact N.
  - apply Forall_app in I3. destruct I3 as [A1 A2]. inversion A2 as [|? ? B A3]; subst. unfold gor_ok in B. cbn in B.
    constructor; cbn [p_gors p_out p_err p_cancelled]; auto.
    + rewrite !map_app. reflexivity.
    + rewrite I2, !flat_map_app. reflexivity.
    + apply Forall_app. split; [|constructor].
      * eapply Forall_impl; [|exact A1]. intros g. apply ok_mono; auto.
      * exact B.
      * eapply Forall_impl; [|exact A3]. intros g. apply ok_mono; auto.
  - constructor; cbn [p_gors p_out p_err p_cancelled]; auto.
    + eapply Forall_impl; [|exact I3]. intros x. apply ok_mono; auto.
    + intros Q. congruence.
Qed.
Lemma inv_run js s : run (par_init js) s -> inv js s.
Proof.
  intros R. remember (par_init js) as s0 eqn:E0. induction R as [s|s t u R IH S]; [subst; apply inv_init|].
  eapply inv_step; eauto.
Qed.

(** What calls do in a cancelled context: they give up, or do what they would have done. *)
Definition honest : Prop := forall j a, work j true = inl a -> work j false = inl a.

Lemma over_ok js s out : honest -> run (par_init js) s -> par_over s -> par_result s = inl out ->
  Permutation (map fst out) js /\ Forall (fun x => work (fst x) false = inl (snd x)) out.
Proof.
  intros Hh R O Res. apply inv_run in R. destruct R as [I1 I2 I3 I4 I5]. unfold par_result in Res.
  destruct (p_err s) as [e|] eqn:EE; [discriminate|]. injection Res as <-.
  unfold par_over in O.
  assert (G : Forall (fun g => exists a v, snd g = GAppended a /\ work (fst g) v = inl a) (p_gors s)).
  { rewrite Forall_forall in *. intros g Hg. specialize (I3 g Hg). specialize (O g Hg). unfold gor_ok in I3.
    destruct (snd g); try contradiction. destruct I3 as (v & W). eauto. }
  split.
  - rewrite <- I1. rewrite I2. clear -G. induction (p_gors s) as [|g l IH]; [constructor|]. inversion G as [|? ? (a & v & E1 & E2) G']; subst.
    cbn. unfold appended at 1. rewrite E1. cbn. constructor. auto.
  - apply (Permutation_Forall (Permutation_sym I2)). clear -G Hh. induction (p_gors s) as [|g l IH]; [constructor|].
    inversion G as [|? ? (a & v & E1 & E2) G']; subst. cbn. unfold appended at 1. rewrite E1. cbn. constructor; [|auto].
    cbn. destruct v; auto.
Qed.
Lemma over_err js s e : parent = false -> run (par_init js) s -> par_result s = inr e ->
  exists j, In j js /\ work j false = inr e.
Proof.
  intros P R Res. apply inv_run in R. destruct R as [I1 I2 I3 I4 I5]. unfold par_result in Res.
  destruct (p_err s) as [e'|] eqn:EE; [|discriminate]. injection Res as ->. destruct (I4 e eq_refl) as (j & v & Hj & W & V).
  rewrite (V P) in W. eauto.
Qed.
Lemma over_fail js s j e : honest -> run (par_init js) s -> par_over s -> In j js -> work j false = inr e ->
  exists e', par_result s = inr e'.
Proof.
  intros Hh R O Hj W. destruct (par_result s) as [out|e'] eqn:Res; [|eauto].
  destruct (over_ok js s out Hh R O Res) as [P F]. exfalso.
  apply (Permutation_in j (Permutation_sym P)) in Hj. apply in_map_iff in Hj. destruct Hj as (x & <- & Hx).
  rewrite Forall_forall in F. rewrite (F x Hx) in W. discriminate.
Qed.

(** The runs end. *)
Definition left (g : gor A E) : nat := match g with GTodo => 3 | GGot _ => 1 | GFailed _ => 2 | GSent => 1 | GAppended _ | GReturned => 0 end.
Definition measure (s : par) : nat := list_sum (map (fun g => left (snd g)) (p_gors s)) + if p_cancelled s then 0 else 1.
Lemma step_measure s t : step s t -> (measure t < measure s)%nat.
Proof.
  intros S. destruct S as [j l1 l2 out err c view V|j a l1 l2 out err c|j e l1 l2 out err c|j l1 l2 out err c|g out err P];
    unfold measure; cbn [p_gors p_cancelled]; rewrite ?map_app, ?list_sum_app; cbn [map list_sum fold_right snd].
  - destruct (work j view); cbn; destruct c; lia.
  - destruct c; cbn; lia.
  - destruct c; cbn; lia.
  - destruct c; cbn; lia.
  - lia.
Qed.
Lemma run_trans s t u : run s t -> run t u -> run s u.
Proof. intros R1 R2. induction R2 as [t|t x y R2 IH S]; [auto|]. econstructor; [apply IH; exact R1|exact S]. Qed.
Lemma step_or_over (s : par) : par_over s \/ exists t, step s t.
Proof.
  destruct s as [gs out err c]. unfold par_over. cbn [p_gors].
  assert (D : forall gs, Forall (fun g : J * gor A E => match snd g with GAppended _ | GReturned => True | _ => False end) gs \/
    exists l1 j g l2, gs = l1 ++ (j, g) :: l2 /\ match g with GAppended _ | GReturned => False | _ => True end).
  { clear. induction gs as [|[j g] gs IH]; [left; constructor|].
    assert (X : match g with GAppended _ | GReturned => True | _ => False end \/ match g with GAppended _ | GReturned => False | _ => True end)
      by (destruct g; auto).
    destruct X as [X|X]; [|right; exists [], j, g, gs; auto].
    destruct IH as [IH|(l1 & j' & g' & l2 & -> & Y)]; [left; constructor; auto|]. right. exists ((j, g) :: l1), j', g', l2. auto. }
  destruct (D gs) as [F|(l1 & j & g & l2 & -> & Y)]; [auto|]. right. destruct g as [|a|a|e| |]; try contradiction.
  - eexists. apply (SWork _ _ _ work parent j l1 l2 out err c false). discriminate.
  - eexists. apply SAppend.
  - eexists. apply SSend.
  - eexists. apply SCancel.
Qed.
Lemma run_to_end : forall n (s : par), (measure s <= n)%nat -> exists t, run s t /\ par_over t.
Proof.
  induction n as [|n IH]; intros s M; destruct (step_or_over s) as [O|(t & S)]; try (exists s; split; [constructor|exact O]).
  - apply step_measure in S. lia.
  - destruct (IH t) as (u & R & O); [apply step_measure in S; lia|]. exists u. split; [|exact O].
    eapply run_trans; [|exact R]. econstructor; [constructor|exact S].
Qed.
End Par.
