(** The health service. *)
From Coq Require Import ZArith List Bool Lia.
Import ListNotations.
From Verif.Model Require Import Base Header Segment Struct Scalar Health.
From Verif.Spec Require Import Message History Query Reach Health.
From Verif.Proofs Require Import BaseLemmas ReachLemmas.
From Verif.Properties Require Import StructProps.
From Verif.Model Require Import Health.
From Verif.Spec Require Import Health.
Open Scope Z_scope.

Lemma padded_len b : len (padded b) <= len b + 7.
Proof. unfold padded, pad_len. rewrite len_app. unfold zeros, len at 2. rewrite repeat_length. pose proof (Z.mod_pos_bound (- len b) 8 ltac:(lia)). lia. Qed.
Lemma one_field n o s0 : New n = Ok s0 -> ok_op n 0 [] o ->
  exists s s' b t, do_op s0 o = Ok s /\ Marshal s = Ok (s', b) /\ Unmarshal s0 b = Ok t /\
    forall q r, expects n (apply_op [] o) q r -> answer t q = r.
Proof.
  intros N O. pose proof (R_new n s0 N) as R0. destruct (C06_legal_calls_succeed _ _ _ _ R0 O) as (s & E).
  pose proof (R_op _ _ _ _ _ R0 O E) as R1. destruct (C08_roundtrip _ _ _ R1) as (s' & b & t0 & t & EM & EN & EU & Q).
  exists s, s', b, t. rewrite N in EN. injection EN as <-. repeat (split; [assumption|]). intros q r X. rewrite Q. apply (C08_answers _ _ _ _ _ R1 X).
Qed.
Lemma new_one : exists s0, New 1 = Ok s0.
Proof. eexists. apply New_spec. Qed.
Lemma request_heard k : Forall (fun c => 0 <= c < 256) k -> len k + 32 < 2 ^ 32 -> exists b, request k = Ok b /\ requested b = Ok k.
Proof.
  intros B L. destruct new_one as (s0 & N0).
  destruct (one_field 1 (OBytes 0 false k) s0 N0) as (s & s' & b & t & E & EM & EU & Q).
  { cbn [ok_op]. split; [lia|]. split; [lia|]. split; [cbn; auto|]. unfold fits. cbn [apply_op]. unfold mset. destruct k as [|c k]; [cbn; lia|].
    cbn [nil_b]. unfold wire_msg. cbn [fput map concat fst snd wire_value]. rewrite app_nil_r, len_app. pose proof (padded_len (c :: k)). unfold header. rewrite !len_app, !len_le_enc. lia. }
  exists b. unfold request, requested. rewrite N0, !bind_Ok. cbn [do_op] in E. unfold SetString. rewrite E, bind_Ok, EM, bind_Ok.
  split; [reflexivity|]. rewrite EU, bind_Ok.
  assert (A : answer t (QBytes 0) = Ok (ABytes k)).
  { apply Q. cbn [expects reads]. split; [lia|]. unfold seen. cbn [apply_op]. destruct k; cbn; reflexivity. }
  cbn [answer] in A. unfold GetString. destruct (GetBytes t 0); cbn in A |- *; inversion A; reflexivity.
Qed.

Lemma response_heard f : match f with Some st => 0 <= st < 256 | None => True end ->
  exists b, response f = Ok b /\ responded b = Ok (match f with None => ServiceUnknown | Some st => st end).
Proof.
  intros B. set (v := match f with None => ServiceUnknown | Some st => st end). assert (V : 0 <= v < 256) by (subst v; destruct f; unfold ServiceUnknown; lia).
  destruct new_one as (s0 & N0).
  destruct (one_field 1 (OScalar 0 KU8 v) s0 N0) as (s & s' & b & t & E & EM & EU & Q).
  { cbn [ok_op]. split; [lia|]. split; [lia|]. split; [cbn; lia|]. unfold fits. cbn [apply_op]. unfold mset. destruct (is_zero KU8 v); [cbn; lia|].
    unfold wire_msg. cbn [fput map concat fst snd wire_value is_wide kind_size Nat.eqb]. rewrite app_nil_r. unfold header. rewrite !len_app, !len_le_enc. lia. }
  exists b. unfold response, responded. rewrite N0, !bind_Ok. fold v. cbn [do_op set_scalar] in E. rewrite E, bind_Ok, EM, bind_Ok.
  split; [reflexivity|]. rewrite EU, bind_Ok.
  assert (A : answer t (QScalar 0 KU8) = Ok (ANum v)).
  { apply Q. cbn [expects reads]. split; [lia|]. unfold seen. cbn [apply_op]. unfold mset. cbn [is_zero]. destruct (Z.eqb_spec v 0) as [->|NZ]; cbn; auto. }
  cbn [answer get_scalar] in A. destruct (GetUint8 t 0); cbn in A |- *; inversion A; reflexivity.
Qed.

(** ** The map *)
Lemma in_force_start k : in_force [] k (ServingStatus NewServer k).
Proof. right. split; [intros st []|]. unfold ServingStatus, NewServer, lookup. cbn [find fst]. destruct (list_eq_dec Z.eq_dec [] k) as [<-|N]; [reflexivity|]. destruct k; [congruence|reflexivity]. Qed.
Lemma in_force_snoc tr e k st : in_force tr k st -> (forall st', e <> HSet k st') -> in_force (tr ++ [e]) k st.
Proof.
  intros [(t1 & t2 & -> & N)|[N ->]] NE.
  - left. exists t1, (t2 ++ [e]). split; [rewrite <- app_assoc; reflexivity|]. intros st' I. apply in_app_or in I. destruct I as [I|[I|[]]]; [exact (N st' I)|exact (NE st' I)].
  - right. split; [|reflexivity]. intros st' I. apply in_app_or in I. destruct I as [I|[I|[]]]; [exact (N st' I)|exact (NE st' I)].
Qed.
Lemma in_force_set tr k st : in_force (tr ++ [HSet k st]) k st.
Proof. left. exists tr, []. split; [reflexivity|intros st' []]. Qed.
Lemma status_set m k st k' : ServingStatus (SetServingStatus m k st) k' = if list_eq_dec Z.eq_dec k k' then st else ServingStatus m k'.
Proof. unfold ServingStatus, SetServingStatus, lookup. cbn [find fst]. destruct (list_eq_dec Z.eq_dec k k'); reflexivity. Qed.

(** ** The calls *)
Definition byte_map (m : services) : Prop := forall k st, lookup m k = Some st -> 0 <= st < 256.
(** What is known of the call [i], in the phase [p], after the events [tr]. *)
Definition known (tr : list hevent) (i : nat) (p : phase) : Prop :=
  exists t1 k t2, tr = t1 ++ HCall i k :: t2 /\ Forall (fun e => ~ begins i e) t2 /\ sensible (HCall i k) /\
    let seen f := exists a b, t2 = a ++ b /\ in_force (t1 ++ HCall i k :: a) k (match f with None => ServiceUnknown | Some st => st end) /\ match f with Some st => 0 <= st < 256 | None => True end in
    match p with
    | Asked b => request k = Ok b
    | Looked f => seen f
    | Failed => False
    | Answered b => exists f, seen f /\ response f = Ok b
    end.
Definition HInv (tr : list hevent) (s : hsys) : Prop :=
  (forall k, in_force tr k (ServingStatus s.(hs_map) k)) /\ byte_map s.(hs_map) /\ forall i p, hfind i s.(hs_calls) = Some p -> known tr i p.

Lemma known_snoc tr i p e : known tr i p -> ~ begins i e -> known (tr ++ [e]) i p.
Proof.
  intros (t1 & k & t2 & -> & N & S & P) NB. exists t1, k, (t2 ++ [e]). split; [rewrite <- app_assoc; reflexivity|]. split; [apply Forall_app; split; [exact N|repeat constructor; exact NB]|]. split; [exact S|].
  assert (W : forall f, (exists a b, t2 = a ++ b /\ in_force (t1 ++ HCall i k :: a) k f) -> exists a b, t2 ++ [e] = a ++ b /\ in_force (t1 ++ HCall i k :: a) k f).
  { intros f (a & b & -> & F). exists a, (b ++ [e]). split; [rewrite app_assoc; reflexivity|exact F]. }
  destruct p as [b|f| |b]; auto.
  - destruct P as (a & b & -> & F & B). exists a, (b ++ [e]). split; [rewrite app_assoc; reflexivity|auto].
  - destruct P as (f & (a & b' & -> & F & B) & R). exists f. split; [|exact R]. exists a, (b' ++ [e]). split; [rewrite app_assoc; reflexivity|auto].
Qed.
Lemma hfind_drop i j l : hfind i (hdrop j l) = if Nat.eqb i j then None else hfind i l.
Proof.
  unfold hfind, hdrop. induction l as [|[a p] l IH]; [destruct (Nat.eqb i j); reflexivity|]. cbn [filter find fst].
  destruct (Nat.eqb_spec a j) as [->|NJ]; cbn [negb].
  - rewrite IH. destruct (Nat.eqb_spec i j) as [->|NI]; [reflexivity|]. destruct (Nat.eqb_spec j i); [congruence|reflexivity].
  - cbn [find fst]. destruct (Nat.eqb_spec a i) as [->|NI]; [destruct (Nat.eqb_spec i j); [congruence|reflexivity]|exact IH].
Qed.
Lemma hfind_put i j p s : hfind i (hs_calls (hput j p s)) = if Nat.eqb i j then Some p else hfind i (hs_calls s).
Proof.
  unfold hput. cbn [hs_calls]. unfold hfind at 1. cbn [find fst]. rewrite Nat.eqb_sym. destruct (Nat.eqb_spec i j) as [->|N]; [reflexivity|].
  change (option_map snd (find (fun p => Nat.eqb (fst p) i) (hdrop j (hs_calls s)))) with (hfind i (hdrop j (hs_calls s))). rewrite hfind_drop. destruct (Nat.eqb_spec i j); [congruence|reflexivity].
Qed.
Lemma HInv_step tr s e s' : HInv tr s -> sensible e -> hstep s e s' -> HInv (tr ++ [e]) s'.
Proof.
  intros (F & BM & C) SE ST.
  assert (OLD : forall i p, hfind i s.(hs_calls) = Some p -> ~ begins i e -> known (tr ++ [e]) i p) by (intros i p H NB; apply known_snoc; auto).
  assert (FO : (forall k st, e <> HSet k st) -> forall k, in_force (tr ++ [e]) k (ServingStatus s.(hs_map) k)) by (intros NE k; apply in_force_snoc; auto).
  destruct ST as [s k st|s i k b NF R|s i k NF R|s k|s i b k H R|s i b H R|s i f b H R|s i b H|s i H|s i p H].
  - split; [|split].
    + intros k'. cbn [hs_map]. rewrite status_set. destruct (list_eq_dec Z.eq_dec k k') as [<-|N]; [apply in_force_set|]. apply in_force_snoc; [apply F|]. intros st' Q. inversion Q. congruence.
    + intros k' st'. cbn [hs_map]. unfold SetServingStatus, lookup. cbn [find fst]. destruct (list_eq_dec Z.eq_dec k k'); [intros Q; inversion Q; subst; exact SE|apply BM].
    + intros i p H. apply OLD; [exact H|]. intros (k' & Q). discriminate Q.
  - split; [apply FO; discriminate|]. split; [exact BM|]. intros j p. rewrite hfind_put. destruct (Nat.eqb_spec j i) as [->|N]; [|intros H; apply OLD; [exact H|intros (k' & Q); inversion Q; congruence]].
    intros Q; inversion Q; subst. exists tr, k, []. repeat (split; [solve [reflexivity|constructor|exact SE|apply SE]|]). exact R.
  - exfalso. destruct (request_heard k) as (b & Q & _); [apply SE|apply SE|congruence].
  - split; [apply FO; discriminate|]. split; [exact BM|]. intros j p H. apply OLD; [exact H|intros (k' & Q); discriminate Q].
  - split; [apply FO; discriminate|]. split; [exact BM|]. intros j p. rewrite hfind_put. destruct (Nat.eqb_spec j i) as [->|N]; [|intros H'; apply OLD; [exact H'|intros (k' & Q); discriminate Q]].
    intros Q; inversion Q; subst. pose proof (C _ _ H) as (t1 & k' & t2 & -> & N & S & P). cbn in P.
    assert (k' = k). { destruct (request_heard k') as (b' & Q1 & Q2); [apply S|apply S|]. congruence. } subst k'.
    exists t1, k, (t2 ++ [HLook i]). split; [rewrite <- app_assoc; reflexivity|]. split; [apply Forall_app; split; [exact N|repeat constructor; intros (k' & Q'); discriminate Q']|]. split; [exact S|].
    exists t2, [HLook i]. split; [reflexivity|]. split; [exact (F k)|]. destruct (lookup (hs_map s) k) as [st|] eqn:L; [exact (BM _ _ L)|exact I].
  - exfalso. pose proof (C _ _ H) as (t1 & k' & t2 & -> & N & S & P). cbn in P. destruct (request_heard k') as (b' & Q1 & Q2); [apply S|apply S|]. congruence.
  - split; [apply FO; discriminate|]. split; [exact BM|]. intros j p. rewrite hfind_put. destruct (Nat.eqb_spec j i) as [->|N]; [|intros H'; apply OLD; [exact H'|intros (k' & Q); discriminate Q]].
    intros Q; inversion Q; subst. apply known_snoc; [|intros (k' & Q'); discriminate Q'].
    pose proof (C _ _ H) as (t1 & k' & t2 & -> & N & S & P). exists t1, k', t2. repeat (split; [solve [reflexivity|assumption]|]). exists f. split; [exact P|exact R].
  - split; [apply FO; discriminate|]. split; [exact BM|]. intros j p. unfold hend. cbn [hs_calls]. rewrite hfind_drop. destruct (Nat.eqb_spec j i); [discriminate|]. intros H'. apply OLD; [exact H'|intros (k' & Q); discriminate Q].
  - exfalso. pose proof (C _ _ H) as (t1 & k' & t2 & -> & N & S & P). exact P.
  - split; [apply FO; discriminate|]. split; [exact BM|]. intros j p'. unfold hend. cbn [hs_calls]. rewrite hfind_drop. destruct (Nat.eqb_spec j i); [discriminate|]. intros H'. apply OLD; [exact H'|intros (k' & Q); discriminate Q].
Qed.
Lemma HInv_start : HInv [] hstart.
Proof. split; [exact in_force_start|]. split; [|discriminate]. intros k st. unfold hstart, NewServer, lookup. cbn [hs_map find fst]. destruct (list_eq_dec Z.eq_dec [] k); cbn [option_map snd]; [intros Q; injection Q as <-; unfold Serving; lia|discriminate]. Qed.
Lemma HInv_run tr0 s tr s' : HInv tr0 s -> Forall sensible tr -> hrun s tr s' -> HInv (tr0 ++ tr) s'.
Proof.
  intros I SE R. revert tr0 I. induction R as [s|s e s1 tr s2 ST R IH]; intros tr0 I; [rewrite app_nil_r; exact I|].
  inversion SE as [|? ? S1 S2]; subst. specialize (IH S2 (tr0 ++ [e]) (HInv_step _ _ _ _ I S1 ST)). rewrite <- app_assoc in IH. exact IH.
Qed.
Lemma hrun_app s a b s' : hrun s (a ++ b) s' -> exists m, hrun s a m /\ hrun m b s'.
Proof.
  revert s. induction a as [|e a IH]; intros s R; [exists s; split; [constructor|exact R]|]. inversion R; subst. destruct (IH _ H4) as (m & A & B). exists m. split; [econstructor; eassumption|exact B].
Qed.
(** The last beginning of a call is one. *)
Lemma last_begin i k k' t1 t2 : forall t1' t2', t1 ++ HCall i k :: t2 = t1' ++ HCall i k' :: t2' -> Forall (fun e => ~ begins i e) t2 -> Forall (fun e => ~ begins i e) t2' -> t1 = t1' /\ k = k' /\ t2 = t2'.
Proof.
  induction t1 as [|a t1 IH]; intros [|a' t1'] t2' Q N N'; cbn [app] in Q.
  - inversion Q; auto.
  - exfalso. inversion Q; subst. rewrite Forall_forall in N. apply (N (HCall i k')); [apply in_or_app; right; left; reflexivity|exists k'; reflexivity].
  - exfalso. inversion Q; subst. rewrite Forall_forall in N'. apply (N' (HCall i k)); [apply in_or_app; right; left; reflexivity|exists k; reflexivity].
  - inversion Q; subst. destruct (IH _ _ H1 N N') as (-> & -> & ->). auto.
Qed.
Lemma step_return s i r s' : hstep s (HReturn i r) s' -> (exists b, hfind i s.(hs_calls) = Some (Answered b) /\ responded b = r) \/ hfind i s.(hs_calls) = Some Failed.
Proof.
  intros ST. remember (HReturn i r) as e eqn:Q. destruct ST as [s k st|s j k b NF R|s j k NF R|s k|s j b k H R|s j b H R|s j f b H R|s j b H|s j H|s j p H]; try discriminate Q.
  - left. exists b. generalize dependent (responded b). intros r' Q. injection Q as -> ->. auto.
  - right. injection Q as -> _. exact H.
Qed.
Lemma check_result s t1 i k t2 r t3 : Forall sensible (t1 ++ HCall i k :: t2 ++ HReturn i r :: t3) -> hrun hstart (t1 ++ HCall i k :: t2 ++ HReturn i r :: t3) s ->
  Forall (fun e => ~ begins i e) t2 -> exists a b st, t2 = a ++ b /\ in_force (t1 ++ HCall i k :: a) k st /\ r = Ok st.
Proof.
  intros SE R N. replace (t1 ++ HCall i k :: t2 ++ HReturn i r :: t3) with ((t1 ++ HCall i k :: t2) ++ HReturn i r :: t3) in R, SE by (rewrite <- app_assoc; reflexivity).
  apply hrun_app in R. destruct R as (m & R & R'). apply Forall_app in SE. destruct SE as [SE _]. pose proof (HInv_run [] _ _ _ HInv_start SE R) as (_ & _ & C). cbn [app] in C.
  inversion R' as [|? ? ? ? ? ST _]; subst. apply step_return in ST. destruct ST as [(b & HF & RB)|HF].
  - destruct (C _ _ HF) as (t1' & k' & t2' & Q & N' & S & f & (a & b' & -> & F & B) & RS).
    destruct (last_begin _ _ _ _ _ _ _ Q N N') as (-> & -> & ->). destruct (response_heard f B) as (b'' & Q1 & Q2). assert (b = b'') by congruence. subst b''.
    exists a, b', (match f with None => ServiceUnknown | Some st => st end). split; [reflexivity|]. split; [exact F|congruence].
  - destruct (C _ _ HF) as (t1' & k' & t2' & Q & N' & S & []).
Qed.
Lemma get_result s t1 k st t2 : Forall sensible (t1 ++ HGet k st :: t2) -> hrun hstart (t1 ++ HGet k st :: t2) s -> in_force t1 k st.
Proof.
  intros SE R. apply hrun_app in R. destruct R as (m & R & R'). apply Forall_app in SE. destruct SE as [SE _]. pose proof (HInv_run [] _ _ _ HInv_start SE R) as (F & _ & _). cbn [app] in F.
  inversion R' as [|? ? ? ? ? ST _]; subst. inversion ST; subst. apply F.
Qed.
(** A call can always go on. *)
Lemma call_goes_on s tr i p : Forall sensible tr -> hrun hstart tr s -> hfind i s.(hs_calls) = Some p ->
  exists e s', of_call i e /\ (forall j, e <> HBroken j) /\ hstep s e s'.
Proof.
  intros SE R H. destruct (HInv_run [] _ _ _ HInv_start SE R) as (_ & _ & C). destruct (C _ _ H) as (t1 & k & t2 & _ & _ & S & P). destruct p as [b|f| |b].
  - destruct (request_heard k) as (b' & Q1 & Q2); [apply S|apply S|]. cbn in P. assert (b = b') by congruence. subst. exists (HLook i). eexists. split; [reflexivity|]. split; [discriminate|]. eapply hs_look; eassumption.
  - destruct P as (a & b & _ & _ & B). destruct (response_heard f B) as (b' & Q1 & _). exists (HAnswer i). eexists. split; [reflexivity|]. split; [discriminate|]. eapply hs_answer; eassumption.
  - destruct P.
  - exists (HReturn i (responded b)). eexists. split; [reflexivity|]. split; [discriminate|]. eapply hs_return; eassumption.
Qed.
Lemma in_force_one tr k st' st : in_force tr k st' -> in_force tr k st -> st' = st.
Proof.
  intros FA FB.
  destruct FA as [(u & v & -> & V)|[V ->]], FB as [(u' & v' & W & V')|[V' ->]].
  - revert u' W. induction u as [|e u IH]; intros [|e' u'] W; cbn [app] in W.
    + injection W as E1 E2. congruence.
    + exfalso. injection W as E1 E2. apply (V st). rewrite E2. apply in_or_app. right. left. reflexivity.
    + exfalso. injection W as E1 E2. apply (V' st'). rewrite <- E2. apply in_or_app. right. left. reflexivity.
    + injection W as E1 E2. exact (IH u' E2).
  - exfalso. apply (V' st'). apply in_or_app. right. left. reflexivity.
  - exfalso. apply (V st). rewrite W. apply in_or_app. right. left. reflexivity.
  - reflexivity.
Qed.
