From Coq Require Import ZArith List Bool Lia Relations.
Import ListNotations.
From Verif.Model Require Import Base Utf8 Field Any Idl Mapping.
From Verif.Spec Require Import Idl Mapping.
From Verif.Proofs Require GitFetch.
Local Open Scope Z_scope.

Lemma Any_eqb a b : bytes_eqb a b = true <-> a = b.
Proof. apply Verif.Proofs.GitFetch.bytes_eqb_eq. Qed.

(** ** Init *)
Definition missing (h : heap) (s : mstate) : nat := length (filter (fun x => negb (s.(m_init) x)) (seq 0 (length h))).

Record done (h : heap) (m : nat) (s s' : mstate) (new : list nat) : Prop := {
  dn_log : s'.(m_log) = new ++ s.(m_log);
  dn_init : forall x, s'.(m_init) x = true <-> s.(m_init) x = true \/ In x new;
  dn_nodup : NoDup new;
  dn_new : forall x, In x new -> s.(m_init) x = false;
  dn_reach : forall x, In x new -> reached h m x }.

Lemma filter_le {A} (p q : A -> bool) l : (forall x, In x l -> q x = true -> p x = true) -> (length (filter q l) <= length (filter p l))%nat.
Proof.
  induction l as [|a l IH]; intros H; [reflexivity|]. cbn [filter].
  assert (L := IH (fun x I => H x (or_intror I))). destruct (q a) eqn:Q.
  - rewrite (H a (or_introl eq_refl) Q). cbn [length]. lia.
  - destruct (p a); cbn [length]; lia.
Qed.
Lemma filter_lt {A} (p q : A -> bool) l a : (forall x, In x l -> q x = true -> p x = true) -> In a l -> p a = true -> q a = false ->
  (length (filter q l) < length (filter p l))%nat.
Proof.
  intros H I P Q. apply in_split in I. destruct I as (l1 & l2 & ->). rewrite !filter_app, !app_length. cbn [filter]. rewrite P, Q. cbn [length].
  assert (A1 : (length (filter q l1) <= length (filter p l1))%nat) by (apply filter_le; intros x I; apply H; apply in_or_app; left; exact I).
  assert (A2 : (length (filter q l2) <= length (filter p l2))%nat) by (apply filter_le; intros x I; apply H; apply in_or_app; right; right; exact I).
  lia.
Qed.
Lemma missing_le h s s' : (forall x, s.(m_init) x = true -> s'.(m_init) x = true) -> (missing h s' <= missing h s)%nat.
Proof.
  intros H. apply filter_le. intros x _ Q. destruct (m_init s x) eqn:E; [|reflexivity]. rewrite (H _ E) in Q. discriminate.
Qed.

Lemma done_refl h m s : done h m s s [].
Proof. constructor; try reflexivity; try constructor; auto; try (intros [H|[]]; exact H). all: intros ? []. Qed.
Lemma NoDup_both {A} (l1 l2 : list A) : NoDup l1 -> NoDup l2 -> (forall x, In x l1 -> In x l2 -> False) -> NoDup (l1 ++ l2).
Proof.
  intros N1 N2 H. induction N1 as [|a l1 Na N1 IH]; [exact N2|]. cbn. constructor.
  - rewrite in_app_iff. intros [K|K]; [auto|]. exact (H a (or_introl eq_refl) K).
  - apply IH. intros x K. apply H. right. exact K.
Qed.
Lemma done_trans h m s s1 s2 n1 n2 : done h m s s1 n1 -> done h m s1 s2 n2 -> done h m s s2 (n2 ++ n1).
Proof.
  intros [L1 I1 N1 W1 R1] [L2 I2 N2 W2 R2]. constructor.
  - rewrite L2, L1. apply app_assoc.
  - intros x. rewrite I2, I1, in_app_iff. tauto.
  - apply NoDup_both; auto. intros x K1 K2. assert (A : m_init s1 x = true) by (apply I1; auto). rewrite (W2 _ K1) in A. discriminate.
  - intros x K. apply in_app_or in K. destruct K as [K|K]; [|auto]. specialize (W2 _ K). destruct (m_init s x) eqn:E; [|reflexivity].
    assert (A : m_init s1 x = true) by (apply I1; auto). congruence.
  - intros x K. apply in_app_or in K. destruct K; auto.
Qed.
Lemma done_up h m c s s' n : leads h m c -> done h c s s' n -> done h m s s' n.
Proof. intros E [A B C D F]. constructor; auto. intros x K. apply Relation_Operators.rt1n_trans with c; [exact E|]. apply F. exact K. Qed.
Lemma done_keeps h m s s' n x : done h m s s' n -> s.(m_init) x = true -> s'.(m_init) x = true.
Proof. intros D K. apply (dn_init _ _ _ _ _ D). auto. Qed.

(** What a call gives: it ends, and the tables it prepared have the tables below them prepared. *)
Definition gives (h : heap) (m : nat) (s : mstate) (r : res mstate) : Prop :=
  exists s' new, r = Ok s' /\ done h m s s' new /\ (forall x c, In x new -> leads h x c -> s'.(m_init) c = true).

Section Run.
Variable h : heap.
Hypothesis WF : in_memory h.

Lemma one_gives ini m p s k : (forall c s, (c < length h)%nat -> (missing h s < k)%nat -> gives h c s (ini c s) /\ forall s', ini c s = Ok s' -> s'.(m_init) c = true) ->
  (forall c, p = Some c -> leads h m c) -> (missing h s < k)%nat -> s.(m_init) m = true ->
  gives h m s (initOne ini m p s) /\ forall s' c, initOne ini m p s = Ok s' -> p = Some c -> s'.(m_init) c = true.
Proof.
  intros IH E K M. unfold initOne. destruct p as [c|].
  - destruct (Nat.eqb_spec c m) as [->|Ne].
    + split; [exists s, []; split; [reflexivity|]; split; [apply done_refl|intros ? ? []]|]. intros s' c [= <-] [= <-]. exact M.
    + assert (L := E c eq_refl). destruct (IH c s (WF _ _ L) K) as ((s1 & n & R & D & C) & G). split.
      * exists s1, n. split; [exact R|]. split; [exact (done_up _ _ _ _ _ _ L D)|exact C].
      * intros s' c' R' [= <-]. auto.
  - split; [exists s, []; split; [reflexivity|]; split; [apply done_refl|intros ? ? []]|]. intros s' c _ [=].
Qed.
Lemma gives_trans m s s1 n1 (D1 : done h m s s1 n1) (C1 : forall x c, In x n1 -> leads h x c -> s1.(m_init) c = true) r :
  gives h m s1 r -> gives h m s r.
Proof.
  intros (s2 & n2 & -> & D2 & C2). exists s2, (n2 ++ n1). split; [reflexivity|]. split; [exact (done_trans _ _ _ _ _ _ _ D1 D2)|].
  intros x c K L. apply in_app_or in K. destruct K as [K|K]; [eauto|]. eapply done_keeps; eauto.
Qed.
Lemma fields_gives ini m k fs0 : nth_error h m = Some fs0 ->
  (forall c s, (c < length h)%nat -> (missing h s < k)%nat -> gives h c s (ini c s) /\ forall s', ini c s = Ok s' -> s'.(m_init) c = true) ->
  forall fs s, incl fs fs0 -> (missing h s < k)%nat -> s.(m_init) m = true ->
  gives h m s (initFields ini m fs s) /\
  forall s' f c, initFields ini m fs s = Ok s' -> In f fs -> f.(d_mapping) = Some c \/ f.(d_vmapping) = Some c -> s'.(m_init) c = true.
Proof.
  intros H0 IH. induction fs as [|f fs IHf]; intros s I K M; cbn [initFields].
  - split; [exists s, []; split; [reflexivity|]; split; [apply done_refl|intros ? ? []]|]. intros ? ? ? _ [].
  - assert (If : In f fs0) by (apply I; left; reflexivity).
    destruct (one_gives ini m f.(d_mapping) s k IH) as ((s1 & n1 & R1 & D1 & C1) & G1); auto.
    { intros c E. exists fs0, f. auto. }
    rewrite R1. cbn [bind].
    assert (K1 : (missing h s1 < k)%nat). { assert (A := missing_le h s s1 (fun x => done_keeps _ _ _ _ _ x D1)). lia. }
    assert (M1 := done_keeps _ _ _ _ _ _ D1 M).
    destruct (one_gives ini m f.(d_vmapping) s1 k IH) as ((s2 & n2 & R2 & D2 & C2) & G2); auto.
    { intros c E. exists fs0, f. auto. }
    rewrite R2. cbn [bind].
    assert (K2 : (missing h s2 < k)%nat). { assert (A := missing_le h s1 s2 (fun x => done_keeps _ _ _ _ _ x D2)). lia. }
    assert (M2 := done_keeps _ _ _ _ _ _ D2 M1).
    destruct (IHf s2) as (G3 & T3); auto. { intros x Hx. apply I. right. exact Hx. }
    split.
    + apply (gives_trans m s s1 n1 D1 C1). apply (gives_trans m s1 s2 n2 D2 C2). exact G3.
    + intros s' g c R [<-|J] E; [|eauto]. destruct G3 as (s3 & n3 & R3 & D3 & C3). rewrite R3 in R. injection R as <-.
      eapply done_keeps; [exact D3|]. destruct E as [E|E]; [|eauto]. eapply done_keeps; [exact D2|]. eauto.
Qed.
Lemma init_gives : forall fuel m s, (m < length h)%nat -> (missing h s < fuel)%nat ->
  gives h m s (Init fuel h m s) /\ forall s', Init fuel h m s = Ok s' -> s'.(m_init) m = true.
Proof.
  induction fuel as [|fuel IH]; intros m s Lm K; [lia|]. cbn [Init]. destruct (m_init s m) eqn:E.
  - split; [exists s, []; split; [reflexivity|]; split; [apply done_refl|intros ? ? []]|]. intros s' [= <-]. exact E.
  - destruct (nth_error h m) as [fs|] eqn:F; [|apply nth_error_None in F; lia].
    set (s1 := mark m (register m s)).
    assert (M1 : m_init s1 m = true) by (cbn; rewrite Nat.eqb_refl; reflexivity).
    assert (D1 : done h m s s1 [m]).
    { constructor; try reflexivity.
      - intros x. cbn. rewrite orb_true_iff, Nat.eqb_eq. intuition congruence.
      - repeat constructor. intros [].
      - intros x [<-|[]]. exact E.
      - intros x [<-|[]]. constructor. }
    assert (K1 : (missing h s1 < fuel)%nat).
    { apply PeanoNat.Nat.lt_le_trans with (missing h s); [|lia]. apply filter_lt with m; rewrite ?E; auto.
      - intros x _. cbn. destruct (x =? m)%nat; cbn; [discriminate|auto].
      - apply in_seq. lia.
      - rewrite M1. reflexivity. }
    destruct (fields_gives (Init fuel h) m fuel fs F IH fs s1 (incl_refl _) K1 M1) as ((s2 & n2 & R2 & D2 & C2) & G2).
    split.
    + exists s2, (n2 ++ [m]). split; [exact R2|]. split; [exact (done_trans _ _ _ _ _ _ _ D1 D2)|].
      intros x c J L. apply in_app_or in J. destruct J as [J|[<-|[]]]; [eauto|].
      destruct L as (fs' & f & F' & If & L). rewrite F in F'. injection F' as <-. eauto.
    + intros s' R. rewrite R2 in R. injection R as <-. eapply done_keeps; eauto.
Qed.
End Run.

Lemma closed_reached h s m x : closed h s -> reached h m x -> s.(m_init) m = true -> s.(m_init) x = true.
Proof. intros C R. induction R as [|a b c L R IH]; intros M; [exact M|]. apply IH. eapply C; eauto. Qed.
Lemma missing_bound h s : (missing h s <= length h)%nat.
Proof. unfold missing. rewrite <- (seq_length (length h) 0) at 2. generalize (seq 0 (length h)). induction l as [|a l IH]; [reflexivity|]. cbn. destruct (negb _); cbn; lia. Qed.

Theorem init_spec h m s fuel : in_memory h -> closed h s -> (m < length h)%nat -> (length h < fuel)%nat ->
  exists s' new, Init fuel h m s = Ok s' /\ s'.(m_log) = new ++ s.(m_log) /\ NoDup new /\ closed h s' /\
  (forall x, s'.(m_init) x = true <-> s.(m_init) x = true \/ reached h m x) /\
  (forall x, In x new <-> reached h m x /\ s.(m_init) x = false).
Proof.
  intros W C Lm F. assert (B := missing_bound h s). destruct (init_gives h W fuel m s Lm) as ((s' & new & R & D & G) & M); [lia|].
  assert (C' : closed h s').
  { intros x c I L. apply (dn_init _ _ _ _ _ D) in I. destruct I as [I|I]; [|eauto]. eapply done_keeps; [exact D|]. eapply C; eauto. }
  assert (A : forall x, s'.(m_init) x = true <-> s.(m_init) x = true \/ reached h m x).
  { intros x. split.
    - intros I. apply (dn_init _ _ _ _ _ D) in I. destruct I as [I|I]; [auto|]. right. apply (dn_reach _ _ _ _ _ D). exact I.
    - intros [I|I]; [eapply done_keeps; eauto|]. eapply closed_reached; eauto. }
  exists s', new. split; [exact R|]. split; [apply D|]. split; [apply D|]. split; [exact C'|]. split; [exact A|].
  intros x. split.
  - intros I. split; [apply (dn_reach _ _ _ _ _ D); exact I|apply (dn_new _ _ _ _ _ D); exact I].
  - intros (Rx & E). assert (I : m_init s' x = true) by (apply A; auto). apply (dn_init _ _ _ _ _ D) in I. destruct I as [I|I]; [congruence|exact I].
Qed.

Lemma package_gen h ms : in_memory h -> Forall (fun m => (m < length h)%nat) ms -> forall s fuel, closed h s -> (length h < fuel)%nat ->
  exists s' new, initPackage fuel h ms s = Ok s' /\ s'.(m_log) = new ++ s.(m_log) /\ NoDup new /\ closed h s' /\
  (forall x, s'.(m_init) x = true <-> s.(m_init) x = true \/ exists m, In m ms /\ reached h m x) /\
  (forall x, In x new <-> s'.(m_init) x = true /\ s.(m_init) x = false).
Proof.
  intros W. induction 1 as [|m ms Lm Fm IH]; intros s fuel C F; cbn [initPackage].
  - exists s, []. split; [reflexivity|]. split; [reflexivity|]. split; [constructor|]. split; [exact C|]. split.
    + intros x. split; [auto|]. intros [I|(m & [] & _)]. exact I.
    + intros x. split; [intros []|]. intros (A & B). congruence.
  - destruct (init_spec h m s fuel W C Lm F) as (s1 & n1 & R1 & L1 & N1 & C1 & I1 & J1). rewrite R1. cbn [bind].
    destruct (IH s1 fuel C1 F) as (s2 & n2 & R2 & L2 & N2 & C2 & I2 & J2).
    exists s2, (n2 ++ n1). split; [exact R2|]. split; [rewrite L2, L1; apply app_assoc|].
    split. { apply NoDup_both; auto. intros x A B. apply J2 in A. apply J1 in B. destruct A as (_ & A), B as (B & _). assert (m_init s1 x = true) by (apply I1; auto). congruence. }
    split; [exact C2|]. split.
    + intros x. rewrite I2, I1. split.
      * intros [[A|A]|(m' & A & B)]; [auto|right; exists m; split; [left; reflexivity|exact A]|right; exists m'; split; [right; exact A|exact B]].
      * intros [A|(m' & [<-|A] & B)]; eauto.
    + intros x. rewrite in_app_iff, J2, J1. split.
      * intros [(A & B)|(A & B)].
        -- split; [exact A|]. destruct (m_init s x) eqn:E; [|reflexivity]. assert (m_init s1 x = true) by (apply I1; auto). congruence.
        -- split; [|exact B]. apply I2. left. apply I1. auto.
      * intros (A & B). destruct (m_init s1 x) eqn:E.
        -- right. split; [|exact B]. apply I1 in E. destruct E as [E|E]; [congruence|exact E].
        -- left. auto.
Qed.

Lemma closed_fresh h : closed h fresh.
Proof. intros m c [=]. Qed.

(** ** Validate *)
Definition child (f : descr) (c : nat) : Prop :=
  (f.(d_type) = FTStruct \/ f.(d_type) = FTListStructs) /\ f.(d_mapping) = Some c \/ f.(d_type) = FTMap /\ f.(d_vmapping) = Some c.
Lemma key_ok k : IsValidMapKeyType k = true <->
  In k [FTBool; FTInt8; FTInt16; FTInt32; FTInt64; FTUint8; FTUint16; FTUint32; FTUint64; FTFloat32; FTFloat64; FTString].
Proof.
  unfold IsValidMapKeyType. rewrite orb_true_iff, andb_true_iff, !Z.leb_le, Z.eqb_eq.
  unfold FTBool, FTFloat64, FTString, FTInt8, FTInt16, FTInt32, FTInt64, FTUint8, FTUint16, FTUint32, FTUint64, FTFloat32. cbn [In]. lia.
Qed.
Lemma field_ok val f : validateField val f = Ok tt <-> described f /\ forall c, child f c -> val c = Ok tt.
Proof.
  unfold validateField, described, child.
  assert (NM : FTMap <> FTStruct /\ FTMap <> FTListStructs) by (split; discriminate).
  destruct (Z.eqb_spec f.(d_type) FTListStructs) as [E1|E1]; [|destruct (Z.eqb_spec f.(d_type) FTStruct) as [E2|E2]]; cbn [orb].
  - destruct (d_mapping f) as [m|].
    + split.
      * intros V. split; [split; [discriminate|intros K; rewrite E1 in K; discriminate]|]. intros c [(_ & [= <-])|(K & _)]; [exact V|rewrite E1 in K; discriminate].
      * intros (_ & K). apply K. left. auto.
    + split; [discriminate|]. intros ((K & _) & _). destruct (K (or_intror E1) eq_refl).
  - destruct (d_mapping f) as [m|].
    + split.
      * intros V. split; [split; [discriminate|intros K; rewrite E2 in K; discriminate]|]. intros c [(_ & [= <-])|(K & _)]; [exact V|rewrite E2 in K; discriminate].
      * intros (_ & K). apply K. left. auto.
    + split; [discriminate|]. intros ((K & _) & _). destruct (K (or_introl E2) eq_refl).
  - destruct (Z.eqb_spec f.(d_type) FTMap) as [E3|E3].
    + rewrite <- key_ok. destruct (d_isMap f); cbn [negb].
      * destruct (IsValidMapKeyType (d_key f)); cbn [negb].
        -- destruct (d_vmapping f) as [m|].
           ++ split.
              ** intros V. split; [split; [intros [K|K]; contradiction|split; [reflexivity|split; [reflexivity|discriminate]]]|].
                 intros c [([K|K] & _)|(_ & [= <-])]; [contradiction|contradiction|exact V].
              ** intros (_ & K). apply K. right. auto.
           ++ destruct (Z.eqb_spec f.(d_value) FTStruct) as [E4|E4].
              ** split; [discriminate|]. intros ((_ & K) & _). destruct (K E3) as (_ & _ & K2). destruct (K2 E4 eq_refl).
              ** split; [|reflexivity]. intros _. split; [split; [intros [K|K]; contradiction|split; [reflexivity|split; [reflexivity|contradiction]]]|].
                 intros c [([K|K] & _)|(_ & [=])]; contradiction.
        -- split; [discriminate|]. intros ((_ & K) & _). destruct (K E3) as (_ & K2 & _). discriminate.
      * split; [discriminate|]. intros ((_ & K) & _). destruct (K E3) as (K2 & _). discriminate.
    + split; [|reflexivity]. intros _. split; [split; [intros [K|K]; contradiction|contradiction]|].
      intros c [([K|K] & _)|(K & _)]; contradiction.
Qed.
Lemma field_result val f : (forall c, child f c -> val c = Ok tt \/ val c = Err) -> validateField val f = Ok tt \/ validateField val f = Err.
Proof.
  intros H. unfold validateField, child in *.
  destruct (Z.eqb_spec f.(d_type) FTListStructs) as [E1|E1]; [|destruct (Z.eqb_spec f.(d_type) FTStruct) as [E2|E2]]; cbn [orb].
  - destruct (d_mapping f) as [m|]; auto.
  - destruct (d_mapping f) as [m|]; auto.
  - destruct (Z.eqb_spec f.(d_type) FTMap) as [E3|E3]; [|auto]. destruct (negb (d_isMap f)); [auto|]. destruct (negb _); [auto|].
    destruct (d_vmapping f); [auto|]. destruct (_ =? _); auto.
Qed.
Lemma field_stuck val f : (forall c, child f c -> val c = Ok tt \/ val c = Hang) -> described f -> validateField val f = Ok tt \/ validateField val f = Hang.
Proof.
  intros H D. assert (K := field_ok val f). unfold validateField, child, described in *.
  destruct (Z.eqb_spec f.(d_type) FTListStructs) as [E1|E1]; [|destruct (Z.eqb_spec f.(d_type) FTStruct) as [E2|E2]]; cbn [orb] in *.
  - destruct (d_mapping f) as [m|]; [auto|]. destruct (proj1 D (or_intror E1) eq_refl).
  - destruct (d_mapping f) as [m|]; [auto|]. destruct (proj1 D (or_introl E2) eq_refl).
  - destruct (Z.eqb_spec f.(d_type) FTMap) as [E3|E3]; [|auto]. destruct (proj2 D E3) as (D1 & D2 & D3). apply key_ok in D2.
    rewrite D1, D2 in *. cbn [negb] in *. destruct (d_vmapping f); [auto|].
    destruct (Z.eqb_spec f.(d_value) FTStruct) as [E4|E4]; [|auto]. destruct (D3 E4 eq_refl).
Qed.
Lemma fields_ok val fs : validateFields val fs = Ok tt <-> forall f, In f fs -> validateField val f = Ok tt.
Proof.
  induction fs as [|f fs IH]; cbn [validateFields].
  - split; [intros _ ? []|reflexivity].
  - split.
    + intros V. destruct (validateField val f) as [[]| | |] eqn:E; try discriminate. cbn [bind] in V. intros g [<-|I]; [exact E|]. apply IH; assumption.
    + intros H. rewrite (H f (or_introl eq_refl)). cbn [bind]. apply IH. intros g I. apply H. right. exact I.
Qed.
Lemma fields_cases val r fs : (forall f, In f fs -> validateField val f = Ok tt \/ validateField val f = r) -> r <> Ok tt ->
  validateFields val fs = Ok tt \/ validateFields val fs = bind r (fun _ => Ok tt).
Proof.
  intros H N. induction fs as [|f fs IH]; cbn [validateFields]; [auto|].
  destruct (H f (or_introl eq_refl)) as [-> | ->]; cbn [bind].
  - apply IH. intros g I. apply H. right. exact I.
  - right. destruct r as [[]| | |]; try reflexivity. destruct (N eq_refl).
Qed.
Lemma map_ok n h m : validateMap (S n) h m = Ok tt <->
  exists fs, nth_error h m = Some fs /\ forall f, In f fs -> described f /\ forall c, child f c -> validateMap n h c = Ok tt.
Proof.
  cbn [validateMap]. destruct (nth_error h m) as [fs|].
  - rewrite fields_ok. split.
    + intros H. exists fs. split; [reflexivity|]. intros f I. apply field_ok. auto.
    + intros (fs' & [= <-] & H) f I. apply field_ok. auto.
  - split; [discriminate|]. intros (? & [=] & _).
Qed.
Lemma holds_child h m c : holds h m c <-> exists fs f, nth_error h m = Some fs /\ In f fs /\ child f c.
Proof. reflexivity. Qed.

Lemma ok_below h m c : held h m c -> forall n, validateMap n h m = Ok tt -> exists n', (n' <= n)%nat /\ validateMap n' h c = Ok tt.
Proof.
  induction 1 as [|a b c L R IH]; intros n V; [exists n; auto|]. destruct n as [|n]; [discriminate|].
  apply map_ok in V. destruct V as (fs & F & V). destruct L as (fs' & f & F' & I & L). rewrite F in F'. injection F' as <-.
  destruct (V f I) as (_ & K). destruct (IH n (K _ L)) as (n' & A & B). exists n'. split; [lia|exact B].
Qed.
Lemma ok_strict h m c : clos_trans_1n nat (holds h) m c -> forall n, validateMap n h m = Ok tt -> exists n', (n' < n)%nat /\ validateMap n' h c = Ok tt.
Proof.
  assert (one : forall a b n, holds h a b -> validateMap n h a = Ok tt -> exists n', (n' < n)%nat /\ validateMap n' h b = Ok tt).
  { intros a b n L V. destruct n as [|n]; [discriminate|]. apply map_ok in V. destruct V as (fs & F & V).
    destruct L as (fs' & f & F' & I & L). rewrite F in F'. injection F' as <-. destruct (V f I) as (_ & K). exists n. split; [lia|auto]. }
  induction 1 as [a b L|a b c L R IH]; intros n V; [eauto|]. destruct (one _ _ _ L V) as (n1 & A & B). destruct (IH _ B) as (n2 & A2 & B2).
  exists n2. split; [lia|exact B2].
Qed.
Lemma ok_acyclic h c n : validateMap n h c = Ok tt -> ~ clos_trans_1n nat (holds h) c c.
Proof.
  induction n as [n IH] using lt_wf_ind. intros V T. destruct (ok_strict h c c T n V) as (n' & A & B). exact (IH n' A B T).
Qed.
Lemma valid_sound h m n : validateMap n h m = Ok tt -> all_described h m /\ no_recursion h m.
Proof.
  intros V. split.
  - intros c fs f R F I. destruct (ok_below h m c R n V) as (n' & _ & V'). destruct n' as [|n']; [discriminate|].
    apply map_ok in V'. destruct V' as (fs' & F' & K). rewrite F in F'. injection F' as <-. apply K. exact I.
  - intros c R. destruct (ok_below h m c R n V) as (n' & _ & V'). eapply ok_acyclic; eauto.
Qed.
Lemma held_trans h a b c : held h a b -> holds h b c -> held h a c.
Proof. intros R L. apply clos_rt_rt1n. apply rt_trans with b; [apply clos_rt1n_rt; exact R|apply rt_step; exact L]. Qed.
Lemma trans_snoc h a b c : clos_trans_1n nat (holds h) a b -> holds h b c -> clos_trans_1n nat (holds h) a c.
Proof. intros R L. apply clos_trans_t1n. apply t_trans with b; [apply clos_t1n_trans; exact R|apply t_step; exact L]. Qed.
Definition in_mem (h : heap) : Prop := forall m c, holds h m c -> (c < length h)%nat.
Lemma in_memory_holds h : in_memory h -> in_mem h.
Proof.
  intros W m c (fs & f & F & I & [(_ & K)|(_ & K)]); apply (W m c); exists fs, f; auto.
Qed.
(** The maps on the way down, without the last. *)
Lemma valid_ends h r : in_mem h -> no_recursion h r -> forall n m p, held h r m -> (m < length h)%nat ->
  NoDup (m :: p) -> Forall (fun x => (x < length h)%nat /\ clos_trans_1n nat (holds h) x m) p -> (length h < n + length p + 1)%nat ->
  validateMap n h m = Ok tt \/ validateMap n h m = Err.
Proof.
  intros W A. induction n as [|n IH]; intros m p R Lm N P B.
  - exfalso. assert (L : (length (m :: p) <= length (seq 0 (length h)))%nat).
    { apply NoDup_incl_length; [exact N|]. intros x [<-|I]; apply in_seq; [lia|]. rewrite Forall_forall in P. destruct (P x I). lia. }
    rewrite seq_length in L. cbn [length] in L. lia.
  - cbn [validateMap]. destruct (nth_error h m) as [fs|] eqn:F; [|apply nth_error_None in F; lia].
    change Err with (bind (@Err unit) (fun _ => Ok tt)). apply fields_cases; [|discriminate].
    intros f I. apply field_result. intros c C. assert (L : holds h m c) by (exists fs, f; auto).
    apply IH with (m :: p).
    + eapply held_trans; eauto.
    + eapply W; eauto.
    + assert (T : forall x, In x (m :: p) -> clos_trans_1n nat (holds h) x c).
      { intros x [<-|J]; [constructor; exact L|]. rewrite Forall_forall in P. destruct (P x J) as (_ & T). eapply trans_snoc; eauto. }
      constructor; [|exact N]. intros J. apply (A c); [eapply held_trans; eauto|]. apply T. exact J.
    + constructor; [split; [exact Lm|constructor; exact L]|]. eapply Forall_impl; [|exact P]. intros x (X1 & X2). split; [exact X1|]. eapply trans_snoc; eauto.
    + cbn [length]. lia.
Qed.
Lemma valid_complete h m n : in_memory h -> (m < length h)%nat -> all_described h m -> validateMap n h m = Ok tt \/ validateMap n h m = Hang.
Proof.
  intros W. apply in_memory_holds in W. revert m. induction n as [|n IH]; intros m Lm D; [right; reflexivity|]. cbn [validateMap].
  destruct (nth_error h m) as [fs|] eqn:F; [|apply nth_error_None in F; lia].
  change Hang with (bind (@Hang unit) (fun _ => Ok tt)). apply fields_cases; [|discriminate].
  intros f I. apply field_stuck.
  - intros c C. assert (L : holds h m c) by (exists fs, f; auto). apply IH; [eapply W; eauto|].
    intros c' fs' f' R. apply D. apply Relation_Operators.rt1n_trans with c; assumption.
  - apply (D m fs f); [constructor|exact F|exact I].
Qed.
Theorem validate_spec h m n : in_memory h -> (m < length h)%nat -> (length h < n)%nat ->
  (validateMap n h m = Ok tt <-> all_described h m /\ no_recursion h m) /\
  (no_recursion h m -> ~ all_described h m -> validateMap n h m = Err) /\
  (all_described h m -> ~ no_recursion h m -> forall k, validateMap k h m = Hang).
Proof.
  intros W Lm B.
  assert (E : no_recursion h m -> validateMap n h m = Ok tt \/ validateMap n h m = Err).
  { intros A. apply (valid_ends h m (in_memory_holds h W) A n m []); [constructor|exact Lm|repeat constructor; intros []|constructor|cbn; lia]. }
  split; [|split].
  - split; [apply valid_sound|]. intros (D & A). destruct (E A) as [K|K]; [exact K|].
    destruct (valid_complete h m n W Lm D) as [K2|K2]; [exact K2|congruence].
  - intros A D. destruct (E A) as [K|K]; [|exact K]. apply valid_sound in K. tauto.
  - intros D A k. destruct (valid_complete h m k W Lm D) as [K|K]; [|exact K]. apply valid_sound in K. tauto.
Qed.

(** ** ByName *)
Lemma byName_spec fs n d : byName fs n = Ok d <-> exists a b, fs = a ++ d :: b /\ d.(d_name) = n /\ forall x, In x a -> x.(d_name) <> n.
Proof.
  induction fs as [|f fs IH]; cbn [byName].
  - split; [discriminate|]. intros ([|? ?] & b & [=] & _).
  - destruct (bytes_eqb (d_name f) n) eqn:E.
    + apply Any_eqb in E. split.
      * intros [= <-]. exists [], fs. split; [reflexivity|]. split; [exact E|intros ? []].
      * intros ([|x a] & b & [= K1 K2] & N & H); [congruence|]. subst x. destruct (H f (or_introl eq_refl) E).
    + assert (Ne : d_name f <> n) by (intros K; apply Any_eqb in K; congruence). rewrite IH. split.
      * intros (a & b & -> & N & H). exists (f :: a), b. split; [reflexivity|]. split; [exact N|]. intros x [<-|I]; auto.
      * intros ([|x a] & b & [= K1 K2] & N & H); [congruence|]. exists a, b. split; [exact K2|]. split; [exact N|]. intros y I. apply H. right. exact I.
Qed.
Lemma byName_panic fs n : byName fs n = Panic <-> ~ In n (map d_name fs).
Proof.
  induction fs as [|f fs IH]; cbn [byName map]; [split; [intros _ []|reflexivity]|].
  destruct (bytes_eqb (d_name f) n) eqn:E.
  - apply Any_eqb in E. split; [discriminate|]. intros K. destruct (K (or_introl E)).
  - assert (Ne : d_name f <> n) by (intros K; apply Any_eqb in K; congruence). rewrite IH. cbn [In]. tauto.
Qed.

(** ** Schemas *)
Lemma ascii_rune c : 0 <= c < 128 -> forall n w, (length w <= n)%nat -> In c w -> In c (range_fuel n w).
Proof.
  intros Hc. induction n as [|n IH]; intros w L I.
  - destruct w; [destruct I|cbn in L; lia].
  - destruct w as [|b q]; [destruct I|]. cbn [range_fuel]. destruct (DecodeRune (b :: q)) as (r, k) eqn:D.
    assert (G : In c (skipn 1 (b :: q)) -> In c (range_fuel n (skipn 1 (b :: q)))) by (intros J; apply IH; [cbn in *; lia|exact J]).
    unfold DecodeRune in D. destruct (Z.ltb_spec b 0x80) as [Lb|Lb].
    + injection D as <- <-. destruct I as [->|I]; [left; reflexivity|right; apply G; exact I].
    + destruct I as [->|I]; [lia|]. right.
      assert (no : forall a z x, in_range a z x = true -> 128 <= a -> x <> c) by (intros a z x R A ->; unfold in_range in R; lia).
      destruct (in_range 0xC2 0xDF b).
      { destruct q as [|b1 q]; [destruct I|]. destruct (in_range 0x80 0xBF b1) eqn:R1; injection D as <- <-; [|apply G; exact I].
        cbn [skipn]. destruct I as [->|I]; [destruct (no _ _ _ R1 ltac:(lia) eq_refl)|]. apply IH; [cbn in *; lia|exact I]. }
      destruct (in_range 0xE0 0xEF b).
      { destruct q as [|b1 [|b2 q]]; [destruct I|injection D as <- <-; apply G; exact I|].
        destruct (in_range (fst (second b)) (snd (second b)) b1) eqn:R1; cbn [andb] in D; [|injection D as <- <-; apply G; exact I].
        destruct (in_range 0x80 0xBF b2) eqn:R2; injection D as <- <-; [|apply G; exact I].
        cbn [skipn]. assert (128 <= fst (second b)) by (unfold second; repeat (destruct (_ =? _); cbn); lia).
        destruct I as [->|[->|I]]; [destruct (no _ _ _ R1 ltac:(lia) eq_refl)|destruct (no _ _ _ R2 ltac:(lia) eq_refl)|]. apply IH; [cbn in *; lia|exact I]. }
      destruct (in_range 0xF0 0xF4 b); [|injection D as <- <-; apply G; exact I].
      destruct q as [|b1 [|b2 [|b3 q]]]; [destruct I|injection D as <- <-; apply G; exact I|injection D as <- <-; apply G; exact I|].
      destruct (in_range (fst (second b)) (snd (second b)) b1) eqn:R1; cbn [andb] in D; [|injection D as <- <-; apply G; exact I].
      destruct (in_range 0x80 0xBF b2) eqn:R2; cbn [andb] in D; [|injection D as <- <-; apply G; exact I].
      destruct (in_range 0x80 0xBF b3) eqn:R3; injection D as <- <-; [|apply G; exact I].
      cbn [skipn]. assert (128 <= fst (second b)) by (unfold second; repeat (destruct (_ =? _); cbn); lia).
      destruct I as [->|[->|[->|I]]]; [destruct (no _ _ _ R1 ltac:(lia) eq_refl)|destruct (no _ _ _ R2 ltac:(lia) eq_refl)|destruct (no _ _ _ R3 ltac:(lia) eq_refl)|].
      apply IH; [cbn in *; lia|exact I].
Qed.

Section Schema.
Variables isUpper isLower isLetter isNumber : Z -> bool.
Hypothesis dotL : isLetter 46 = false.
Hypothesis dotN : isNumber 46 = false.
Variables (f : file) (ext : bytes -> option file).
Hypothesis OK : schema_ok isUpper isLower isLetter isNumber f.

Lemma name_plain w : type_name isLower isLetter isNumber w -> w <> [] /\ ~ In 46 w.
Proof.
  intros (r & q & R & L & _ & F). split; [intros ->; discriminate|]. intros I.
  assert (K : In 46 (runes w)) by (apply ascii_rune; [lia|reflexivity|exact I]). rewrite R in K. rewrite Forall_forall in F.
  destruct K as [->|K]; [congruence|]. destruct (F _ K); congruence.
Qed.
Lemma struct_plain t : In (DStruct t) f.(f_idents) -> t.(s_name) <> [] /\ ~ In 46 t.(s_name).
Proof. intros I. apply in_split in I. destruct I as (a & b & E). apply name_plain. exact (proj1 (ok_structs _ _ _ _ _ OK _ _ _ E)). Qed.
Lemma same_name d t : In d f.(f_idents) -> In (DStruct t) f.(f_idents) -> decl_name d = t.(s_name) -> d = DStruct t.
Proof.
  intros I J E. assert (N := ok_names _ _ _ _ _ OK). revert I J N. induction (f_idents f) as [|x l IH]; [intros []|]. cbn [map]. intros I J N. inversion N; subst.
  destruct I as [->|I], J as [->|J]; [reflexivity| | |auto].
  - destruct H1. rewrite E. change (s_name t) with (decl_name (DStruct t)). apply in_map. exact J.
  - destruct H1. cbn. rewrite <- E. apply in_map. exact I.
Qed.
Lemma ident_struct t : In (DStruct t) f.(f_idents) -> ident_of f.(f_idents) t.(s_name) = Some (DStruct t).
Proof.
  intros I. unfold ident_of. destruct (find _ _) as [d|] eqn:E.
  - apply find_some in E. destruct E as (J & E). apply Any_eqb in E. f_equal. apply same_name; assumption.
  - assert (K := find_none _ _ E _ I). cbn in K. assert (bytes_eqb (s_name t) (s_name t) = true) by (apply Any_eqb; reflexivity). congruence.
Qed.
Lemma resolve_keeps fd fd' : resolveField f ext fd = Ok fd' -> fd'.(fd_ident) = fd.(fd_ident) /\ fd'.(fd_map) = fd.(fd_map).
Proof.
  assert (T : forall d, resolveTo fd d = Ok fd' -> fd'.(fd_ident) = fd.(fd_ident) /\ fd'.(fd_map) = fd.(fd_map)).
  { intros [[e|s]|]; cbn; [|intros [= <-]; auto|discriminate]. destruct (_ =? 8); [intros [= <-]; auto|]. destruct (_ =? 16); [intros [= <-]; auto|discriminate]. }
  unfold resolveField. destruct (_ =? _); [|intros [= <-]; auto]. destruct (negb _); [apply T|].
  destruct (splitAt _ _) as [|p [|n [|? ?]]]; try discriminate. destruct (imported _ _); [|discriminate]. destruct (ext _); [apply T|discriminate].
Qed.
Lemma no_dot_exists w : ~ In 46 w -> existsb (fun c => c =? 46) w = false.
Proof. intros N. destruct (existsb _ _) eqn:E; [|reflexivity]. apply existsb_exists in E. destruct E as (c & I & E). apply Z.eqb_eq in E. subst c. contradiction. Qed.

Lemma refers_iff s t : refers f ext s t <-> mentions f s t.
Proof.
  split.
  - intros (Is & It & fd & fd' & Ifd & R & J). destruct (resolve_keeps _ _ R) as (E1 & E2). split; [exact Is|]. split; [exact It|].
    exists fd. split; [exact Ifd|]. unfold fieldRefs in J. rewrite E2, E1 in J. apply in_app_or in J. destruct J as [J|J].
    + destruct (_ || _); [|destruct J]. destruct J as [J|[]]. left. exact J.
    + destruct (fd_map fd) as [[k v w n]|]; [|destruct J]. destruct (bytes_eqb w []); [destruct J|]. destruct J as [<-|[]]. right. exists k, v, n. reflexivity.
  - intros (Is & It & fd & Ifd & J). split; [exact Is|]. split; [exact It|]. destruct (struct_plain t It) as (Ne & Nd).
    assert (FT : exists before, incl before f.(f_idents) /\ field_type f before s.(s_name) fd).
    { apply in_split in Is. destruct Is as (a & b & E). destruct (ok_structs _ _ _ _ _ OK _ _ _ E) as (_ & _ & _ & F). rewrite Forall_forall in F.
      exists a. split; [rewrite E; intros x Hx; apply in_or_app; left; exact Hx|]. apply F. exact Ifd. }
    destruct FT as (before & Inc & FT). destruct J as [J|(k & v & n & J)].
    + destruct FT; cbn [fd_ident] in J; try congruence.
      * destruct isList; eexists _, _; (split; [exact Ifd|]); unfold resolveField; cbn [fd_type]; (split; [reflexivity|]);
        unfold fieldRefs; cbn [fd_type fd_ident]; apply in_or_app; left; cbn; auto.
      * assert (E : d = DStruct t) by (apply same_name; auto). subst d.
        destruct isList; eexists _, _; (split; [exact Ifd|]); unfold resolveField; cbn [fd_type]; (split; [reflexivity|]);
        unfold fieldRefs; cbn [fd_type fd_ident]; apply in_or_app; left; cbn; auto.
      * subst w. eexists _, _. split; [exact Ifd|]. unfold resolveField. cbn [fd_type fd_ident]. rewrite no_dot_exists, ident_struct by assumption.
        split; [cbn; reflexivity|]. unfold fieldRefs. cbn. apply in_or_app. left. destruct isList; cbn; auto.
    + destruct FT; cbn [fd_map] in J; try discriminate. injection J as ->.
      eexists _, _. split; [exact Ifd|]. unfold resolveField. cbn [fd_type]. split; [reflexivity|].
      unfold fieldRefs. cbn [fd_map]. apply in_or_app. right. destruct (bytes_eqb (s_name t) []) eqn:E; [apply Any_eqb in E; contradiction|left; reflexivity].
Qed.
Lemma trans_iff s t : clos_trans_1n struct (refers f ext) s t <-> clos_trans_1n struct (mentions f) s t.
Proof.
  split; induction 1 as [a b K|a b c K R IH].
  - constructor. apply refers_iff. exact K.
  - apply Relation_Operators.t1n_trans with b; [apply refers_iff; exact K|exact IH].
  - constructor. apply refers_iff. exact K.
  - apply Relation_Operators.t1n_trans with b; [apply refers_iff; exact K|exact IH].
Qed.
Lemma accepts_iff : go_accepts f ext <-> forall s, ~ clos_trans_1n struct (mentions f) s s.
Proof. unfold go_accepts. split; intros H s; specialize (H s); rewrite trans_iff in *; exact H. Qed.

Lemma nodup_idents : NoDup f.(f_idents).
Proof. apply NoDup_map_inv with (f := decl_name). apply OK. Qed.
Lemma above_pos t s i j : above f t s -> nth_error f.(f_idents) i = Some (DStruct t) -> nth_error f.(f_idents) j = Some (DStruct s) -> (i < j)%nat.
Proof.
  intros (a & b & c & E) Hi Hj. assert (N := nodup_idents). rewrite NoDup_nth_error in N.
  assert (Pi : nth_error f.(f_idents) (length a) = Some (DStruct t)) by (rewrite E, nth_error_app2, PeanoNat.Nat.sub_diag by lia; reflexivity).
  assert (Pj : nth_error f.(f_idents) (length a + S (length b)) = Some (DStruct s)).
  { rewrite E, nth_error_app2 by lia. replace (length a + S (length b) - length a)%nat with (S (length b)) by lia. cbn [nth_error].
    rewrite nth_error_app2, PeanoNat.Nat.sub_diag by lia. reflexivity. }
  assert (i = length a). { apply N; [apply nth_error_Some; congruence|congruence]. }
  assert (j = (length a + S (length b))%nat). { apply N; [apply nth_error_Some; congruence|congruence]. }
  lia.
Qed.
Lemma downward s t : (forall s t, mentions f s t -> above f t s) -> clos_trans_1n struct (mentions f) s t ->
  forall i j, nth_error f.(f_idents) i = Some (DStruct s) -> nth_error f.(f_idents) j = Some (DStruct t) -> (j < i)%nat.
Proof.
  intros A. induction 1 as [a b K|a b c K R IH]; intros i j Hi Hj.
  - exact (above_pos b a j i (A _ _ K) Hj Hi).
  - destruct K as (Ia & Ib & K). destruct (In_nth_error _ _ Ib) as (k & Hk). assert (J := IH k j Hk Hj).
    assert (J2 := above_pos b a k i (A a b (conj Ia (conj Ib K))) Hk Hi). lia.
Qed.
Lemma ordered_accepts : (forall s t, mentions f s t -> above f t s) -> go_accepts f ext.
Proof.
  intros A. apply accepts_iff. intros s T.
  assert (I : In (DStruct s) f.(f_idents)) by (inversion T; subst; match goal with H : mentions _ _ _ |- _ => exact (proj1 H) end).
  destruct (In_nth_error _ _ I) as (i & Hi). assert (L := downward s s A T i i Hi Hi). lia.
Qed.
End Schema.
