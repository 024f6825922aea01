(** C61: the handler registry. *)
From Verif.Model Require Import Registry Any.
From Verif.Proofs Require Import BaseLemmas.
From Coq Require Import Lia.

Section C61.
Variable H : Type.

Definition triple : Type := bytes * bytes * bytes.
Definition key_of (t : triple) : bytes := makeKey (fst (fst t)) (snd (fst t)) (snd t).
Definition no_slash (s : bytes) : Prop := ~ In slash s.
(** Package and service names without a slash; the call name may have any. *)
Definition plain (t : triple) : Prop := no_slash (fst (fst t)) /\ no_slash (snd (fst t)).

(** A history of Register calls and the answers. *)
Fixpoint reg_run (r : registry H) (l : list (triple * H)) : registry H * list bool :=
  match l with
  | [] => (r, [])
  | ((p, s, c), h) :: l =>
      let '(r, ok) := Register r p s c h in
      let '(r, oks) := reg_run r l in (r, ok :: oks)
  end.
(** The handler of the first registration of a triple. *)
Definition triple_eqb (a b : triple) : bool :=
  let '(p, s, c) := a in let '(p', s', c') := b in bytes_eqb p p' && bytes_eqb s s' && bytes_eqb c c'.
Fixpoint first_for (t : triple) (l : list (triple * H)) : option H :=
  match l with
  | [] => None
  | (t', h) :: l => if triple_eqb t t' then Some h else first_for t l
  end.
(** Each registration succeeds when its triple has not been registered before. *)
Fixpoint fresh_flags (seen : list triple) (l : list (triple * H)) : list bool :=
  match l with
  | [] => []
  | (t, _) :: l => negb (existsb (triple_eqb t) seen) :: fresh_flags (t :: seen) l
  end.

Lemma beq_spec a : forall b, bytes_eqb a b = true <-> a = b.
Proof.
  induction a as [|x a IH]; intros [|y b]; cbn; split; try discriminate; try congruence; auto.
  - intros E. apply andb_prop in E. destruct E as [E1 E2]. apply Z.eqb_eq in E1. apply IH in E2. congruence.
  - intros E. injection E as -> ->. rewrite Z.eqb_refl. cbn. now apply IH.
Qed.
Lemma triple_eqb_spec a b : triple_eqb a b = true <-> a = b.
Proof.
  destruct a as [[p s] c], b as [[p' s'] c']. cbn. rewrite !andb_true_iff, !beq_spec. intuition congruence.
Qed.

Lemma cut_unique (a b a' b' : bytes) : no_slash a -> no_slash a' -> a ++ slash :: b = a' ++ slash :: b' -> a = a' /\ b = b'.
Proof.
  revert a'. induction a as [|x a IH]; intros [|y a'] Ha Ha' E; cbn in E.
  - injection E as ->. auto.
  - injection E as <- _. exfalso. apply Ha'. left; auto.
  - injection E as -> _. exfalso. apply Ha. left; auto.
  - injection E as -> E. destruct (IH a') as [-> ->]; auto; intros C; [apply Ha|apply Ha']; right; auto.
Qed.
Lemma key_inj a b : plain a -> plain b -> key_of a = key_of b -> a = b.
Proof.
  destruct a as [[p s] c], b as [[p' s'] c']. intros [H1 H2] [H3 H4] E. cbn in *. unfold makeKey in E. cbn [app] in E.
  apply cut_unique in E; auto. destruct E as [-> E]. apply cut_unique in E; auto. destruct E as [-> ->]. reflexivity.
Qed.
Lemma key_eqb a b : plain a -> plain b -> bytes_eqb (key_of a) (key_of b) = triple_eqb a b.
Proof.
  intros Ha Hb. destruct (triple_eqb a b) eqn:E.
  - apply triple_eqb_spec in E. subst. now apply beq_spec.
  - destruct (bytes_eqb (key_of a) (key_of b)) eqn:E2; auto. apply beq_spec in E2. apply key_inj in E2; auto.
    apply triple_eqb_spec in E2. congruence.
Qed.

Lemma reg_run_inv l : forall r seen, Forall (fun e => plain (fst e)) l -> Forall plain seen ->
  (forall t, plain t -> (reg_find (key_of t) r = None <-> existsb (triple_eqb t) seen = false)) ->
  snd (reg_run r l) = fresh_flags seen l /\
  (forall t, plain t -> reg_find (key_of t) (fst (reg_run r l)) =
     match reg_find (key_of t) r with Some h => Some h | None => first_for t l end).
Proof.
  induction l as [|[[[p s] c] h] l IH]; intros r seen HL HS HI; cbn [reg_run].
  - split; auto. intros t _. cbn. destruct (reg_find _ r); auto.
  - pose proof (Forall_inv HL) as HP. apply Forall_inv_tail in HL. cbn [fst] in HP.
    unfold Register. change (makeKey p s c) with (key_of (p, s, c)).
    destruct (reg_find (key_of (p, s, c)) r) as [h0|] eqn:ER.
    + destruct (IH r ((p, s, c) :: seen) HL) as [I1 I2]; auto.
      { intros t Ht. cbn [existsb]. rewrite HI by auto. destruct (triple_eqb t (p, s, c)) eqn:E; [|reflexivity].
        apply triple_eqb_spec in E. subst t. split; [|discriminate]. intros C. apply HI in C; auto. congruence. }
      destruct (reg_run r l) as [r' oks] eqn:EE. cbn [fst snd] in *. split.
      * cbn [fresh_flags]. f_equal; auto. destruct (existsb (triple_eqb (p, s, c)) seen) eqn:E; auto.
        apply HI in E; auto. congruence.
      * intros t Ht. rewrite I2 by auto. cbn [first_for]. destruct (reg_find (key_of t) r) eqn:E; auto.
        destruct (triple_eqb t (p, s, c)) eqn:E2; auto. apply triple_eqb_spec in E2. subst t. congruence.
    + destruct (IH ((key_of (p, s, c), h) :: r) ((p, s, c) :: seen) HL) as [I1 I2]; auto.
      { intros t Ht. cbn [existsb reg_find]. rewrite key_eqb by auto. destruct (triple_eqb t (p, s, c)) eqn:E; cbn [orb].
        - split; discriminate.
        - apply HI; auto. }
      destruct (reg_run _ l) as [r' oks] eqn:EE. cbn [fst snd] in *. split.
      * cbn [fresh_flags]. f_equal; auto. apply HI in ER; auto. rewrite ER. reflexivity.
      * intros t Ht. rewrite I2 by auto. cbn [first_for reg_find]. rewrite key_eqb by auto.
        destruct (triple_eqb t (p, s, c)) eqn:E2; auto. apply triple_eqb_spec in E2. subst t. rewrite ER. auto.
Qed.

(** For every history of registrations of names without slashes: a registration is refused
    exactly when its triple was registered before, and Lookup finds, under exactly the
    registered triples, the handler registered first. *)
Theorem C61_registry_partial : forall l, Forall (fun e => plain (fst e)) l ->
  let '(r, oks) := reg_run [] l in
  oks = fresh_flags [] l /\
  (forall p s c, plain (p, s, c) -> Lookup r p s c = first_for (p, s, c) l).
Proof.
  intros l HL. destruct (reg_run_inv l [] [] HL) as [I1 I2]; auto.
  { intros t _. cbn. tauto. }
  destruct (reg_run [] l) as [r oks]. cbn [fst snd] in *. split; auto.
  intros p s c Ht. unfold Lookup. change (makeKey p s c) with (key_of (p, s, c)). rewrite I2 by auto. reflexivity.
Qed.

(** Handlers lists every registered triple with its handler, once. *)
Lemma splitN_cut n a b : no_slash a -> splitN (S (S n)) (a ++ slash :: b) = a :: splitN (S n) b.
Proof.
  intros HA. cbn [splitN].
  assert (G : forall acc, (fix go (acc rest : bytes) : list bytes :=
            match rest with
            | [] => [acc]
            | c :: rest' => if c =? slash then acc :: match n with 0%nat => [rest'] | S _ => splitN (S n) rest' end else go (acc ++ [c]) rest'
            end) acc (a ++ slash :: b) = (acc ++ a) :: match n with 0%nat => [b] | S _ => splitN (S n) b end).
  { induction a as [|x a IH]; intros acc; cbn [app].
    - rewrite Z.eqb_refl, app_nil_r. reflexivity.
    - destruct (Z.eqb_spec x slash); [exfalso; apply HA; left; auto|].
      rewrite IH by (intros C; apply HA; right; auto). rewrite <- app_assoc. reflexivity. }
  specialize (G []). cbn [app] in G. destruct n; exact G.
Qed.
Lemma split_key t : plain t -> splitN 3 (key_of t) = [fst (fst t); snd (fst t); snd t].
Proof.
  intros [H1 H2]. unfold key_of, makeKey. cbn [app]. rewrite splitN_cut by auto. rewrite splitN_cut by auto. reflexivity.
Qed.
Lemma reg_run_keys l : forall r, Forall (fun e => plain (fst e)) l ->
  (forall k h, In (k, h) r -> exists t, plain t /\ k = key_of t) ->
  (forall k h, In (k, h) (fst (reg_run r l)) -> exists t, plain t /\ k = key_of t) .
Proof.
  induction l as [|[[[p s] c] h] l IH]; intros r HL HR; cbn [reg_run]; auto.
  pose proof (Forall_inv HL) as HP. apply Forall_inv_tail in HL. cbn [fst] in HP.
  unfold Register. destruct (reg_find _ r).
  - specialize (IH r HL HR). destruct (reg_run r l). cbn [fst] in *. exact IH.
  - specialize (IH ((makeKey p s c, h) :: r) HL). destruct (reg_run _ l) as [r' oks]. cbn [fst] in *. apply IH.
    intros k h' [E|E]; [|eauto]. injection E as <- <-. exists (p, s, c). auto.
Qed.
Lemma reg_run_nodup l : forall r : registry H, NoDup (map fst r) -> NoDup (map fst (fst (reg_run r l))).
Proof.
  induction l as [|[[[p s] c] h] l IH]; intros r HR; cbn [reg_run]; auto.
  unfold Register. destruct (reg_find (makeKey p s c) r) eqn:E.
  - specialize (IH r HR). destruct (reg_run r l). exact IH.
  - specialize (IH ((makeKey p s c, h) :: r)). destruct (reg_run _ l) as [r' oks]. apply IH. cbn. constructor; auto.
    clear -E. induction r as [|[k h] r IH]; cbn in *; auto. destruct (bytes_eqb (makeKey p s c) k) eqn:EK; [discriminate|].
    intros [C|C]; [|apply IH; auto]. subst k. rewrite (proj2 (beq_spec _ _) eq_refl) in EK. discriminate.
Qed.
Lemma reg_find_In k r : reg_find k r = None \/ exists h, reg_find k r = Some h /\ In (k, h) (r : registry H).
Proof.
  induction r as [|[k' h] r IH]; cbn; auto. destruct (bytes_eqb k k') eqn:E.
  - apply beq_spec in E. subst. right. eauto.
  - destruct IH as [IH|(h' & IH & HI)]; eauto.
Qed.
Theorem C61_handlers_lists_all : forall l, Forall (fun e => plain (fst e)) l ->
  let r := fst (reg_run [] l) in
  NoDup (map fst (Handlers r)) /\
  forall p s c h, plain (p, s, c) -> (In (p, s, c, h) (Handlers r) <-> Lookup r p s c = Some h).
Proof.
  intros l HL r.
  pose proof (reg_run_nodup l [] (NoDup_nil _)) as ND. fold r in ND.
  assert (HK : forall k h, In (k, h) r -> exists t, plain t /\ k = key_of t).
  { intros k h HI. eapply (reg_run_keys l []); eauto. intros ? ? []. }
  clearbody r. clear HL l. unfold Lookup, Handlers. split.
  - induction r as [|[k h] r IH]; cbn [flat_map fst snd]; [constructor|].
    destruct (HK k h) as (t & Ht & ->); [left; auto|]. rewrite (split_key t Ht). cbn [app map fst].
    inversion ND as [|? ? N1 N2]; subst. constructor.
    + intros C. apply N1. apply in_map_iff in C. destruct C as ([t' h'] & E & C). cbn [fst] in E.
      apply in_flat_map in C. destruct C as ([k2 h2] & HI & C). cbn [fst snd] in C.
      destruct (HK k2 h2) as (t2 & Ht2 & ->); [right; auto|]. rewrite (split_key t2 Ht2) in C.
      destruct C as [C|[]]. injection C as C1 C2. apply in_map_iff. exists (key_of t2, h2). split; auto. cbn.
      f_equal. destruct t as [[? ?] ?], t2 as [[? ?] ?]. cbn in *. congruence.
    + apply IH; auto. intros. eapply HK. right. eassumption.
  - intros p s c h Ht. change (makeKey p s c) with (key_of (p, s, c)). split.
    + intros C. apply in_flat_map in C. destruct C as ([k2 h2] & HI & C). cbn [fst snd] in C.
      destruct (HK k2 h2 HI) as (t2 & Ht2 & ->). rewrite (split_key t2 Ht2) in C.
      destruct C as [C|[]]. injection C as C1 C2 C3 <-. assert (t2 = (p, s, c)) by (destruct t2 as [[? ?] ?]; cbn in *; congruence). subst t2.
      clear -HI ND. induction r as [|[k h] r IH]; [destruct HI|]. cbn. inversion ND as [|? ? N1 N2]; subst.
      destruct HI as [E|HI].
      * injection E as -> ->. rewrite (proj2 (beq_spec _ _) eq_refl). auto.
      * destruct (bytes_eqb _ k) eqn:EK; auto. apply beq_spec in EK. subst k. exfalso. apply N1.
        apply in_map_iff. exists (key_of (p, s, c), h2). auto.
    + intros E. destruct (reg_find_In (key_of (p, s, c)) r) as [C|(h' & E2 & HI)]; [congruence|].
      rewrite E in E2. injection E2 as <-. apply in_flat_map. exists (key_of (p, s, c), h). split; auto.
      cbn [fst snd]. rewrite (split_key (p, s, c) Ht). left. reflexivity.
Qed.
End C61.

(** With slashes in names the property is false: another service's handler answers, and a
    first registration is refused. *)
Theorem C61_registry_refuted : exists (p s c p' s' c' : bytes) (r : registry nat),
  (p, s, c) <> (p', s', c') /\ Register [] p s c 1%nat = (r, true) /\
  Lookup r p' s' c' = Some 1%nat /\ snd (Register r p' s' c' 2%nat) = false.
Proof.
  exists [97; 47; 98], [99], [100], [97], [98; 47; 99], [100].
  eexists. split; [discriminate|]. split; [reflexivity|]. split; reflexivity.
Qed.
Print Assumptions C61_registry_partial.
Print Assumptions C61_handlers_lists_all.
Print Assumptions C61_registry_refuted.

Example demo_registry :
  let l := [(([112], [115], [99; 47; 49]), 1%nat); (([112], [115], [100]), 2%nat); (([112], [115], [99; 47; 49]), 3%nat)] in
  Forall (fun e => plain (fst e)) l /\ snd (reg_run nat [] l) = [true; true; false] /\
  Handlers (fst (reg_run nat [] l)) = [([112], [115], [100], 2%nat); ([112], [115], [99; 47; 49], 1%nat)].
Proof.
  cbn zeta. split; [|split; reflexivity].
  repeat constructor; cbn; unfold no_slash, slash; cbn; intuition lia.
Qed.
