(** clawc get finds what is imported, once each, and fails on cycles. *)
From Coq Require Import ZArith List Bool String Lia.
Import ListNotations.
From Verif.Model Require Import Base Utf8 Field Any ClawText Idl ClawMod Vendor VendorGet.
From Verif.Spec Require Import Idl ClawText ClawMod Vendor.
From Verif.Proofs Require Import BaseLemmas IngestProofs IdlBase IdlText ClawMod Vendor.
Local Open Scope Z_scope.

(** ** The search, for any way to find a package *)
Section Search.
Variable load : bytes -> res node.
Notation E := (fun p q => exists n, load p = Ok n /\ In q n.(n_deps)).
Fixpoint search (fuel : nat) (visited : list bytes) (p : bytes) (g : list (bytes * node)) : res (list (bytes * node)) :=
  match fuel with
  | O => Hang
  | S fuel =>
    if memb p visited then Err
    else match get p g with Some _ => Ok g | None => n <- load p ;; each (fun d g => search fuel (p :: visited) d g) n.(n_deps) (put p n g) end
  end.
Definition graph_inv (vis : list bytes) (g : list (bytes * node)) (ord : list bytes) : Prop :=
  NoDup (map fst g) /\ (forall q n, get q g = Some n -> load q = Ok n) /\ (forall q, In q (map fst g) <-> In q vis \/ In q ord) /\
  (forall q, In q ord -> ~ In q vis) /\ topo E ord.
Lemma process_ok fuel : forall vis p g g' ord, graph_inv vis g ord -> search fuel vis p g = Ok g' ->
  exists ord', graph_inv vis g' ord' /\ incl ord ord' /\ In p ord' /\ (forall q, In q ord' -> In q ord \/ reach E p q).
Proof.
  induction fuel as [|fuel IH]; intros vis p g g' ord I H; [discriminate|]. cbn [search] in H.
  destruct (memb p vis) eqn:V; [discriminate|]. apply memb_false in V. destruct I as (N & L & D & X & T).
  destruct (get p g) as [n|] eqn:G.
  - injection H as <-. exists ord. split; [repeat split; auto; apply D|]. split; [intros q; auto|]. split; [|auto].
    assert (I : In p (map fst g)) by (apply get_dom; eauto). apply D in I. tauto.
  - destruct (load p) as [n| | |] eqn:LD; try discriminate. cbn [bind] in H.
    apply get_none in G.
    pose (P := fun (u : list bytes) (s : list (bytes * node)) => exists o, graph_inv (p :: vis) s o /\ incl ord o /\ incl u o /\
                 (forall q, In q o -> In q ord \/ exists d, In d n.(n_deps) /\ reach E d q)).
    assert (Q : P n.(n_deps) g').
    { eapply (each_ok _ P); [| |exact H].
      - intros u d s s' ID (o & I & I1 & I2 & I3) F. destruct (IH _ _ _ _ _ I F) as (o' & J & J1 & J2 & J3).
        exists o'. split; [exact J|]. split; [intros q Z; auto|]. split.
        + intros q Z. apply in_app_iff in Z. destruct Z as [Z|[<-|[]]]; auto.
        + intros q Z. destruct (J3 q Z) as [Y|Y]; [auto|right; eauto].
      - exists ord. split.
        + split; [apply put_nodup; exact N|]. split; [|split; [|split; [|exact T]]].
          * intros q m. rewrite get_put. destruct (bytes_eqb q p) eqn:Y; [|apply L]. apply bytes_eqb_eq in Y. subst. congruence.
          * intros q. rewrite put_dom, D. cbn [In]. assert (S : q = p <-> p = q) by (split; congruence); tauto.
          * intros q Y [<-|Z]; [|exact (X q Y Z)]. apply G, D. auto.
        + split; [intros q; auto|]. split; [intros q []|auto]. }
    destruct Q as (o & (N' & L' & D' & X' & T') & I1 & I2 & I3). exists (o ++ [p]). split.
    + split; [exact N'|]. split; [exact L'|]. split; [|split].
      * intros q. rewrite D', in_app_iff. cbn [In]. tauto.
      * intros q Y. apply in_app_iff in Y. destruct Y as [Y|[<-|[]]]; [|exact V]. intros Z. apply (X' q Y). right. exact Z.
      * constructor; [exact T'|]. intros y (m & M & Y). rewrite LD in M. injection M as <-. auto.
    + split; [intros q Y; apply in_app_iff; auto|]. split; [apply in_app_iff; right; left; reflexivity|].
      intros q Y. apply in_app_iff in Y. destruct Y as [Y|[<-|[]]]; [|right; apply re_here].
      destruct (I3 q Y) as [W|(d & W & R)]; [auto|]. right. eapply re_step; [|exact R]. exists n. auto.
Qed.
Lemma process_end (LE : forall p, ends (load p)) U r fuel : forall vis p g, finite_from E r U -> reach E r p -> NoDup vis -> incl vis U ->
  (forall v, In v vis -> reach E r v /\ exists y, E v y /\ reach E y p) -> (length U < fuel + length vis)%nat ->
  (exists g', search fuel vis p g = Ok g') \/
  (search fuel vis p g = Err /\ (cycle_from E r \/ exists q, reach E r q /\ ~ exists n, load q = Ok n)).
Proof.
  induction fuel as [|fuel IH]; intros vis p g FU R N I C L; cbn [search].
  - exfalso. pose proof (NoDup_incl_length N I). lia.
  - destruct (memb p vis) eqn:V.
    + right. split; [reflexivity|]. left. apply memb_iff in V. destruct (C p V) as (_ & y & Y & Z). exists p, y. auto.
    + apply memb_false in V. destruct (get p g) as [n|]; [left; eauto|].
      destruct (LE p) as [[n LD]|LD]; rewrite LD; cbn [bind].
      * apply each_end. intros d s ID.
        assert (PD : E p d) by (exists n; auto).
        apply IH; auto.
        -- eapply reach_snoc; eauto.
        -- constructor; auto.
        -- intros q [<-|Q]; auto.
        -- intros v [<-|Q]; [split; [exact R|exists d; split; [exact PD|apply re_here]]|].
           destruct (C v Q) as (Y1 & y & Y2 & Y3). split; [exact Y1|]. exists y. split; [exact Y2|eapply reach_snoc; [exact Y3|exact PD]].
        -- cbn [length]. lia.
      * right. split; [reflexivity|]. right. exists p. split; [exact R|]. intros [n Q]. rewrite LD in Q. discriminate.
Qed.
Lemma inv_start : graph_inv [] [] [].
Proof.
  split; [constructor|]. split; [discriminate|]. split; [intros q; cbn; tauto|]. split; [intros q []|constructor].
Qed.
Lemma build_ok fuel p g : search fuel [] p [] = Ok g ->
  NoDup (map fst g) /\ (forall q n, get q g = Some n <-> (reach E p q /\ load q = Ok n)) /\ (forall q, In q (map fst g) <-> reach E p q) /\ ~ cycle_from E p /\
  exists ord, topo E ord /\ forall q, In q ord <-> In q (map fst g).
Proof.
  intros H. destruct (process_ok _ _ _ _ _ _ inv_start H) as (ord & (N & L & D & _ & T) & _ & IP & RR).
  assert (DD : forall q, In q (map fst g) <-> reach E p q).
  { intros q. rewrite D. cbn [In]. split; [intros [[]|Y]; destruct (RR q Y) as [[]|Z]; exact Z|]. intros R. right. exact (topo_closed E ord T p q IP R). }
  split; [exact N|]. split; [|split; [exact DD|split]].
  - intros q n. split.
    + intros G. split; [apply DD, get_dom; eauto|auto].
    + intros [R LD]. apply DD in R. apply get_dom in R. destruct R as [m G]. rewrite G. pose proof (L q m G) as Q. rewrite LD in Q. injection Q as <-. reflexivity.
  - intros (x & y & R & X & Y). apply (topo_acyclic E ord T x y); auto. exact (topo_closed E ord T p x IP R).
  - exists ord. split; [exact T|]. intros q. rewrite D. cbn [In]. tauto.
Qed.

End Search.

(** ** The root at its version, the others at the version that is required *)
Section Single.
Variable dec : Z -> bytes.
Variable ld : bytes -> bytes -> res node.
Variable rq : list require.
Variable p0 v0 : bytes.
Definition at_version (q : bytes) : res node := ld q (if bytes_eqb q p0 then v0 else resolveVersion dec rq q).
End Single.
Section Same.
Variable dec : Z -> bytes.
Variable readDir : bytes -> option (list bytes).
Variable readFile : bytes -> option bytes.
Variable join : bytes -> bytes -> bytes.
Variable hasGit : bool.
Variable inRepo : bytes -> bool.
Variable abs : bytes -> option bytes.
Variable getClawFile : bytes -> bytes -> option bytes.
Variable importsOf : bytes -> option (list bytes).
Variable parseMod : bytes -> option module.
Variable root : module.
Variable local : list replace.
Variable p0 v0 : bytes.
Notation ld := (loadSingle readDir readFile join hasGit inRepo abs getClawFile importsOf parseMod root local).
Notation process := (processSingle dec readDir readFile join hasGit inRepo abs getClawFile importsOf parseMod).
Notation load := (at_version dec ld root.(m_required) p0 v0).
Lemma each_same {S} (f g : bytes -> S -> res S) ds : (forall d s, f d s = g d s) -> forall s, each f ds s = each g ds s.
Proof. intros H. induction ds as [|d ds IH]; intros s; cbn [each]; [reflexivity|]. rewrite H. destruct (g d s); cbn [bind]; auto. Qed.
Lemma below fuel : forall vis p g, In p0 vis -> process fuel root local vis p (resolveVersion dec root.(m_required) p) g = search load fuel vis p g.
Proof.
  induction fuel as [|fuel IH]; intros vis p g I; cbn [processSingle search]; [reflexivity|].
  destruct (memb p vis) eqn:V; [reflexivity|]. destruct (get p g); [reflexivity|].
  unfold at_version at 1. destruct (bytes_eqb p p0) eqn:Q.
  - exfalso. apply bytes_eqb_eq in Q. subst. apply memb_false in V. contradiction.
  - destruct (ld p _) as [n| | |]; cbn [bind]; auto. apply each_same. intros d s. apply IH. right. exact I.
Qed.
Lemma single_search fuel : process fuel root local [] p0 v0 [] = search load fuel [] p0 [].
Proof.
  destruct fuel as [|fuel]; cbn [processSingle search]; [reflexivity|]. cbn [memb existsb get].
  unfold at_version at 1. rewrite beq_refl. destruct (ld p0 v0) as [n| | |]; cbn [bind]; auto.
  apply each_same. intros d s. apply below. left. reflexivity.
Qed.
Lemma single_ends p v : hasGit = true -> ends (ld p v).
Proof.
  intros HG. assert (L : forall {A} (o : option A), ends (lift o)) by (intros A [a|]; [left; eexists; reflexivity|right; reflexivity]).
  assert (G : forall a, ends (getLocalClawFile readDir readFile join a)).
  { intros a. unfold getLocalClawFile. destruct (hasSuffix a (lit ".claw")); [apply L|]. destruct (readDir a) as [es|]; [|right; reflexivity].
    cbn [lift bind]. destruct (filter _ es) as [|e [|]]; [right; reflexivity|apply L|right; reflexivity]. }
  assert (B : forall {A B} (r : res A) (f : A -> res B), ends r -> (forall a, ends (f a)) -> ends (bind r f)).
  { intros A B r f [[a X]|X] H; rewrite X; cbn [bind]; [apply H|right; reflexivity]. }
  assert (O : forall {A} (a : A), ends (Ok a)) by (left; eauto).
  unfold loadSingle. rewrite HG. cbn [negb]. apply B.
  - destruct (isLocalPath _); [auto|]. destruct (inRepo _); [apply B; auto|auto].
  - intros c. apply B; auto.
Qed.
End Same.
