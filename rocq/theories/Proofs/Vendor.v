From Coq Require Import ZArith List Bool String Lia.
Import ListNotations.
From Verif.Model Require Import Base Utf8 Field Any ClawText Idl ClawMod Vendor.
From Verif.Spec Require Import Idl Vendor.
From Verif.Proofs Require Import BaseLemmas IngestProofs IdlBase IdlText ClawMod.

(** ** Maps and loops *)
Lemma memb_iff p l : memb p l = true <-> In p l.
Proof.
  unfold memb. rewrite existsb_exists. split; [intros (x & I & E); apply bytes_eqb_eq in E; subst; exact I|].
  intros I. exists p. split; [exact I|apply beq_refl].
Qed.
Lemma memb_false p l : memb p l = false <-> ~ In p l.
Proof. rewrite <- memb_iff. destruct (memb p l); split; congruence. Qed.
Lemma get_put {A} p (a : A) m q : get q (put p a m) = if bytes_eqb q p then Some a else get q m.
Proof.
  induction m as [|[r b] m IH]; cbn [put get].
  - reflexivity.
  - destruct (bytes_eqb p r) eqn:X; cbn [get].
    + apply bytes_eqb_eq in X. subst r. destruct (bytes_eqb q p); reflexivity.
    + rewrite IH. destruct (bytes_eqb q r) eqn:Y; [|reflexivity]. apply bytes_eqb_eq in Y. subst r.
      destruct (bytes_eqb q p) eqn:W; [|reflexivity]. apply bytes_eqb_eq in W. subst q. rewrite beq_refl in X. discriminate.
Qed.
Lemma get_in {A} p (a : A) m : get p m = Some a -> In (p, a) m.
Proof. induction m as [|[q b] m IH]; cbn [get]; [discriminate|]. destruct (bytes_eqb p q) eqn:X; [|right; auto]. apply bytes_eqb_eq in X. intros [= ->]. subst. left. reflexivity. Qed.
Lemma get_dom {A} p (m : list (bytes * A)) : (exists a, get p m = Some a) <-> In p (map fst m).
Proof.
  induction m as [|[q b] m IH]; cbn [get map fst]; [split; [intros [? ?]; discriminate|intros []]|].
  destruct (bytes_eqb p q) eqn:X.
  - apply bytes_eqb_eq in X. subst. split; [left; reflexivity|eauto].
  - rewrite IH. cbn [In]. split; [auto|]. intros [->|H]; [rewrite beq_refl in X; discriminate|exact H].
Qed.
Lemma get_none {A} p (m : list (bytes * A)) : get p m = None <-> ~ In p (map fst m).
Proof. rewrite <- get_dom. destruct (get p m); split; [discriminate|intros H; exfalso; eauto|intros _ [? ?]; discriminate|reflexivity]. Qed.
Lemma in_get {A} p (a : A) m : NoDup (map fst m) -> In (p, a) m -> get p m = Some a.
Proof.
  induction m as [|[q b] m IH]; cbn [get map fst]; intros N I; [destruct I|]. inversion N as [|? ? X N']; subst. destruct I as [[= -> ->]|I].
  - rewrite beq_refl. reflexivity.
  - destruct (bytes_eqb p q) eqn:Y; [|auto]. apply bytes_eqb_eq in Y. subst. exfalso. apply X. apply in_map_iff. exists (q, a). auto.
Qed.
Lemma put_dom {A} p (a : A) m q : In q (map fst (put p a m)) <-> q = p \/ In q (map fst m).
Proof.
  rewrite <- !get_dom. rewrite get_put. destruct (bytes_eqb q p) eqn:X.
  - apply bytes_eqb_eq in X. subst. split; eauto.
  - split; [auto|]. intros [->|H]; [rewrite beq_refl in X; discriminate|exact H].
Qed.
Lemma put_nodup {A} p (a : A) m : NoDup (map fst m) -> NoDup (map fst (put p a m)).
Proof.
  induction m as [|[q b] m IH]; cbn [put]; intros N; [constructor; [intros []|constructor]|]. cbn [map fst] in N. inversion N as [|? ? X N']; subst.
  destruct (bytes_eqb p q) eqn:Y; cbn [map fst]; constructor; auto. rewrite put_dom. intros [->|H]; [rewrite beq_refl in Y; discriminate|auto].
Qed.

Lemma each_ok {S} f (P : list bytes -> S -> Prop) ds : (forall u d s s', In d ds -> P u s -> f d s = Ok s' -> P (u ++ [d]) s') ->
  forall s s', P [] s -> each f ds s = Ok s' -> P ds s'.
Proof.
  intros H. assert (G : forall ds' u s s', incl ds' ds -> P u s -> each f ds' s = Ok s' -> P (u ++ ds') s').
  { induction ds' as [|d ds' IH]; cbn [each]; intros u s s' I A E.
    - injection E as <-. rewrite app_nil_r. exact A.
    - destruct (f d s) as [t| | |] eqn:F; try discriminate. cbn [bind] in E.
      replace (u ++ d :: ds') with ((u ++ [d]) ++ ds') by (rewrite <- app_assoc; reflexivity).
      apply (IH _ t); [intros x X; apply I; right; exact X|apply (H u d s t); auto; apply I; left; reflexivity|exact E]. }
  intros s s' A E. exact (G ds [] s s' (fun x X => X) A E).
Qed.
Lemma each_end {S} f ds (Bad : Prop) : (forall d (s : S), In d ds -> (exists s', f d s = Ok s') \/ (f d s = Err /\ Bad)) ->
  forall s, (exists s', each f ds s = Ok s') \/ (each f ds s = Err /\ Bad).
Proof.
  induction ds as [|d ds IH]; intros H s; cbn [each]; [left; eauto|].
  destruct (H d s (or_introl eq_refl)) as [[t E]|[E B]]; rewrite E; cbn [bind]; [apply IH; intros; apply H; right; assumption|right; auto].
Qed.

(** ** Graphs *)
Section Graph.
Context {A : Type}.
Variable E : A -> A -> Prop.
Lemma reach_one x y : E x y -> reach E x y.
Proof. intros H. eapply re_step; [exact H|apply re_here]. Qed.
Lemma reach_trans x y z : reach E x y -> reach E y z -> reach E x z.
Proof. induction 1; auto. intros. eapply re_step; eauto. Qed.
Lemma reach_snoc x y z : reach E x y -> E y z -> reach E x z.
Proof. intros H X. eapply reach_trans; [exact H|apply reach_one; exact X]. Qed.
(** Lists in which what is imported stands before. *)
Inductive topo : list A -> Prop :=
| to_nil : topo []
| to_snoc l x : topo l -> (forall y, E x y -> In y l) -> topo (l ++ [x]).
Lemma topo_closed l : topo l -> forall x y, In x l -> reach E x y -> In y l.
Proof.
  intros T. assert (C : forall x y, In x l -> E x y -> In y l).
  { induction T as [|l z T IH H]; intros x y I X; [destruct I|]. apply in_app_iff. left. apply in_app_iff in I. destruct I as [I|[->|[]]]; eauto. }
  intros x y I R. induction R; eauto.
Qed.
Lemma topo_acyclic l : topo l -> forall x y, In x l -> E x y -> ~ reach E y x.
Proof.
  induction 1 as [|l z T IH H]; intros x y I X R; [destruct I|]. apply in_app_iff in I. destruct I as [I|[->|[]]]; [exact (IH x y I X R)|].
  pose proof (H y X) as Y. pose proof (topo_closed l T y x Y R) as I. exact (IH x y I X R).
Qed.
Lemma topo_first l : topo l -> imported_first E l.
Proof.
  induction 1 as [|l z T IH H]; intros a x b Q y X; [destruct a; discriminate|].
  destruct b as [|c b].
  - apply app_inj_tail in Q. destruct Q as [-> ->]. exact (H y X).
  - assert (exists b' w, c :: b = b' ++ [w]) as (b' & w & W) by (destruct (exists_last (l := c :: b)) as (b' & w & W); [discriminate|eauto]).
    rewrite W in Q. change (a ++ x :: b' ++ [w]) with (a ++ (x :: b') ++ [w]) in Q. rewrite app_assoc in Q. apply app_inj_tail in Q. destruct Q as [-> ->].
    exact (IH a x b' eq_refl y X).
Qed.
End Graph.

(** ** The dependency graph *)
Section Process.
Variable dec : Z -> bytes.
Variable readDir : bytes -> option (list bytes).
Variable readFile : bytes -> option bytes.
Variable join : bytes -> bytes -> bytes.
Variable hasGit : bool.
Variable inRepo : bytes -> bool.
Variable abs : bytes -> option bytes.
Variable getClawFile : bytes -> bytes -> option bytes.
Variable importsOf : bytes -> option (list bytes).
Variable parseMod : bytes -> option module.
Variable root : module.
Variable local : list replace.
Hypothesis REQ : root.(m_required) = [].
Notation load p := (loadNode readDir readFile join hasGit inRepo abs getClawFile importsOf parseMod root local p []).
Notation process := (processClawFile dec readDir readFile join hasGit inRepo abs getClawFile importsOf parseMod).
Notation E := (fun p q => exists n, load p = Ok n /\ In q n.(n_deps)).

Lemma load_ends p v : ends (loadNode readDir readFile join hasGit inRepo abs getClawFile importsOf parseMod root local p v).
Proof.
  assert (L : forall {A} (o : option A), ends (lift o)) by (intros A [a|]; [left; eexists; reflexivity|right; reflexivity]).
  assert (G : forall a, ends (getLocalClawFile readDir readFile join a)).
  { intros a. unfold getLocalClawFile. destruct (hasSuffix a (lit ".claw")); [apply L|]. destruct (readDir a) as [es|]; [|right; reflexivity].
    cbn [lift bind]. destruct (filter _ es) as [|e [|]]; [right; reflexivity|apply L|right; reflexivity]. }
  assert (B : forall {A B} (r : res A) (f : A -> res B), ends r -> (forall a, ends (f a)) -> ends (bind r f)).
  { intros A B r f [[a X]|X] H; rewrite X; cbn [bind]; [apply H|right; reflexivity]. }
  assert (O : forall {A} (a : A), ends (Ok a)) by (left; eauto).
  unfold loadNode. apply B.
  - destruct (isLocalPath _); [apply B; auto|]. destruct (hasGit && inRepo _); [apply B; [auto|]; intros; apply B; auto|apply B; auto].
  - intros [c w]. apply B; auto.
Qed.

Definition graph_inv (vis : list bytes) (g : list (bytes * node)) (ord : list bytes) : Prop :=
  NoDup (map fst g) /\ (forall q n, get q g = Some n -> load q = Ok n) /\ (forall q, In q (map fst g) <-> In q vis \/ In q ord) /\
  (forall q, In q ord -> ~ In q vis) /\ topo E ord.
Lemma process_ok fuel : forall vis p g g' ord, graph_inv vis g ord -> process fuel root local vis p [] g = Ok g' ->
  exists ord', graph_inv vis g' ord' /\ incl ord ord' /\ In p ord' /\ (forall q, In q ord' -> In q ord \/ reach E p q).
Proof.
  induction fuel as [|fuel IH]; intros vis p g g' ord I H; [discriminate|]. cbn [processClawFile] in H.
  destruct (memb p vis) eqn:V; [discriminate|]. apply memb_false in V. destruct I as (N & L & D & X & T).
  destruct (get p g) as [n|] eqn:G.
  - injection H as <-. exists ord. split; [repeat split; auto; apply D|]. split; [intros q; auto|]. split; [|auto].
    assert (I : In p (map fst g)) by (apply get_dom; eauto). apply D in I. tauto.
  - destruct (load p) as [n| | |] eqn:LD; try discriminate. cbn [bind] in H. rewrite REQ in H. cbn [resolveVersion] in H.
    apply get_none in G.
    pose (P := fun (u : list bytes) (s : list (bytes * node)) => exists o, graph_inv (p :: vis) s o /\ incl ord o /\ incl u o /\
                 (forall q, In q o -> In q ord \/ exists d, In d n.(n_deps) /\ reach E d q)).
    assert (Q : P n.(n_deps) g').
    { eapply (each_ok _ P); [| |exact H].
      - intros u d s s' ID (o & I & I1 & I2 & I3) F. destruct (IH _ _ _ _ _ I F) as (o' & J & J1 & J2 & J3).
        exists o'. split; [exact J|]. split; [intros q Z; auto|]. split.
        + intros q Z. apply in_app_iff in Z. destruct Z as [Z|[<-|[]]]; auto.
        + intros q Z. destruct (J3 q Z) as [Y|Y]; [auto|right; eauto].
      - exists ord. split.
        + split; [apply put_nodup; exact N|]. split; [|split; [|split; [|exact T]]].
          * intros q m. rewrite get_put. destruct (bytes_eqb q p) eqn:Y; [|apply L]. apply bytes_eqb_eq in Y. subst. congruence.
          * intros q. rewrite put_dom, D. cbn [In]. assert (S : q = p <-> p = q) by (split; congruence); tauto.
          * intros q Y [<-|Z]; [|exact (X q Y Z)]. apply G, D. auto.
        + split; [intros q; auto|]. split; [intros q []|auto]. }
    destruct Q as (o & (N' & L' & D' & X' & T') & I1 & I2 & I3). exists (o ++ [p]). split.
    + split; [exact N'|]. split; [exact L'|]. split; [|split].
      * intros q. rewrite D', in_app_iff. cbn [In]. tauto.
      * intros q Y. apply in_app_iff in Y. destruct Y as [Y|[<-|[]]]; [|exact V]. intros Z. apply (X' q Y). right. exact Z.
      * constructor; [exact T'|]. intros y (m & M & Y). rewrite LD in M. injection M as <-. auto.
    + split; [intros q Y; apply in_app_iff; auto|]. split; [apply in_app_iff; right; left; reflexivity|].
      intros q Y. apply in_app_iff in Y. destruct Y as [Y|[<-|[]]]; [|right; apply re_here].
      destruct (I3 q Y) as [W|(d & W & R)]; [auto|]. right. eapply re_step; [|exact R]. exists n. auto.
Qed.
Lemma process_end U r fuel : forall vis p g, finite_from E r U -> reach E r p -> NoDup vis -> incl vis U ->
  (forall v, In v vis -> reach E r v /\ exists y, E v y /\ reach E y p) -> (length U < fuel + length vis)%nat ->
  (exists g', process fuel root local vis p [] g = Ok g') \/
  (process fuel root local vis p [] g = Err /\ (cycle_from E r \/ exists q, reach E r q /\ ~ exists n, load q = Ok n)).
Proof.
  induction fuel as [|fuel IH]; intros vis p g FU R N I C L; cbn [processClawFile].
  - exfalso. pose proof (NoDup_incl_length N I). lia.
  - destruct (memb p vis) eqn:V.
    + right. split; [reflexivity|]. left. apply memb_iff in V. destruct (C p V) as (_ & y & Y & Z). exists p, y. auto.
    + apply memb_false in V. destruct (get p g) as [n|]; [left; eauto|].
      destruct (load_ends p []) as [[n LD]|LD]; rewrite LD; cbn [bind].
      * rewrite REQ. cbn [resolveVersion]. apply each_end. intros d s ID.
        assert (PD : E p d) by (exists n; auto).
        apply IH; auto.
        -- eapply reach_snoc; eauto.
        -- constructor; auto.
        -- intros q [<-|Q]; auto.
        -- intros v [<-|Q]; [split; [exact R|exists d; split; [exact PD|apply re_here]]|].
           destruct (C v Q) as (Y1 & y & Y2 & Y3). split; [exact Y1|]. exists y. split; [exact Y2|eapply reach_snoc; [exact Y3|exact PD]].
        -- cbn [length]. lia.
      * right. split; [reflexivity|]. right. exists p. split; [exact R|]. intros [n Q]. rewrite LD in Q. discriminate.
Qed.
Lemma inv_start : graph_inv [] [] [].
Proof.
  split; [constructor|]. split; [discriminate|]. split; [intros q; cbn; tauto|]. split; [intros q []|constructor].
Qed.
Lemma build_ok fuel p g : buildDependencyGraph dec readDir readFile join hasGit inRepo abs getClawFile importsOf parseMod fuel root local p = Ok g ->
  NoDup (map fst g) /\ (forall q n, get q g = Some n <-> (reach E p q /\ load q = Ok n)) /\ (forall q, In q (map fst g) <-> reach E p q) /\ ~ cycle_from E p /\
  exists ord, topo E ord /\ forall q, In q ord <-> In q (map fst g).
Proof.
  intros H. destruct (process_ok _ _ _ _ _ _ inv_start H) as (ord & (N & L & D & _ & T) & _ & IP & RR).
  assert (DD : forall q, In q (map fst g) <-> reach E p q).
  { intros q. rewrite D. cbn [In]. split; [intros [[]|Y]; destruct (RR q Y) as [[]|Z]; exact Z|]. intros R. right. exact (topo_closed E ord T p q IP R). }
  split; [exact N|]. split; [|split; [exact DD|split]].
  - intros q n. split.
    + intros G. split; [apply DD, get_dom; eauto|auto].
    + intros [R LD]. apply DD in R. apply get_dom in R. destruct R as [m G]. rewrite G. pose proof (L q m G) as Q. rewrite LD in Q. injection Q as <-. reflexivity.
  - intros (x & y & R & X & Y). apply (topo_acyclic E ord T x y); auto. exact (topo_closed E ord T p x IP R).
  - exists ord. split; [exact T|]. intros q. rewrite D. cbn [In]. tauto.
Qed.
End Process.

(** ** The order of compilation *)
Section Order.
Variable edges : bytes -> list bytes.
Notation E := (fun p q => In q (edges p)).
Lemma visit_ok fuel : forall vis p r r', topo E r -> NoDup r -> (forall q, In q r -> ~ In q vis) -> visit edges fuel vis p r = Ok r' ->
  topo E r' /\ NoDup r' /\ (forall q, In q r' -> ~ In q vis) /\ incl r r' /\ In p r' /\ (forall q, In q r' -> In q r \/ reach E p q).
Proof.
  induction fuel as [|fuel IH]; intros vis p r r' T N X H; [discriminate|]. cbn [visit] in H.
  destruct (memb p vis) eqn:V; [discriminate|]. apply memb_false in V. destruct (memb p r) eqn:M.
  - injection H as <-. apply memb_iff in M. repeat split; auto. intros q; auto.
  - apply memb_false in M. destruct (each _ _ r) as [r2| | |] eqn:EE; try discriminate. cbn [bind] in H. injection H as <-.
    pose (P := fun (u : list bytes) (s : list bytes) => topo E s /\ NoDup s /\ (forall q, In q s -> ~ In q (p :: vis)) /\ incl r s /\ incl u s /\
                 (forall q, In q s -> In q r \/ exists d, In d (edges p) /\ reach E d q)).
    assert (Q : P (edges p) r2).
    { eapply (each_ok _ P); [| |exact EE].
      - intros u d s s' ID (S1 & S2 & S3 & S4 & S5 & S6) F. destruct (IH _ _ _ _ S1 S2 S3 F) as (J1 & J2 & J3 & J4 & J5 & J6).
        split; [exact J1|]. split; [exact J2|]. split; [exact J3|]. split; [intros q Y; auto|]. split.
        + intros q Z. apply in_app_iff in Z. destruct Z as [Z|[<-|[]]]; auto.
        + intros q Z. destruct (J6 q Z) as [Y|Y]; [auto|right; eauto].
      - split; [exact T|]. split; [exact N|]. split; [intros q Y [<-|W]; [auto|exact (X q Y W)]|]. split; [intros q; auto|]. split; [intros q []|auto]. }
    destruct Q as (S1 & S2 & S3 & S4 & S5 & S6).
    split; [constructor; [exact S1|intros y; apply S5]|]. split.
    { apply NoDup_rev in S2. rewrite <- (rev_involutive (r2 ++ [p])). apply NoDup_rev. rewrite rev_app_distr. cbn [rev app]. constructor; [|exact S2].
      intros Y. apply in_rev in Y. apply (S3 p Y). left. reflexivity. }
    split; [intros q Y; apply in_app_iff in Y; destruct Y as [Y|[<-|[]]]; [intros W; apply (S3 q Y); right; exact W|exact V]|].
    split; [intros q Y; apply in_app_iff; auto|]. split; [apply in_app_iff; right; left; reflexivity|].
    intros q Y. apply in_app_iff in Y. destruct Y as [Y|[<-|[]]]; [|right; apply re_here].
    destruct (S6 q Y) as [W|(d & W & R)]; [auto|]. right. eapply re_step; eauto.
Qed.
Lemma visit_end U r fuel : forall vis p s, finite_from E r U -> reach E r p -> NoDup vis -> incl vis U ->
  (forall v, In v vis -> reach E r v /\ exists y, E v y /\ reach E y p) -> (length U < fuel + length vis)%nat ->
  (exists s', visit edges fuel vis p s = Ok s') \/ (visit edges fuel vis p s = Err /\ cycle_from E r).
Proof.
  induction fuel as [|fuel IH]; intros vis p s FU R N I C L; cbn [visit].
  - exfalso. pose proof (NoDup_incl_length N I). lia.
  - destruct (memb p vis) eqn:V.
    + right. split; [reflexivity|]. apply memb_iff in V. destruct (C p V) as (_ & y & Y & Z). exists p, y. auto.
    + apply memb_false in V. destruct (memb p s); [left; eauto|].
      destruct (each_end (fun d r0 => visit edges fuel (p :: vis) d r0) (edges p) (cycle_from E r)) with (s := s) as [[s' Q]|[Q B]]; [|rewrite Q; left; cbn [bind]; eauto|rewrite Q; right; auto].
      intros d t ID. apply IH; auto.
      * eapply reach_snoc; eauto.
      * constructor; auto.
      * intros q [<-|Q]; auto.
      * intros v [<-|Q]; [split; [exact R|exists d; split; [exact ID|apply re_here]]|].
        destruct (C v Q) as (Y1 & y & Y2 & Y3). split; [exact Y1|]. exists y. split; [exact Y2|eapply reach_snoc; [exact Y3|exact ID]].
      * cbn [length]. lia.
Qed.
Lemma order_ok fuel nodes r : GetCompilationOrder edges fuel nodes = Ok r ->
  NoDup r /\ (forall q, In q r <-> exists p, In p nodes /\ reach E p q) /\ importers_first E r /\ forall p, In p nodes -> ~ cycle_from E p.
Proof.
  unfold GetCompilationOrder. intros H. destruct (each _ nodes []) as [s| | |] eqn:EE; try discriminate. cbn [bind] in H. injection H as <-.
  pose (P := fun (u : list bytes) (s : list bytes) => topo E s /\ NoDup s /\ incl u s /\ (forall q, In q s -> exists p, In p nodes /\ reach E p q)).
  assert (Q : P nodes s).
  { eapply (each_ok _ P); [| |exact EE].
    - intros u d t t' ID (S1 & S2 & S3 & S4) F. destruct (visit_ok fuel [] d t t' S1 S2 (fun _ _ K => K) F) as (J1 & J2 & _ & J4 & J5 & J6).
      split; [exact J1|]. split; [exact J2|]. split; [intros q Y; apply in_app_iff in Y; destruct Y as [Y|[<-|[]]]; auto|].
      intros q Y. destruct (J6 q Y) as [W|W]; eauto.
    - split; [constructor|]. split; [constructor|]. split; [intros q []|intros q []]. }
  destruct Q as (T & N & I & R). split; [apply NoDup_rev; exact N|]. split; [|split].
  - intros q. rewrite <- in_rev. split; [apply R|]. intros (p & J & RR). exact (topo_closed E s T p q (I p J) RR).
  - intros a x b Q y Y. apply (f_equal (@rev _)) in Q. rewrite rev_involutive, rev_app_distr in Q. cbn [rev] in Q. rewrite <- app_assoc in Q. cbn [app] in Q.
    apply in_rev. exact (topo_first E s T _ _ _ Q y Y).
  - intros p J (x & y & RX & X & Y). apply (topo_acyclic E s T x y); auto. exact (topo_closed E s T p x (I p J) RX).
Qed.
Lemma order_end U fuel nodes : (forall p, In p nodes -> finite_from E p U) -> (length U < fuel)%nat ->
  (exists r, GetCompilationOrder edges fuel nodes = Ok r) \/ (GetCompilationOrder edges fuel nodes = Err /\ exists p, In p nodes /\ cycle_from E p).
Proof.
  intros F L. unfold GetCompilationOrder.
  destruct (each_end (fun p r => visit edges fuel [] p r) nodes (exists p, In p nodes /\ cycle_from E p)) with (s := @nil bytes) as [[s Q]|[Q B]];
    [|rewrite Q; left; cbn [bind]; eauto|rewrite Q; right; auto].
  intros d t ID. destruct (visit_end U d fuel [] d t (F d ID)) as [Q|[Q C]]; auto.
  - apply re_here.
  - constructor.
  - intros q [].
  - intros v [].
  - cbn [length]. lia.
  - right. eauto.
Qed.
End Order.
