From Coq Require Import ZArith List Bool String Lia.
Import ListNotations.
From Verif.Model Require Import Base Utf8 Field Any ClawText Idl ClawMod Vendor.
From Verif.Spec Require Import Idl Vendor.
From Verif.Proofs Require Import BaseLemmas IngestProofs IdlBase IdlText ClawMod Vendor.

Lemma each_ext {S} (f g : bytes -> S -> res S) ds : (forall d s, f d s = g d s) -> forall s, each f ds s = each g ds s.
Proof. intros H. induction ds as [|d ds IH]; intros s; cbn [each]; [reflexivity|]. rewrite H. destruct (g d s); cbn [bind]; auto. Qed.
Lemma each_end_inv {S} f ds (Bad : Prop) (I : S -> Prop) : (forall d (s : S), In d ds -> I s -> (exists s', f d s = Ok s' /\ I s') \/ (f d s = Err /\ Bad)) ->
  forall s, I s -> (exists s', each f ds s = Ok s' /\ I s') \/ (each f ds s = Err /\ Bad).
Proof.
  induction ds as [|d ds IH]; intros H s J; cbn [each]; [left; eauto|].
  destruct (H d s (or_introl eq_refl) J) as [(t & E & K)|[E B]]; rewrite E; cbn [bind]; [apply IH; [intros; apply H; [right|]; assumption|exact K]|right; auto].
Qed.
(** Ways and their lengths. *)
Section Len.
Context {A : Type}.
Variable E : A -> A -> Prop.
Inductive way : nat -> A -> A -> Prop :=
| wa_here x : way 0 x x
| wa_step k x y z : E x y -> way k y z -> way (S k) x z.
Lemma reach_way x y : reach E x y -> exists k, way k x y.
Proof. induction 1 as [x|x y z H _ [k IH]]; [exists O; constructor|exists (S k); econstructor; eauto]. Qed.
Lemma way_reach k x y : way k x y -> reach E x y.
Proof. induction 1; [apply re_here|eapply re_step; eauto]. Qed.
Lemma way_app j k x y z : way j x y -> way k y z -> way (j + k) x z.
Proof. induction 1; cbn; auto. intros. econstructor; eauto. Qed.
Lemma no_cycle r b : (forall k y, way k r y -> (k < b)%nat) -> ~ cycle_from E r.
Proof.
  intros H (x & y & R & X & Y). apply reach_way in R. destruct R as [i R]. apply reach_way in Y. destruct Y as [j Y].
  assert (G : forall n, exists k, way k x x /\ (n <= k)%nat).
  { induction n as [|n [k [W L]]]; [exists O; split; [constructor|lia]|]. exists (S j + k)%nat. split; [|lia].
    eapply way_app; [|exact W]. econstructor; eauto. }
  destruct (G b) as (k & W & L). pose proof (H _ _ (way_app _ _ _ _ _ R W)). lia.
Qed.
End Len.

Section Read.
Context {F : Type}.
Variable importsOf : F -> list bytes.
Definition imp (load : bytes -> option F) (p q : bytes) : Prop := exists f, load p = Some f /\ In q (importsOf f).

(** The schemas: the root under its path, the others as they are found. *)
Definition world (load : bytes -> option F) (module : bytes) (root : F) (p : bytes) : option F := if bytes_eqb p module then Some root else load p.

Lemma read_ext load load' fuel : forall stack p m, (forall q, ~ In q stack -> load q = load' q) -> read load importsOf fuel stack p m = read load' importsOf fuel stack p m.
Proof.
  induction fuel as [|fuel IH]; intros stack p m H; cbn [read]; [reflexivity|]. destruct (memb p stack) eqn:V; [reflexivity|]. apply memb_false in V.
  rewrite (H p V). destruct (load' p) as [f|]; cbn [lift bind]; [|reflexivity]. apply each_ext. intros d s. apply IH. intros q Q. apply H. intros X. apply Q. right. exact X.
Qed.
Lemma readv_ext load load' fuel : forall stack p m, (forall q, ~ In q stack -> load q = load' q) -> readVendored load importsOf fuel stack p m = readVendored load' importsOf fuel stack p m.
Proof.
  induction fuel as [|fuel IH]; intros stack p m H; cbn [readVendored]; [reflexivity|]. destruct (get p m); [reflexivity|]. destruct (memb p stack) eqn:V; [reflexivity|]. apply memb_false in V.
  rewrite (H p V). destruct (load' p) as [f|]; cbn [lift bind]; [|reflexivity]. apply each_ext. intros d s. apply IH. intros q Q. apply H. intros X. apply Q. right. exact X.
Qed.

Section One.
Variable load : bytes -> option F.
Notation E := (imp load).
Notation rd := (read load importsOf).
Notation rv := (readVendored load importsOf).
Definition faithful (m : list (bytes * F)) : Prop := NoDup (map fst m) /\ forall q f, get q m = Some f -> load q = Some f.
Lemma faithful_put p f m : faithful m -> load p = Some f -> faithful (put p f m).
Proof.
  intros [N H] L. split; [apply put_nodup; exact N|]. intros q g. rewrite get_put. destruct (bytes_eqb q p) eqn:X; [|apply H]. apply bytes_eqb_eq in X. subst. congruence.
Qed.

Lemma read_ok fuel : forall stack p m m', faithful m -> rd fuel stack p m = Ok m' ->
  faithful m' /\ (forall q, In q (map fst m') <-> In q (map fst m) \/ reach E p q) /\ (forall q, reach E p q -> exists f, load q = Some f) /\
  (forall k y, way E k p y -> (k < fuel)%nat) /\ (forall q, reach E p q -> ~ In q stack).
Proof.
  induction fuel as [|fuel IH]; intros stack p m m' FM H; [discriminate|]. cbn [read] in H.
  destruct (memb p stack) eqn:V; [discriminate|]. apply memb_false in V. destruct (load p) as [f|] eqn:L; [|discriminate]. cbn [lift bind] in H.
  pose (P := fun (u : list bytes) (s : list (bytes * F)) => faithful s /\ (forall q, In q (map fst s) <-> In q (map fst (put p f m)) \/ exists d, In d u /\ reach E d q) /\
     forall d, In d u -> (forall q, reach E d q -> exists f, load q = Some f) /\ (forall k y, way E k d y -> (k < fuel)%nat) /\ (forall q, reach E d q -> ~ In q (p :: stack))).
  assert (Q : P (importsOf f) m').
  { eapply (each_ok _ P); [| |exact H].
    - intros u d s s' ID (S1 & S2 & S3) X. destruct (IH _ _ _ _ S1 X) as (J1 & J2 & J3 & J4 & J5). split; [exact J1|]. split.
      + intros q. rewrite J2, S2. split.
        * intros [[Y|(e & Y & R)]|Y]; [auto|right; exists e; split; [apply in_app_iff; auto|exact R]|right; exists d; split; [apply in_app_iff; right; left; reflexivity|exact Y]].
        * intros [Y|(e & Y & R)]; [auto|]. apply in_app_iff in Y. destruct Y as [Y|[<-|[]]]; [left; right; eauto|auto].
      + intros e Y. apply in_app_iff in Y. destruct Y as [Y|[<-|[]]]; auto.
    - split; [apply faithful_put; auto|]. split; [intros q; split; [auto|intros [Y|(d & [] & _)]; exact Y]|intros d []]. }
  destruct Q as (S1 & S2 & S3).
  assert (ST : forall q, reach E p q <-> q = p \/ exists d, In d (importsOf f) /\ reach E d q).
  { intros q. split.
    - intros R. inversion R as [|? y ? (g & G & I) R']; subst; [auto|]. rewrite L in G. injection G as <-. right. eauto.
    - intros [->|(d & I & R)]; [apply re_here|]. eapply re_step; [exists f; eauto|exact R]. }
  split; [exact S1|]. split; [intros q; rewrite S2, put_dom, ST; tauto|]. split; [|split].
  - intros q R. apply ST in R. destruct R as [->|(d & I & R)]; [eauto|]. exact (proj1 (S3 d I) q R).
  - intros k y W. inversion W as [|k' ? z ? (g & G & I) W']; subst; [lia|]. rewrite L in G. injection G as <-. pose proof (proj1 (proj2 (S3 z I)) _ _ W'). lia.
  - intros q R. apply ST in R. destruct R as [->|(d & I & R)]; [exact V|]. intros X. apply (proj2 (proj2 (S3 d I)) q R). right. exact X.
Qed.
Lemma read_end U r fuel : forall stack p m, finite_from E r U -> reach E r p -> NoDup stack -> incl stack U ->
  (forall v, In v stack -> reach E r v /\ exists y, E v y /\ reach E y p) -> (length U < fuel + length stack)%nat ->
  (exists m', rd fuel stack p m = Ok m') \/ (rd fuel stack p m = Err /\ (cycle_from E r \/ exists q, reach E r q /\ load q = None)).
Proof.
  induction fuel as [|fuel IH]; intros stack p m FU R N I C L; cbn [read].
  - exfalso. pose proof (NoDup_incl_length N I). lia.
  - destruct (memb p stack) eqn:V.
    + right. split; [reflexivity|]. left. apply memb_iff in V. destruct (C p V) as (_ & y & Y & W). exists p, y. auto.
    + apply memb_false in V. destruct (load p) as [f|] eqn:LD; cbn [lift bind]; [|right; split; [reflexivity|right; eauto]].
      apply each_end. intros d s ID. assert (PD : E p d) by (exists f; auto). apply IH; auto.
      * eapply reach_snoc; eauto.
      * constructor; auto.
      * intros q [<-|Q]; auto.
      * intros v [<-|Q]; [split; [exact R|exists d; split; [exact PD|apply re_here]]|].
        destruct (C v Q) as (Y1 & y & Y2 & Y3). split; [exact Y1|]. exists y. split; [exact Y2|eapply reach_snoc; [exact Y3|exact PD]].
      * cbn [length]. lia.
Qed.

(** With the memory of what was read. *)
Definition closed_but (stack : list bytes) (m : list (bytes * F)) : Prop :=
  faithful m /\ forall q f, get q m = Some f -> In q stack \/ incl (importsOf f) (map fst m).
Lemma readv_ok fuel : forall stack p m m', closed_but stack m -> rv fuel stack p m = Ok m' ->
  closed_but stack m' /\ incl (map fst m) (map fst m') /\ In p (map fst m') /\ (forall q, In q (map fst m') -> In q (map fst m) \/ reach E p q /\ ~ In q stack).
Proof.
  induction fuel as [|fuel IH]; intros stack p m m' [FM CM] H; [discriminate|]. cbn [readVendored] in H.
  destruct (get p m) as [g|] eqn:G.
  - injection H as <-. split; [split; assumption|]. split; [intros q; auto|]. split; [apply get_dom; eauto|auto].
  - destruct (memb p stack) eqn:V; [discriminate|]. apply memb_false in V. destruct (load p) as [f|] eqn:L; [|discriminate]. cbn [lift bind] in H.
    pose (P := fun (u : list bytes) (s : list (bytes * F)) => closed_but (p :: stack) s /\ incl (map fst (put p f m)) (map fst s) /\ incl u (map fst s) /\
       forall q, In q (map fst s) -> In q (map fst (put p f m)) \/ (exists d, In d (importsOf f) /\ reach E d q) /\ ~ In q (p :: stack)).
    assert (Q : P (importsOf f) m').
    { eapply (each_ok _ P); [| |exact H].
      - intros u d s s' ID (S1 & S2 & S3 & S4) X. destruct (IH _ _ _ _ S1 X) as (J1 & J2 & J3 & J4). split; [exact J1|]. split; [intros q Y; auto|]. split.
        + intros q Y. apply in_app_iff in Y. destruct Y as [Y|[<-|[]]]; auto.
        + intros q Y. destruct (J4 q Y) as [W|[W W']]; [auto|right; eauto].
      - split; [|split; [intros q; auto|split; [intros q []|auto]]]. split; [apply faithful_put; auto|].
        intros q g Y. rewrite get_put in Y. destruct (bytes_eqb q p) eqn:X.
        + left. left. apply bytes_eqb_eq in X. auto.
        + destruct (CM q g Y) as [W|W]; [left; right; exact W|right; intros d D; apply put_dom; right; auto]. }
    destruct Q as ([S1 S1'] & S2 & S3 & S4). split; [split; [exact S1|]|split; [|split]].
    + intros q g Y. destruct (S1' q g Y) as [[->|W]|W]; [|auto..]. pose proof (proj2 S1 _ _ Y) as K. rewrite L in K. injection K as <-. right. exact S3.
    + intros q Y. apply S2, put_dom. auto.
    + apply S2, put_dom. auto.
    + intros q Y. destruct (S4 q Y) as [W|[(d & D & R) W]].
      * apply put_dom in W. destruct W as [->|W]; [right; split; [apply re_here|exact V]|auto].
      * right. split; [eapply re_step; [exists f; eauto|exact R]|intros K; apply W; right; exact K].
Qed.
Lemma readv_end U module fuel : forall stack p m, finite_from E module U -> (exists d, E module d /\ reach E d p) -> NoDup stack -> incl stack U ->
  incl stack (module :: map fst m) -> (length U < fuel + length stack)%nat ->
  (exists m', rv fuel stack p m = Ok m' /\ incl (map fst m) (map fst m')) \/
  (rv fuel stack p m = Err /\ ((exists d, E module d /\ reach E d module) \/ exists q, reach E module q /\ load q = None)).
Proof.
  induction fuel as [|fuel IH]; intros stack p m FU R N I C L; cbn [readVendored].
  - exfalso. pose proof (NoDup_incl_length N I). lia.
  - assert (RP : reach E module p) by (destruct R as (d & D & R); eapply re_step; eauto).
    destruct (get p m) as [g|] eqn:G; [left; exists m; split; [reflexivity|intros q; auto]|]. apply get_none in G.
    destruct (memb p stack) eqn:V.
    + right. split; [reflexivity|]. left. apply memb_iff in V. destruct (C p V) as [<-|W]; [exact R|contradiction].
    + apply memb_false in V. destruct (load p) as [f|] eqn:LD; cbn [lift bind]; [|right; split; [reflexivity|right; eauto]].
      destruct (each_end_inv (fun d m0 => rv fuel (p :: stack) d m0) (importsOf f) ((exists d, E module d /\ reach E d module) \/ exists q, reach E module q /\ load q = None)
                  (fun s => incl (map fst (put p f m)) (map fst s))) with (s := put p f m) as [(m' & Q & K)|[Q B]]; [| |rewrite Q|rewrite Q; auto].
      * intros d s ID K. destruct (IH (p :: stack) d s) as [(s' & Q & K')|Q]; auto.
        -- destruct R as (d0 & D & R). exists d0. split; [exact D|]. eapply reach_snoc; [exact R|exists f; auto].
        -- constructor; auto.
        -- intros q [<-|Q]; auto.
        -- intros q [<-|Q]; [right; apply K, put_dom; auto|]. destruct (C q Q) as [<-|W]; [left; reflexivity|right; apply K, put_dom; auto].
        -- cbn [length]. lia.
        -- left. exists s'. split; [exact Q|intros q Y; auto].
      * intros q; auto.
      * left. exists m'. split; [reflexivity|]. intros q Y. apply K, put_dom. auto.
Qed.
End One.

(** ** From the root *)
Section Root.
Variable load : bytes -> option F.
Variable module : bytes.
Variable root : F.
Notation W := (world load module root).
Notation E := (imp W).
Lemma world_root : W module = Some root.
Proof. unfold world. rewrite beq_refl. reflexivity. Qed.
Lemma world_other q : ~ In q [module] -> load q = W q.
Proof. intros H. unfold world. destruct (bytes_eqb q module) eqn:X; [|reflexivity]. apply bytes_eqb_eq in X. exfalso. apply H. left. auto. Qed.
Lemma reach_root q : reach E module q <-> q = module \/ exists d, In d (importsOf root) /\ reach E d q.
Proof.
  split.
  - intros R. inversion R as [|? y ? (g & G & I) R']; subst; [auto|]. rewrite world_root in G. injection G as <-. right. eauto.
  - intros [->|(d & I & R)]; [apply re_here|]. eapply re_step; [exists root; split; [apply world_root|exact I]|exact R].
Qed.
Lemma Read_eq fuel : Read load importsOf fuel module root = (m <- each (fun d m => read W importsOf fuel [module] d m) (importsOf root) [] ;; Ok (put module root m)).
Proof. unfold Read. rewrite (each_ext _ (fun d m => read W importsOf fuel [module] d m)); [reflexivity|]. intros d s. apply read_ext. apply world_other. Qed.
Lemma ReadV_eq fuel : ReadVendored load importsOf fuel module root = (m <- each (fun d m => readVendored W importsOf fuel [module] d m) (importsOf root) [] ;; Ok (put module root m)).
Proof. unfold ReadVendored. rewrite (each_ext _ (fun d m => readVendored W importsOf fuel [module] d m)); [reflexivity|]. intros d s. apply readv_ext. apply world_other. Qed.
Lemma faithful_nil : faithful W [].
Proof. split; [constructor|discriminate]. Qed.
Lemma result_is (m : list (bytes * F)) : faithful W m -> (forall q, In q (map fst m) <-> exists d, In d (importsOf root) /\ reach E d q) ->
  NoDup (map fst (put module root m)) /\ forall q f, get q (put module root m) = Some f <-> reach E module q /\ W q = Some f.
Proof.
  intros [N FM] D. split; [apply put_nodup; exact N|]. intros q f. rewrite get_put, reach_root. split.
  - destruct (bytes_eqb q module) eqn:X.
    + intros [= <-]. apply bytes_eqb_eq in X. subst. split; [auto|apply world_root].
    + intros G. split; [right; apply D, get_dom; eauto|auto].
  - intros [R WQ]. destruct (bytes_eqb q module) eqn:X; [apply bytes_eqb_eq in X; subst; rewrite world_root in WQ; exact WQ|].
    destruct R as [->|R]; [rewrite beq_refl in X; discriminate|]. apply D, get_dom in R. destruct R as [g G]. rewrite G. rewrite <- WQ. symmetry. auto.
Qed.
Theorem Read_ok fuel m : Read load importsOf fuel module root = Ok m ->
  NoDup (map fst m) /\ (forall q f, get q m = Some f <-> reach E module q /\ W q = Some f) /\ (forall q, reach E module q -> exists f, W q = Some f) /\ ~ cycle_from E module.
Proof.
  rewrite Read_eq. intros H. destruct (each _ _ []) as [m0| | |] eqn:EE; try discriminate. cbn [bind] in H. injection H as <-.
  pose (P := fun (u : list bytes) (s : list (bytes * F)) => faithful W s /\ (forall q, In q (map fst s) <-> exists d, In d u /\ reach E d q) /\
     forall d, In d u -> (forall q, reach E d q -> exists f, W q = Some f) /\ (forall k y, way E k d y -> (k < fuel)%nat)).
  assert (Q : P (importsOf root) m0).
  { eapply (each_ok _ P); [| |exact EE].
    - intros u d s s' ID (S1 & S2 & S3) X. destruct (read_ok W fuel _ _ _ _ S1 X) as (J1 & J2 & J3 & J4 & J5). split; [exact J1|]. split.
      + intros q. rewrite J2, S2. split.
        * intros [(e & Y & R)|Y]; [exists e; split; [apply in_app_iff; auto|exact R]|exists d; split; [apply in_app_iff; right; left; reflexivity|exact Y]].
        * intros (e & Y & R). apply in_app_iff in Y. destruct Y as [Y|[<-|[]]]; [left; eauto|auto].
      + intros e Y. apply in_app_iff in Y. destruct Y as [Y|[<-|[]]]; auto.
    - split; [apply faithful_nil|]. split; [intros q; split; [intros []|intros (d & [] & _)]|intros d []]. }
  destruct Q as (S1 & S2 & S3). destruct (result_is m0 S1 S2) as [N G]. split; [exact N|]. split; [exact G|]. split.
  - intros q R. apply reach_root in R. destruct R as [->|(d & I & R)]; [exists root; apply world_root|]. exact (proj1 (S3 d I) q R).
  - apply (no_cycle E module (S fuel)). intros k y WY. inversion WY as [|k' ? z ? (g & GG & I) W']; subst; [lia|]. rewrite world_root in GG. injection GG as <-.
    pose proof (proj2 (S3 z I) _ _ W'). lia.
Qed.
Theorem Read_end U fuel : finite_from E module U -> (length U <= fuel)%nat ->
  (exists m, Read load importsOf fuel module root = Ok m) \/
  (Read load importsOf fuel module root = Err /\ (cycle_from E module \/ exists q, reach E module q /\ W q = None)).
Proof.
  intros FU L. rewrite Read_eq. destruct (each_end (fun d m => read W importsOf fuel [module] d m) (importsOf root) (cycle_from E module \/ exists q, reach E module q /\ W q = None)) with (s := @nil (bytes * F)) as [[m Q]|[Q B]];
    [|rewrite Q; left; cbn [bind]; eauto|rewrite Q; right; auto].
  intros d s ID. assert (MD : E module d) by (exists root; split; [apply world_root|exact ID]). apply (read_end W U module fuel [module] d s FU).
  - apply reach_one. exact MD.
  - constructor; [intros []|constructor].
  - intros q [<-|[]]. apply FU, re_here.
  - intros v [<-|[]]. split; [apply re_here|]. exists d. split; [exact MD|apply re_here].
  - cbn [length]. lia.
Qed.
Theorem ReadV_ok fuel m : ReadVendored load importsOf fuel module root = Ok m ->
  NoDup (map fst m) /\ (forall q f, get q m = Some f <-> reach E module q /\ W q = Some f) /\ (forall q, reach E module q -> exists f, W q = Some f) /\
  ~ exists d, E module d /\ reach E d module.
Proof.
  rewrite ReadV_eq. intros H. destruct (each _ _ []) as [m0| | |] eqn:EE; try discriminate. cbn [bind] in H. injection H as <-.
  pose (P := fun (u : list bytes) (s : list (bytes * F)) => closed_but W [module] s /\ incl u (map fst s) /\
     forall q, In q (map fst s) -> (exists d, In d (importsOf root) /\ reach E d q) /\ q <> module).
  assert (Q : P (importsOf root) m0).
  { eapply (each_ok _ P); [| |exact EE].
    - intros u d s s' ID (S1 & S2 & S3) X. destruct (readv_ok W fuel _ _ _ _ S1 X) as (J1 & J2 & J3 & J4). split; [exact J1|]. split.
      + intros q Y. apply in_app_iff in Y. destruct Y as [Y|[<-|[]]]; auto.
      + intros q Y. destruct (J4 q Y) as [K|[K K']]; [auto|]. split; [eauto|]. intros ->. apply K'. left. reflexivity.
    - split; [split; [apply faithful_nil|discriminate]|]. split; [intros q []|intros q []]. }
  destruct Q as ((S0 & S1) & S2 & S3).
  assert (CL : forall x y, reach E x y -> In x (map fst m0) -> In y (map fst m0)).
  { induction 1 as [|x y z (f & L & I) R IH]; auto. intros X. apply IH. apply get_dom in X. destruct X as [g G]. pose proof (proj2 S0 _ _ G) as K. rewrite L in K. injection K as <-.
    destruct (S1 x f G) as [[<-|[]]|Y]; [|apply Y; exact I]. exfalso. apply (proj2 (S3 module (proj1 (get_dom _ _) (ex_intro _ f G)))). reflexivity. }
  assert (D : forall q, In q (map fst m0) <-> exists d, In d (importsOf root) /\ reach E d q).
  { intros q. split; [intros Y; apply S3; exact Y|]. intros (d & I & R). eapply CL; [exact R|apply S2; exact I]. }
  destruct (result_is m0 S0 D) as [N G]. split; [exact N|]. split; [exact G|]. split.
  - intros q R. apply reach_root in R. destruct R as [->|R]; [exists root; apply world_root|]. apply D, get_dom in R. destruct R as [f X]. exists f. exact (proj2 S0 _ _ X).
  - intros (d & (g & GG & I) & R). rewrite world_root in GG. injection GG as <-. assert (Y : In module (map fst m0)) by (apply D; eauto). exact (proj2 (S3 _ Y) eq_refl).
Qed.
Theorem ReadV_end U fuel : finite_from E module U -> (length U <= fuel)%nat ->
  (exists m, ReadVendored load importsOf fuel module root = Ok m) \/
  (ReadVendored load importsOf fuel module root = Err /\ ((exists d, E module d /\ reach E d module) \/ exists q, reach E module q /\ W q = None)).
Proof.
  intros FU L. rewrite ReadV_eq.
  destruct (each_end_inv (fun d m => readVendored W importsOf fuel [module] d m) (importsOf root) ((exists d, E module d /\ reach E d module) \/ exists q, reach E module q /\ W q = None) (fun _ => True))
    with (s := @nil (bytes * F)) as [(m & Q & _)|[Q B]]; [|exact I|rewrite Q; left; cbn [bind]; eauto|rewrite Q; right; auto].
  intros d s ID _. assert (MD : E module d) by (exists root; split; [apply world_root|exact ID]).
  destruct (readv_end W U module fuel [module] d s FU) as [(s' & Q & _)|Q]; auto.
  - exists d. split; [exact MD|apply re_here].
  - constructor; [intros []|constructor].
  - intros q [<-|[]]. apply FU, re_here.
  - intros q [<-|[]]. left. reflexivity.
  - cbn [length]. lia.
  - left. eauto.
Qed.
End Root.
End Read.
