(** C124, the client's side of a stream: what goes out, when and in which order; C125, what of it the handler gets. *)
From Coq Require Import ZArith List Bool Lia.
Import ListNotations.
From Verif.Model Require Import Base CliStream.
From Verif.Model Require SrvSession.
From Verif.Spec Require Import CliStream.
From Verif.Spec Require SrvSession.
From Verif.Proofs Require Import CliStream.
From Verif.Proofs Require SrvSession.
From Verif.Properties Require SrvSession.
Local Open Scope nat_scope.

(** * C124 *)
(** At all times, a Send that returned nil has sent its data, once; any other has sent nothing. *)
Theorem C124_sends : forall k m es s i d p, run k m init es = Some s -> nth_error (l_calls s) i = Some (mkC (OSend d) p) ->
  map snd (filter (fun e => fst e =? i) (l_wire s)) = match p with PDone true => [UData d false] | _ => [] end.
Proof.
  intros k m es s i d p R N. rewrite <- (send_mine s i d p (calls_run _ _ _ _ R) N). unfold mine. clear.
  induction (l_wire s) as [|[j x] q IH]; [reflexivity|]. cbn [filter flat_map fst snd]. destruct (j =? i); [cbn; f_equal; exact IH|exact IH].
Qed.

(** The data that goes out is that of Sends that returned nil, and no longer than allowed. *)
Theorem C124_only : forall k m es s i d f, run k m init es = Some s -> In (i, UData d f) (l_wire s) ->
  (f = false -> nth_error (l_calls s) i = Some (mkC (OSend d) (PDone true))) /\ (f = true -> d = []) /\ ((0 < m)%Z -> (Z.of_nat (length d) <= m)%Z).
Proof.
  intros k m es s i d f R I. pose proof (calls_run _ _ _ _ R) as V. split; [|split].
  - intros ->. destruct (wire_call s i _ V I) as ([o p] & N & M). rewrite N. destruct (mine_cases s i o p V N) as [K|K]; [rewrite K in M; destruct M|].
    destruct o as [d'| | |].
    + destruct K as (-> & K). rewrite K in M. destruct M as [M|[]]. congruence.
    + destruct K as (_ & K). rewrite K in M. destruct M as [M|[]]. discriminate.
    + rewrite K in M. destruct M as [M|[]]. discriminate.
    + destruct K as (_ & [K|[K|K]]); rewrite K in M; cbn in M; intuition discriminate.
  - intros ->. exact (fin_nil s i d V I).
  - intros HM. pose proof (fits_run _ _ _ _ R) as F. rewrite Forall_forall in F. specialize (F _ I). cbn in F.
    destruct (Z.ltb_spec 0 m); [|lia]. destruct (Z.ltb_spec m (Z.of_nat (length d))); [discriminate|lia].
Qed.

(** A Send that began after another one had returned goes out after it. *)
Theorem C124_order : forall k m es1 es2 s1 s2 i j d d', run k m init es1 = Some s1 -> run k m s1 es2 = Some s2 ->
  nth_error (l_calls s1) i = Some (mkC (OSend d) (PDone true)) -> length (l_calls s1) <= j -> nth_error (l_calls s2) j = Some (mkC (OSend d') (PDone true)) ->
  exists a b c, l_wire s2 = a ++ (i, UData d false) :: b ++ (j, UData d' false) :: c.
Proof.
  intros k m es1 es2 s1 s2 i j d d' R1 R2 N1 L N2. pose proof (calls_run _ _ _ _ R1) as V1.
  assert (R : run k m init (es1 ++ es2) = Some s2) by (rewrite run_app, R1; exact R2). pose proof (calls_run _ _ _ _ R) as V2.
  destruct (run_grows _ _ _ _ _ R2) as ((w & W) & _).
  assert (I1 : In (i, UData d false) (l_wire s1)) by (apply mine_in; rewrite (send_mine _ _ _ _ V1 N1); left; reflexivity).
  assert (I2 : In (j, UData d' false) (l_wire s2)) by (apply mine_in; rewrite (send_mine _ _ _ _ V2 N2); left; reflexivity).
  rewrite W in I2. apply in_app_or in I2. destruct I2 as [I2|I2].
  - exfalso. apply mine_in in I2. rewrite (proj2 V1 j L) in I2. destruct I2.
  - apply in_split in I1, I2. destruct I1 as (a & b & E1), I2 as (c & e & E2). exists a, (b ++ c), e. rewrite W, E1, E2, <- app_assoc. cbn. rewrite <- app_assoc. reflexivity.
Qed.

(** At most one EndStream and at most one Close go out, and a Close is never followed by an EndStream of a SendClient. *)
Theorem C124_once : forall k m es s a b c i j x y, run k m init es = Some s -> l_wire s = a ++ (i, x) :: b ++ (j, y) :: c ->
  (x = UData [] true -> y <> UData [] true) /\ (x = UClose -> y <> UClose) /\ (k = SendC -> x = UClose -> y <> UData [] true).
Proof.
  intros k m es s a b c i j x y R W. pose proof (calls_run _ _ _ _ R) as V. pose proof (closers_run _ _ _ _ R) as T.
  assert (Ix : In (i, x) (l_wire s)) by (rewrite W; apply in_or_app; right; left; reflexivity).
  assert (Iy : In (j, y) (l_wire s)) by (rewrite W; apply in_or_app; right; right; apply in_or_app; right; left; reflexivity).
  destruct (wire_call s i x V Ix) as ([o p] & N & Mx). destruct (wire_call s j y V Iy) as ([o' p'] & N' & My).
  assert (TW : i = j -> x = UData [] true /\ y = UClose).
  { intros <-. eapply (two_of_one s i o p); [exact V|exact N|]. unfold mine. rewrite W, flat_map_app. cbn [flat_map fst snd]. rewrite flat_map_app. cbn [flat_map fst snd].
    rewrite Nat.eqb_refl. reflexivity. }
  assert (U : forall q, q = OCloseSend \/ q = OClose -> past q s i -> past q s j -> i = j) by (intros q Q; exact (proj2 (once_run k m q es s Q R) i j)).
  split; [|split].
  - intros -> ->. destruct (fin_by k s i o p V T N Mx) as (P & D), (fin_by k s j o' p' V T N' My) as (P' & D').
    assert (o' = o) by (destruct D as [(-> & ->)|(-> & ->)], D' as [(-> & Q)|(-> & Q)]; congruence). subst o'.
    assert (E : i = j) by (apply (U o); [destruct D as [(-> & _)|(-> & _)]; auto|exact P|exact P']). destruct (TW E) as (_ & Q). discriminate.
  - intros -> ->. destruct (close_by s i o p V N Mx) as (-> & P), (close_by s j o' p' V N' My) as (-> & P').
    destruct (TW (U OClose (or_intror eq_refl) P P')) as (Q & _). discriminate.
  - intros K -> ->. destruct (close_by s i o p V N Mx) as (-> & P), (fin_by k s j o' p' V T N' My) as (P' & [(-> & Q)|(-> & Q)]); [congruence|].
    destruct (TW (U OClose (or_intror eq_refl) P P')) as (Q' & _). discriminate.
Qed.

(** A Send that begins after Close, or a BiDirClient's CloseSend, has returned sends nothing and does not return nil. *)
Theorem C124_after : forall k m es1 es2 s1 s2 i o r j d p, run k m init es1 = Some s1 -> run k m s1 es2 = Some s2 ->
  nth_error (l_calls s1) i = Some (mkC o (PDone r)) -> o = OClose \/ o = OCloseSend -> length (l_calls s1) <= j -> nth_error (l_calls s2) j = Some (mkC (OSend d) p) ->
  p <> PDone true /\ forall x, ~ In (j, x) (l_wire s2).
Proof.
  intros k m es1 es2 s1 s2 i o r j d p R1 R2 N O L N2. destruct (flagged_run _ _ _ _ R1 i o _ N) as (F1 & F2); [discriminate|].
  assert (S : shut k s1).
  { destruct O as [-> | ->]; [left; auto|]. destruct (F2 eq_refl) as [F|F]; [left; exact F|]. right. split; [|exact F]. exact (proj2 (closers_run _ _ _ _ R1 i _ _ N) eq_refl). }
  assert (R : run k m init (es1 ++ es2) = Some s2) by (rewrite run_app, R1; exact R2). pose proof (calls_run _ _ _ _ R) as V.
  destruct (late_run _ _ _ _ _ S R2 j d p L N2) as [-> | ->]; (split; [discriminate|]); intros x I; apply mine_in in I; rewrite (send_mine s2 j d _ V N2) in I; destruct I.
Qed.

(** * C125 *)
(** At all times, the handler was given the first values that the client sent, in their order, each once; without those that are too long
    for the server. *)
Theorem C125_prefix : forall k m es L limit a k' m' es' y, run k m init es = Some L -> k' <> SrvSession.Sync ->
  SrvSession.run k' m' (SrvSession.init k') es' = Some y -> fed limit L a y ->
  exists r, filter (fits limit) (sends L) = SrvSession.x_got y ++ r.
Proof.
  intros k m es L limit a k' m' es' y R K R' ((b & B) & A). destruct (SrvSession.C120_recv _ _ _ _ K R') as (l & Q & G).
  pose proof (calls_run _ _ _ _ R) as V.
  destruct (yields_payloads limit a) as (r & E).
  { intros d I. assert (X : In (UData d true) (map snd (l_wire L))) by (rewrite B; apply in_or_app; left; exact I).
    apply in_map_iff in X. destruct X as ([i x] & X & Y). cbn in X. subst x. exact (fin_nil L i d V Y). }
  rewrite sends_up, B, upsends_app, filter_app, E, <- A, Q, yields_app, <- G, <- !app_assoc. eexists. reflexivity.
Qed.

(** A loop over Recv that ended because of an EndStream, or because the client closed or cancelled the session, was given all that the
    client had sent before it called anything that ends the stream. *)
Theorem C125_all : forall k m es1 es2 L1 L limit a k' m' es' e y y' n o, run k m init es1 = Some L1 -> run k m L1 es2 = Some L ->
  Forall (fun c => ~ ends c) (l_calls L1) -> k' <> SrvSession.Sync -> SrvSession.run k' m' (SrvSession.init k') es' = Some y -> SrvSession.step k' m' y e = Some y' ->
  SrvSession.x_over y' = SrvSession.x_over y ++ [(n, o)] -> fed limit L a y' ->
  o = SrvSession.OEnd \/ (o = SrvSession.OClosed /\ exists x, In x a /\ closing x) ->
  exists late r, SrvSession.x_got y' = filter (fits limit) (sends L1) ++ late /\ filter (fits limit) (sends L) = SrvSession.x_got y' ++ r.
Proof.
  intros k m es1 es2 L1 L limit a k' m' es' e y y' n o R1 R2 F K R' St O FD HO.
  assert (R : run k m init (es1 ++ es2) = Some L) by (rewrite run_app, R1; exact R2).
  assert (RY : SrvSession.run k' m' (SrvSession.init k') (es' ++ [e]) = Some y').
  { rewrite Verif.Proofs.SrvSession.run_app, R'. cbn. rewrite St. reflexivity. }
  destruct (C125_prefix _ _ _ _ _ _ _ _ _ _ R K RY FD) as (r & PR). destruct FD as ((b & B) & A).
  pose proof (quiet_run _ _ _ _ R1 F) as Q. destruct (run_grows _ _ _ _ _ R2) as ((w & W) & _).
  assert (QD : forall x, In x (map snd (l_wire L1)) -> exists d, x = UData d false).
  { intros x I. apply in_map_iff in I. destruct I as ([i z] & <- & I). exact (Q i z I). }
  assert (E0 : a ++ b = map snd (l_wire L1) ++ map snd w) by (rewrite <- B, W, map_app; reflexivity).
  destruct (yields_data limit _ QD) as (Y1 & Y2). rewrite <- sends_up in Y1.
  pose proof (SrvSession.C120_loop_end _ _ _ _ _ _ _ _ K R' St O) as X.
  destruct HO as [-> |(-> & x & Ix & Cx)].
  - destruct X as (l & p & r' & X1 & X2 & X3). rewrite A in X1.
    assert (Ip : In (UData (SrvSession.p_data p) (SrvSession.p_end p)) a) by (apply (payloads_end limit); rewrite X1; apply in_or_app; right; left; reflexivity).
    destruct (past_prefix a b _ _ _ E0 Ip) as (a2 & ->).
    { intros I. destruct (QD _ I) as (d & Z). rewrite X2 in Z. discriminate. }
    rewrite payloads_data in X1 by exact QD. destruct (before_end _ _ _ _ _ X1 Y2 X2) as (l2 & ->).
    rewrite <- app_assoc, yields_app, Y1 in X3. eexists. exists r. split; [exact X3|exact PR].
  - destruct X as (_ & X). destruct (past_prefix a b _ _ _ E0 Ix) as (a2 & ->).
    { intros I. destruct (QD _ I) as (d & ->). destruct Cx; discriminate. }
    rewrite A, payloads_data, yields_app, Y1 in X by exact QD. eexists. exists r. split; [exact X|exact PR].
Qed.

(** Two values and CloseSend, Close, one more Send: this fails, the rest is on the wire in the order of the calls; the handler gets both
    values and its loop ends. *)
Definition client_demo : list event :=
  [ECall (OSend [1%Z; 2%Z]); EGo 0 false true; EGo 0 false true; EGo 0 false true; ECall (OSend [3%Z]); EGo 1 false true; EGo 1 false true; EGo 1 false true].
Definition client_rest : list event :=
  [ECall OCloseSend; EGo 2 false true; EGo 2 false true; ECall (OSend [4%Z]); EGo 3 false true; ECall OClose; EGo 4 false true; EGo 4 false true; EGo 4 false true].
Definition server_demo : list SrvSession.event :=
  [SrvSession.EArrive (SrvSession.mkP 0 [1%Z; 2%Z] false); SrvSession.EArrive (SrvSession.mkP 0 [3%Z] false); SrvSession.EArrive (SrvSession.mkP 0 [] true);
   SrvSession.ERange; SrvSession.EStep None; SrvSession.ENext true; SrvSession.EStep None; SrvSession.ENext true].
Example C124_case : exists L1 L, run BiC 8 init client_demo = Some L1 /\ run BiC 8 L1 client_rest = Some L /\
  Forall (fun c => ~ ends c) (l_calls L1) /\ map c_pc (l_calls L) = [PDone true; PDone true; PDone true; PDone false; PDone true] /\
  l_wire L = [(0, UData [1%Z; 2%Z] false); (1, UData [3%Z] false); (2, UData [] true); (4, UClose)].
Proof.
  destruct (run BiC 8 init client_demo) as [L1|] eqn:R1; [|vm_compute in R1; discriminate]. vm_compute in R1. injection R1 as <-.
  eexists. eexists. split; [reflexivity|]. split; [vm_compute; reflexivity|]. split; [|split; reflexivity].
  cbn. repeat apply Forall_cons; try apply Forall_nil; intros X; exact X.
Qed.
Example C125_case : exists L1 L y y' a, run BiC 8 init client_demo = Some L1 /\ run BiC 8 L1 client_rest = Some L /\ Forall (fun c => ~ ends c) (l_calls L1) /\
  SrvSession.run SrvSession.BiDir 0 (SrvSession.init SrvSession.BiDir) server_demo = Some y /\ SrvSession.step SrvSession.BiDir 0 y (SrvSession.EStep None) = Some y' /\
  SrvSession.x_over y' = SrvSession.x_over y ++ [(3, SrvSession.OEnd)] /\ fed 0 L a y' /\ SrvSession.x_got y' = [[1%Z; 2%Z]; [3%Z]].
Proof.
  destruct C124_case as (L1 & L & R1 & R2 & F & _ & W). exists L1, L. eexists. eexists. exists [UData [1%Z; 2%Z] false; UData [3%Z] false; UData [] true].
  split; [exact R1|]. split; [exact R2|]. split; [exact F|]. split; [vm_compute; reflexivity|]. split; [vm_compute; reflexivity|]. split; [reflexivity|].
  split; [|reflexivity]. split; [|reflexivity]. rewrite W. exists [UClose]. reflexivity.
Qed.

(** A Send that another goroutine's CloseSend overtakes returns nil; its value comes after the EndStream, and the loop of the handler, which
    got everything the client ever sent, ends without it. *)
Definition overtaken : list event :=
  [ECall (OSend [1%Z]); EGo 0 false true; EGo 0 false true; ECall OCloseSend; EGo 1 false true; EGo 1 false true; EGo 0 false true].
Theorem C125_overtaken_refuted : ~ (forall k m es L a k' m' es' e y y' n, run k m init es = Some L -> k' <> SrvSession.Sync ->
  SrvSession.run k' m' (SrvSession.init k') es' = Some y -> SrvSession.step k' m' y e = Some y' ->
  SrvSession.x_over y' = SrvSession.x_over y ++ [(n, SrvSession.OEnd)] -> fed 0 L a y' -> map snd (l_wire L) = a -> SrvSession.x_got y' = sends L).
Proof.
  intros H. specialize (H BiC 0%Z overtaken). destruct (run BiC 0 init overtaken) as [L|] eqn:R; [|vm_compute in R; discriminate].
  specialize (H L [UData [] true; UData [1%Z] false] SrvSession.BiDir 0%Z
    [SrvSession.EArrive (SrvSession.mkP 0 [] true); SrvSession.EArrive (SrvSession.mkP 0 [1%Z] false); SrvSession.ERange] (SrvSession.EStep None)).
  vm_compute in R. injection R as <-. eassert (X := H _ _ _ eq_refl ltac:(discriminate) eq_refl eq_refl eq_refl).
  specialize (X (conj (ex_intro _ [] eq_refl) eq_refl) eq_refl). vm_compute in X. discriminate.
Qed.
(** A value that is too long for the server is dropped without an error to anybody, and those after it arrive. *)
Theorem C125_dropped_refuted : ~ (forall k m es L limit a k' m' es' y, run k m init es = Some L -> k' <> SrvSession.Sync ->
  SrvSession.run k' m' (SrvSession.init k') es' = Some y -> fed limit L a y -> exists r, sends L = SrvSession.x_got y ++ r).
Proof.
  intros H. specialize (H BiC 8%Z client_demo). destruct (run BiC 8 init client_demo) as [L|] eqn:R; [|vm_compute in R; discriminate].
  specialize (H L 1%Z [UData [1%Z; 2%Z] false; UData [3%Z] false] SrvSession.BiDir 0%Z
    [SrvSession.EArrive (SrvSession.mkP 0 [3%Z] false); SrvSession.ERange; SrvSession.EStep None]).
  vm_compute in R. injection R as <-. eassert (X := H _ eq_refl ltac:(discriminate) eq_refl).
  destruct (X (conj (ex_intro _ [] eq_refl) eq_refl)) as (r & E). vm_compute in E. discriminate.
Qed.
Print Assumptions C124_sends.
Print Assumptions C124_only.
Print Assumptions C124_order.
Print Assumptions C124_once.
Print Assumptions C124_after.
Print Assumptions C125_prefix.
Print Assumptions C125_all.
Print Assumptions C125_overtaken_refuted.
Print Assumptions C125_dropped_refuted.
