(** Proofs about the client's side of a stream. *)
From Coq Require Import ZArith List Bool Lia.
Import ListNotations.
From Verif.Model Require Import Base CliStream.
From Verif.Model Require SrvSession.
From Verif.Spec Require Import CliStream.
From Verif.Spec Require SrvSession.
Local Open Scope nat_scope.

Section P.
Context (k : ckind) (m : Z).
Notation step := (step k m). Notation run := (run k m).

Lemma run_app : forall a b s, run s (a ++ b) = match run s a with Some s' => run s' b | None => None end.
Proof. induction a as [|e a IH]; intros b s; cbn [app CliStream.run]; [reflexivity|]. destruct (step s e); [apply IH|reflexivity]. Qed.
Lemma run_inv : forall (P : st -> Prop) s0, P s0 -> (forall e s s', P s -> step s e = Some s' -> P s') -> forall es s, run s0 es = Some s -> P s.
Proof.
  intros P s0 H0 HS es. revert s0 H0. induction es as [|e q IH]; intros s0 H0 s R; cbn [CliStream.run] in R; [injection R as <-; exact H0|].
  destruct (step s0 e) as [s1|] eqn:E; [|discriminate]. exact (IH s1 (HS _ _ _ H0 E) s R).
Qed.

(** A step of a call changes that call, and sends at most one message for it. *)
Lemma put_nth : forall (l : list call) i c j, i < length l -> nth_error (firstn i l ++ c :: skipn (S i) l) j = if j =? i then Some c else nth_error l j.
Proof.
  intros l i c j L. destruct (Nat.eqb_spec j i) as [->|N].
  - rewrite nth_error_app2 by (rewrite firstn_length; lia). rewrite firstn_length. replace (i - Nat.min i (length l)) with 0 by lia. reflexivity.
  - destruct (Nat.lt_ge_cases j i) as [H|H].
    + rewrite nth_error_app1 by (rewrite firstn_length; lia). rewrite <- (firstn_skipn i l) at 2. rewrite nth_error_app1 by (rewrite firstn_length; lia). reflexivity.
    + rewrite nth_error_app2 by (rewrite firstn_length; lia). rewrite firstn_length. replace (Nat.min i (length l)) with i by lia.
      replace (j - i) with (S (j - i - 1)) by lia. cbn [nth_error]. rewrite <- (firstn_skipn (S i) l) at 2. rewrite nth_error_app2 by (rewrite firstn_length; lia).
      rewrite firstn_length. replace (Nat.min (S i) (length l)) with (S i) by lia. f_equal. lia.
Qed.
Lemma put_len : forall (l : list call) i c, i < length l -> length (firstn i l ++ c :: skipn (S i) l) = length l.
Proof. intros l i c L. rewrite app_length, firstn_length. cbn [length]. rewrite skipn_length. lia. Qed.

(** The two kinds of steps. *)
Inductive move (s : st) : st -> Prop :=
| m_call o : has k o = true -> move s (mkL (l_closed s) (l_sendDone s) (l_cancel s) (l_conn s) (l_calls s ++ [mkC o PCheck]) (l_wire s))
| m_flags c d : move s (flags s (l_closed s) (l_sendDone s) c d)
| m_go i c p s' w : nth_error (l_calls s) i = Some c -> l_calls s' = firstn i (l_calls s) ++ mkC (c_op c) p :: skipn (S i) (l_calls s) ->
    l_wire s' = l_wire s ++ w -> (l_closed s = true -> l_closed s' = true) -> (l_sendDone s = true -> l_sendDone s' = true) ->
    (match c_pc c, c_op c with
     | PCheck, OSend _ => w = [] /\ (p = PDone false \/ p = PSelect /\ l_closed s = false /\ (k = BiC -> l_sendDone s = false))
     | PCheck, OCloseSend => w = [] /\ (p = PDone true /\ (l_closed s = true \/ l_sendDone s = true) \/ p = PWrite (UData [] true) /\ l_sendDone s = false /\ l_sendDone s' = true)
     | PCheck, OCancel => w = [] /\ (p = PDone true \/ p = PWrite UCancel)
     | PCheck, OClose => w = [] /\ (p = PDone true /\ l_closed s = true \/ p = match k with SendC => PEnd | _ => PShut end /\ l_closed s = false /\ l_closed s' = true)
     | PSelect, OSend d => w = [] /\ (p = PDone false \/ p = PWrite (UData d false))
     | PSelect, _ => False
     | PWrite x, _ => (p = PDone true /\ w = [(i, x)] /\ too_long m x = false) \/ (p = PDone false /\ w = [])
     | PEnd, _ => p = PShut /\ (w = [] \/ w = [(i, UData [] true)])
     | PShut, _ => w = [] /\ p = PWrite UClose
     | PDone _, _ => False
     end) -> move s s'.
Lemma step_move : forall s e s', step s e = Some s' -> move s s'.
Proof.
  intros s e s' H. destruct e as [o|i ctx ok| |]; cbn [CliStream.step] in H.
  - destruct (has k o) eqn:E; [|discriminate]. injection H as <-. apply m_call. exact E.
  - destruct (nth_error (l_calls s) i) as [[o p]|] eqn:N; [|discriminate]. unfold go in H. cbn [c_pc c_op] in H. cbv zeta in H.
    destruct p as [| |x| | |r].
    + destruct o; (match type of H with context [if ?b then _ else _] => destruct b eqn:B end); injection H as <-;
        (eapply (m_go s i _ _ _ []); [exact N|reflexivity|symmetry; apply app_nil_r|cbn; auto|cbn; auto|cbn; split; [reflexivity|]]);
        try apply orb_false_iff in B; try apply orb_true_iff in B; try (left; reflexivity); try (left; split; [reflexivity|exact B]); right; repeat split; try tauto.
      intros KB. destruct B as (_ & B). rewrite KB in B. exact B.
    + destruct o; try discriminate. destruct (ctx || l_conn s || l_cancel s); injection H as <-;
        (eapply (m_go s i _ _ _ []); [exact N|reflexivity|symmetry; apply app_nil_r|auto|auto|cbn; split; [reflexivity|]]); [left|right]; reflexivity.
    + unfold sendMsg in H. destruct (too_long m x) eqn:TL; [|destruct (l_conn s); [|destruct ok]]; injection H as <-.
      * eapply (m_go s i _ _ _ []); [exact N|reflexivity|symmetry; apply app_nil_r|auto|auto|]. right. split; reflexivity.
      * eapply (m_go s i _ _ _ []); [exact N|reflexivity|symmetry; apply app_nil_r|auto|auto|]. right. split; reflexivity.
      * eapply (m_go s i _ _ _ [(i, x)]); [exact N|reflexivity|reflexivity|auto|auto|]. left. split; [reflexivity|]. split; [reflexivity|exact TL].
      * eapply (m_go s i _ _ _ []); [exact N|reflexivity|symmetry; apply app_nil_r|auto|auto|]. right. split; reflexivity.
    + unfold sendMsg in H. destruct (too_long m (UData [] true)); [|destruct (l_conn s); [|destruct ok]]; injection H as <-.
      * eapply (m_go s i _ _ _ []); [exact N|reflexivity|symmetry; apply app_nil_r|auto|auto|]. split; [reflexivity|left; reflexivity].
      * eapply (m_go s i _ _ _ []); [exact N|reflexivity|symmetry; apply app_nil_r|auto|auto|]. split; [reflexivity|left; reflexivity].
      * eapply (m_go s i _ _ _ [(i, UData [] true)]); [exact N|reflexivity|reflexivity|auto|auto|]. split; [reflexivity|right; reflexivity].
      * eapply (m_go s i _ _ _ []); [exact N|reflexivity|symmetry; apply app_nil_r|auto|auto|]. split; [reflexivity|left; reflexivity].
    + injection H as <-. eapply (m_go s i _ _ _ []); [exact N|reflexivity|symmetry; apply app_nil_r|auto|auto|]. split; reflexivity.
    + discriminate.
  - injection H as <-. apply m_flags.
  - injection H as <-. apply m_flags.
Qed.

(** What a call has sent, in terms of where it is. *)
Definition mine (i : nat) (s : st) : list umsg := flat_map (fun e => if fst e =? i then [snd e] else []) (l_wire s).
Definition call_ok (c : call) (w : list umsg) : Prop :=
  match c_op c, c_pc c with
  | OSend d, PCheck | OSend d, PSelect => w = []
  | OSend d, PWrite x => w = [] /\ x = UData d false
  | OSend d, PDone r => w = if r then [UData d false] else []
  | OCloseSend, PCheck => w = []
  | OCloseSend, PWrite x => w = [] /\ x = UData [] true
  | OCloseSend, PDone _ => w = [] \/ w = [UData [] true]
  | OCancel, PCheck => w = []
  | OCancel, PWrite x => w = [] /\ x = UCancel
  | OCancel, PDone _ => w = [] \/ w = [UCancel]
  | OClose, PCheck | OClose, PEnd => w = []
  | OClose, PShut => w = [] \/ w = [UData [] true]
  | OClose, PWrite x => (w = [] \/ w = [UData [] true]) /\ x = UClose
  | OClose, PDone _ => w = [] \/ w = [UData [] true] \/ w = [UClose] \/ w = [UData [] true; UClose]
  | _, _ => False
  end.
Definition calls_ok (s : st) : Prop :=
  (forall i c, nth_error (l_calls s) i = Some c -> call_ok c (mine i s)) /\ (forall i, length (l_calls s) <= i -> mine i s = []).
Lemma mine_app : forall i s s' w, l_wire s' = l_wire s ++ w -> mine i s' = mine i s ++ flat_map (fun e => if fst e =? i then [snd e] else []) w.
Proof. intros i s s' w H. unfold mine. rewrite H. apply flat_map_app. Qed.
Lemma calls_step : forall s e s', calls_ok s -> step s e = Some s' -> calls_ok s'.
Proof.
  intros s e s' (A & B) H. apply step_move in H. destruct H as [o HO|c d|i c p s' w N C W F1 F2 M].
  - split; cbn [l_calls].
    + intros i c X. change (mine i _) with (mine i s). destruct (Nat.lt_ge_cases i (length (l_calls s))) as [L|L].
      * rewrite nth_error_app1 in X by exact L. exact (A i c X).
      * rewrite nth_error_app2 in X by exact L. rewrite B by exact L. destruct (i - length (l_calls s)) as [|n]; [|destruct n; discriminate].
        injection X as <-. destruct o; reflexivity.
    + intros i L. rewrite app_length in L. cbn in L. apply B. lia.
  - split; [exact A|exact B].
  - assert (L : i < length (l_calls s)) by (apply nth_error_Some; congruence). pose proof (A i c N) as K.
    assert (WI : forall j, j <> i -> flat_map (fun e0 : nat * umsg => if fst e0 =? j then [snd e0] else []) w = []).
    { intros j NJ. destruct w as [|[a x] w]; [reflexivity|]. assert (X : w = [] /\ a = i).
      { destruct c as [[] []]; cbn in M; clear F1 F2; intuition congruence. }
      destruct X as (-> & ->). cbn. destruct (Nat.eqb_spec i j); [congruence|reflexivity]. }
    split.
    + intros j c' X. rewrite C in X. rewrite put_nth in X by exact L. rewrite (mine_app j s s' w W). destruct (Nat.eqb_spec j i) as [->|NJ].
      * injection X as <-. clear A B C W WI F1 F2. unfold call_ok in K |- *. cbn [c_op c_pc] in *.
        destruct c as [[] []]; cbn in *; try contradiction; repeat match goal with
          | H : _ /\ _ |- _ => destruct H
          | H : _ \/ _ |- _ => destruct H
          end; subst; cbn; rewrite ?Nat.eqb_refl; cbn; rewrite ?app_nil_r;
          try match goal with H : mine i s = _ |- _ => rewrite H end; cbn; auto; try congruence; destruct k; auto.
      * rewrite WI by exact NJ. rewrite app_nil_r. exact (A j c' X).
    + intros j LJ. rewrite C, put_len in LJ by exact L. rewrite (mine_app j s s' w W), WI, app_nil_r by lia. exact (B j LJ).
Qed.
Lemma calls_run : forall es s, run init es = Some s -> calls_ok s.
Proof.
  intros es s. apply run_inv; [|intros e x y; apply calls_step]. split; [|reflexivity]. intros [|i] c X; discriminate.
Qed.

(** The wire grows, and the calls there are keep their operations. *)
Definition grows (s s' : st) : Prop :=
  (exists w, l_wire s' = l_wire s ++ w) /\ length (l_calls s) <= length (l_calls s') /\ (l_closed s = true -> l_closed s' = true) /\ (l_sendDone s = true -> l_sendDone s' = true) /\
  (forall i c, nth_error (l_calls s) i = Some c -> exists p, nth_error (l_calls s') i = Some (mkC (c_op c) p)).
Lemma grows_refl : forall s, grows s s.
Proof.
  intros s. split; [exists []; rewrite app_nil_r; reflexivity|]. split; [lia|]. split; [auto|]. split; [auto|]. intros i [o p] X. exists p. exact X.
Qed.
Lemma grows_trans : forall a b c, grows a b -> grows b c -> grows a c.
Proof.
  intros a b c ((w & A1) & A2 & A3 & A4 & A5) ((v & B1) & B2 & B3 & B4 & B5). split; [exists (w ++ v); rewrite B1, A1, app_assoc; reflexivity|].
  split; [lia|]. split; [auto|]. split; [auto|]. intros i x X. destruct (A5 i x X) as (p & Y). exact (B5 i _ Y).
Qed.
Lemma step_grows : forall s e s', step s e = Some s' -> grows s s'.
Proof.
  intros s e s' H. apply step_move in H. destruct H as [o HO|c d|i c p s' w N C W F1 F2 M].
  - split; [exists []; rewrite app_nil_r; reflexivity|]. split; [cbn; rewrite app_length; lia|]. split; [auto|]. split; [auto|]. intros i [o' p] X. exists p. cbn. rewrite nth_error_app1; [exact X|].
    apply nth_error_Some. congruence.
  - exact (grows_refl s).
  - assert (L : i < length (l_calls s)) by (apply nth_error_Some; congruence).
    split; [exists w; exact W|]. split; [rewrite C, put_len by exact L; lia|]. split; [exact F1|]. split; [exact F2|]. intros j [o q] X. rewrite C, put_nth by exact L.
    destruct (Nat.eqb_spec j i) as [->|NJ]; [|exists q; exact X]. exists p. assert (c = mkC o q) by congruence. subst c. reflexivity.
Qed.
Lemma run_grows : forall es s s', run s es = Some s' -> grows s s'.
Proof.
  intros es. induction es as [|e q IH]; intros s s' H; cbn [CliStream.run] in H; [injection H as <-; apply grows_refl|].
  destruct (step s e) as [s1|] eqn:St; [|discriminate]. eapply grows_trans; [exact (step_grows _ _ _ St)|exact (IH _ _ H)].
Qed.

Lemma mine_in : forall i s x, In x (mine i s) <-> In (i, x) (l_wire s).
Proof.
  intros i s x. unfold mine. rewrite in_flat_map. split.
  - intros ([j y] & I & X). cbn in X. destruct (Nat.eqb_spec j i) as [->|]; [|destruct X]. destruct X as [<-|[]]. exact I.
  - intros I. exists (i, x). split; [exact I|]. cbn. rewrite Nat.eqb_refl. left. reflexivity.
Qed.
Lemma wire_call : forall s i x, calls_ok s -> In (i, x) (l_wire s) -> exists c, nth_error (l_calls s) i = Some c /\ In x (mine i s).
Proof.
  intros s i x (A & B) I. apply mine_in in I. destruct (nth_error (l_calls s) i) as [c|] eqn:N; [exists c; auto|].
  apply nth_error_None in N. rewrite (B i N) in I. destruct I.
Qed.
Lemma send_mine : forall s i d p, calls_ok s -> nth_error (l_calls s) i = Some (mkC (OSend d) p) -> mine i s = match p with PDone true => [UData d false] | _ => [] end.
Proof.
  intros s i d p (A & _) N. specialize (A i _ N). cbn in A. destruct p as [| |x| | |[]]; try exact A; try contradiction. exact (proj1 A).
Qed.

(** After CloseSend or Close. *)
Definition late (s0 s : st) : Prop :=
  forall i d p, length (l_calls s0) <= i -> nth_error (l_calls s) i = Some (mkC (OSend d) p) -> p = PCheck \/ p = PDone false.
Definition shut (s : st) : Prop := l_closed s = true \/ k = BiC /\ l_sendDone s = true.
Lemma late_step : forall s0 s e s', shut s -> late s0 s -> step s e = Some s' -> shut s' /\ late s0 s'.
Proof.
  intros s0 s e s' D T H. pose proof (step_grows _ _ _ H) as (_ & _ & G1 & G2 & _). split; [destruct D as [D|(D1 & D2)]; [left|right]; auto|].
  apply step_move in H. destruct H as [o HO|c d|i c p s' w N C W F1 F2 M]; intros j d' q LJ X.
  - cbn in X. destruct (Nat.lt_ge_cases j (length (l_calls s))) as [L|L].
    + rewrite nth_error_app1 in X by exact L. exact (T j d' q LJ X).
    + rewrite nth_error_app2 in X by exact L. destruct (j - length (l_calls s)) as [|n]; [|destruct n; discriminate]. injection X as _ <-. left. reflexivity.
  - exact (T j d' q LJ X).
  - assert (L : i < length (l_calls s)) by (apply nth_error_Some; congruence). rewrite C, put_nth in X by exact L.
    destruct (Nat.eqb_spec j i) as [->|NJ]; [|exact (T j d' q LJ X)]. destruct c as [o p0]. cbn [c_op] in X. injection X as -> ->. cbn [c_op c_pc] in M.
    destruct (T i d' p0 LJ N) as [-> | ->]; [|contradiction]. destruct M as (_ & [->|(-> & M1 & M2)]); [right; reflexivity|]. exfalso.
    destruct D as [D|(D1 & D2)]; [congruence|]. rewrite (M2 D1) in D2. discriminate.
Qed.
Lemma late_run : forall es s s', shut s -> run s es = Some s' -> late s s'.
Proof.
  intros es s s' D H. assert (X : shut s' /\ late s s'); [|exact (proj2 X)]. revert H. apply (run_inv (fun x => shut x /\ late s x)).
  - split; [exact D|]. intros i d p L X. apply nth_error_None in L. congruence.
  - intros e x y (P & Q). apply late_step; assumption.
Qed.

(** The calls that have got past the check of CloseSend, and of Close. *)
Definition past (o : op) (s : st) (i : nat) : Prop :=
  exists p, nth_error (l_calls s) i = Some (mkC o p) /\ p <> PCheck /\ (mine i s <> [] \/ forall r, p <> PDone r).
Definition flag (o : op) (s : st) : bool := match o with OCloseSend => l_sendDone s | _ => l_closed s end.
Definition once (o : op) (s : st) : Prop := (forall i, past o s i -> flag o s = true) /\ (forall i j, past o s i -> past o s j -> i = j).
Lemma once_step : forall o s e s', o = OCloseSend \/ o = OClose -> calls_ok s -> once o s -> step s e = Some s' -> once o s'.
Proof.
  intros o s e s' HO V (A & B) H. pose proof (calls_step _ _ _ V H) as V'. pose proof (step_grows _ _ _ H) as (_ & _ & G1 & G2 & _). apply step_move in H.
  assert (FG : flag o s = true -> flag o s' = true) by (destruct HO as [-> | ->]; cbn; assumption).
  destruct H as [o' HO'|c d|i c p s' w N C W F1 F2 M].
  - assert (K : forall i, past o (mkL (l_closed s) (l_sendDone s) (l_cancel s) (l_conn s) (l_calls s ++ [mkC o' PCheck]) (l_wire s)) i -> past o s i).
    { intros i (p & N & P & Q). cbn in N. destruct (Nat.lt_ge_cases i (length (l_calls s))) as [L|L].
      - rewrite nth_error_app1 in N by exact L. exists p. auto.
      - rewrite nth_error_app2 in N by exact L. destruct (i - length (l_calls s)) as [|n]; [|destruct n; discriminate]. injection N as _ <-. congruence. }
    split; [intros i P; exact (FG (A i (K i P)))|intros i j P Q; exact (B i j (K i P) (K j Q))].
  - split; [intros i P; exact (FG (A i P))|exact B].
  - assert (L : i < length (l_calls s)) by (apply nth_error_Some; congruence).
    assert (WI : forall j, j <> i -> mine j s' = mine j s).
    { intros j NJ. rewrite (mine_app j s s' w W). destruct w as [|[a x] w]; [apply app_nil_r|]. assert (X : w = [] /\ a = i).
      { destruct c as [[] []]; cbn in M; clear F1 F2 FG; intuition congruence. }
      destruct X as (-> & ->). cbn. destruct (Nat.eqb_spec i j); [congruence|apply app_nil_r]. }
    assert (K : forall j, past o s' j -> past o s j \/ (j = i /\ flag o s = false /\ flag o s' = true)).
    { intros j (q & X & Y & Z). rewrite C, put_nth in X by exact L. destruct (Nat.eqb_spec j i) as [->|NJ].
      - destruct c as [o' p0]. cbn [c_op c_pc] in *. injection X as -> ->. destruct p0 as [| |x| | |r].
        + right. split; [reflexivity|]. destruct HO as [-> | ->]; cbn in M |- *; destruct M as (-> & [(-> & M)|(-> & M1 & M2)]); try (split; assumption);
            exfalso; (destruct Z as [Z|Z]; [|exact (Z true eq_refl)]); apply Z; rewrite (mine_app i s s' [] W); cbn; rewrite app_nil_r;
            exact (proj1 V i _ N).
        + destruct HO as [-> | ->]; cbn in M; contradiction.
        + left. exists (PWrite x). split; [exact N|]. split; [discriminate|right; discriminate].
        + left. exists PEnd. split; [exact N|]. split; [discriminate|right; discriminate].
        + left. exists PShut. split; [exact N|]. split; [discriminate|right; discriminate].
        + destruct HO as [-> | ->]; cbn in M; contradiction.
      - rewrite (WI j NJ) in Z. left. exists q. auto. }
    split.
    + intros j P. destruct (K j P) as [Q|(_ & _ & Q)]; [exact (FG (A j Q))|exact Q].
    + intros x y P Q. destruct (K x P) as [P'|(-> & P1 & P2)], (K y Q) as [Q'|(-> & Q1 & Q2)]; [exact (B x y P' Q')| | |reflexivity].
      * rewrite (A x P') in Q1. discriminate.
      * rewrite (A y Q') in P1. discriminate.
Qed.
Lemma once_run : forall o es s, o = OCloseSend \/ o = OClose -> run init es = Some s -> once o s.
Proof.
  intros o es s HO R. assert (X : calls_ok s /\ once o s); [|exact (proj2 X)]. revert R. apply (run_inv (fun x => calls_ok x /\ once o x)).
  - split; [exact (calls_run [] init eq_refl)|]. split; [intros i (p & X & _)|intros i j (p & X & _)]; destruct i; discriminate.
  - intros e x y (P & Q) St. split; [exact (calls_step _ _ _ P St)|exact (once_step _ _ _ _ HO P Q St)].
Qed.

(** A call that has got past its check leaves the flag set. *)
Definition flagged (s : st) : Prop :=
  forall i o p, nth_error (l_calls s) i = Some (mkC o p) -> p <> PCheck ->
    (o = OClose -> l_closed s = true) /\ (o = OCloseSend -> l_closed s = true \/ l_sendDone s = true).
Lemma flagged_step : forall s e s', flagged s -> step s e = Some s' -> flagged s'.
Proof.
  intros s e s' T H. pose proof (step_grows _ _ _ H) as (_ & _ & G1 & G2 & _).
  assert (KEEP : forall j o q, nth_error (l_calls s) j = Some (mkC o q) -> q <> PCheck ->
    (o = OClose -> l_closed s' = true) /\ (o = OCloseSend -> l_closed s' = true \/ l_sendDone s' = true)).
  { intros j o q X Y. destruct (T j o q X Y) as (A & B). split; [auto|]. intros Q. destruct (B Q); auto. }
  apply step_move in H. destruct H as [o HO|c d|i c p s' w N C W F1 F2 M]; intros j o' q X Y.
  - cbn in X. destruct (Nat.lt_ge_cases j (length (l_calls s))) as [L|L].
    + rewrite nth_error_app1 in X by exact L. exact (KEEP j o' q X Y).
    + rewrite nth_error_app2 in X by exact L. destruct (j - length (l_calls s)) as [|n]; [|destruct n; discriminate]. injection X as _ <-. congruence.
  - exact (KEEP j o' q X Y).
  - assert (L : i < length (l_calls s)) by (apply nth_error_Some; congruence). rewrite C, put_nth in X by exact L.
    destruct (Nat.eqb_spec j i) as [->|NJ]; [|exact (KEEP j o' q X Y)]. destruct c as [o p0]. cbn [c_op] in X. injection X as -> ->. cbn [c_op c_pc] in M.
    destruct p0 as [| |x| | |r]; try (apply (KEEP i o' _ N); discriminate). split; intros ->.
    + destruct M as (_ & [(_ & M)|(_ & _ & M)]); auto.
    + destruct M as (_ & [(_ & [M|M])|(_ & _ & M)]); auto.
Qed.
Lemma flagged_run : forall es s, run init es = Some s -> flagged s.
Proof. intros es s. apply run_inv; [|intros e x y; apply flagged_step]. intros [|i] o p X; discriminate. Qed.

(** Only the Close of a SendClient sends an EndStream, only a BiDirClient has CloseSend. *)
Definition closers (s : st) : Prop :=
  forall i o p, nth_error (l_calls s) i = Some (mkC o p) -> (o = OClose -> k <> SendC -> p <> PEnd /\ (mine i s = [] \/ mine i s = [UClose])) /\ (o = OCloseSend -> k = BiC).
Lemma closers_step : forall s e s', calls_ok s -> closers s -> step s e = Some s' -> closers s'.
Proof.
  intros s e s' V T H. pose proof (calls_step _ _ _ V H) as V'. apply step_move in H. destruct H as [o HO|c d|i c p s' w N C W F1 F2 M]; intros j o' q X.
  - cbn in X. change (mine j _) with (mine j s). destruct (Nat.lt_ge_cases j (length (l_calls s))) as [L|L].
    + rewrite nth_error_app1 in X by exact L. exact (T j o' q X).
    + rewrite nth_error_app2 in X by exact L. destruct (j - length (l_calls s)) as [|n]; [|destruct n; discriminate]. injection X as <- <-. split.
      * intros _ _. split; [discriminate|]. left. exact (proj2 V j L).
      * intros ->. destruct k; try discriminate. reflexivity.
  - exact (T j o' q X).
  - assert (L : i < length (l_calls s)) by (apply nth_error_Some; congruence). rewrite C, put_nth in X by exact L. destruct (Nat.eqb_spec j i) as [->|NJ].
    + destruct c as [o p0]. cbn [c_op] in X. injection X as -> ->. cbn [c_op c_pc] in M. destruct (T i o' p0 N) as (A & B). split; [|exact B].
      intros -> NK. destruct (A eq_refl NK) as (P & Q). pose proof (proj1 V i _ N) as K. rewrite (mine_app i s s' w W).
      destruct p0 as [| |x| | |r]; try contradiction.
      * destruct M as (-> & M). cbn. rewrite app_nil_r. split; [|exact Q]. destruct M as [(-> & _)|(-> & _)]; [discriminate|]. destruct k; congruence.
      * destruct K as (K & ->). destruct M as [(-> & -> & _)|(-> & ->)]; (split; [discriminate|]).
        -- cbn. rewrite Nat.eqb_refl. destruct K as [K|K]; [rewrite K; right; reflexivity|]. exfalso. destruct Q; congruence.
        -- cbn. rewrite app_nil_r. exact Q.
      * destruct M as (-> & ->). cbn. rewrite app_nil_r. split; [discriminate|exact Q].
    + destruct (T j o' q X) as (A & B). split; [|exact B]. intros Q NK. destruct (A Q NK) as (P & R). split; [exact P|].
      rewrite (mine_app j s s' w W). replace (flat_map (fun e => if fst e =? j then [snd e] else []) w) with (@nil umsg); [rewrite app_nil_r; exact R|].
      destruct w as [|[a x] w]; [reflexivity|]. assert (Y : w = [] /\ a = i).
      { destruct c as [[] []]; cbn in M; clear F1 F2; intuition congruence. }
      destruct Y as (-> & ->). cbn. destruct (Nat.eqb_spec i j); [congruence|reflexivity].
Qed.
Lemma closers_run : forall es s, run init es = Some s -> closers s.
Proof.
  intros es s R. assert (X : calls_ok s /\ closers s); [|exact (proj2 X)]. revert R. apply (run_inv (fun x => calls_ok x /\ closers x)).
  - split; [exact (calls_run [] init eq_refl)|]. intros [|i] o p X; discriminate.
  - intros e x y (P & Q) St. split; [exact (calls_step _ _ _ P St)|exact (closers_step _ _ _ P Q St)].
Qed.

(** No message that is too long goes out. *)
Lemma fits_run : forall es s, run init es = Some s -> Forall (fun e => too_long m (snd e) = false) (l_wire s).
Proof.
  intros es s. apply (run_inv (fun x => Forall (fun e => too_long m (snd e) = false) (l_wire x))); [constructor|]. intros e x y F H. apply step_move in H.
  destruct H as [o HO|c d|i c p s' w N C W F1 F2 M]; try exact F. rewrite W. apply Forall_app. split; [exact F|].
  destruct c as [o p0]. cbn in M. destruct p0 as [| |u| | |r].
  - destruct o; destruct M as (-> & _); constructor.
  - destruct o; try contradiction. destruct M as (-> & _). constructor.
  - destruct M as [(_ & -> & M)|(_ & ->)]; constructor; [exact M|constructor].
  - destruct M as (_ & [-> | ->]); constructor; [|constructor]. cbn. destruct (Z.ltb_spec 0 m), (Z.ltb_spec m 0); cbn; try reflexivity; lia.
  - destruct M as (-> & _). constructor.
  - contradiction.
Qed.

Lemma mine_cases : forall s i o p, calls_ok s -> nth_error (l_calls s) i = Some (mkC o p) ->
  mine i s = [] \/
  match o with
  | OSend d => p = PDone true /\ mine i s = [UData d false]
  | OCloseSend => p <> PCheck /\ mine i s = [UData [] true]
  | OCancel => mine i s = [UCancel]
  | OClose => p <> PCheck /\ (mine i s = [UData [] true] \/ mine i s = [UClose] \/ mine i s = [UData [] true; UClose])
  end.
Proof.
  intros s i o p (V & _) N. specialize (V i _ N). destruct o, p as [| |u| | |[]]; cbn in V; try contradiction; try tauto;
    repeat match goal with H : _ \/ _ |- _ => destruct H | H : _ /\ _ |- _ => destruct H end; auto; right; repeat split; auto; discriminate.
Qed.
Lemma two_of_one : forall s i o p u v w x y, calls_ok s -> nth_error (l_calls s) i = Some (mkC o p) -> mine i s = u ++ x :: v ++ y :: w -> x = UData [] true /\ y = UClose.
Proof.
  intros s i o p u v w x y V N E. destruct (mine_cases s i o p V N) as [K|K].
  - rewrite K in E. destruct u; discriminate.
  - assert (S1 : forall z, mine i s = [z] -> False).
    { intros z H. rewrite H in E. apply (f_equal (@length _)) in E. rewrite app_length in E. cbn in E. rewrite app_length in E. cbn in E. lia. }
    destruct o; try (destruct K as (_ & K)); try (exfalso; exact (S1 _ K)). destruct K as [K|[K|K]]; try (exfalso; exact (S1 _ K)).
    rewrite K in E. destruct u as [|a u]; cbn in E.
    + destruct v as [|b v]; cbn in E; [injection E as <- <-; auto|]. destruct v; discriminate.
    + injection E as _ E. destruct u as [|b u]; cbn in E; [|destruct u; discriminate]. destruct v; discriminate.
Qed.
(** Who sends an EndStream, and who a Close. *)
Lemma fin_by : forall s i o p, calls_ok s -> closers s -> nth_error (l_calls s) i = Some (mkC o p) -> In (UData [] true) (mine i s) ->
  past o s i /\ (o = OCloseSend /\ k = BiC \/ o = OClose /\ k = SendC).
Proof.
  intros s i o p V T N I. destruct (T i o p N) as (T1 & T2). destruct (mine_cases s i o p V N) as [K|K]; [rewrite K in I; destruct I|].
  assert (NE : mine i s <> []) by (intros E; rewrite E in I; destruct I).
  destruct o as [d| | |].
  - destruct K as (_ & K). rewrite K in I. destruct I as [I|[]]. discriminate.
  - destruct K as (P & K). split; [exists p; auto|]. left. auto.
  - rewrite K in I. destruct I as [I|[]]. discriminate.
  - destruct K as (P & K). split; [exists p; auto|]. right. split; [reflexivity|].
    assert (D : k = SendC \/ k <> SendC) by (destruct k; [right|left|right]; congruence). destruct D as [D|D]; [exact D|]. exfalso.
    destruct (T1 eq_refl D) as (_ & [Q|Q]); rewrite Q in I; cbn in I; intuition discriminate.
Qed.
Lemma close_by : forall s i o p, calls_ok s -> nth_error (l_calls s) i = Some (mkC o p) -> In UClose (mine i s) -> o = OClose /\ past o s i.
Proof.
  intros s i o p V N I. destruct (mine_cases s i o p V N) as [K|K]; [rewrite K in I; destruct I|].
  assert (NE : mine i s <> []) by (intros E; rewrite E in I; destruct I).
  destruct o as [d| | |]; [destruct K as (_ & K); rewrite K in I; destruct I as [I|[]]; discriminate..| |].
  - rewrite K in I. destruct I as [I|[]]. discriminate.
  - destruct K as (P & K). split; [reflexivity|]. exists p. auto.
Qed.

(** As long as no call ends the stream, only data goes out; and an EndStream has none. *)
Definition quiet (s : st) : Prop := forall i x, In (i, x) (l_wire s) -> exists d, x = UData d false.
Lemma quiet_run : forall es s, run init es = Some s -> Forall (fun c => ~ ends c) (l_calls s) -> quiet s.
Proof.
  intros es s R F i x I. pose proof (calls_run _ _ R) as V. destruct (wire_call s i x V I) as ([o p] & N & M).
  rewrite Forall_forall in F. specialize (F _ (nth_error_In _ _ N)). destruct o as [d| | |]; try (exfalso; apply F; exact Logic.I).
  rewrite (send_mine s i d p V N) in M. destruct p as [| |y| | |[]]; try destruct M as [<-|[]]; try destruct M. exists d. reflexivity.
Qed.
Lemma fin_nil : forall s i d, calls_ok s -> In (i, UData d true) (l_wire s) -> d = [].
Proof.
  intros s i d V I. destruct (wire_call s i _ V I) as ([o p] & N & M). pose proof (proj1 V i _ N) as K.
  destruct o, p; cbn in K; try contradiction; repeat match goal with
    | H : _ /\ _ |- _ => destruct H
    | H : _ \/ _ |- _ => destruct H
    | H : context [if ?b then _ else _] |- _ => destruct b
    end; match goal with H : mine i s = _ |- _ => rewrite H in M end; cbn in M;
    repeat match goal with H : _ \/ _ |- _ => destruct H end; try contradiction; congruence.
Qed.
End P.

(** * What comes in at the server's side *)
Definition upsends (ws : list umsg) : list bytes := flat_map (fun e => match e with UData d false => [d] | _ => [] end) ws.
Lemma sends_up : forall s, sends s = upsends (map snd (l_wire s)).
Proof. intros s. unfold sends, upsends. induction (l_wire s) as [|[i x] q IH]; [reflexivity|]. cbn [map flat_map snd]. rewrite IH. reflexivity. Qed.
Lemma upsends_app : forall a b, upsends (a ++ b) = upsends a ++ upsends b.
Proof. intros a b. apply flat_map_app. Qed.
Lemma yields_app : forall a b, Verif.Spec.SrvSession.yields (a ++ b) = Verif.Spec.SrvSession.yields a ++ Verif.Spec.SrvSession.yields b.
Proof. intros a b. unfold Verif.Spec.SrvSession.yields. rewrite filter_app, map_app. reflexivity. Qed.
Lemma filter_nil_fits : forall limit, fits limit [] = true.
Proof. intros limit. unfold fits. cbn [length Z.of_nat]. destruct (Z.ltb_spec 0 limit), (Z.ltb_spec limit 0); cbn; try reflexivity; lia. Qed.
(** What the handler can be given is a first part of what was sent. *)
Lemma yields_payloads : forall limit ws, (forall d, In (UData d true) ws -> d = []) ->
  exists r, filter (fits limit) (upsends ws) = Verif.Spec.SrvSession.yields (payloads limit ws) ++ r.
Proof.
  intros limit ws. induction ws as [|x q IH]; intros H; [exists []; reflexivity|].
  destruct IH as (r & E); [intros d I; apply H; right; exact I|]. destruct x as [d f| |]; [|eexists; reflexivity|eexists; reflexivity].
  exists r. cbn [payloads]. rewrite yields_app, <- app_assoc. destruct f.
  - rewrite (H d (or_introl eq_refl)). cbn [upsends flat_map app]. rewrite filter_nil_fits. cbn [Verif.Spec.SrvSession.yields]. exact E.
  - cbn [upsends flat_map app]. cbn [filter]. destruct (fits limit d); [|exact E]. cbn. f_equal. exact E.
Qed.
Lemma payloads_data : forall limit a b, (forall x, In x a -> exists d, x = UData d false) -> payloads limit (a ++ b) = payloads limit a ++ payloads limit b.
Proof.
  intros limit a b. induction a as [|x q IH]; intros H; [reflexivity|]. destruct (H x (or_introl eq_refl)) as (d & ->).
  cbn [app payloads]. rewrite IH by (intros y I; apply H; right; exact I). apply app_assoc.
Qed.
Lemma yields_data : forall limit a, (forall x, In x a -> exists d, x = UData d false) ->
  Verif.Spec.SrvSession.yields (payloads limit a) = filter (fits limit) (upsends a) /\ Forall (fun p => SrvSession.p_end p = false) (payloads limit a).
Proof.
  intros limit a. induction a as [|x q IH]; intros H; [split; [reflexivity|constructor]|]. destruct (H x (or_introl eq_refl)) as (d & ->).
  destruct IH as (E & F); [intros y I; apply H; right; exact I|]. cbn [payloads upsends flat_map app filter]. destruct (fits limit d); [|split; [exact E|exact F]].
  split; [cbn; f_equal; exact E|]. cbn. constructor; [reflexivity|exact F].
Qed.
(** A first part with something that is not in the part before reaches past it. *)
Lemma past_prefix : forall (a b w1 w2 : list umsg) x, a ++ b = w1 ++ w2 -> In x a -> ~ In x w1 -> exists a2, a = w1 ++ a2.
Proof.
  intros a b w1. revert a. induction w1 as [|y w1 IH]; intros a w2 x E I N; [exists a; reflexivity|].
  destruct a as [|z a]; [destruct I|]. cbn in E. injection E as -> E. destruct I as [->|I]; [exfalso; apply N; left; reflexivity|].
  destruct (IH a w2 x E I) as (a2 & ->); [intros K; apply N; right; exact K|]. exists a2. reflexivity.
Qed.
Lemma payloads_end : forall limit a p, In p (payloads limit a) -> In (UData (SrvSession.p_data p) (SrvSession.p_end p)) a.
Proof.
  intros limit a p. induction a as [|x q IH]; intros I; [destruct I|]. destruct x as [d f| |]; try destruct I. cbn in I. apply in_app_or in I.
  destruct I as [I|I]; [|right; exact (IH I)]. destruct (fits limit d); [|destruct I]. destruct I as [<-|[]]. left. reflexivity.
Qed.
(** Payloads without EndStream, before one that has it. *)
Lemma before_end : forall (p1 p2 l r : list SrvSession.pay) p, p1 ++ p2 = l ++ p :: r -> Forall (fun p => SrvSession.p_end p = false) p1 -> SrvSession.p_end p = true ->
  exists l2, l = p1 ++ l2.
Proof.
  intros p1. induction p1 as [|x p1 IH]; intros p2 l r p E F P; [exists l; reflexivity|]. inversion F as [|y z F1 F2]; subst.
  destruct l as [|y l]; cbn in E; injection E as -> E; [congruence|]. destruct (IH _ _ _ _ E F2 P) as (l2 & ->). exists l2. reflexivity.
Qed.
