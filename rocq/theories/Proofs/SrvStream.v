(** Proofs about one session of the server: streams. *)
From Coq Require Import ZArith List Bool Lia.
Import ListNotations.
From Verif.Model Require Import Base SrvSession.
From Verif.Spec Require Import SrvSession.
From Verif.Proofs Require Import SrvSession.
Local Open Scope nat_scope.

(** * What a step of each kind does *)
Ltac cases H :=
  repeat match type of H with
  | context [match ?x with _ => _ end] => destruct x eqn:?; try discriminate H
  end.

Lemma sendMsg_same : forall s who w e s' r, sendMsg s who w e = (s', r) ->
  (s' = s /\ r <> None) \/ (s' = with_wire s (x_wire s ++ [(who, w)]) /\ r = None /\ x_conn s = false /\ e = None).
Proof.
  intros s who w e s' r H. unfold sendMsg in H. destruct (x_conn s) eqn:C.
  - injection H as <- <-. left. split; [reflexivity|discriminate].
  - destruct e; injection H as <- <-; [left; split; [reflexivity|discriminate]|right; auto].
Qed.

Lemma sendPayload_same : forall m s who q d f e s' r, sendPayload m s who q d f e = (s', r) ->
  (s' = s /\ r <> None) \/ (s' = with_wire s (x_wire s ++ [(who, WData q d f)]) /\ r = None /\ x_conn s = false /\ e = None).
Proof.
  intros m s who q d f e s' r H. unfold sendPayload in H. destruct ((0 <? m)%Z && (m <? Z.of_nat (length d))%Z).
  - injection H as <- <-. left. split; [reflexivity|discriminate].
  - exact (sendMsg_same _ _ _ _ _ _ H).
Qed.

Definition streaming (h : hpc) : Prop := match h with HTake | HCall _ | HAnswer _ _ => False | _ => True end.

(** * Receiving *)
Definition recv_inv (s : st) : Prop := streaming (x_h s) /\ x_arrived s = x_taken s ++ x_q s /\ x_got s = yields (x_taken s).

Lemma yields_app : forall a b, yields (a ++ b) = yields a ++ yields b.
Proof. intros a b. unfold yields. rewrite filter_app, map_app. reflexivity. Qed.

Lemma step_recv : forall k m e s s', k <> Sync -> recv_inv s -> step k m s e = Some s' -> recv_inv s'.
Proof.
  intros k m e s s' HK (Hs & A & G) H.
  destruct e; cbn [step] in H.
  - destruct (x_qclosed s || negb (length (x_q s) <? 16)); [discriminate|]. injection H as <-. split; [exact Hs|].
    split; [cbn [arrive x_arrived x_taken x_q]; rewrite A, app_assoc; reflexivity|exact G].
  - destruct (x_qclosed s); [discriminate|]. injection H as <-. exact (conj Hs (conj A G)).
  - injection H as <-. exact (conj Hs (conj A G)).
  - injection H as <-. exact (conj Hs (conj A G)).
  - injection H as <-. exact (conj Hs (conj A G)).
  - destruct (x_h s) eqn:E; try discriminate. contradiction.
  - unfold stepH in H. destruct (x_h s) eqn:E; try discriminate; try contradiction.
    + destruct (x_q s) as [|p q] eqn:Q.
      * destruct (x_qclosed s); [injection H as <-; split; [exact I|split; [cbn [ends x_arrived x_taken x_q]; rewrite Q; exact A|exact G]]|]. destruct drain; [|discriminate].
        injection H as <-; split; [exact I|split; [cbn [ends x_arrived x_taken x_q]; rewrite Q; exact A|exact G]].
      * injection H as <-. unfold received. destruct (p_end p && match p_data p with [] => true | _ => false end) eqn:P.
        { split; [exact I|]. split; [cbn [take x_arrived x_taken x_q]; rewrite A, <- app_assoc; reflexivity|].
          cbn [take x_got x_taken]. rewrite yields_app, G. unfold yields at 3. cbn [filter map]. rewrite P. cbn. rewrite app_nil_r. reflexivity. }
        split; [exact I|]. split; [cbn [take x_arrived x_taken x_q]; rewrite A, <- app_assoc; reflexivity|].
        cbn [take x_got x_taken]. rewrite yields_app, G. unfold yields at 3. cbn [filter map]. rewrite P. reflexivity.
    + injection H as <-. exact (conj I (conj A G)).
    + injection H as <-. destruct (has_send k); exact (conj I (conj A G)).
    + destruct (sendPayload m s None 0 [] true e) as [s1 r] eqn:SP. injection H as <-.
      destruct (sendPayload_same _ _ _ _ _ _ _ _ _ SP) as [(-> & _)|(-> & _)]; exact (conj I (conj A G)).
    + destruct (sendMsg s None (WClose (errCode e0) md) e) as [s1 r] eqn:SP. injection H as <-.
      destruct (sendMsg_same _ _ _ _ _ _ SP) as [(-> & _)|(-> & _)]; exact (conj I (conj A G)).
  - destruct (x_h s); try discriminate. destruct (has_recv k); [|discriminate]. injection H as <-. exact (conj I (conj A G)).
  - destruct (x_h s); try discriminate. destruct drain; [discriminate|]. destruct (x_ctx s); [|discriminate]. injection H as <-. exact (conj I (conj A G)).
  - destruct (x_h s); try discriminate. injection H as <-. destruct (negb go); [exact (conj I (conj A G))|]. destruct last; exact (conj I (conj A G)).
  - destruct (x_h s); try discriminate. injection H as <-. exact (conj I (conj A G)).
  - destruct k; [congruence| | |]; injection H as <-; exact (conj Hs (conj A G)).
  - destruct (has_send k); [|discriminate]. injection H as <-. exact (conj Hs (conj A G)).
  - unfold stepS in H. destruct (nth_error (x_senders s) i) as [x|]; [|discriminate]. destruct (s_pc x); try discriminate.
    + injection H as <-. exact (conj Hs (conj A G)).
    + injection H as <-. exact (conj Hs (conj A G)).
    + destruct (sendPayload m s (Some i) 0 (s_data x) false e) as [s1 r] eqn:SP. injection H as <-.
      destruct (sendPayload_same _ _ _ _ _ _ _ _ _ SP) as [(-> & _)|(-> & _)]; exact (conj Hs (conj A G)).
Qed.

Lemma recv_holds : forall k m es s, k <> Sync -> run k m (init k) es = Some s -> recv_inv s.
Proof.
  intros k m es s HK H. eapply run_keeps; [|clear H|exact H].
  - intros e x x' I St. eapply step_recv; eassumption.
  - destruct k; [congruence| | |]; (split; [exact I|split; reflexivity]).
Qed.

(** Steps that are not the handler's leave its loops alone. *)
Lemma same_over : forall (l : list (nat * over)) x, l = l ++ [x] -> False.
Proof. intros l x H. apply (f_equal (@length _)) in H. rewrite app_length in H. cbn in H. lia. Qed.

(** How a loop ends: what the channel, the context and the payloads were like. *)
Lemma loop_end : forall k m e s s' n o, k <> Sync -> recv_inv s -> (forall dr last, x_h s = HYield dr last -> exists l p, x_taken s = l ++ [p] /\ p_end p = last) ->
  (x_h s = HRecv true -> x_ctx s = true) -> step k m s e = Some s' -> x_over s' = x_over s ++ [(n, o)] ->
  n = length (x_taken s') /\
  match o with
  | OClosed => x_qclosed s' = true /\ x_taken s' = x_arrived s'
  | OEnd => exists l p, x_taken s' = l ++ [p] /\ p_end p = true
  | OCtx => x_ctx s' = true /\ x_taken s' = x_arrived s'
  | OStopped => e = ENext false
  end.
Proof.
  intros k m e s s' n o HK (Hs & A & G) HY HC H O.
  destruct e; cbn [step] in H.
  - destruct (x_qclosed s || negb (length (x_q s) <? 16)); [discriminate|]. injection H as <-. destruct (same_over _ _ O).
  - destruct (x_qclosed s); [discriminate|]. injection H as <-. destruct (same_over _ _ O).
  - injection H as <-. destruct (same_over _ _ O).
  - injection H as <-. destruct (same_over _ _ O).
  - injection H as <-. destruct (same_over _ _ O).
  - destruct (x_h s) eqn:E; try discriminate. contradiction.
  - unfold stepH in H. destruct (x_h s) eqn:E; try discriminate; try contradiction.
    + destruct (x_q s) as [|p q] eqn:Q.
      * rewrite app_nil_r in A. destruct (x_qclosed s) eqn:QC.
        { injection H as <-. cbn [ends x_over] in O. apply app_inv_head in O. injection O as <- <-. split; [reflexivity|]. split; [exact QC|symmetry; exact A]. }
        destruct drain; [|discriminate]. injection H as <-. cbn [ends x_over] in O. apply app_inv_head in O. injection O as <- <-.
        split; [reflexivity|]. split; [exact (HC eq_refl)|symmetry; exact A].
      * injection H as <-. unfold received in *. destruct (p_end p && match p_data p with [] => true | _ => false end) eqn:P.
        { cbn [take x_over] in O. apply app_inv_head in O. injection O as <- <-. cbn [take x_taken]. rewrite app_length. split; [cbn; lia|].
          exists (x_taken s), p. split; [reflexivity|]. apply andb_true_iff in P. exact (proj1 P). }
        destruct (same_over _ _ O).
    + injection H as <-. destruct (same_over _ _ O).
    + injection H as <-. destruct (has_send k); destruct (same_over _ _ O).
    + destruct (sendPayload m s None 0 [] true e) as [s1 r] eqn:SP. injection H as <-.
      destruct (sendPayload_same _ _ _ _ _ _ _ _ _ SP) as [(-> & _)|(-> & _)]; destruct (same_over _ _ O).
    + destruct (sendMsg s None (WClose (errCode e0) md) e) as [s1 r] eqn:SP. injection H as <-.
      destruct (sendMsg_same _ _ _ _ _ _ SP) as [(-> & _)|(-> & _)]; destruct (same_over _ _ O).
  - destruct (x_h s); try discriminate. destruct (has_recv k); [|discriminate]. injection H as <-. destruct (same_over _ _ O).
  - destruct (x_h s); try discriminate. destruct drain; [discriminate|]. destruct (x_ctx s); [|discriminate]. injection H as <-. destruct (same_over _ _ O).
  - destruct (x_h s) eqn:E; try discriminate. injection H as <-. destruct go; cbn [negb] in *.
    + destruct last; [|destruct (same_over _ _ O)]. cbn [ends x_over] in O. apply app_inv_head in O. injection O as <- <-.
      split; [reflexivity|]. exact (HY _ _ eq_refl).
    + cbn [ends x_over] in O. apply app_inv_head in O. injection O as <- <-. split; reflexivity.
  - destruct (x_h s); try discriminate. injection H as <-. destruct (same_over _ _ O).
  - destruct k; [congruence| | |]; injection H as <-; destruct (same_over _ _ O).
  - destruct (has_send k); [|discriminate]. injection H as <-. destruct (same_over _ _ O).
  - unfold stepS in H. destruct (nth_error (x_senders s) i) as [x|]; [|discriminate]. destruct (s_pc x); try discriminate.
    + injection H as <-. destruct (same_over _ _ O).
    + injection H as <-. destruct (same_over _ _ O).
    + destruct (sendPayload m s (Some i) 0 (s_data x) false e) as [s1 r] eqn:SP. injection H as <-.
      destruct (sendPayload_same _ _ _ _ _ _ _ _ _ SP) as [(-> & _)|(-> & _)]; destruct (same_over _ _ O).
Qed.

(** All the ways a step can go. *)
Ltac explode1 H :=
  match type of H with
  | (let (_, _) := sendPayload ?m ?s ?w ?q ?d ?f ?e in _) = _ =>
      let SP := fresh "SP" in let s1 := fresh "t" in let r := fresh "r" in let C := fresh "SC" in
      destruct (sendPayload m s w q d f e) as [s1 r] eqn:SP; apply sendPayload_same in SP; destruct SP as [(-> & SP)|(-> & SP & C)]
  | (let (_, _) := sendMsg ?s ?w ?q ?e in _) = _ =>
      let SP := fresh "SP" in let s1 := fresh "t" in let r := fresh "r" in let C := fresh "SC" in
      destruct (sendMsg s w q e) as [s1 r] eqn:SP; apply sendMsg_same in SP; destruct SP as [(-> & SP)|(-> & SP & C)]
  | match ?x with _ => _ end = _ => destruct x eqn:?
  | Some _ = Some _ => injection H as H
  | None = Some _ => discriminate H
  end.
Ltac explode H := unfold step, stepH, stepS, received in H; repeat explode1 H; try discriminate H.

Definition loop_inv (s : st) : Prop :=
  match x_h s with
  | HYield dr last => (exists l p, x_taken s = l ++ [p] /\ p_end p = last) /\ (dr = true -> x_ctx s = true)
  | HRecv true => x_ctx s = true
  | _ => True
  end.
Lemma step_loop : forall k m e s s', loop_inv s -> step k m s e = Some s' -> loop_inv s'.
Proof.
  intros k m e s s' L H. unfold loop_inv in *. destruct e; explode H; subst s'; cbn in *;
    repeat match goal with E : x_h _ = _ |- _ => rewrite E in * end; try exact L; try exact I;
    try (destruct (x_h s) as [| | | |[]|dr last| | | | |]; tauto).
  all: try (destruct drain; [|exact I]).
  all: try (split; [eexists; eexists; split; reflexivity|]); try tauto.
  all: try (destruct drain; tauto).
  all: try (intros ->; exact L); try assumption.
  all: try match goal with X : HRecv _ = HRecv _ |- _ => injection X as -> end; try assumption.
  all: destruct r; exact I.
Qed.

Lemma loop_holds : forall k m es s, run k m (init k) es = Some s -> loop_inv s.
Proof.
  intros k m es s H. eapply run_keeps; [|clear H|exact H].
  - intros e x x' L St. eapply step_loop; eassumption.
  - destruct k; exact I.
Qed.

(** A loop whose context has ended comes to its end by itself. *)
Lemma drains : forall k m q s, x_q s = q -> x_h s = HRecv true ->
  exists es s' a b, Forall (fun e => e = EStep None \/ e = ENext true) es /\ run k m s es = Some s' /\ x_h s' = HUser /\ q = a ++ b /\ x_got s' = x_got s ++ yields a /\ (b = [] \/ exists l p, a = l ++ [p] /\ p_end p = true).
Proof.
  intros k m q. induction q as [|p q IH]; intros s Q H.
  - exists [EStep None], (ends s (if x_qclosed s then OClosed else OCtx)), [], []. split; [constructor; [left; reflexivity|constructor]|].
    cbn [run step]. unfold stepH. rewrite H, Q. destruct (x_qclosed s); (split; [reflexivity|split; [reflexivity|split; [reflexivity|split; [cbn; rewrite app_nil_r; reflexivity|left; reflexivity]]]]).
  - destruct (p_end p && match p_data p with [] => true | _ => false end) eqn:P.
    + exists [EStep None]. eexists. exists [p], q. split; [constructor; [left; reflexivity|constructor]|].
      cbn [run step]. unfold stepH. rewrite H, Q. unfold received. rewrite P. split; [reflexivity|]. split; [reflexivity|]. split; [reflexivity|].
      split; [cbn [take x_got]; unfold yields; cbn [filter]; rewrite P; cbn; rewrite app_nil_r; reflexivity|].
      right. exists [], p. split; [reflexivity|]. apply andb_true_iff in P. exact (proj1 P).
    + destruct (p_end p) eqn:E.
      * exists [EStep None; ENext true]. eexists. exists [p], q. split; [constructor; [left; reflexivity|constructor; [right; reflexivity|constructor]]|].
        cbn [run step]. unfold stepH. rewrite H, Q. unfold received. rewrite E, P. cbn [take x_h negb]. split; [reflexivity|]. split; [reflexivity|]. split; [reflexivity|].
        split; [cbn [ends take x_got]; unfold yields; cbn [filter]; rewrite E, P; reflexivity|].
        right. exists [], p. split; [reflexivity|exact E].
      * destruct (IH (with_h (take s p q (HYield true false) (x_begun s) (x_got s ++ [p_data p]) (x_over s)) (HRecv true)) eq_refl eq_refl)
          as (es & s' & a & b & F & R & U & Qa & G & En).
        exists (EStep None :: ENext true :: es), s', (p :: a), b.
        split; [constructor; [left; reflexivity|constructor; [right; reflexivity|exact F]]|].
        split; [cbn [run step]; unfold stepH; rewrite H, Q; unfold received; rewrite E; cbn [andb take x_h negb]; exact R|].
        split; [exact U|]. split; [rewrite Qa; reflexivity|]. split.
        { rewrite G. cbn [with_h take x_got]. unfold yields. cbn [filter]. rewrite E. cbn. rewrite <- app_assoc. reflexivity. }
        destruct En as [En|(l & x & -> & X)]; [left; exact En|right; exists (p :: l), x; split; [reflexivity|exact X]].
Qed.

(** * Sending *)
Lemma nth_put : forall (l : list sender) i x j, i < length l ->
  nth_error (firstn i l ++ x :: skipn (S i) l) j = if Nat.eqb j i then Some x else nth_error l j.
Proof.
  intros l. induction l as [|y l IH]; intros i x j L; [cbn in L; lia|]. destruct i as [|i].
  - destruct j; reflexivity.
  - destruct j as [|j]; [reflexivity|]. cbn [firstn app nth_error skipn Nat.eqb]. cbn [length] in L. apply IH. lia.
Qed.

Definition froms (w : list (option nat * wmsg)) : list nat := flat_map (fun e => match fst e with Some i => [i] | None => [] end) w.
Definition send_inv (s : st) : Prop :=
  (forall i w, In (Some i, w) (x_wire s) -> exists d, nth_error (x_senders s) i = Some (mkS d (SDone None)) /\ w = WData 0 d false) /\
  (forall i d, nth_error (x_senders s) i = Some (mkS d (SDone None)) -> In (Some i, WData 0 d false) (x_wire s)) /\
  NoDup (froms (x_wire s)).

Lemma in_froms : forall i w, In i (froms w) <-> exists x, In (Some i, x) w.
Proof.
  intros i w. unfold froms. rewrite in_flat_map. split.
  - intros ([[j|] x] & H1 & H2); cbn in H2; [destruct H2 as [->|[]]; exists x; exact H1|contradiction].
  - intros (x & H). exists (Some i, x). split; [exact H|left; reflexivity].
Qed.

Lemma send_wire : forall s s', send_inv s -> x_senders s' = x_senders s -> (x_wire s' = x_wire s \/ exists w, x_wire s' = x_wire s ++ [(None, w)]) -> send_inv s'.
Proof.
  intros s s' (A & B & N) Hs Hw. unfold send_inv. rewrite Hs. destruct Hw as [->|(w & ->)]; [exact (conj A (conj B N))|].
  split; [|split].
  - intros i x H. apply in_app_or in H. destruct H as [H|[H|[]]]; [exact (A i x H)|discriminate].
  - intros i d H. apply in_or_app. left. exact (B i d H).
  - unfold froms in *. rewrite flat_map_app. cbn. rewrite app_nil_r. exact N.
Qed.

Lemma send_put : forall s i x y, send_inv s -> nth_error (x_senders s) i = Some x -> s_pc x <> SDone None -> s_pc y <> SDone None -> send_inv (put_sender s i y).
Proof.
  intros s i x y (A & B & N) X Nx Ny.
  assert (L : i < length (x_senders s)) by (apply nth_error_Some; congruence).
  split; [|split]; cbn [put_sender with_senders x_senders x_wire].
  - intros j w H. rewrite nth_put by exact L. destruct (A j w H) as (d & D & Hw). destruct (Nat.eqb_spec j i) as [->|Ne]; [|exists d; split; assumption].
    rewrite X in D. injection D as ->. exfalso. apply Nx. reflexivity.
  - intros j d H. rewrite nth_put in H by exact L. destruct (Nat.eqb_spec j i) as [->|Ne]; [|exact (B j d H)].
    injection H as ->. exfalso. apply Ny. reflexivity.
  - exact N.
Qed.

Lemma NoDup_snoc : forall A (l : list A) x, NoDup l -> ~ In x l -> NoDup (l ++ [x]).
Proof.
  intros A l x N H. induction N as [|y l Hy N IH]; [constructor; [intros []|constructor]|].
  cbn [app]. constructor; [|apply IH; intros X; apply H; right; exact X].
  intros X. apply in_app_or in X. destruct X as [X|[X|[]]]; [exact (Hy X)|subst; apply H; left; reflexivity].
Qed.

Lemma send_done : forall s i d, send_inv s -> nth_error (x_senders s) i = Some (mkS d SSend) ->
  send_inv (put_sender (with_wire s (x_wire s ++ [(Some i, WData 0 d false)])) i (mkS d (SDone None))).
Proof.
  intros s i d (A & B & N) X.
  assert (L : i < length (x_senders s)) by (apply nth_error_Some; congruence).
  split; [|split]; cbn [put_sender with_senders with_wire x_senders x_wire].
  - intros j w H. rewrite nth_put by exact L. apply in_app_or in H. destruct H as [H|[H|[]]].
    + destruct (A j w H) as (d' & D & Hw). destruct (Nat.eqb_spec j i) as [->|Ne]; [congruence|exists d'; split; assumption].
    + injection H as <- <-. rewrite Nat.eqb_refl. exists d. split; reflexivity.
  - intros j d' H. rewrite nth_put in H by exact L. apply in_or_app. destruct (Nat.eqb_spec j i) as [->|Ne]; [|left; exact (B j d' H)].
    injection H as <-. right. left. reflexivity.
  - unfold froms in *. rewrite flat_map_app. cbn. apply NoDup_snoc; [exact N|]. intros H. apply in_froms in H. destruct H as (w & H).
    destruct (A i w H) as (d' & D & _). congruence.
Qed.

Lemma step_send : forall k m e s s', send_inv s -> step k m s e = Some s' -> send_inv s'.
Proof.
  intros k m e s s' V H. destruct e.
  13: { cbn [step] in H. destruct (has_send k); [|discriminate]. injection H as <-. destruct V as (A & B & N).
    split; [|split]; cbn [with_senders x_senders x_wire].
    - intros i w X. destruct (A i w X) as (d' & D & Hw). exists d'. split; [|exact Hw]. rewrite nth_error_app1; [exact D|apply nth_error_Some; congruence].
    - intros i d' X. destruct (Nat.lt_ge_cases i (length (x_senders s))) as [L|L].
      + rewrite nth_error_app1 in X by exact L. exact (B i d' X).
      + rewrite nth_error_app2 in X by exact L. destruct (i - length (x_senders s)) as [|j]; [discriminate|]. destruct j; discriminate.
    - exact N. }
  13: { cbn [step] in H. unfold stepS in H. destruct (nth_error (x_senders s) i) as [x|] eqn:X; [|discriminate]. destruct (s_pc x) eqn:P; try discriminate.
    - injection H as <-. eapply send_put; [exact V|exact X|congruence|]. cbn. destruct (x_closed s); [discriminate|]. destruct k; discriminate.
    - injection H as <-. eapply send_put; [exact V|exact X|congruence|]. cbn. destruct (x_cancel s); discriminate.
    - destruct (sendPayload m s (Some i) 0 (s_data x) false e) as [s1 r] eqn:SP. injection H as <-.
      destruct (sendPayload_same _ _ _ _ _ _ _ _ _ SP) as [(-> & Nr)|(-> & -> & _)].
      + eapply send_put; [exact V|exact X|congruence|]. cbn. congruence.
      + destruct x as [d pc]. cbn in P. subst pc. cbn [s_data]. apply send_done; assumption. }
  all: eapply send_wire; [exact V| |]; explode H; subst s'; try reflexivity;
    try (left; reflexivity); try (right; eexists; reflexivity).
Qed.

Lemma send_holds : forall k m es s, run k m (init k) es = Some s -> send_inv s.
Proof.
  intros k m es s H. eapply run_keeps; [|clear H|exact H].
  - intros e x x' L St. eapply step_send; eassumption.
  - split; [intros i w []|]. split; [intros [|i] d X; discriminate|constructor].
Qed.
