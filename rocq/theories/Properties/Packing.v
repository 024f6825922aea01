(** C46: packed connections stay in sync (Model/Packing.v). *)
From Coq Require Import Lia List Bool.
Import ListNotations.
From Verif.Model Require Import Base Packing.
Open Scope list_scope. Open Scope Z_scope.

(** ** Refuted: with packing negotiated, opening a second session puts the ends out of sync. *)
Theorem C46_second_open_refuted :
  exists es s, prun true true newPConn es s /\ es = [PEOpen; PERead; PERead; PERead; PEOpen; PERead] /\
    pc_cen s = true /\ pc_sen s = true /\ pc_bad s = true.
Proof.
  assert (R := pr_refl true true newPConn).
  assert (R1 := pr_step _ _ _ _ _ _ _ R ltac:(apply P_Open)). vm_compute in R1.
  assert (R2 := pr_step _ _ _ _ _ _ _ R1 ltac:(eapply (P_SRead _ _ _ _ _ _ true); reflexivity)). vm_compute in R2.
  assert (R3 := pr_step _ _ _ _ _ _ _ R2 ltac:(eapply P_SAck; reflexivity)). vm_compute in R3.
  assert (R4 := pr_step _ _ _ _ _ _ _ R3 ltac:(eapply P_CRead; reflexivity)). vm_compute in R4.
  assert (R5 := pr_step _ _ _ _ _ _ _ R4 ltac:(apply P_Open)). vm_compute in R5.
  assert (R6 := pr_step _ _ _ _ _ _ _ R5 ltac:(eapply (P_SRead _ _ _ _ _ _ true); reflexivity)). vm_compute in R6.
  eexists _, _. split; [exact R6|]. repeat split.
Qed.
Print Assumptions C46_second_open_refuted.
(** A ping sent while the first Open is on its way does it too. *)
Theorem C46_ping_race_refuted :
  exists es s, prun true true newPConn es s /\ es = [PEOpen; PESend; PERead; PERead; PERead] /\ pc_bad s = true.
Proof.
  assert (R := pr_refl true true newPConn).
  assert (R1 := pr_step _ _ _ _ _ _ _ R ltac:(apply P_Open)). vm_compute in R1.
  assert (R2 := pr_step _ _ _ _ _ _ _ R1 ltac:(apply P_Send)). vm_compute in R2.
  assert (R3 := pr_step _ _ _ _ _ _ _ R2 ltac:(eapply (P_SRead _ _ _ _ _ _ true); reflexivity)). vm_compute in R3.
  assert (R4 := pr_step _ _ _ _ _ _ _ R3 ltac:(eapply P_SAck; reflexivity)). vm_compute in R4.
  assert (R5 := pr_step _ _ _ _ _ _ _ R4 ltac:(eapply (P_SRead _ _ _ _ _ _ true); reflexivity)). vm_compute in R5.
  eexists _, _. split; [exact R5|]. repeat split.
Qed.
Print Assumptions C46_ping_race_refuted.
(** So does giving up on the first Open (its context ends) and then sending anything. *)
Theorem C46_abandon_refuted :
  exists es s, prun true true newPConn es s /\ es = [PEOpen; PEAbandon; PERead; PERead; PERead; PESend; PERead] /\ pc_bad s = true.
Proof.
  assert (R := pr_refl true true newPConn).
  assert (R1 := pr_step _ _ _ _ _ _ _ R ltac:(apply P_Open)). vm_compute in R1.
  assert (R2 := pr_step _ _ _ _ _ _ _ R1 ltac:(apply (P_Abandon _ _ _ 0))). vm_compute in R2.
  assert (R3 := pr_step _ _ _ _ _ _ _ R2 ltac:(eapply (P_SRead _ _ _ _ _ _ true); reflexivity)). vm_compute in R3.
  assert (R4 := pr_step _ _ _ _ _ _ _ R3 ltac:(eapply P_SAck; reflexivity)). vm_compute in R4.
  assert (R5 := pr_step _ _ _ _ _ _ _ R4 ltac:(eapply P_CRead; reflexivity)). vm_compute in R5.
  assert (R6 := pr_step _ _ _ _ _ _ _ R5 ltac:(apply P_Send)). vm_compute in R6.
  assert (R7 := pr_step _ _ _ _ _ _ _ R6 ltac:(eapply (P_SRead _ _ _ _ _ _ true); reflexivity)). vm_compute in R7.
  eexists _, _. split; [exact R7|]. repeat split.
Qed.
Print Assumptions C46_abandon_refuted.

(** It is not a matter of schedule: on a packed connection that is in sync exactly one session was
    ever opened. *)
Definition open_unpacked (x : bool * pmsg) : Prop := match snd x with PMOpen _ => fst x = false | _ => True end.
Record oinv (s : pconn) : Prop := {
  oi_up : Forall open_unpacked (pc_up s);
  oi_one : pc_bad s = false -> pc_sen s = true -> pc_sids s = 2;
  oi_sids : 1 <= pc_sids s
}.
Lemma oinv_step use allow s e s' : oinv s -> pstep use allow s e s' -> oinv s'.
Proof.
  intros [U O N] ST. destruct ST.
  - split; cbn; auto. apply Forall_app. split; auto. constructor; auto. unfold open_unpacked. cbn. unfold c_packs. rewrite andb_false_r. auto.
  - split; cbn; auto. apply Forall_app. split; auto. constructor; cbn; auto.
  - split; cbn; auto.
  - split; cbn; auto.
  - rewrite H0 in U. inversion U as [|? ? U1 U2]; subst. destruct m as [oid|? ? ?|]; unfold p_handleOpen.
    + destruct served; split; cbn; auto; try lia.
      * intros B. apply orb_false_iff in B. destruct B as (B & E). cbn in U1. unfold open_unpacked in U1. cbn in U1. subst b.
        destruct (pc_sen s); [discriminate|]. cbn. destruct (Z.eqb_spec (pc_sids s) 1) as [->|]; cbn; auto. discriminate.
      * intros B. apply orb_false_iff in B. tauto.
    + split; cbn; auto. intros B. apply orb_false_iff in B. tauto.
    + split; cbn; auto. intros B. apply orb_false_iff in B. tauto.
  - split; cbn; auto.
  - destruct m as [oid|oid ok packing|]; unfold p_handleAck.
    + split; cbn; auto. intros B. apply orb_false_iff in B. tauto.
    + destruct (existsb _ _), ok, (pc_neg s); split; cbn; auto; intros B; apply orb_false_iff in B; tauto.
    + split; cbn; auto. intros B. apply orb_false_iff in B. tauto.
Qed.
Theorem C46_single_session use allow es s :
  prun use allow newPConn es s -> pc_bad s = false -> pc_sen s = true -> pc_sids s = 2.
Proof.
  intros R. apply oi_one. remember newPConn as s0 eqn:E. induction R; subst; [|eapply oinv_step; eauto].
  split; cbn; auto; [discriminate|lia].
Qed.
Print Assumptions C46_single_session.

(** ** What holds.  Without negotiation the ends are always in sync. *)
Definition plain (x : bool * pmsg) : Prop := fst x = false /\ match snd x with PMAck _ _ p => p = false | _ => True end.
Record ninv (s : pconn) : Prop := {
  ni_c : pc_cen s = false; ni_s : pc_sen s = false; ni_b : pc_bad s = false;
  ni_up : Forall plain (pc_up s); ni_dn : Forall plain (pc_down s);
  ni_a : match pc_ack s with Some m => plain (false, m) | None => True end
}.
Theorem C46_not_negotiated use allow es s :
  use && allow = false -> prun use allow newPConn es s -> pc_cen s = false /\ pc_sen s = false /\ pc_bad s = false.
Proof.
  intros UA R. enough (ninv s) as [A B C _ _ _] by auto. remember newPConn as s0 eqn:E.
  induction R as [|s0 es s1 e s2 R IH ST]; subst; [split; cbn; auto|]. specialize (IH eq_refl). destruct IH as [A B C U D K].
  assert (SN : forall l m, Forall plain l -> plain (false, m) -> Forall plain (l ++ [(false, m)])) by (intros; apply Forall_app; auto).
  destruct ST.
  - split; cbn; auto. unfold c_packs. cbn. rewrite A. apply SN; auto. split; cbn; auto.
  - split; cbn; auto. unfold c_packs. cbn. rewrite A. apply SN; auto. split; cbn; auto.
  - split; cbn; auto.
  - split; cbn; auto. unfold s_packs. cbn. rewrite B. apply SN; auto. split; cbn; auto.
  - rewrite H0 in U. inversion U as [|? ? (U1 & U3) U2]; subst. cbn in U1. subst b. destruct m as [oid|? ? ?|]; unfold p_handleOpen.
    + assert (X : (pc_sids s =? 1) && use && allow = false) by (rewrite <- andb_assoc, UA; apply andb_false_r).
      destruct served; split; cbn; rewrite ?B, ?C, ?X; auto. split; cbn; auto. split; cbn; auto.
    + split; cbn; rewrite ?B, ?C; auto.
    + split; cbn; rewrite ?B, ?C; auto.
  - rewrite H in K. split; cbn; auto. unfold s_packs. cbn. rewrite B. apply SN; auto.
  - rewrite H in D. inversion D as [|? ? (U1 & U3) U2]; subst. cbn in U1, U3. subst b. destruct m as [oid|oid ok packing|]; unfold p_handleAck.
    + split; cbn; rewrite ?A, ?C; auto.
    + subst packing. destruct (existsb _ _), ok, (pc_neg s); split; cbn; rewrite ?A, ?C, ?andb_false_r; auto.
    + split; cbn; rewrite ?A, ?C; auto.
Qed.
Print Assumptions C46_not_negotiated.

(** With packing, the ends stay in sync if the client opens one session at a time, sends nothing
    while it waits for the answer, never gives up waiting, opens none after the first accepted one,
    and the server sends nothing between accepting the session and acknowledging it. *)
Definition calm (s : pconn) (e : pevent) : Prop :=
  match e with
  | PEOpen => pc_neg s = false /\ pc_pending s = []
  | PESend => pc_pending s = []
  | PEAbandon => False
  | PEServer => pc_ack s = None
  | PERead => True
  end.
Definition bits (b : bool) (l : list (bool * pmsg)) : Prop := Forall (fun x => x = (b, PMOther)) l.
Inductive phase (s : pconn) : Prop :=
| Ph_idle : pc_pending s = [] -> pc_ack s = None -> (pc_neg s = false -> pc_sen s = false /\ pc_sids s = 1) ->
    pc_cen s = pc_sen s -> bits (pc_sen s) (pc_up s) -> bits (pc_sen s) (pc_down s) -> phase s
| Ph_open oid u : pc_pending s = [oid] -> pc_ack s = None -> pc_neg s = false -> pc_cen s = false -> pc_sen s = false -> pc_sids s = 1 ->
    pc_up s = u ++ [(false, PMOpen oid)] -> bits false u -> bits false (pc_down s) -> phase s
| Ph_ack oid ok : pc_pending s = [oid] -> pc_ack s = Some (PMAck oid ok (pc_sen s)) -> pc_neg s = false -> pc_cen s = false ->
    (ok = false -> pc_sen s = false /\ pc_sids s = 1) ->
    pc_up s = [] -> bits false (pc_down s) -> phase s
| Ph_down oid ok u v : pc_pending s = [oid] -> pc_ack s = None -> pc_neg s = false -> pc_cen s = false ->
    (ok = false -> pc_sen s = false /\ pc_sids s = 1) ->
    pc_up s = [] -> pc_down s = u ++ (false, PMAck oid ok (pc_sen s)) :: v -> bits false u -> bits (pc_sen s) v -> phase s.
Lemma bits_snoc b l : bits b l -> bits b (l ++ [(b, PMOther)]).
Proof. intros H. apply Forall_app. split; [exact H|constructor; [reflexivity|constructor]]. Qed.
Definition pwf (use allow : bool) (s : pconn) : Prop := pc_bad s = false /\ (pc_sen s = true -> use = true) /\ phase s.
Lemma calm_step use allow s e s' : pwf use allow s -> calm s e -> pstep use allow s e s' -> pwf use allow s'.
Proof.
  intros (B & US & P) K ST. destruct ST as [s|s|s oid0|s|s b m q served H H0|s m H|s b m q H]; cbn in K; destruct P as [P1 P2 P3 P4 P5 P6|oid u P1 P2 P3 P4 P5 P6 P7 P8 P9|oid ok P1 P2 P3 P4 P5 P6 P7|oid ok u v P1 P2 P3 P4 P5 P6 P7 P8 P9]; try congruence; try contradiction.
  - destruct K as (K1 & K2). split; [|split]; auto. destruct (P3 K1) as (S0 & S1). rewrite S0 in *.
    apply (Ph_open _ (pc_next s) (pc_up s)); cbn; auto; try congruence. unfold c_packs. cbn. rewrite andb_false_r. auto.
  - destruct K; congruence.
  - destruct K; congruence.
  - destruct K; congruence.
  - split; [|split]; auto. apply Ph_idle; cbn; auto. unfold c_packs. cbn. rewrite P4, andb_true_r. apply bits_snoc. auto.
  - split; [|split]; auto. apply Ph_idle; cbn; auto. unfold s_packs. cbn. rewrite andb_true_r. apply bits_snoc. auto.
  - split; [|split]; auto. apply (Ph_open _ oid u); cbn; auto. unfold s_packs. cbn. rewrite P5. apply bits_snoc. auto.
  - split; [|split]; auto. apply (Ph_down _ oid ok u (v ++ [(pc_sen s, PMOther)])); cbn; auto.
    + rewrite P7. unfold s_packs. cbn. rewrite andb_true_r, <- app_assoc. reflexivity.
    + apply bits_snoc. auto.
  - rewrite H0 in P5. inversion P5 as [|x l E F]; subst. injection E as -> ->. split; [|split]; cbn; auto.
    + rewrite B, eqb_reflx. auto.
    + apply Ph_idle; cbn; auto.
  - rewrite H0 in P7. destruct u as [|x u]; cbn in P7.
    + injection P7 as -> -> ->. unfold p_handleOpen. rewrite P5, P6. cbn. destruct served.
      * split; [|split]; cbn; rewrite ?B, ?P5; auto.
        -- destruct use; auto.
        -- apply (Ph_ack _ oid true); cbn; auto. discriminate.
      * split; [|split]; cbn; rewrite ?B, ?P5; auto; try discriminate. apply (Ph_ack _ oid false); cbn; auto.
    + injection P7 as <- ->. inversion P8 as [|y l E F]; subst. injection E as -> ->. split; [|split]; cbn; auto.
      * rewrite B, P5. auto.
      * apply (Ph_open _ oid u); cbn; auto.
  - rewrite H in P2. injection P2 as ->. split; [|split]; auto.
    apply (Ph_down _ oid ok (pc_down s) []); cbn; auto; [|constructor]. unfold s_packs. cbn. rewrite andb_false_r. auto.
  - rewrite H in P6. inversion P6 as [|x l E F]; subst. injection E as -> ->. split; [|split]; cbn; auto; [rewrite B, P4, eqb_reflx; auto|apply Ph_idle; cbn; auto].
  - rewrite H in P9. inversion P9 as [|x l E F]; subst. injection E as -> ->. split; [|split]; cbn; auto; [rewrite B, P4; auto|apply (Ph_open _ oid u); cbn; auto].
  - rewrite H in P7. inversion P7 as [|x l E F]; subst. injection E as -> ->. split; [|split]; cbn; auto; [rewrite B, P4; auto|apply (Ph_ack _ oid ok); cbn; auto].
  - rewrite H in P7. destruct u as [|x u]; cbn in P7.
    + injection P7 as -> -> ->. unfold p_handleAck. rewrite P1. cbn. rewrite Z.eqb_refl. cbn. destruct ok.
      * rewrite P3. split; [|split]; cbn; rewrite ?B, ?P4; auto. apply Ph_idle; cbn; rewrite ?Z.eqb_refl; auto.
        -- destruct (pc_sen s); [rewrite US; auto|apply andb_false_r].
        -- rewrite P6. constructor.
      * destruct (P5 eq_refl) as (S0 & S1). split; [|split]; cbn; rewrite ?B, ?P4; auto. apply Ph_idle; cbn; rewrite ?Z.eqb_refl; auto.
        -- congruence.
    + injection P7 as <- ->. inversion P8 as [|y l E F]; subst. injection E as -> ->. split; [|split]; cbn; auto; [rewrite B, P4; auto|].
      apply (Ph_down _ oid ok u v); cbn; auto.
Qed.
Theorem C46_calm_partial use allow s : prun_in use allow calm newPConn s -> pc_bad s = false.
Proof.
  intros R. enough (pwf use allow s) as (B & _) by auto. remember newPConn as s0 eqn:E. induction R; subst.
  - split; [|split]; cbn; auto; [discriminate|]. apply Ph_idle; cbn; auto; constructor.
  - eapply calm_step; eauto.
Qed.
Print Assumptions C46_calm_partial.
Example C46_calm_example : exists s, prun_in true true calm newPConn s /\ pc_cen s = true /\ pc_sen s = true /\ pc_up s = [(true, PMOther)] /\ pc_down s = [(true, PMOther)].
Proof.
  assert (R := pri_refl true true calm newPConn).
  assert (R1 := pri_step _ _ _ _ _ PEOpen _ R ltac:(cbn; auto) ltac:(apply P_Open)). vm_compute in R1.
  assert (R2 := pri_step _ _ _ _ _ PERead _ R1 I ltac:(eapply (P_SRead _ _ _ _ _ _ true); reflexivity)). vm_compute in R2.
  assert (R3 := pri_step _ _ _ _ _ PERead _ R2 I ltac:(eapply P_SAck; reflexivity)). vm_compute in R3.
  assert (R4 := pri_step _ _ _ _ _ PERead _ R3 I ltac:(eapply P_CRead; reflexivity)). vm_compute in R4.
  assert (R5 := pri_step _ _ _ _ _ PESend _ R4 eq_refl ltac:(apply P_Send)). vm_compute in R5.
  assert (R6 := pri_step _ _ _ _ _ PEServer _ R5 eq_refl ltac:(apply P_Server)). vm_compute in R6.
  eexists. split; [exact R6|]. repeat split.
Qed.
