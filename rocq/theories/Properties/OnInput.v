(** C152: a struct from Unmarshal lives on the slice it was given. *)
From Coq Require Import List.
From Verif.Spec Require Import OnInput.
From Verif.Proofs Require Import OnInput.
Import ListNotations.

(** Unmarshal of a slice that starts with a marshalled message gives a struct that stands for
    the message.  Legal calls on it then do what they do on any struct that stands for it, and
    change no byte but those from the start of the slice up to its capacity: slices in other
    arrays, in front of it, or behind its capacity show the same bytes as before. *)
Theorem C152_on_input h v0 n data m l :
  New n = Ok (load h v0) -> wf h data -> holds h data m -> Forall direct l -> ok_run n 0 m l ->
  exists v h' v', m_Unmarshal h v0 data = Ok v /\ reached n (load h v) m /\
    m_run h v l = Ok (h', v') /\ run (load h v) l = Ok (load h' v') /\ reached n (load h' v') (sem m l) /\
    forall s, wf h s -> clear_of s data -> view h' s = view h s.
Proof.
  intros EN W (n0 & w & w' & b & rest & RW & EM & EV) HD HO.
  destruct (reached_unmarshal n0 n w m rest RW) as (w2 & b2 & s0 & t & EM2 & EN2 & EU & RT).
  rewrite EM in EM2. injection EM2 as <- <-. rewrite EN in EN2. injection EN2 as <-.
  rewrite <- EV in EU. destruct (m_Unmarshal_ok _ _ _ _ W EU) as (v & E & EL & WV & A1 & A2 & A3).
  rewrite <- EL in RT. destruct (run_clear h v n m l WV RT HD HO) as (h' & v' & E1 & E2 & R' & C).
  exists v, h', v'. split; auto. split; auto. split; auto. split; auto. split; auto.
  intros s Ws Cs. apply C; auto. unfold clear_of in *. now rewrite A1, A2, A3.
Qed.
(** Two structs on two slices of one buffer, each with a capacity of its own (buf[i:j:j]): calls on the one leave the other alone. *)
Theorem C152_two_messages h v0 v0' n n' d1 d2 m1 m2 l :
  New n = Ok (load h v0) -> New n' = Ok (load h v0') -> wf h d1 -> wf h d2 -> holds h d1 m1 -> holds h d2 m2 -> clear_of d2 d1 ->
  Forall direct l -> ok_run n 0 m1 l ->
  exists v1 v2 h' v1', m_Unmarshal h v0 d1 = Ok v1 /\ m_Unmarshal h v0' d2 = Ok v2 /\ m_run h v1 l = Ok (h', v1') /\
    reads_as h' v1' n (sem m1 l) /\ reads_as h' v2 n' m2.
Proof.
  intros EN EN' W1 W2 H1 H2 C HD HO. destruct (C152_on_input _ _ _ _ _ _ EN W1 H1 HD HO) as (v1 & h' & v1' & E1 & _ & E2 & _ & R & F).
  destruct (C152_on_input _ _ _ _ _ [] EN' W2 H2 (Forall_nil _) I) as (v2 & _ & _ & E3 & R2 & _).
  exists v1, v2, h', v1'. split; auto. split; auto. split; auto.
  assert (EL : load h' v2 = load h v2).
  { unfold m_Unmarshal in E3. apply bind_Ok_inv in E3. destruct E3 as (st & EU & E3). injection E3 as <-.
    destruct (Unmarshal_data _ _ _ EU) as (k & K & D & L). pose proof (len_view _ _ W2) as LV. unfold load. cbn [v_sl v_st]. f_equal.
    apply F.
    - destruct W2 as (A & B & X & Y). apply wf_reslice; [repeat split; auto; lia|lia].
    - unfold clear_of in *. cbn [reslice sl_arr sl_off sl_len]. lia. }
  split; intros q r HE; [|rewrite EL]; eapply reached_answer; eauto.
Qed.

(** Two messages one behind the other in a buffer, as read from a connection: the slice of the
    first has the capacity to the end of the buffer, and a call on the first struct writes over
    the second message. *)
Theorem C152_neighbours_refuted :
  ~ (forall h v0 n d1 d2 m1 m2 o v1 h' v1',
       New n = Ok (load h v0) -> wf h d1 -> wf h d2 -> holds h d1 m1 -> holds h d2 m2 ->
       sl_arr d1 = sl_arr d2 -> sl_off d1 + sl_len d1 = sl_off d2 ->
       m_Unmarshal h v0 d1 = Ok v1 -> direct o -> ok_op n 0 m1 o -> m_do_op h v1 o = Ok (h', v1') ->
       exists s, Unmarshal (load h v0) (view h' d2) = Ok s /\ reached n s m2).
Proof.
  intros H.
  destruct (build 3 [OScalar 0 KI32 5]) as [w| | |] eqn:EB; [|vm_compute in EB; discriminate EB..].
  assert (RW : reached 3 w [(0, VScalar KI32 5)]).
  { unfold build in EB. apply bind_Ok_inv in EB. destruct EB as (s0 & EN & EB). cbn [run] in EB.
    apply bind_Ok_inv in EB. destruct EB as (s1 & E1 & EB). injection EB as <-.
    change [(0, VScalar KI32 5)] with (apply_op [] (OScalar 0 KI32 5)). eapply R_op; eauto; [now constructor|].
    cbn [ok_op]. repeat apply conj; try (vm_compute; reflexivity); try (vm_compute; discriminate). }
  destruct (reached_marshal _ _ _ RW) as (w' & g & EM & _).
  set (b := st_data w) in *.
  assert (LB : len b = 16) by (unfold b; vm_compute in EB; injection EB as <-; reflexivity).
  set (h := [b ++ b; hdr 0 FTStruct 8]).
  set (v0 := mkV (mkSl 1 0 8 8) (mkStruct [] (repeat fe_zero 3) false false None false [])).
  assert (V1 : view h (mkSl 0 0 16 32) = b ++ []).
  { unfold b. vm_compute in EB. injection EB as <-. reflexivity. }
  assert (V2 : view h (mkSl 0 16 16 16) = b ++ []).
  { unfold b. vm_compute in EB. injection EB as <-. reflexivity. }
  assert (H1 : holds h (mkSl 0 0 16 32) [(0, VScalar KI32 5)]) by (exists 3%nat, w, w', b, []; auto).
  assert (H2 : holds h (mkSl 0 16 16 16) [(0, VScalar KI32 5)]) by (exists 3%nat, w, w', b, []; auto).
  assert (W1 : wf h (mkSl 0 0 16 32)).
  { unfold wf, h, array. cbn [nth sl_arr sl_off sl_len sl_cap length]. rewrite len_app. repeat split; lia. }
  assert (W2 : wf h (mkSl 0 16 16 16)).
  { unfold wf, h, array. cbn [nth sl_arr sl_off sl_len sl_cap length]. rewrite len_app. repeat split; lia. }
  destruct (m_Unmarshal h v0 (mkSl 0 0 16 32)) as [v1| | |] eqn:E1;
    [|exfalso; unfold h, b in E1; vm_compute in EB; injection EB as <-; vm_compute in E1; discriminate E1..].
  destruct (m_do_op h v1 (OScalar 1 KI32 9)) as [[h' v1']| | |] eqn:E2;
    [|exfalso; unfold h, b in E1, E2; vm_compute in EB; injection EB as <-; vm_compute in E1; injection E1 as <-; vm_compute in E2; discriminate E2..].
  destruct (H h v0 3%nat _ _ _ _ (OScalar 1 KI32 9) v1 h' v1' eq_refl W1 W2 H1 H2 eq_refl eq_refl E1 I) as (s & E & _); [| |].
  - cbn [ok_op]. repeat apply conj; try (vm_compute; reflexivity); try (vm_compute; discriminate).
  - exact E2.
  - unfold h, b in E1, E2, E. vm_compute in EB. injection EB as <-. vm_compute in E1. injection E1 as <-. vm_compute in E2.
    injection E2 as <- <-. vm_compute in E. discriminate.
Qed.
(** The hypotheses of C152_two_messages are met by a buffer with two messages. *)
Example two_messages_met : exists h v0 d1 d2 m,
  New 3 = Ok (load h v0) /\ wf h d1 /\ wf h d2 /\ holds h d1 m /\ holds h d2 m /\ clear_of d2 d1 /\ sl_arr d1 = sl_arr d2 /\ m <> [] /\
  ok_run 3 0 m [OScalar 1 KI32 9].
Proof.
  destruct (build 3 [OScalar 0 KI32 5]) as [w| | |] eqn:EB; [|vm_compute in EB; discriminate EB..].
  assert (RW : reached 3 w [(0, VScalar KI32 5)]).
  { unfold build in EB. apply bind_Ok_inv in EB. destruct EB as (s0 & EN & EB). cbn [run] in EB.
    apply bind_Ok_inv in EB. destruct EB as (s1 & E1 & EB). injection EB as <-.
    change [(0, VScalar KI32 5)] with (apply_op [] (OScalar 0 KI32 5)). eapply R_op; eauto; [now constructor|].
    cbn [ok_op]. repeat apply conj; try (vm_compute; reflexivity); try (vm_compute; discriminate). }
  destruct (reached_marshal _ _ _ RW) as (w' & g & EM & _).
  exists [st_data w ++ st_data w; hdr 0 FTStruct 8], (mkV (mkSl 1 0 8 8) (mkStruct [] (repeat fe_zero 3) false false None false [])),
    (mkSl 0 0 16 16), (mkSl 0 16 16 16), [(0, VScalar KI32 5)].
  assert (LB : len (st_data w) = 16) by (vm_compute in EB; injection EB as <-; reflexivity).
  assert (V : forall o, o = 0 \/ o = 16 -> view [st_data w ++ st_data w; hdr 0 FTStruct 8] (mkSl 0 o 16 16) = st_data w ++ []).
  { vm_compute in EB. injection EB as <-. intros o [->| ->]; reflexivity. }
  split; [reflexivity|].
  split; [unfold wf, array; cbn [nth sl_arr sl_off sl_len sl_cap length]; rewrite len_app; repeat split; lia|].
  split; [unfold wf, array; cbn [nth sl_arr sl_off sl_len sl_cap length]; rewrite len_app; repeat split; lia|].
  split; [exists 3%nat, w, w', (st_data w), []; auto|]. split; [exists 3%nat, w, w', (st_data w), []; auto|].
  split; [right; left; cbn; lia|]. split; [reflexivity|]. split; [discriminate|].
  cbn [ok_run ok_op]. repeat apply conj; try exact I; try (vm_compute; reflexivity); try (vm_compute; discriminate).
Qed.

Print Assumptions C152_on_input.
Print Assumptions C152_two_messages.
Print Assumptions C152_neighbours_refuted.
