(** Structs on a slice of the caller: what calls on them change. *)
From Verif.Spec Require Export OnInput.
From Verif.Proofs Require Export ViewProofs.

Lemma view_put_clear h s v d : wf h s -> wf h v -> clear_of s v -> len d <= sl_cap v -> view (put h v d) s = view h s.
Proof.
  intros (SA & SO & SL & SE) (VA & VO & VL & VE) C L. unfold view.
  destruct (Nat.eq_dec (sl_arr s) (sl_arr v)) as [E|N]; [|now rewrite array_put_ne].
  rewrite E, array_put_eq by auto. rewrite E in SE. pose proof (len_nonneg d) as LD.
  set (a := array h (sl_arr v)) in *.
  destruct C as [C|[C|C]]; [contradiction| |].
  - f_equal. rewrite drop_app_r by (rewrite len_take; lia). rewrite len_take by lia. rewrite drop_app_r by lia.
    rewrite drop_drop by lia. f_equal. lia.
  - rewrite drop_app_l by (rewrite len_take; lia). rewrite take_app_l by (rewrite len_drop, len_take by (rewrite ?len_take; lia); lia).
    rewrite <- (take_drop (sl_off v) a) at 2. rewrite drop_app_l by (rewrite len_take; lia).
    rewrite take_app_l by (rewrite len_drop, len_take by (rewrite ?len_take; lia); lia). reflexivity.
Qed.
Lemma wf_put_any h s v d : wf h v -> len d <= sl_cap v -> wf h s -> wf (put h v d) s.
Proof. intros W L (A & B & C & D). unfold wf. rewrite put_length, len_array_put by auto. auto. Qed.
Lemma run_clear h v n m l :
  wf h (v_sl v) -> reached n (load h v) m -> Forall direct l -> ok_run n 0 m l ->
  exists h' v', m_run h v l = Ok (h', v') /\ run (load h v) l = Ok (load h' v') /\
    reached n (load h' v') (sem m l) /\
    forall s, wf h s -> clear_of s (v_sl v) -> wf h' s /\ view h' s = view h s.
Proof.
  revert h v m. induction l as [|o l IH]; intros h v m W HR HD HO; cbn [m_run run].
  - eexists _, _. split; [reflexivity|]. auto.
  - inv HD. destruct HO as [HO1 HO2].
    destruct (reached_good _ _ _ HR) as (g & Hg & S & F).
    destruct (op_sim_all o _ _ _ _ [] S HO1 (fun _ => F)) as (s' & E & S' & F').
    destruct (m_do_op_ok _ _ _ _ _ _ _ _ W S F H1 E) as (h1 & v1 & E2 & L & A).
    rewrite E2, E, !bind_Ok. rewrite <- L.
    assert (W1 : wf h1 (v_sl v1)) by (eapply lands_view; eauto).
    assert (R1 : reached n (load h1 v1) (apply_op m o)) by (rewrite L; eapply R_op; eauto).
    destruct (IH h1 v1 (apply_op m o)) as (h' & v' & E3 & E4 & R3 & C3); auto.
    exists h', v'. split; auto. split; auto. split; auto.
    intros s Ws Cs. assert (X : wf h1 s /\ view h1 s = view h s /\ clear_of s (v_sl v1)).
    { destruct A as [(LD & -> & ->)|(LD & z & -> & ->)].
      - split; [now apply wf_put_any|]. split; [now apply view_put_clear|]. exact Cs.
      - split; [now apply wf_app|]. split; [apply view_app; apply Ws|]. left. cbn. destruct Ws as (Ws & _). lia. }
    destruct X as (X1 & X2 & X3). destruct (C3 s X1 X3) as [Y1 Y2]. split; congruence.
Qed.
Lemma Unmarshal_data s b t : Unmarshal s b = Ok t -> exists k, 0 <= k <= len b /\ st_data t = take k b /\ len (st_data t) = k.
Proof.
  unfold Unmarshal. intros E. destruct (len b <? HeaderSize); [discriminate|].
  apply bind_Ok_inv in E. destruct E as (x & _ & E). apply bind_Ok_inv in E. destruct E as ([[fn ft] k] & _ & E).
  destruct (negb _); [discriminate|]. destruct (k >? len b) eqn:Q; [discriminate|].
  apply bind_Ok_inv in E. destruct E as (d & ES & E). injection E as <-. cbn [st_data with_data with_parsed].
  unfold slice in ES. destruct ((0 <=? 0) && (0 <=? k) && (k <=? len b)) eqn:Q2; [|discriminate]. injection ES as <-.
  exists k. rewrite Z.sub_0_r. split; [lia|]. change (drop 0 b) with b. split; [reflexivity|]. apply len_take. lia.
Qed.
Lemma m_Unmarshal_ok h v0 data t : wf h data -> Unmarshal (load h v0) (view h data) = Ok t ->
  exists v, m_Unmarshal h v0 data = Ok v /\ load h v = t /\ wf h (v_sl v) /\
    sl_arr (v_sl v) = sl_arr data /\ sl_off (v_sl v) = sl_off data /\ sl_cap (v_sl v) = sl_cap data.
Proof.
  intros W E. destruct (Unmarshal_data _ _ _ E) as (k & K & D & L). unfold m_Unmarshal. rewrite E, bind_Ok.
  eexists. split; [reflexivity|]. cbn [v_sl]. pose proof (len_view _ _ W) as LV.
  destruct W as (A & B & C & X). split; [|split; [apply wf_reslice; [repeat split; auto; lia|lia]|auto]].
  unfold load. cbn [v_sl v_st]. rewrite L. rewrite <- (with_data_id t) at 2. f_equal. rewrite D. unfold view. cbn [reslice sl_len sl_off sl_arr].
  rewrite take_take; [reflexivity|lia].
Qed.
