(** C151: structs that are released and handed out again by New. *)
From Coq Require Import List.
From Verif.Spec Require Import Recycle.
From Verif.Proofs Require Import Recycle.
From Verif.Properties Require Import Alias.
Import ListNotations.

(** In every program of New, legal calls, MarshalSafe and Release, on any number of structs of
    one mapping in any order, with any choice of the pool, nothing panics; every struct that
    was not released is the one its own calls since New make of a fresh struct, whatever the
    memory it got held before; and every slice from MarshalSafe still has the bytes of the
    struct it was made from, also when that was released and its memory is used again. *)
Theorem C151_as_new n h es : lawful n es ->
  exists w, w_run n (mkW h [] [] []) es = Ok w /\
    Forall2 (as_new n w.(w_heap)) w.(w_live) (fst (notes es)) /\
    Forall2 (bytes_of n w.(w_heap)) w.(w_held) (snd (notes es)).
Proof.
  intros HL. destruct (run_ok n (length h) es _ _ (start_ok n h) HL) as (w & E & I & _). exists w. split; auto.
  destruct I as [L H _ _ _ _]. split.
  - eapply Forall2_impl2; [|exact L]. intros v l _ (_ & A & _). exact A.
  - eapply Forall2_impl2; [|exact H]. intros v l _ (_ & A). exact A.
Qed.
(** Every struct stands for the message of its own calls. *)
Theorem C151_message n h es w : lawful n es -> w_run n (mkW h [] [] []) es = Ok w ->
  Forall2 (fun v l => reached n (load w.(w_heap) v) (sem [] l)) w.(w_live) (fst (notes es)).
Proof.
  intros HL E0. destruct (run_ok n (length h) es _ _ (start_ok n h) HL) as (w' & E & I & _). rewrite E0 in E. injection E as <-.
  destruct I as [L _ _ _ _ _]. eapply Forall2_impl2; [|exact L]. intros v l _ (_ & _ & R). exact R.
Qed.
(** Such a program changes no byte that was in memory before. *)
Theorem C151_elsewhere n h es w s : lawful n es -> w_run n (mkW h [] [] []) es = Ok w -> wf h s ->
  view w.(w_heap) s = view h s.
Proof.
  intros HL E0 W. destruct (run_ok n (length h) es _ _ (start_ok n h) HL) as (w' & E & _ & O). rewrite E0 in E. injection E as <-.
  apply (O s W). apply W.
Qed.
(** Two live structs never share memory, nor does one with the pool or with kept bytes. *)
Theorem C151_apart n h es w : lawful n es -> w_run n (mkW h [] [] []) es = Ok w ->
  NoDup (map sl_arr (map v_sl w.(w_live) ++ w.(w_pool) ++ w.(w_held))).
Proof.
  intros HL E0. destruct (run_ok n (length h) es _ _ (start_ok n h) HL) as (w' & E & I & _). rewrite E0 in E. injection E as <-.
  destruct I as [_ _ _ A _ _]. unfold arrs in A. now rewrite !map_app, map_map.
Qed.

(** The slice that Marshal returned is the memory of the struct: after Release it does not
    start with a struct header any more, and nobody can unmarshal it. *)
Lemma cleared_view h s : wf h s -> 8 <= sl_len s -> view (put h s (zeros 8)) s = zeros 8 ++ drop 8 (view h s).
Proof.
  intros W L. rewrite <- (put_tail h s (zeros 8)); [|auto|exact L]. apply view_put_same; auto.
  pose proof (len_view _ _ W) as LV. rewrite len_app, len_drop; [|split; [discriminate|change (len (zeros 8)) with 8; lia]].
  change (len (zeros 8)) with 8. lia.
Qed.
Lemma cleared_unmarshal s x : Unmarshal s (zeros 8 ++ x) = Err.
Proof.
  unfold Unmarshal. rewrite len_app. pose proof (len_nonneg x). change (len (zeros 8)) with 8. unfold HeaderSize.
  replace (8 + len x <? 8) with false by lia. unfold slice. rewrite len_app. change (len (zeros 8)) with 8.
  replace ((0 <=? 0) && (0 <=? 8) && (8 <=? 8 + len x)) with true by lia.
  change (take (8 - 0) (drop 0 (zeros 8 ++ x))) with (zeros 8). reflexivity.
Qed.
Theorem C151_marshal_lost h v n m h' s : wf h (v_sl v) -> reached n (load h v) m -> m_Release h v = Ok (h', s) ->
  view h' (v_sl v) = zeros 8 ++ drop 8 (view h (v_sl v)) /\ forall s0, Unmarshal s0 (view h' (v_sl v)) = Err.
Proof.
  intros W R E. pose proof (reached_room _ _ _ _ W R) as L. unfold m_Release, m_Reset in E.
  destruct (sl_cap (v_sl v) <? 8); [discriminate|]. injection E as <- <-.
  rewrite cleared_view by auto. split; [reflexivity|]. intros s0. apply cleared_unmarshal.
Qed.
(** So is the slice that was given to Unmarshal; and it is in the pool for the next struct. *)
Theorem C151_input_lost h v0 data v h' s : wf h data -> m_Unmarshal h v0 data = Ok v -> m_Release h v = Ok (h', s) ->
  s = reslice data 8 /\ view h' data = zeros 8 ++ drop 8 (view h data) /\ forall s0, Unmarshal s0 (view h' data) = Err.
Proof.
  intros W E ER. unfold m_Unmarshal in E. apply bind_Ok_inv in E. destruct E as (st & EU & E). injection E as <-.
  assert (L : 8 <= sl_len data).
  { rewrite <- (len_view _ _ W). unfold Unmarshal, HeaderSize in EU. destruct (len (view h data) <? 8) eqn:Q; [discriminate|]. lia. }
  unfold m_Release, m_Reset in ER. cbn [v_sl] in ER. change (sl_cap (reslice data (len (st_data st)))) with (sl_cap data) in ER.
  destruct (sl_cap data <? 8); [discriminate|]. injection ER as <- <-. split; [reflexivity|].
  change (put h (reslice data (len (st_data st))) (zeros 8)) with (put h data (zeros 8)).
  rewrite cleared_view by auto. split; [reflexivity|]. intros s0. apply cleared_unmarshal.
Qed.

(** Release of a struct from GetNestedStruct takes the field away from its parent. *)
Theorem C151_nested_refuted :
  ~ (forall h p n m f c n' p' v h' s, child_of h p n m f c n' p' v -> m_Release h v = Ok (h', s) ->
       forall s1 b s0 t, Marshal (load h' p') = Ok (s1, b) -> New n = Ok s0 -> Unmarshal s0 b = Ok t ->
       forall q r, expects n m q r -> answer t q = r).
Proof.
  intros H. example_state HC.
  match type of HC with child_of ?h _ _ _ _ _ _ ?p ?v =>
    destruct (m_Release h v) as [[h' s]| | |] eqn:ED; [|vm_compute in ED; discriminate ED..];
    destruct (Marshal (load h' p)) as [[s1 b]| | |] eqn:EM;
      [|exfalso; vm_compute in ED; injection ED as <- <-; vm_compute in EM; discriminate EM..] end.
  destruct (New 3) as [s0| | |] eqn:EN; [|vm_compute in EN; discriminate EN..].
  destruct (Unmarshal s0 b) as [t| | |] eqn:EU;
    [|exfalso; vm_compute in ED; injection ED as <- <-; vm_compute in EM; injection EM as <- <-;
      vm_compute in EN; injection EN as <-; vm_compute in EU; discriminate EU..].
  refine (_ (H _ _ _ _ _ _ _ _ _ _ _ HC ED _ _ _ _ EM EN EU (QScalar 2 KI32) (Ok (ANum 7)) _)).
  - vm_compute in ED. injection ED as <- <-. vm_compute in EM. injection EM as <- <-.
    vm_compute in EN. injection EN as <-. vm_compute in EU. injection EU as <-. vm_compute. discriminate.
  - legal.
Qed.
(** After a second Release of one struct, two later ones have the same memory: a call on one
    shows in the other. *)
Theorem C151_twice_refuted :
  ~ (forall n h h0 v h1 s1 h2 s2 h3 a h4 b o h5 a',
       m_New h n = Ok (h0, v) -> m_Release h0 v = Ok (h1, s1) -> m_Release h1 v = Ok (h2, s2) ->
       m_NewFrom h2 s1 n = Ok (h3, a) -> m_NewFrom h3 s2 n = Ok (h4, b) -> direct o -> ok_op n 0 [] o ->
       m_do_op h4 a o = Ok (h5, a') -> st_data (load h5 b) = st_data (load h4 b)).
Proof.
  intros H. specialize (H 3%nat []).
  destruct (m_New [] 3) as [[h0 v]| | |] eqn:E0; [|vm_compute in E0; discriminate E0..].
  specialize (fun h1 s1 h2 s2 h3 a h4 b h5 a' => H h0 v h1 s1 h2 s2 h3 a h4 b (OScalar 0 KI32 5) h5 a' eq_refl).
  vm_compute in E0. injection E0 as <- <-.
  match type of H with forall h1 s1 h2 s2 h3 a h4 b h5 a', m_Release ?h ?v = _ -> _ =>
    destruct (m_Release h v) as [[h1 s1]| | |] eqn:E1; [|vm_compute in E1; discriminate E1..];
    specialize (H h1 s1); vm_compute in E1; injection E1 as <- <- end.
  match type of H with forall h2 s2 h3 a h4 b h5 a', _ -> m_Release ?h ?v = _ -> _ =>
    destruct (m_Release h v) as [[h2 s2]| | |] eqn:E2; [|vm_compute in E2; discriminate E2..];
    specialize (H h2 s2); vm_compute in E2; injection E2 as <- <- end.
  match type of H with forall h3 a h4 b h5 a', _ -> _ -> m_NewFrom ?h ?s _ = _ -> _ =>
    destruct (m_NewFrom h s 3) as [[h3 a]| | |] eqn:E3; [|vm_compute in E3; discriminate E3..];
    specialize (H h3 a); vm_compute in E3; injection E3 as <- <- end.
  match type of H with forall h4 b h5 a', _ -> _ -> _ -> m_NewFrom ?h ?s _ = _ -> _ =>
    destruct (m_NewFrom h s 3) as [[h4 b]| | |] eqn:E4; [|vm_compute in E4; discriminate E4..];
    specialize (H h4 b); vm_compute in E4; injection E4 as <- <- end.
  match type of H with forall h5 a', _ -> _ -> _ -> _ -> _ -> _ -> m_do_op ?h ?v ?o = _ -> _ =>
    destruct (m_do_op h v o) as [[h5 a']| | |] eqn:E5; [|vm_compute in E5; discriminate E5..];
    specialize (H h5 a'); vm_compute in E5; injection E5 as <- <- end.
  assert (HO : ok_op 3 0 [] (OScalar 0 KI32 5)) by (cbn [ok_op]; legal).
  specialize (H eq_refl eq_refl eq_refl eq_refl I HO eq_refl). vm_compute in H. discriminate.
Qed.

(** Two structs in turn on the same memory: the second starts empty, and the bytes kept from
    the first are still its bytes. *)
Definition rc_events : list event :=
  [ENew 0; ECall 0 (OScalar 0 KI32 5); ECall 0 (OBytes 1 true [104; 105]); ESafe 0; ERelease 0; ENew 0; ECall 0 (OScalar 2 KI32 9)].
Example rc_lawful : lawful 3 rc_events.
Proof.
  intros a i o b l E EN. unfold rc_events in E.
  repeat (destruct a as [|? a];
    [first [discriminate E | injection E as <- <- <-; vm_compute in EN; injection EN as <-; cbn [ok_op]; split; [exact I|legal]]
    |cbn [app] in E; first [discriminate E | injection E as <- E]]).
  all: discriminate.
Qed.
Example rc_result :
  match w_run 3 (mkW [] [] [] []) rc_events with
  | Ok w => map (fun v => sl_arr (v_sl v)) w.(w_live) = [0%nat] /\ w.(w_pool) = [] /\
      map (fun v => answer (load w.(w_heap) v) (QHas 1)) w.(w_live) = [Ok (ABool false)] /\
      length w.(w_held) = 1%nat /\ notes rc_events = ([[OScalar 2 KI32 9]], [[OScalar 0 KI32 5; OBytes 1 true [104; 105]]])
  | _ => False
  end.
Proof. vm_compute. auto 10. Qed.

Print Assumptions C151_as_new.
Print Assumptions C151_message.
Print Assumptions C151_elsewhere.
Print Assumptions C151_apart.
Print Assumptions C151_marshal_lost.
Print Assumptions C151_input_lost.
Print Assumptions C151_nested_refuted.
Print Assumptions C151_twice_refuted.
