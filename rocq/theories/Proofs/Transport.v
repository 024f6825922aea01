(** The invariants of the transports of Model/Transport.v. *)
From Coq Require Import ZArith List Bool Lia.
Import ListNotations.
From Verif.Model Require Import Base Transport.
From Verif.Spec Require Import Transport.
From Verif.Proofs Require Import BaseLemmas.
Local Open Scope nat_scope.

Definition th (s : st) (t : nat) (x : thread) : Prop := nth_error s.(s_threads) t = Some x.

Lemma set_pc_at ts t p u :
  nth_error (setPc t p ts) u =
  if u =? t then match nth_error ts t with Some x => Some (mkT x.(t_call) p) | None => None end else nth_error ts u.
Proof.
  unfold setPc. destruct (nth_error ts t) as [x|] eqn:E.
  - destruct (Nat.eqb_spec u t) as [->|D].
    + apply nth_error_set_nth_eq. apply nth_error_Some. congruence.
    + apply nth_error_set_nth_neq. congruence.
  - destruct (Nat.eqb_spec u t) as [->|D]; [exact E|reflexivity].
Qed.
Lemma set_pc_length ts t p : length (setPc t p ts) = length ts.
Proof. unfold setPc. destruct (nth_error ts t); [apply set_nth_length|reflexivity]. Qed.
Lemma nth_set_nth {A} (l : list A) c n d x : nth d (set_nth c n l) x = if (d =? c) && (c <? length l) then n else nth d l x.
Proof.
  revert c d. induction l as [|y l IH]; intros c d.
  - destruct c, d; cbn; rewrite ?andb_false_r; reflexivity.
  - destruct c as [|c], d as [|d]; cbn [set_nth nth length]; try reflexivity.
    rewrite IH. reflexivity.
Qed.

Definition holdsConn (p : pc) : bool := match p with CLock | CShut | NLock | NShut | NBufs _ => true | _ => false end.
Definition holdsWrite (p : pc) : bool := match p with WBody _ _ | WErr _ _ => true | _ => false end.
Definition fits (c : call) (p : pc) : bool :=
  match p with
  | WStart | WLock | WBody _ _ | WErr _ _ => match c with Write _ => true | _ => false end
  | RStart | RWait _ | RErr => match c with Read => true | _ => false end
  | CStart | CLock | CShut => match c with Close => true | _ => false end
  | NStart | NLock | NShut | NDial | NSet _ | NBufs _ => match c with Connect => true | _ => false end
  | Done _ => true
  end.
Definition connecting (p : pc) : bool := match p with NLock | NShut | NBufs _ => true | _ => false end.
Definition shutting (p : pc) : bool := match p with CShut | NShut => true | _ => false end.
Definition having (p : pc) : bool := match p with CLock | CShut | NLock | NShut | NBufs _ => true | _ => false end.
Definition uses (p : pc) : option nat := match p with WBody _ c | WErr _ c | NSet c | NBufs c => Some c | _ => None end.

Record Inv (s : st) : Prop := {
  i_conn : forall t x, th s t x -> holdsConn (t_pc x) = true -> s_connMu s = Some t;
  i_conn' : forall t, s_connMu s = Some t -> exists x, th s t x /\ holdsConn (t_pc x) = true;
  i_write : forall t x, th s t x -> holdsWrite (t_pc x) = true -> s_writeMu s = Some t;
  i_write' : forall t, s_writeMu s = Some t -> exists x, th s t x /\ holdsWrite (t_pc x) = true;
  i_fits : forall t x, th s t x -> fits (t_call x) (t_pc x) = true;
  i_closed : s_closed s = true -> forall t x, th s t x -> connecting (t_pc x) = false;
  i_closed2 : s_closed s = true -> s_connMu s = None -> s_conn s = None;
  i_bufs : s_conn s = None -> s_writer s = None /\ s_reader s = None;
  i_shut : forall t x, th s t x -> shutting (t_pc x) = true -> s_writer s = None /\ s_reader s = None;
  i_have : forall t x, th s t x -> having (t_pc x) = true -> s_conn s <> None;
  i_uses : forall t x c, th s t x -> uses (t_pc x) = Some c -> c < length (s_nets s);
  i_writer : forall c, s_writer s = Some c -> c < length (s_nets s);
  i_connn : forall c, s_conn s = Some c -> c < length (s_nets s) }.

Lemma th_to s t p u x : th (to t p s) u x -> (u = t /\ exists y, th s t y /\ x = mkT y.(t_call) p) \/ (u <> t /\ th s u x).
Proof.
  unfold th, to. cbn [s_threads]. rewrite set_pc_at. destruct (Nat.eqb_spec u t) as [->|D]; [|now right].
  destruct (nth_error (s_threads s) t) as [y|] eqn:E; [|discriminate]. intros [= <-]. left. split; [reflexivity|]. now exists y.
Qed.
Lemma to_self s t p y : th s t y -> th (to t p s) t (mkT y.(t_call) p).
Proof. unfold th, to. cbn [s_threads]. intros H. now rewrite set_pc_at, Nat.eqb_refl, H. Qed.
Lemma to_other s t p u x : u <> t -> th s u x -> th (to t p s) u x.
Proof. unfold th, to. cbn [s_threads]. intros D H. rewrite set_pc_at. destruct (Nat.eqb_spec u t); [contradiction|exact H]. Qed.

Lemma inv_init client : Inv (init client).
Proof.
  unfold init. destruct client; constructor; cbn; try discriminate; unfold th; cbn; intros; try discriminate;
    try (destruct t; discriminate); try (split; congruence); try (injection H as <-; lia); auto.
Qed.

Ltac proj := cbn [s_connMu s_writeMu s_closed s_connected s_connErr s_conn s_reader s_writer s_nets s_threads s_sent
                  to withConnMu withWriteMu withClosed withConnected withConnErr withConn withBufs withNets withSent setNet shut] in *.
Ltac cases H :=
  repeat match type of H with
         | context [match ?x with _ => _ end] => destruct x eqn:?; try discriminate H
         end.
Ltac threads :=
  repeat match goal with
         | H : nth_error (setPc ?t ?p ?ts) ?u = Some ?x |- _ =>
           rewrite set_pc_at in H; destruct (Nat.eqb_spec u t); [subst u|]
         | H : match nth_error ?ts ?t with _ => _ end = Some _, G : nth_error ?ts ?t = Some _ |- _ =>
           rewrite G in H; injection H as <-; cbn [t_pc t_call] in *
         end.
Lemma free_none m : free m = true -> m = None.
Proof. destruct m; [discriminate|reflexivity]. Qed.

Lemma inv_call s c x : Inv s -> x = mkT c (start c) ->
  Inv (mkSt s.(s_connMu) s.(s_writeMu) s.(s_closed) s.(s_connected) s.(s_connErr) s.(s_conn) s.(s_reader) s.(s_writer) s.(s_nets) (s.(s_threads) ++ [x]) s.(s_sent)).
Proof.
  intros I ->.
  assert (G : forall t y, nth_error (s_threads s ++ [mkT c (start c)]) t = Some y -> th s t y \/ y = mkT c (start c)).
  { intros t y H. destruct (Nat.lt_ge_cases t (length (s_threads s))) as [L|L].
    - left. unfold th. now rewrite nth_error_app1 in H.
    - right. rewrite nth_error_app2 in H by exact L. destruct (t - length (s_threads s)) as [|[|k]]; [now injection H as <-|discriminate..]. }
  assert (E : forall t y, th s t y -> nth_error (s_threads s ++ [mkT c (start c)]) t = Some y).
  { intros t y H. rewrite nth_error_app1; [exact H|]. apply nth_error_Some. unfold th in H. congruence. }
  destruct I. constructor; unfold th; proj; intros;
    repeat match goal with H : nth_error (_ ++ _) _ = Some _ |- _ => apply G in H; destruct H as [H|H]; [|subst; destruct c; discriminate + reflexivity] end;
    eauto.
  - destruct (i_conn'0 t H) as (y & A & B). exists y. auto.
  - destruct (i_write'0 t H) as (y & A & B). exists y. auto.
Qed.

Ltac facts s I t x G P :=
  pose proof (i_conn s I t x G) as A1; pose proof (i_write s I t x G) as A2; pose proof (i_fits s I t x G) as A3;
  pose proof (fun E => i_closed s I E t x G) as A4; pose proof (i_shut s I t x G) as A5; pose proof (i_have s I t x G) as A6;
  pose proof (fun c => i_uses s I t x c G) as A7; rewrite P in A1, A2, A3, A4, A5, A6, A7;
  cbn [holdsConn holdsWrite fits connecting shutting having uses] in A1, A2, A3, A4, A5, A6, A7.
Lemma ex_set (hold : pc -> bool) ts t y p v :
  nth_error ts t = Some y -> (hold p = true \/ hold (t_pc y) = false) ->
  (exists x, nth_error ts v = Some x /\ hold (t_pc x) = true) -> exists x, nth_error (setPc t p ts) v = Some x /\ hold (t_pc x) = true.
Proof.
  intros G D (x & A & B). rewrite set_pc_at. destruct (Nat.eqb_spec v t) as [->|N]; [|now exists x].
  rewrite G in A |- *. injection A as <-. exists (mkT (t_call y) p). split; [reflexivity|]. cbn. destruct D; congruence.
Qed.
Lemma ex_self (hold : pc -> bool) ts t y p v :
  nth_error ts t = Some y -> hold p = true -> Some t = Some v -> exists x, nth_error (setPc t p ts) v = Some x /\ hold (t_pc x) = true.
Proof. intros G D [= <-]. rewrite set_pc_at, Nat.eqb_refl, G. eexists. split; [reflexivity|exact D]. Qed.
Ltac exthread s I :=
  first [ eapply ex_self; [eassumption|reflexivity|assumption]
        | eapply ex_set; [eassumption| |solve [apply (i_conn' s I); assumption | apply (i_write' s I); assumption]];
          first [left; reflexivity | right; match goal with P : t_pc _ = _ |- _ => rewrite P; reflexivity end] ].
Ltac holder s I :=
  match goal with
  | G : nth_error _ ?u = Some ?x, H : holdsConn (t_pc ?x) = true |- _ => pose proof (i_conn s I u x G H)
  | G : nth_error _ ?u = Some ?x, H : holdsWrite (t_pc ?x) = true |- _ => pose proof (i_write s I u x G H)
  | G : nth_error _ ?u = Some ?x, H : having (t_pc ?x) = true |- _ =>
    pose proof (i_conn s I u x G ltac:(destruct (t_pc x); try discriminate H; reflexivity))
  | G : nth_error _ ?u = Some ?x, H : shutting (t_pc ?x) = true |- _ =>
    pose proof (i_conn s I u x G ltac:(destruct (t_pc x); try discriminate H; reflexivity))
  end.
Lemma step_inv client s e s' : Inv s -> step client s e = Some s' -> Inv s'.
Proof.
  intros I H. unfold step, stepT in H.
  cases H; injection H as <-;
  repeat match goal with H : free _ = true |- _ => apply free_none in H end;
  try match goal with G : nth_error _ ?t = Some ?x, P : t_pc ?x = _ |- _ => facts s I t x G P end;
  try match goal with |- Inv (mkSt _ _ _ _ _ _ _ _ _ (_ ++ [mkT ?c _]) _) => exact (inv_call s c _ I eq_refl) end.
  all: constructor; unfold th; proj; intros; threads; cbn [holdsConn holdsWrite fits connecting shutting having uses] in *;
    try discriminate; try assumption; try congruence; try (split; congruence);
    rewrite ?set_nth_length, ?app_length; cbn [length];
    try (eapply (i_conn s I); eassumption);
    try (eapply (i_write s I); eassumption);
    try (eapply (i_fits s I); eassumption);
    try (eapply (i_closed s I); eassumption);
    try (eapply (i_closed2 s I); eassumption);
    try (eapply (i_bufs s I); eassumption);
    try (eapply (i_shut s I); eassumption);
    try (eapply (i_have s I); eassumption);
    try (eapply (i_uses s I); eassumption);
    try (eapply (i_writer s I); eassumption);
    try (eapply (i_connn s I); eassumption);
    try exthread s I;
    try (holder s I; first [congruence | destruct (A1 eq_refl); congruence | specialize (A1 eq_refl); congruence | specialize (A2 eq_refl); congruence]).
  all: try (specialize (A1 eq_refl)); try (specialize (A2 eq_refl)); try (specialize (A5 eq_refl)); try (specialize (A6 eq_refl)).
  all: try assumption; try (rewrite A4 in *; [discriminate|assumption]);
    repeat match goal with H : Some _ = Some _ |- _ => injection H as <- end;
    try (eapply (i_writer s I); eassumption); try (apply A7; reflexivity);
    try (match goal with G : nth_error _ ?u = Some ?x |- connecting (t_pc ?x) = false =>
         pose proof (i_conn s I u x G); destruct (t_pc x); cbn in *; try reflexivity; exfalso; intuition congruence end).
  all: try (eapply Nat.lt_lt_add_r; first [eapply (i_uses s I); eassumption | eapply (i_writer s I); eassumption | eapply (i_connn s I); eassumption]).
  all: try (exfalso; now (discriminate A4 + (specialize (A4 ltac:(assumption)); discriminate A4))); try lia.
Qed.

Lemma run_app client s es es' : run client s (es ++ es') = match run client s es with Some m => run client m es' | None => None end.
Proof. revert s. induction es as [|e es IH]; intros s; cbn [run app]; [reflexivity|]. destruct (step client s e); [apply IH|reflexivity]. Qed.
Lemma run_inv client s es s' : Inv s -> run client s es = Some s' -> Inv s'.
Proof.
  revert s. induction es as [|e es IH]; intros s I H; cbn [run] in H; [now injection H as <-|].
  destruct (step client s e) as [m|] eqn:E; [|discriminate]. exact (IH m (step_inv _ _ _ _ I E) H).
Qed.

(** ** What is sent *)
Definition body (p : pc) : bool := match p with WBody _ _ => true | _ => false end.
Definition failed (p : pc) : bool := match p with WErr _ _ | Done RFail => true | _ => false end.
Definition whole (s : st) (c : nat) : bytes := concat (map (data s) (sent_on s c)).
Definition tail (s : st) (c : nat) (tl : bytes) : Prop :=
  if (netAt c s).(n_bad) then exists t x k, th s t x /\ fits (Write []) (t_pc x) = true /\ failed (t_pc x) = true /\ tl = firstn k (payload x)
  else (exists t x k, th s t x /\ t_pc x = WBody k c /\ tl = firstn k (payload x)) \/
       ((forall t x k, th s t x -> t_pc x <> WBody k c) /\ tl = []).
Record Wire (s : st) : Prop := {
  w_tail : forall c, c < length (s_nets s) -> exists tl, (netAt c s).(n_wire) = whole s c ++ tl /\ tail s c tl;
  w_sent : forall t c, In (t, c) (s_sent s) -> c < length (s_nets s) /\ exists p, th s t (mkT (Write p) (Done ROk));
  w_ok : forall t p, th s t (mkT (Write p) (Done ROk)) -> exists c, In (t, c) (s_sent s);
  w_once : NoDup (map fst (s_sent s));
  w_body : forall t x k c, th s t x -> t_pc x = WBody k c -> k <= length (payload x);
  w_err : forall t x k c, th s t x -> t_pc x = WErr k c -> (netAt c s).(n_bad) = true }.

Lemma data_set s s' t p : s_threads s' = setPc t p (s_threads s) -> forall u, data s' u = data s u.
Proof.
  intros E u. unfold data. rewrite E, set_pc_at. destruct (Nat.eqb_spec u t) as [->|]; [|reflexivity].
  destruct (nth_error (s_threads s) t); reflexivity.
Qed.
Lemma whole_same s s' c : (forall u, In u (sent_on s c) -> data s' u = data s u) -> sent_on s' c = sent_on s c -> whole s' c = whole s c.
Proof. intros D S. unfold whole. rewrite S. f_equal. apply map_ext_in. exact D. Qed.
Lemma th_set s s' t p u x : s_threads s' = setPc t p (s_threads s) -> th s' u x ->
  (u = t /\ exists y, th s t y /\ x = mkT y.(t_call) p) \/ (u <> t /\ th s u x).
Proof.
  unfold th. intros ->. rewrite set_pc_at. destruct (Nat.eqb_spec u t) as [->|D]; [|now right].
  destruct (nth_error (s_threads s) t) as [y|] eqn:E; [|discriminate]. intros [= <-]. left. split; [reflexivity|]. now exists y.
Qed.
Lemma th_self s s' t p y : s_threads s' = setPc t p (s_threads s) -> th s t y -> th s' t (mkT y.(t_call) p).
Proof. unfold th. intros -> H. now rewrite set_pc_at, Nat.eqb_refl, H. Qed.
Lemma th_other s s' t p u x : s_threads s' = setPc t p (s_threads s) -> u <> t -> th s u x -> th s' u x.
Proof. unfold th. intros -> D H. rewrite set_pc_at. destruct (Nat.eqb_spec u t); [contradiction|exact H]. Qed.

Lemma wire_init client : Wire (init client).
Proof.
  unfold init. destruct client; constructor; cbn; unfold th; cbn; intros; try contradiction; try (destruct t; discriminate); try constructor; try lia.
  exists []. assert (c = 0) as -> by lia. split; [reflexivity|]. right. split; [intros [|t] ? ?; discriminate|reflexivity].
Qed.

Lemma wire_quiet s s' t p y : Wire s -> th s t y ->
  s_threads s' = setPc t p (s_threads s) -> s_sent s' = s_sent s -> length (s_nets s') = length (s_nets s) ->
  (forall c, n_wire (netAt c s') = n_wire (netAt c s) /\ n_bad (netAt c s') = n_bad (netAt c s)) ->
  (forall r, t_pc y <> Done r) -> body (t_pc y) = false -> body p = false ->
  (failed (t_pc y) = true -> p = Done RFail) -> (forall k c, p <> WErr k c) -> (p = Done ROk -> forall q, t_call y <> Write q) -> Wire s'.
Proof.
  intros W G ET ES EL EN ND By Bp Fp Ep Op.
  assert (SO : forall c, sent_on s' c = sent_on s c) by (intros c; unfold sent_on; now rewrite ES).
  constructor.
  - intros c L. rewrite EL in L. destruct (w_tail s W c L) as (tl & A & B). exists tl. destruct (EN c) as [E1 E2]. split.
    + rewrite E1, A. f_equal. symmetry. apply whole_same; [|apply SO]. intros u _. now apply (data_set s s' t p).
    + unfold tail in *. rewrite E2. destruct (n_bad (netAt c s)).
      * destruct B as (u & x & k & B1 & B0 & B2 & B3). destruct (Nat.eq_dec u t) as [->|D].
        -- assert (x = y) as -> by (unfold th in *; congruence).
           exists t, (mkT (t_call y) p), k. split; [now apply (th_self s s' t p)|]. rewrite (Fp B2). cbn. auto.
        -- exists u, x, k. split; [now apply (th_other s s' t p)|auto].
      * destruct B as [(u & x & k & B1 & B2 & B3)|[B1 B2]].
        -- left. exists u, x, k. split; [|auto]. apply (th_other s s' t p); auto. intros ->.
           assert (x = y) as -> by (unfold th in *; congruence). rewrite B2 in By. discriminate.
        -- right. split; [|exact B2]. intros u x k H. destruct (th_set s s' t p u x ET H) as [(-> & z & Z1 & ->)|[D H']]; [|now apply (B1 u)].
           cbn. intros ->. discriminate Bp.
  - intros u c H. rewrite ES in H. rewrite EL. destruct (w_sent s W u c H) as (A & q & B). split; [exact A|]. exists q.
    apply (th_other s s' t p); auto. intros ->. assert (y = mkT (Write q) (Done ROk)) as -> by (unfold th in *; congruence). now apply (ND ROk).
  - intros u q H. rewrite ES. destruct (th_set s s' t p u _ ET H) as [(-> & z & Z1 & Z2)|[D H']]; [|now apply (w_ok s W u q)].
    exfalso. injection Z2 as Z3 Z4. assert (z = y) as -> by (unfold th in *; congruence). now apply (Op (eq_sym Z4) q).
  - rewrite ES. apply (w_once s W).
  - intros u x k c H E. destruct (th_set s s' t p u _ ET H) as [(-> & z & Z1 & ->)|[D H']]; [|now apply (w_body s W u x k c)].
    cbn in E. rewrite E in Bp. discriminate.
  - intros u x k c H E. destruct (EN c) as [_ E2]. rewrite E2.
    destruct (th_set s s' t p u _ ET H) as [(-> & z & Z1 & ->)|[D H']]; [|now apply (w_err s W u x k c)].
    cbn in E. now apply Ep in E.
Qed.

Lemma wire_call s c : Wire s ->
  Wire (mkSt s.(s_connMu) s.(s_writeMu) s.(s_closed) s.(s_connected) s.(s_connErr) s.(s_conn) s.(s_reader) s.(s_writer) s.(s_nets) (s.(s_threads) ++ [mkT c (start c)]) s.(s_sent)).
Proof.
  intros W. set (s' := mkSt _ _ _ _ _ _ _ _ _ _ _).
  assert (G : forall t y, th s' t y -> th s t y \/ y = mkT c (start c)).
  { intros t y H. unfold th, s' in *. cbn in H. destruct (Nat.lt_ge_cases t (length (s_threads s))) as [L|L].
    - left. now rewrite nth_error_app1 in H.
    - right. rewrite nth_error_app2 in H by exact L. destruct (t - length (s_threads s)) as [|[|k]]; [now injection H as <-|discriminate..]. }
  assert (E : forall t y, th s t y -> th s' t y).
  { intros t y H. unfold th, s'. cbn. rewrite nth_error_app1; [exact H|]. apply nth_error_Some. unfold th in H. congruence. }
  assert (NB : forall k d, t_pc (mkT c (start c)) <> WBody k d) by (intros; destruct c; discriminate).
  assert (NE : forall k d, t_pc (mkT c (start c)) <> WErr k d) by (intros; destruct c; discriminate).
  constructor.
  - intros d L. destruct (w_tail s W d L) as (tl & A & B). exists tl. split.
    + change (netAt d s') with (netAt d s). rewrite A. f_equal. symmetry. apply whole_same; [|reflexivity].
      intros u H. unfold sent_on in H. apply in_map_iff in H. destruct H as ((u' & d') & <- & H). apply filter_In in H. destruct H as [H _].
      destruct (w_sent s W _ _ H) as (_ & q & T). unfold data. cbn [fst]. rewrite (E _ _ T). unfold th in T. now rewrite T.
    + unfold tail in *. change (netAt d s') with (netAt d s). destruct (n_bad (netAt d s)).
      * destruct B as (u & x & k & B1 & B2). exists u, x, k. auto.
      * destruct B as [(u & x & k & B1 & B2)|[B1 B2]]; [left; exists u, x, k; auto|]. right. split; [|exact B2].
        intros u x k H. destruct (G u x H) as [H'| ->]; [now apply (B1 u)|apply NB].
  - intros u d H. destruct (w_sent s W u d H) as (A & q & B). split; [exact A|]. exists q. now apply E.
  - intros u q H. destruct (G u _ H) as [H'|D]; [now apply (w_ok s W u q)|]. destruct c; discriminate.
  - apply (w_once s W).
  - intros u x k d H D. destruct (G u x H) as [H'| ->]; [now apply (w_body s W u x k d)|]. now apply NB in D.
  - intros u x k d H D. destruct (G u x H) as [H'| ->]; [now apply (w_err s W u x k d)|]. now apply NE in D.
Qed.

Lemma th_fun s t x y : th s t x -> th s t y -> x = y.
Proof. unfold th. congruence. Qed.
Lemma wire_enter s s' t y c : Wire s -> Inv s -> th s t y -> t_pc y = WLock -> s_writeMu s = None -> c < length (s_nets s) ->
  s_threads s' = setPc t (WBody 0 c) (s_threads s) -> s_sent s' = s_sent s -> s_nets s' = s_nets s -> Wire s'.
Proof.
  intros W I G P M Lc ET ES EN.
  assert (SO : forall c, sent_on s' c = sent_on s c) by (intros d; unfold sent_on; now rewrite ES).
  assert (NA : forall d, netAt d s' = netAt d s) by (intros d; unfold netAt; now rewrite EN).
  assert (NB : forall u x k d, th s u x -> t_pc x <> WBody k d).
  { intros u x k d H E. pose proof (i_write s I u x H) as B. rewrite E in B. specialize (B eq_refl). congruence. }
  constructor.
  - intros d L. rewrite EN in L. destruct (w_tail s W d L) as (tl & A & B). exists tl. rewrite NA. split.
    + rewrite A. f_equal. symmetry. apply whole_same; [|apply SO]. intros u _. now apply (data_set s s' t (WBody 0 c)).
    + unfold tail in *. rewrite NA. destruct (n_bad (netAt d s)).
      * destruct B as (u & x & k & B1 & B0 & B2 & B3). exists u, x, k. split; [|auto]. apply (th_other s s' t (WBody 0 c)); auto.
        intros ->. rewrite (th_fun _ _ _ _ B1 G), P in B2. discriminate.
      * destruct B as [(u & x & k & B1 & B2 & B3)|[B1 B2]]; [exfalso; now apply (NB u x k d)|].
        destruct (Nat.eq_dec d c) as [->|D].
        -- left. exists t, (mkT (t_call y) (WBody 0 c)), 0. split; [now apply (th_self s s' t)|]. split; [reflexivity|]. exact B2.
        -- right. split; [|exact B2]. intros u x k H. destruct (th_set s s' t _ u x ET H) as [(-> & z & Z1 & ->)|[D' H']]; [|now apply (B1 u)].
           cbn. congruence.
  - intros u d H. rewrite ES in H. rewrite EN. destruct (w_sent s W u d H) as (A & q & B). split; [exact A|]. exists q.
    apply (th_other s s' t (WBody 0 c)); auto. intros ->. rewrite (th_fun _ _ _ _ G B) in P. discriminate.
  - intros u q H. rewrite ES. destruct (th_set s s' t _ u _ ET H) as [(-> & z & Z1 & Z2)|[D H']]; [discriminate|now apply (w_ok s W u q)].
  - rewrite ES. apply (w_once s W).
  - intros u x k d H E. destruct (th_set s s' t _ u _ ET H) as [(-> & z & Z1 & ->)|[D H']]; [|now apply (w_body s W u x k d)].
    cbn in E. injection E as <- <-. apply Nat.le_0_l.
  - intros u x k d H E. rewrite NA. destruct (th_set s s' t _ u _ ET H) as [(-> & z & Z1 & ->)|[D H']]; [discriminate|now apply (w_err s W u x k d)].
Qed.

Lemma wire_leave s s' t y k c : Wire s -> Inv s -> th s t y -> t_pc y = WBody k c -> length (payload y) <= k -> n_bad (netAt c s) = false ->
  s_threads s' = setPc t (Done ROk) (s_threads s) -> s_sent s' = s_sent s ++ [(t, c)] -> s_nets s' = s_nets s -> Wire s'.
Proof.
  intros W I G P Lk Bad ET ES EN.
  pose proof (i_uses s I t y c G) as Lc. rewrite P in Lc. specialize (Lc eq_refl).
  pose proof (i_write s I t y G) as M. rewrite P in M. specialize (M eq_refl).
  assert (NA : forall d, netAt d s' = netAt d s) by (intros d; unfold netAt; now rewrite EN).
  assert (NB : forall u x j d, th s u x -> t_pc x = WBody j d -> u = t).
  { intros u x j d H E. pose proof (i_write s I u x H) as B. rewrite E in B. specialize (B eq_refl). congruence. }
  pose proof (i_fits s I t y G) as F. rewrite P in F. destruct y as [[q| | |] yp]; cbn in F; try discriminate.
  assert (DA : data s t = q) by (unfold data; unfold th in G; rewrite G; reflexivity).
  constructor.
  - intros d L. rewrite EN in L. destruct (w_tail s W d L) as (tl & A & B). rewrite NA.
    assert (SO : sent_on s' d = sent_on s d ++ (if c =? d then [t] else [])).
    { unfold sent_on. rewrite ES, filter_app, map_app. cbn [filter snd]. destruct (c =? d); reflexivity. }
    assert (WH : whole s' d = whole s d ++ (if c =? d then q else [])).
    { unfold whole. rewrite SO, map_app, concat_app, (map_ext (data s') (data s) (data_set s s' t _ ET)). f_equal.
      destruct (c =? d); cbn [map concat]; [rewrite app_nil_r, (data_set s s' t _ ET); exact DA|reflexivity]. }
    unfold tail in B. destruct (Nat.eqb_spec c d) as [<-|D].
    + rewrite Bad in B. exists []. split.
      * rewrite A, WH, app_nil_r. f_equal. destruct B as [(u & x & j & B1 & B2 & B3)|[B1 B2]].
        -- rewrite (NB u x j c B1 B2) in B1. rewrite (th_fun _ _ _ _ B1 G) in B2, B3. cbn [t_pc] in B2. cbn [t_pc] in P. rewrite P in B2.
           injection B2 as <-. rewrite B3. apply firstn_all2. exact Lk.
        -- exfalso. exact (B1 t _ k G P).
      * unfold tail. rewrite NA, Bad. right. split; [|reflexivity]. intros u x j H. destruct (th_set s s' t _ u x ET H) as [(-> & z & Z1 & ->)|[D H']].
        -- discriminate.
        -- intros E. apply D. now apply (NB u x j c).
    + exists tl. split; [now rewrite A, WH, app_nil_r|]. unfold tail. rewrite NA. destruct (n_bad (netAt d s)).
      * destruct B as (u & x & j & B1 & B0 & B2 & B3). exists u, x, j. split; [|auto]. apply (th_other s s' t _ u x ET); auto.
        intros ->. rewrite (th_fun _ _ _ _ B1 G) in B2. cbn in P. rewrite P in B2. discriminate.
      * destruct B as [(u & x & j & B1 & B2 & B3)|[B1 B2]].
        -- exfalso. rewrite (NB u x j d B1 B2) in B1. rewrite (th_fun _ _ _ _ B1 G) in B2. cbn in P, B2. congruence.
        -- right. split; [|exact B2]. intros u x j H. destruct (th_set s s' t _ u x ET H) as [(-> & z & Z1 & ->)|[D' H']]; [discriminate|now apply (B1 u)].
  - intros u d H. rewrite ES in H. rewrite EN. apply in_app_or in H. destruct H as [H|[H|[]]].
    + destruct (w_sent s W u d H) as (A & r & B). split; [exact A|]. exists r.
      apply (th_other s s' t _ u _ ET); auto. intros ->. pose proof (th_fun _ _ _ _ G B) as E. injection E as -> E. cbn in P. congruence.
    + injection H as <- <-. split; [exact Lc|]. exists q. exact (th_self s s' t _ _ ET G).
  - intros u r H. rewrite ES. destruct (th_set s s' t _ u _ ET H) as [(-> & z & Z1 & Z2)|[D H']].
    + exists c. apply in_or_app. right. now left.
    + destruct (w_ok s W u r H') as (d & A). exists d. apply in_or_app. now left.
  - rewrite ES, map_app. cbn [map fst].
    rewrite <- (rev_involutive (map fst (s_sent s) ++ [t])). apply NoDup_rev. rewrite rev_unit. constructor.
    + rewrite <- in_rev. intros H. apply in_map_iff in H. destruct H as ((u & d) & E & H). cbn in E. subst u.
      destruct (w_sent s W t d H) as (_ & r & B). pose proof (th_fun _ _ _ _ G B) as E. injection E as -> E. cbn in P. congruence.
    + apply NoDup_rev. apply (w_once s W).
  - intros u x j d H E. destruct (th_set s s' t _ u _ ET H) as [(-> & z & Z1 & ->)|[D H']]; [discriminate|now apply (w_body s W u x j d)].
  - intros u x j d H E. rewrite NA. destruct (th_set s s' t _ u _ ET H) as [(-> & z & Z1 & ->)|[D H']]; [discriminate|now apply (w_err s W u x j d)].
Qed.

Lemma firstn_chunk (k n : nat) (p : bytes) : n <= length p ->
  firstn n p ++ firstn k (skipn n p) = firstn (n + length (firstn k (skipn n p))) p.
Proof.
  intros L. rewrite <- (firstn_skipn n p) at 4. rewrite firstn_app. rewrite (firstn_length_le p L).
  replace (n + _ - n) with (length (firstn k (skipn n p))) by lia.
  rewrite (firstn_all2 (n := n + _) (firstn n p)) by (rewrite firstn_length_le by exact L; lia).
  f_equal. rewrite firstn_length. destruct (Nat.min_spec k (length (skipn n p))) as [[_ ->]|[A ->]]; [reflexivity|].
  rewrite firstn_all. now apply firstn_all2.
Qed.
Lemma wire_chunk s s' t y n c k : Wire s -> Inv s -> th s t y -> t_pc y = WBody n c -> n_bad (netAt c s) = false ->
  let chunk := firstn k (skipn n (payload y)) in
  s_threads s' = setPc t (WBody (n + length chunk) c) (s_threads s) -> s_sent s' = s_sent s ->
  length (s_nets s') = length (s_nets s) ->
  (forall d, netAt d s' = if d =? c then mkNet (n_wire (netAt c s) ++ chunk) false (n_shut (netAt c s)) else netAt d s) -> Wire s'.
Proof.
  intros W I G P Bad chunk ET ES EL NA.
  pose proof (i_uses s I t y c G) as Lc. rewrite P in Lc. specialize (Lc eq_refl).
  pose proof (i_write s I t y G) as M. rewrite P in M. specialize (M eq_refl).
  pose proof (w_body s W t y n c G P) as Ln.
  assert (SO : forall c, sent_on s' c = sent_on s c) by (intros d; unfold sent_on; now rewrite ES).
  assert (NB : forall u x j d, th s u x -> t_pc x = WBody j d -> u = t).
  { intros u x j d H E. pose proof (i_write s I u x H) as B. rewrite E in B. specialize (B eq_refl). congruence. }
  assert (WH : forall d, whole s' d = whole s d).
  { intros d. apply whole_same; [|apply SO]. intros u _. now apply (data_set s s' t _ ET). }
  constructor.
  - intros d L. rewrite EL in L. destruct (w_tail s W d L) as (tl & A & B). unfold tail in *. rewrite NA, WH.
    destruct (Nat.eqb_spec d c) as [->|D]; cbn [n_wire n_bad].
    + rewrite Bad in B. exists (tl ++ chunk). split; [now rewrite A, app_assoc|]. left.
      exists t, (mkT (t_call y) (WBody (n + length chunk) c)), (n + length chunk). split; [exact (th_self s s' t _ _ ET G)|]. split; [reflexivity|].
      destruct B as [(u & x & j & B1 & B2 & B3)|[B1 B2]].
      * rewrite (NB u x j c B1 B2) in B1. rewrite (th_fun _ _ _ _ B1 G) in B2, B3. rewrite P in B2. injection B2 as <-.
        rewrite B3. unfold chunk. rewrite firstn_chunk by exact Ln. reflexivity.
      * exfalso. exact (B1 t _ n G P).
    + exists tl. split; [exact A|]. destruct (n_bad (netAt d s)).
      * destruct B as (u & x & j & B1 & B0 & B2 & B3). exists u, x, j. split; [|auto]. apply (th_other s s' t _ u x ET); auto.
        intros ->. rewrite (th_fun _ _ _ _ B1 G), P in B2. discriminate.
      * destruct B as [(u & x & j & B1 & B2 & B3)|[B1 B2]].
        -- exfalso. rewrite (NB u x j d B1 B2) in B1. rewrite (th_fun _ _ _ _ B1 G) in B2. congruence.
        -- right. split; [|exact B2]. intros u x j H. destruct (th_set s s' t _ u x ET H) as [(-> & z & Z1 & ->)|[D' H']]; [cbn; congruence|now apply (B1 u)].
  - intros u d H. rewrite ES in H. rewrite EL. destruct (w_sent s W u d H) as (A & r & B). split; [exact A|]. exists r.
    apply (th_other s s' t _ u _ ET); auto. intros ->. rewrite (th_fun _ _ _ _ G B) in P. discriminate.
  - intros u r H. rewrite ES. destruct (th_set s s' t _ u _ ET H) as [(-> & z & Z1 & Z2)|[D H']]; [discriminate|now apply (w_ok s W u r)].
  - rewrite ES. apply (w_once s W).
  - intros u x j d H E. destruct (th_set s s' t _ u _ ET H) as [(-> & z & Z1 & ->)|[D H']]; [|now apply (w_body s W u x j d)].
    cbn in E. injection E as <- <-. rewrite (th_fun _ _ _ _ Z1 G). unfold chunk. rewrite firstn_length, skipn_length.
    change (payload (mkT (t_call y) (WBody (n + Nat.min k (length (payload y) - n)) c))) with (payload y). lia.
  - intros u x j d H E. rewrite NA. destruct (th_set s s' t _ u _ ET H) as [(-> & z & Z1 & ->)|[D H']]; [discriminate|].
    destruct (Nat.eqb_spec d c) as [->|D']; [|now apply (w_err s W u x j d)].
    exfalso. pose proof (w_err s W u x j c H' E). congruence.
Qed.

Lemma wire_fail s s' t y n c p : Wire s -> Inv s -> th s t y -> t_pc y = WBody n c -> p = WErr n c \/ p = Done RFail ->
  s_threads s' = setPc t p (s_threads s) -> s_sent s' = s_sent s ->
  length (s_nets s') = length (s_nets s) ->
  (forall d, netAt d s' = if d =? c then mkNet (n_wire (netAt c s)) true (n_shut (netAt c s)) else netAt d s) -> Wire s'.
Proof.
  intros W I G P Pp ET ES EL NA.
  pose proof (i_uses s I t y c G) as Lc. rewrite P in Lc. specialize (Lc eq_refl).
  assert (SO : forall c, sent_on s' c = sent_on s c) by (intros d; unfold sent_on; now rewrite ES).
  assert (NB : forall u x j d, th s u x -> t_pc x = WBody j d -> u = t).
  { intros u x j d H E. pose proof (i_write s I u x H) as B. rewrite E in B. specialize (B eq_refl).
    pose proof (i_write s I t y G) as M. rewrite P in M. specialize (M eq_refl). congruence. }
  assert (WH : forall d, whole s' d = whole s d).
  { intros d. apply whole_same; [|apply SO]. intros u _. now apply (data_set s s' t _ ET). }
  assert (PB : forall j d, p <> WBody j d) by (intros j d; destruct Pp; congruence).
  constructor.
  - intros d L. rewrite EL in L. destruct (w_tail s W d L) as (tl & A & B). exists tl. unfold tail in *. rewrite NA, WH.
    destruct (Nat.eqb_spec d c) as [->|D]; cbn [n_wire n_bad].
    + split; [exact A|]. destruct (n_bad (netAt c s)).
      * destruct B as (u & x & j & B1 & B0 & B2 & B3). exists u, x, j. split; [|auto]. apply (th_other s s' t _ u x ET); auto.
        intros ->. rewrite (th_fun _ _ _ _ B1 G), P in B2. discriminate.
      * destruct B as [(u & x & j & B1 & B2 & B3)|[B1 B2]].
        -- rewrite (NB u x j c B1 B2) in B1. rewrite (th_fun _ _ _ _ B1 G) in B2, B3. rewrite P in B2. injection B2 as <-.
           exists t, (mkT (t_call y) p), n. split; [exact (th_self s s' t _ _ ET G)|]. destruct Pp as [-> | ->]; cbn; auto.
        -- exfalso. exact (B1 t _ n G P).
    + split; [exact A|]. destruct (n_bad (netAt d s)).
      * destruct B as (u & x & j & B1 & B0 & B2 & B3). exists u, x, j. split; [|auto]. apply (th_other s s' t _ u x ET); auto.
        intros ->. rewrite (th_fun _ _ _ _ B1 G), P in B2. discriminate.
      * destruct B as [(u & x & j & B1 & B2 & B3)|[B1 B2]].
        -- exfalso. rewrite (NB u x j d B1 B2) in B1. rewrite (th_fun _ _ _ _ B1 G) in B2. congruence.
        -- right. split; [|exact B2]. intros u x j H. destruct (th_set s s' t _ u x ET H) as [(-> & z & Z1 & ->)|[D' H']]; [cbn; apply PB|now apply (B1 u)].
  - intros u d H. rewrite ES in H. rewrite EL. destruct (w_sent s W u d H) as (A & r & B). split; [exact A|]. exists r.
    apply (th_other s s' t _ u _ ET); auto. intros ->. rewrite (th_fun _ _ _ _ G B) in P. discriminate.
  - intros u r H. rewrite ES. destruct (th_set s s' t _ u _ ET H) as [(-> & z & Z1 & Z2)|[D H']]; [injection Z2 as _ Z3; destruct Pp; congruence|now apply (w_ok s W u r)].
  - rewrite ES. apply (w_once s W).
  - intros u x j d H E. destruct (th_set s s' t _ u _ ET H) as [(-> & z & Z1 & ->)|[D H']]; [exfalso; now apply (PB j d)|now apply (w_body s W u x j d)].
  - intros u x j d H E. rewrite NA. destruct (Nat.eqb_spec d c) as [->|D]; [reflexivity|].
    destruct (th_set s s' t _ u _ ET H) as [(-> & z & Z1 & ->)|[D' H']]; [|now apply (w_err s W u x j d)].
    cbn in E. destruct Pp; congruence.
Qed.

Lemma wire_dial s s' t y : Wire s -> Inv s -> th s t y -> t_pc y = NDial ->
  s_threads s' = setPc t (NSet (length (s_nets s))) (s_threads s) -> s_sent s' = s_sent s ->
  s_nets s' = s_nets s ++ [mkNet [] false false] -> Wire s'.
Proof.
  intros W I G P ET ES EN.
  set (p := NSet (length (s_nets s))) in *.
  assert (SO : forall c, sent_on s' c = sent_on s c) by (intros d; unfold sent_on; now rewrite ES).
  assert (NA : forall d, d < length (s_nets s) -> netAt d s' = netAt d s) by (intros d L; unfold netAt; rewrite EN; now apply app_nth1).
  assert (WH : forall d, whole s' d = whole s d).
  { intros d. apply whole_same; [|apply SO]. intros u _. now apply (data_set s s' t _ ET). }
  assert (EL : length (s_nets s') = length (s_nets s) + 1) by (rewrite EN, app_length; reflexivity).
  constructor.
  - intros d L. rewrite EL in L. destruct (Nat.eq_dec d (length (s_nets s))) as [->|D].
    + exists []. assert (N : netAt (length (s_nets s)) s' = mkNet [] false false).
      { unfold netAt. rewrite EN, app_nth2 by lia. now rewrite Nat.sub_diag. }
      rewrite N. cbn [n_wire]. split.
      * rewrite WH, app_nil_r. unfold whole, sent_on. replace (filter _ _) with (@nil (nat * nat)); [reflexivity|].
        symmetry. destruct (filter _ _) as [|(u & d) q] eqn:F; [reflexivity|].
        assert (In (u, d) (filter (fun e => snd e =? length (s_nets s)) (s_sent s))) as H by (rewrite F; now left).
        apply filter_In in H. destruct H as [H E]. cbn in E. apply Nat.eqb_eq in E. destruct (w_sent s W u d H) as [L' _]. lia.
      * unfold tail. rewrite N. cbn. right. split; [|reflexivity]. intros u x k H. destruct (th_set s s' t _ u x ET H) as [(-> & z & Z1 & ->)|[D' H']]; [discriminate|].
        intros E. pose proof (i_uses s I u x (length (s_nets s)) H') as L'. rewrite E in L'. specialize (L' eq_refl). lia.
    + assert (L0 : d < length (s_nets s)) by lia. destruct (w_tail s W d L0) as (tl & A & B). exists tl. unfold tail in *. rewrite (NA d L0), WH.
      split; [exact A|]. destruct (n_bad (netAt d s)).
      * destruct B as (u & x & j & B1 & B0 & B2 & B3). exists u, x, j. split; [|auto]. apply (th_other s s' t _ u x ET); auto.
        intros ->. rewrite (th_fun _ _ _ _ B1 G), P in B2. discriminate.
      * destruct B as [(u & x & j & B1 & B2 & B3)|[B1 B2]].
        -- left. exists u, x, j. split; [|auto]. apply (th_other s s' t _ u x ET); auto. intros ->. rewrite (th_fun _ _ _ _ B1 G), P in B2. discriminate.
        -- right. split; [|exact B2]. intros u x j H. destruct (th_set s s' t _ u x ET H) as [(-> & z & Z1 & ->)|[D' H']]; [discriminate|now apply (B1 u)].
  - intros u d H. rewrite ES in H. rewrite EL. destruct (w_sent s W u d H) as (A & r & B). split; [lia|]. exists r.
    apply (th_other s s' t _ u _ ET); auto. intros ->. rewrite (th_fun _ _ _ _ G B) in P. discriminate.
  - intros u r H. rewrite ES. destruct (th_set s s' t _ u _ ET H) as [(-> & z & Z1 & Z2)|[D H']]; [discriminate|now apply (w_ok s W u r)].
  - rewrite ES. apply (w_once s W).
  - intros u x j d H E. destruct (th_set s s' t _ u _ ET H) as [(-> & z & Z1 & ->)|[D H']]; [discriminate|now apply (w_body s W u x j d)].
  - intros u x j d H E. destruct (th_set s s' t _ u _ ET H) as [(-> & z & Z1 & ->)|[D H']]; [discriminate|].
    pose proof (i_uses s I u x d H') as L'. rewrite E in L'. rewrite (NA d (L' eq_refl)). now apply (w_err s W u x j d).
Qed.

Lemma net_set c n s d : c < length (s_nets s) -> netAt d (setNet c n s) = if d =? c then n else netAt d s.
Proof. intros L. unfold netAt, setNet, withNets. cbn [s_nets]. rewrite nth_set_nth. apply Nat.ltb_lt in L. rewrite L, andb_true_r. reflexivity. Qed.
Lemma net_shut c s d : n_wire (netAt d (shut c s)) = n_wire (netAt d s) /\ n_bad (netAt d (shut c s)) = n_bad (netAt d s).
Proof.
  unfold shut, setNet, withNets, netAt. cbn [s_nets]. rewrite nth_set_nth.
  destruct (Nat.eqb_spec d c) as [->|]; cbn [andb]; [|auto]. destruct (c <? length (s_nets s)); cbn; auto.
Qed.

Lemma step_wire client s e s' : Inv s -> Wire s -> step client s e = Some s' -> Wire s'.
Proof.
  intros I W H. unfold step, stepT in H.
  cases H; injection H as <-;
  repeat match goal with H : free _ = true |- _ => apply free_none in H end;
  try match goal with |- Wire (mkSt _ _ _ _ _ _ _ _ _ (_ ++ [mkT ?c _]) _) => exact (wire_call s c W) end;
  try match goal with G : nth_error _ ?t = Some ?x, P : t_pc ?x = _ |- _ => facts s I t x G P end.
  all: try (match goal with G : nth_error _ ?t = Some ?x |- Wire (to ?t ?p _) => apply (wire_quiet s _ t p x W G); 
     rewrite ?Heqp; first [reflexivity | discriminate | (intros; apply net_shut) | (intros; split; reflexivity) | (cbn; apply set_nth_length) | (destruct (t_call x); discriminate) | idtac] end;
     (intros; first [discriminate | destruct (t_call _); discriminate | idtac]); fail).
  - apply (wire_quiet s _ t (Done r) t0 W Heqo); rewrite ?Heqp; try reflexivity; try discriminate; try (intros; split; reflexivity).
    intros [= ->]. unfold refused in Heqo0. destruct (s_closed s); [discriminate|]. destruct (client && negb (s_connected s)); discriminate.
  - apply (wire_enter s _ t t0 n W I Heqo Heqp); try reflexivity; [assumption|]. now apply (i_writer s I).
  - apply (wire_quiet s _ t (Done (gone client)) t0 W Heqo); rewrite ?Heqp; try reflexivity; try discriminate; try (intros; split; reflexivity).
    unfold gone. destruct client; discriminate.
  - apply (wire_leave s _ t t0 n c W I Heqo Heqp); try reflexivity; [now apply Nat.leb_le|assumption].
  - apply orb_false_iff in Heqb. destruct Heqb as [Bad _].
    apply (wire_chunk s _ t t0 n c k W I Heqo Heqp Bad); try reflexivity; [apply set_nth_length|].
    intros d. exact (net_set c _ s d (A7 c eq_refl)).
  - apply (wire_fail s _ t t0 n c (WErr n c) W I Heqo Heqp); try reflexivity; [auto|apply set_nth_length|].
    intros d. exact (net_set c _ s d (A7 c eq_refl)).
  - apply (wire_fail s _ t t0 n c (Done RFail) W I Heqo Heqp); try reflexivity; [auto|apply set_nth_length|].
    intros d. exact (net_set c _ s d (A7 c eq_refl)).
  - apply (wire_dial s _ t t0 W I Heqo Heqp); reflexivity.
Qed.
Lemma run_wire client s es s' : Inv s -> Wire s -> run client s es = Some s' -> Wire s'.
Proof.
  revert s. induction es as [|e es IH]; intros s I W H; cbn [run] in H; [now injection H as <-|].
  destruct (step client s e) as [m|] eqn:E; [|discriminate]. exact (IH m (step_inv _ _ _ _ I E) (step_wire _ _ _ _ I W E) H).
Qed.
