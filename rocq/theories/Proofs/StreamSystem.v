(** Proofs about a stream from end to end. *)
From Coq Require Import ZArith Lia List Bool.
Import ListNotations.
From Verif.Model Require Import Base Compress Client.
From Verif.Model Require Import SrvSession.
From Verif.Model Require Client.
From Verif.Spec Require Import Delivery StreamSystem.
From Verif.Spec Require SrvSession.
From Verif.Proofs Require Import SrvSession SrvStream SrvClose.
Open Scope list_scope. Open Scope Z_scope.

(** * The messages of a session *)
(** The payloads of what was sent, up to the Close. *)
Fixpoint conv (ws : list wmsg) : list payload :=
  match ws with
  | [] => []
  | WData r d f :: q => Client.mkP r d f :: conv q
  | WClose _ _ :: _ => []
  end.
(** The data up to EndStream or Close. *)
Fixpoint pre (ws : list wmsg) : list bytes :=
  match ws with
  | WData r d false :: q => d :: pre q
  | _ => []
  end.

Lemma brought_stream : forall reg limit sid l a, Forall2 (carries reg sid) (filter (for_sess sid) l) a -> Forall (within limit) a ->
  stream_on reg limit sid l = conv a.
Proof.
  intros reg limit sid l. induction l as [|m l IH]; intros a F W; cbn [filter] in F.
  - inversion F; subst. reflexivity.
  - destruct m as [? ? ?|s c|w| | | ]; cbn [for_sess stream_on] in *; try (apply IH; assumption).
    + destruct (s =? sid); [|apply IH; assumption]. inversion F; subst. inversion H1; subst. reflexivity.
    + destruct (wp_sess w =? sid); [|apply IH; assumption]. inversion F as [|x y p q C F2 E1 E2]; subst. inversion C as [r d f w' E1 E2 E3 D|]; subst. inversion W as [|x y W1 W2]; subst. cbn [conv].
      rewrite <- (IH q F2 W2). unfold owed. rewrite D. cbn [within] in W1. destruct (limit <=? 0) eqn:E; [reflexivity|].
      destruct (Z.of_nat (length d) <=? limit) eqn:E2; [reflexivity|]. lia.
Qed.

Lemma brought_close : forall reg sid l a c, Forall2 (carries reg sid) (filter (for_sess sid) l) a -> close_code sid l = Some c -> exists md, In (WClose c md) a.
Proof.
  intros reg sid l. induction l as [|m l IH]; intros a c F C; cbn [filter close_code] in *; [discriminate|].
  destruct m as [? ? ?|s c'|w| | | ]; cbn [for_sess] in *; try (apply IH; assumption).
  - destruct (s =? sid); [|apply IH; assumption]. inversion F; subst. inversion H1; subst. injection C as ->. exists md. left. reflexivity.
  - destruct (wp_sess w =? sid); [|apply IH; assumption]. inversion F; subst. destruct (IH l' c H3 C) as (md & X). exists md. right. exact X.
Qed.

Definition plain (w : option nat * wmsg) : Prop :=
  match w with
  | (Some _, WData _ _ false) => True
  | (None, WData _ [] true) => True
  | (None, WClose _ _) => True
  | _ => False
  end.
Lemma until_pre : forall ws, Forall plain ws -> until_end (conv (map snd ws)) = pre (map snd ws).
Proof.
  intros ws. induction ws as [|[who w] q IH]; intros F; [reflexivity|]. inversion F; subst. destruct w as [r d f|c md]; [|reflexivity].
  cbn [map snd conv until_end pre Client.p_end Client.p_data]. destruct f; [|rewrite IH by assumption; reflexivity].
  destruct who; cbn in H1; [contradiction|]. destruct d; [reflexivity|contradiction].
Qed.

(** What a stream handler's session sends: data of its Sends, EndStream, Close. *)
Lemma wire_plain : forall k m es s, k <> Sync -> run k m (init k) es = Some s -> Forall plain (x_wire s).
Proof.
  intros k m es s HK H. revert es s H. apply (run_inv k m (fun es s => Forall plain (x_wire s))); [constructor|].
  intros es e s s' R F St. pose proof (proj1 (recv_holds _ _ _ _ HK R)) as Hs.
  destruct e; explode St; subst s'; try exact F; try (try rewrite Heqh in Hs; contradiction); try (cbn; apply Forall_app; split; [exact F|]; constructor; [exact I|constructor]).
Qed.

Definition sends (ws : list (option nat * wmsg)) : list bytes :=
  flat_map (fun e => match e with (Some _, WData _ d _) => [d] | _ => [] end) ws.
Lemma pre_sends : forall ws, Forall plain ws -> exists r, sends ws = pre (map snd ws) ++ r.
Proof.
  intros ws F. induction F as [|[who w] q P F (r & IH)]; [exists []; reflexivity|].
  destruct who as [i|], w as [rq d [|]|c md]; cbn in P; try contradiction; cbn [map snd pre app].
  - exists r. change (sends ((Some i, WData rq d false) :: q)) with (d :: sends q). rewrite IH. reflexivity.
  - eexists. reflexivity.
  - destruct d; contradiction.
  - eexists. reflexivity.
Qed.
Lemma pre_app : forall a b, exists r, pre (a ++ b) = pre a ++ r.
Proof.
  induction a as [|w a IH]; intros b; [eexists; reflexivity|]. destruct w as [r d [|]|c md]; cbn [app pre].
  - exists []. reflexivity.
  - destruct (IH b) as (x & E). exists x. rewrite E. reflexivity.
  - exists []. reflexivity.
Qed.
(** EndStream or Close. *)
Definition stops (w : wmsg) : Prop := match w with WData _ _ f => f = true | WClose _ _ => True end.
Lemma pre_stop : forall a b w, In w a -> stops w -> pre (a ++ b) = pre a.
Proof.
  induction a as [|x a IH]; intros b w I S; [destruct I|]. destruct x as [r d [|]|co md]; cbn [app pre]; try reflexivity.
  destruct I as [<-|I]; [cbn in S; discriminate|]. rewrite (IH b w I S). reflexivity.
Qed.
Lemma has_end_stop : forall a, has_end (conv a) -> exists w, In w a /\ stops w.
Proof.
  induction a as [|x a IH]; intros (p & I & E); [destruct I|]. destruct x as [r d f|co md]; [|destruct I].
  destruct I as [<-|I]; [exists (WData r d f); split; [left; reflexivity|exact E]|]. destruct IH as (w & W & S); [exists p; split; assumption|].
  exists w. split; [right; exact W|exact S].
Qed.

(** Before the handler's return only its Sends are on the wire. *)
Definition mine (w : option nat * wmsg) : Prop := match w with (Some _, WData _ _ false) => True | _ => False end.
Definition ret_inv (k : hkind) (m : Z) (es : list event) (s : st) : Prop :=
  match x_h s with
  | HUser | HRecv _ | HYield _ _ => Forall mine (x_wire s)
  | _ => exists es1 e es2 s1, es = es1 ++ EReturn e :: es2 /\ run k m (init k) es1 = Some s1 /\ Forall mine (x_wire s1)
  end.
Lemma ret_grow : forall k m es e s s', ret_inv k m es s -> x_h s' = x_h s -> (x_wire s' = x_wire s \/ exists w, x_wire s' = x_wire s ++ [w] /\ mine w) -> ret_inv k m (es ++ [e]) s'.
Proof.
  intros k m es e s s' V Hh Hw. unfold ret_inv in *. rewrite Hh. destruct (x_h s);
    first [ destruct V as (es1 & g & es2 & s1 & -> & R & F); exists es1, g, (es2 ++ [e]), s1; split; [rewrite <- app_assoc; reflexivity|split; assumption]
          | destruct Hw as [->|(w & -> & M)]; [exact V|apply Forall_app; split; [exact V|constructor; [exact M|constructor]]] ].
Qed.
Lemma ret_later : forall k m es e s, (exists es1 g es2 s1, es = es1 ++ EReturn g :: es2 /\ run k m (init k) es1 = Some s1 /\ Forall mine (x_wire s1)) ->
  match x_h s with HUser | HRecv _ | HYield _ _ => False | _ => True end -> ret_inv k m (es ++ [e]) s.
Proof.
  intros k m es e s (es1 & g & es2 & s1 & -> & R & F) Hh. unfold ret_inv.
  destruct (x_h s); try contradiction; (exists es1, g, (es2 ++ [e]), s1; split; [rewrite <- app_assoc; reflexivity|split; assumption]).
Qed.
Lemma ret_holds : forall k m es s, k <> Sync -> run k m (init k) es = Some s -> ret_inv k m es s.
Proof.
  intros k m es s HK H. revert es s H. apply (run_inv k m (ret_inv k m)); [destruct k; [congruence| | |]; constructor|].
  intros es e s s' R V St. pose proof (proj1 (recv_holds _ _ _ _ HK R)) as Hs.
  destruct e.
  all: try (apply (ret_grow k m es _ s); [exact V| |]; explode St; subst s'; first [reflexivity|left; reflexivity|right; eexists; split; [reflexivity|exact I]]).
  all: unfold ret_inv in V; explode St; subst s'; cbn in Hs; try contradiction; try (exact V); try (rewrite Heqh in V; exact V); try (rewrite Heqh in Hs; contradiction).
  all: try (apply ret_later; [exact V|exact I]).
  exists es, e, [], s. split; [reflexivity|]. split; [exact R|exact V].
Qed.
Lemma pre_only : forall ws l, Forall mine ws -> pre (map snd (ws ++ l)) = sends ws ++ pre (map snd l).
Proof.
  intros ws l F. induction F as [|[who w] q P F IH]; [reflexivity|]. destruct who as [i|], w as [rq d [|]|c md]; try contradiction.
  cbn [app map snd pre]. rewrite IH. reflexivity.
Qed.
