(** Proofs about lists of structs. *)
From Coq Require Import Lia.
From Verif.Proofs Require Import BaseLemmas ListReplay.
From Verif.Model Require Import StructsList.
From Verif.Spec Require Import StructsList.

Section P.
Set Default Proof Using "All".
Context {V : Type} (venc : V -> bytes) (vdec : bytes -> res V) (vread : bytes -> res (V * bytes))
  (vdiff : V -> V -> res (option bytes)) (vapply : bytes -> V -> res V)
  (junk : V -> V) (beyond : fstate V -> Z -> V -> res (fstate V)) (f : Z).
Notation st := (fstate V).
Notation val := (val junk). Notation shown := (shown junk). Notation step := (step junk beyond). Notation run := (run junk beyond).
Notation Marshal := (Marshal junk). Notation sync := (sync junk).

Definition own (x : item V) : Prop := exists v, x = Own v.
Definition owns (o : lobj V) : Prop := Forall own (o_items o).
Lemma own_map : forall l : list V, Forall own (map Own l).
Proof. induction l; constructor; [eexists; reflexivity|assumption]. Qed.
Lemma val_own : forall l : list V, map val (map Own l) = l.
Proof. intros l. rewrite map_map. apply map_id. Qed.
Lemma val_view : forall l : list V, map val (map View l) = l.
Proof. intros l. rewrite map_map. apply map_id. Qed.
Lemma stale_own : forall l : list (item V), Forall own l -> map stale l = l.
Proof. intros l H. induction H as [|x l (v & ->) H IH]; [reflexivity|]. cbn. rewrite IH. reflexivity. Qed.
Lemma own_upd : forall (l : list (item V)) k v, Forall own l -> Forall own (upd l k (Own v)).
Proof.
  intros l k v H. unfold upd. apply Forall_app. split; [|constructor; [eexists; reflexivity|]]; rewrite Forall_forall in *; intros x I; apply H.
  - rewrite <- (firstn_skipn (Z.to_nat k) l). apply in_or_app. left. exact I.
  - rewrite <- (firstn_skipn (Z.to_nat (k + 1)) l). apply in_or_app. right. exact I.
Qed.
Lemma map_upd : forall A B (g : A -> B) l k x, map g (upd l k x) = upd (map g l) k (g x).
Proof. intros A B g l k x. unfold upd, take, drop. rewrite map_app, firstn_map. cbn [map]. rewrite skipn_map. reflexivity. Qed.
Lemma len_map : forall A B (g : A -> B) l, len (map g l) = len l.
Proof. intros. unfold len. rewrite map_length. reflexivity. Qed.

(** * A program that only edits *)
(** No object yet, or one. *)
Definition single (P : lobj V -> list nat -> option (list V) -> Prop) (s : st) : Prop :=
  (f_cache s = None /\ f_objs s = [] /\ f_wait s = []) \/
  (exists o, f_cache s = Some O /\ f_objs s = [o] /\ P o (f_wait s) (f_seg s)).
Lemma single_list : forall P s, single P s -> (f_cache s = None -> P (mkO (match f_seg s with Some l => map View l | None => [] end) false) [O] (f_seg s)) ->
  exists o, XxxList s = (mkF (f_seg s) (Some O) [o] (match f_cache s with Some _ => f_wait s | None => [O] end), O) /\
    P o (match f_cache s with Some _ => f_wait s | None => [O] end) (f_seg s) /\ map val (o_items o) = shown s /\
    (f_cache s = None -> o = mkO (match f_seg s with Some l => map View l | None => [] end) false).
Proof.
  intros P [seg c objs w] H H0. unfold single in H. cbn [f_seg f_cache f_objs f_wait] in *. destruct H as [(-> & -> & ->)|(o & -> & -> & Ho)].
  - eexists. split; [|split; [exact (H0 eq_refl)|split; [|reflexivity]]].
    + unfold XxxList, GetListStructs. cbn. destruct seg; reflexivity.
    + unfold shown. cbn. destruct seg; [apply val_view|reflexivity].
  - exists o. split; [reflexivity|]. split; [exact Ho|]. split; [reflexivity|discriminate].
Qed.
Lemma put_single : forall (seg : option (list V)) c o w o', putObj (mkF seg c [o] w) 0 o' = mkF seg c [o'] w.
Proof. reflexivity. Qed.

Lemma range_iff : forall (l : list V) k, in_range l k = negb ((k <? 0) || (k >=? len l)).
Proof. intros l k. unfold in_range. rewrite Z.geb_leb. destruct (Z.leb_spec 0 k), (Z.ltb_spec k 0), (Z.ltb_spec k (len l)), (Z.leb_spec (len l) k); cbn; try reflexivity; lia. Qed.

(** Built in memory: all items are structs of their own. *)
Definition built (o : lobj V) (w : list nat) (seg : option (list V)) : Prop := owns o /\ (w = [] \/ w = [O]).
Definition mem1 (s : st) : Prop := single built s /\ (f_cache s = None -> f_seg s = None).
Lemma sync_one : forall seg c o w, owns o -> sync (mkF seg c [o] w) 0 =
  if o_dirty o then mkF (match o_items o with [] => None | l => Some (map val l) end) c [mkO (o_items o) false] w else mkF seg c [o] w.
Proof.
  intros seg c o w H. unfold sync, StructsList.sync, objAt. cbn [f_objs nth]. destruct (o_dirty o) eqn:D; [|reflexivity].
  cbn. rewrite stale_own by exact H. reflexivity.
Qed.
Lemma mem1_step : forall s e, mem1 s ->
  match plain (shown s) e with Some l => exists s', step s e = Ok s' /\ mem1 s' /\ shown s' = l | None => step s e = Panic end.
Proof.
  intros s e (H & HN). destruct (single_list built s H) as (o & E & (B1 & B2) & SH & _).
  { intros C. rewrite (HN C). split; [constructor|right; reflexivity]. }
  set (w := match f_cache s with Some _ => f_wait s | None => [O] end) in *.
  assert (K : forall o', owns o' -> mem1 (mkF (f_seg s) (Some O) [o'] w)).
  { intros o' Ho. split; [right; exists o'; cbn; split; [reflexivity|split; [reflexivity|split; [exact Ho|exact B2]]]|discriminate]. }
  destruct e as [|l|k v|l|k v|]; cbn [plain StructsList.step]; rewrite ?E.
  - eexists. split; [reflexivity|]. cbn [fst]. split; [apply K; exact B1|exact SH].
  - eexists. split; [reflexivity|]. unfold append. rewrite put_single. split; [apply K|].
    + unfold owns. cbn. apply Forall_app. split; [exact B1|apply own_map].
    + unfold shown, StructsList.shown. cbn. rewrite map_app, SH, val_own. reflexivity.
  - unfold setItem. cbn [objAt f_objs nth]. rewrite range_iff, <- SH, len_map. destruct ((k <? 0) || (k >=? len (o_items o))); cbn [negb]; [reflexivity|].
    eexists. split; [reflexivity|]. rewrite put_single. split; [apply K, own_upd; exact B1|]. unfold shown, StructsList.shown. cbn. apply map_upd.
  - eexists. split; [reflexivity|]. unfold setAll. rewrite put_single. split; [apply K, own_map|]. unfold shown, StructsList.shown. cbn. apply val_own.
  - unfold changeItem. cbn [objAt f_objs nth]. rewrite range_iff, <- SH, len_map. destruct ((k <? 0) || (k >=? len (o_items o))) eqn:R; cbn [negb]; [reflexivity|].
    apply orb_false_iff in R. destruct R as (R1 & R2). apply Z.ltb_ge in R1. rewrite Z.geb_leb in R2. apply Z.leb_gt in R2.
    destruct (nth_error (o_items o) (Z.to_nat k)) as [x|] eqn:N; [|apply nth_error_None in N; unfold len in R2; lia].
    assert (X : own x) by (unfold owns in B1; rewrite Forall_forall in B1; apply B1; exact (nth_error_In _ _ N)). destruct X as (u & ->).
    eexists. split; [reflexivity|]. rewrite put_single. split; [apply K, own_upd; exact B1|]. unfold shown, StructsList.shown. cbn. apply map_upd.
  - eexists. split; [reflexivity|]. destruct H as [(C & O & W)|(o' & C & O & B1' & B2')].
    + unfold Marshal, StructsList.Marshal. rewrite W. cbn. split; [split; [left; cbn; auto|cbn; intros _; exact (HN C)]|].
      unfold shown, StructsList.shown. cbn. rewrite C. reflexivity.
    + destruct s as [seg c objs w']. cbn [f_seg f_cache f_objs f_wait] in *. subst c objs. unfold Marshal, StructsList.Marshal. cbn [f_wait].
      destruct B2' as [-> | ->]; cbn [fold_left].
      * split; [split; [right; exists o'; cbn; repeat split; auto|discriminate]|reflexivity].
      * rewrite sync_one by exact B1'. destruct (o_dirty o'); (split; [split; [right; eexists; cbn; repeat split; auto|discriminate]|reflexivity]).
Qed.
Lemma mem1_new : mem1 f_new.
Proof. split; [left; auto|reflexivity]. Qed.
Lemma mem1_run : forall es s, mem1 s ->
  match plains (shown s) es with Some l => exists s', run s es = Ok s' /\ mem1 s' /\ shown s' = l | None => run s es = Panic end.
Proof.
  induction es as [|e q IH]; intros s M; cbn [plains StructsList.run]; [exists s; auto|]. pose proof (mem1_step s e M) as H.
  destruct (plain (shown s) e) as [l|]; [|rewrite H; reflexivity]. destruct H as (s1 & E & M1 & <-). rewrite E. cbn [bind]. exact (IH s1 M1).
Qed.

(** * Up to the first Marshal *)
Definition fresh (x : item V) : Prop := match x with Stale _ => False | _ => True end.
Definition upto (o : lobj V) (w : list nat) (seg : option (list V)) : Prop :=
  w = [O] /\ (o_dirty o = true \/ map val (o_items o) = match seg with Some l => l | None => [] end).
Lemma upto_step : forall s e s', single upto s -> (e <> EMarshal) -> (of_list e \/ mem1 s /\ f_seg s = None) -> step s e = Ok s' -> single upto s' /\ f_seg s' = f_seg s.
Proof.
  intros s e s' H NM OF St. destruct (single_list upto s H) as (o & E & (B1 & B2) & SH & _).
  { intros C. split; [reflexivity|]. right. cbn. destruct (f_seg s); [apply val_view|reflexivity]. }
  rewrite B1 in E.
  assert (K : forall o', o_dirty o' = true \/ map val (o_items o') = match f_seg s with Some l => l | None => [] end ->
    single upto (mkF (f_seg s) (Some O) [o'] [O]) /\ f_seg (mkF (f_seg s) (Some O) [o'] [O]) = f_seg s).
  { intros o' Ho. split; [|reflexivity]. right. exists o'. cbn. repeat split; auto. }
  destruct e as [|l|k v|l|k v|]; cbn [StructsList.step] in St; rewrite ?E in St; cbn [fst] in St.
  - injection St as <-. apply K. exact B2.
  - injection St as <-. unfold append. rewrite put_single. apply K. left. reflexivity.
  - unfold setItem in St. destruct ((k <? 0) || _); [discriminate|]. injection St as <-. rewrite put_single. apply K. left. reflexivity.
  - injection St as <-. unfold setAll. rewrite put_single. apply K. left. reflexivity.
  - destruct OF as [[]|((M & MN) & SN)]. unfold changeItem in St. cbn [objAt f_objs nth] in St. destruct ((k <? 0) || _) eqn:R; [discriminate|].
    destruct (single_list built s M) as (o' & E' & (O1 & _) & _ & _).
    { intros C. rewrite (MN C). split; [constructor|right; reflexivity]. }
    rewrite E in E'. injection E' as -> _. destruct (nth_error (o_items o') (Z.to_nat k)) as [x|] eqn:N; [|discriminate].
    assert (X : own x) by (unfold owns in O1; rewrite Forall_forall in O1; apply O1; exact (nth_error_In _ _ N)). destruct X as (u & ->).
    injection St as <-. rewrite put_single. apply K. cbn. destruct B2 as [B2|B2]; [left; exact B2|]. exfalso.
    rewrite SN in B2. destruct (o_items o'); [destruct (Z.to_nat k); discriminate|discriminate].
  - congruence.
Qed.
Lemma single_marshal : forall s, single upto s -> (wire (Marshal s) : list V) = shown s.
Proof.
  intros [seg c objs w] H. unfold single, upto in H. cbn [f_seg f_cache f_objs f_wait] in H. destruct H as [(-> & -> & ->)|(o & -> & -> & -> & D)]; [reflexivity|].
  unfold Marshal, StructsList.Marshal, wire, shown, StructsList.shown. cbn [f_wait fold_left]. unfold StructsList.sync, objAt. cbn [f_objs nth f_cache f_seg].
  destruct (o_dirty o) eqn:E; cbn; [destruct (o_items o); reflexivity|]. destruct D as [D|D]; [discriminate|]. symmetry. exact D.
Qed.
Lemma upto_run : forall es s s', single upto s -> Forall of_list es -> run s es = Ok s' -> single upto s'.
Proof.
  induction es as [|e q IH]; intros s s' H F R; cbn [StructsList.run] in R; [injection R as <-; exact H|]. inversion F as [|x y F1 F2]; subst.
  destruct (step s e) as [s1| | |] eqn:St; try discriminate. cbn in R. apply (IH s1); [|exact F2|exact R].
  apply (upto_step s e); auto. intros ->. exact F1.
Qed.
Lemma upto_run_mem : forall es s s', single upto s -> mem1 s -> f_seg s = None -> ~ In EMarshal es -> run s es = Ok s' -> single upto s' /\ mem1 s' /\ f_seg s' = None.
Proof.
  induction es as [|e q IH]; intros s s' H M N NI R; cbn [StructsList.run] in R; [injection R as <-; auto|].
  destruct (step s e) as [s1| | |] eqn:St; try discriminate. cbn in R.
  assert (NE : e <> EMarshal) by (intros ->; apply NI; left; reflexivity).
  destruct (upto_step s e s1 H NE (or_intror (conj M N)) St) as (H1 & N1). rewrite N in N1.
  pose proof (mem1_step s e M) as X. destruct (plain (shown s) e); [|congruence]. destruct X as (s2 & E & M2 & _). assert (s2 = s1) by congruence. subst s2.
  apply (IH s1); auto. intros I. apply NI. right. exact I.
Qed.

(** * After a Marshal *)
Definition off (s : st) (seg : option (list V)) : Prop := f_cache s <> None /\ f_wait s = [] /\ f_seg s = seg.
Lemma off_step : forall s e s' seg, off s seg -> (match e with EChange _ _ => False | _ => True end) \/ mem1 s -> step s e = Ok s' -> off s' seg.
Proof.
  intros s e s' seg (C & W & S) NE St. destruct (f_cache s) as [i|] eqn:Ec; [|congruence].
  assert (E : XxxList s = (s, i)) by (unfold XxxList, GetListStructs; rewrite Ec; reflexivity).
  assert (K : forall o, off (putObj s i o) seg) by (intros o; split; [cbn; rewrite Ec; discriminate|split; [exact W|exact S]]).
  destruct e as [|l|k v|l|k v|]; cbn [StructsList.step] in St; rewrite ?E in St; cbn [fst] in St.
  - injection St as <-. split; [congruence|auto].
  - injection St as <-. apply K.
  - unfold setItem in St. destruct ((k <? 0) || _); [discriminate|]. injection St as <-. apply K.
  - injection St as <-. apply K.
  - destruct NE as [[]|(M & MN)]. unfold changeItem in St. destruct ((k <? 0) || _); [discriminate|].
    destruct (nth_error (o_items (objAt s i)) (Z.to_nat k)) as [x|] eqn:N; [|discriminate].
    assert (X : own x).
    { destruct M as [(C' & _)|(o & C' & O & B & _)]; [congruence|]. assert (i = 0%nat) by congruence. subst i. unfold objAt in N. rewrite O in N. cbn in N.
      unfold owns in B. rewrite Forall_forall in B. apply B. exact (nth_error_In _ _ N). }
    destruct X as (u & ->). injection St as <-. apply K.
  - injection St as <-. unfold Marshal, StructsList.Marshal. rewrite W. cbn. split; [cbn; congruence|]. split; [reflexivity|exact S].
Qed.
Lemma off_wire : forall s seg, off s seg -> (wire (Marshal s) : list V) = match seg with Some l => l | None => [] end.
Proof. intros s seg (C & W & <-). unfold wire, Marshal, StructsList.Marshal. rewrite W. reflexivity. Qed.

(** * Patches of a list that is not in the segment *)
Definition mem (s : st) : Prop :=
  f_seg s = None /\ Forall owns (f_objs s) /\
  match f_cache s with
  | None => f_wait s = []
  | Some i => (i < length (f_objs s))%nat /\ exists w, f_wait s = w ++ [i] /\ Forall (fun j => (j < i)%nat) w /\
      (o_dirty (objAt s i) = true \/ o_items (objAt s i) = [] /\ Forall (fun j => o_dirty (objAt s j) = false) w)
  end.
Lemma mem_of_edits : forall s, single upto s -> mem1 s -> f_seg s = None -> mem s.
Proof.
  intros s U (M & _) N. split; [exact N|]. destruct M as [(C & Os & W)|(o & C & Os & B & _)]; rewrite C, Os.
  - split; [constructor|exact W].
  - split; [constructor; [exact B|constructor]|]. split; [cbn; lia|]. destruct U as [(C' & _)|(o' & _ & Os' & W & D)]; [congruence|].
    assert (o' = o) by congruence. subst o'. exists []. split; [exact W|]. split; [constructor|]. unfold objAt. rewrite Os. cbn. destruct D as [D|D]; [left; exact D|].
    right. rewrite N in D. destruct (o_items o); [split; [reflexivity|constructor]|discriminate].
Qed.
Lemma objs_own : forall (s : st) i, Forall owns (f_objs s) -> owns (objAt s i).
Proof. intros s i H. unfold objAt. destruct (nth_in_or_default i (f_objs s) (mkO [] false)) as [I|E]; [rewrite Forall_forall in H; exact (H _ I)|rewrite E; constructor]. Qed.
Lemma objAt_put : forall (s : st) i o j, (i < length (f_objs s))%nat -> objAt (putObj s i o) j = if (j =? i)%nat then o else objAt s j.
Proof.
  intros s i o j L. unfold objAt, putObj. cbn [f_objs]. destruct (Nat.eqb_spec j i) as [->|N].
  - rewrite app_nth2 by (rewrite firstn_length; lia). rewrite firstn_length. replace (i - Nat.min i (length (f_objs s)))%nat with O by lia. reflexivity.
  - destruct (Nat.lt_ge_cases j i) as [H|H].
    + rewrite app_nth1 by (rewrite firstn_length; lia). rewrite <- (firstn_skipn i (f_objs s)) at 2. rewrite app_nth1 by (rewrite firstn_length; lia). reflexivity.
    + rewrite app_nth2 by (rewrite firstn_length; lia). rewrite firstn_length. replace (Nat.min i (length (f_objs s))) with i by lia.
      replace (j - i)%nat with (S (j - i - 1)) by lia. cbn [nth]. rewrite <- (firstn_skipn (S i) (f_objs s)) at 2.
      destruct (Nat.lt_ge_cases j (length (f_objs s))) as [H'|H'].
      * rewrite app_nth2 by (rewrite firstn_length; lia). rewrite firstn_length. replace (Nat.min (S i) (length (f_objs s))) with (S i) by lia. f_equal. lia.
      * rewrite firstn_skipn. rewrite (nth_overflow (f_objs s)) by lia. apply nth_overflow. rewrite skipn_length. lia.
Qed.
Lemma own_put : forall (s : st) i o, Forall owns (f_objs s) -> owns o -> Forall owns (f_objs (putObj s i o)).
Proof.
  intros s i o H Ho. unfold putObj. cbn [f_objs]. apply Forall_app. split; [|constructor; [exact Ho|]]; rewrite Forall_forall in *; intros x I; apply H.
  - rewrite <- (firstn_skipn i (f_objs s)). apply in_or_app. left. exact I.
  - rewrite <- (firstn_skipn (S i) (f_objs s)). apply in_or_app. right. exact I.
Qed.
Lemma put_length : forall (s : st) i o, (i < length (f_objs s))%nat -> length (f_objs (putObj s i o)) = length (f_objs s).
Proof. intros s i o L. unfold putObj. cbn [f_objs]. rewrite app_length, firstn_length. cbn [length]. rewrite skipn_length. lia. Qed.

(** A new list with these items, after the ones there were. *)
Lemma mem_new : forall s l, mem s -> Forall own l -> l <> [] ->
  let (s1, i) := NewStructs s in mem (append s1 i l) /\ shown (append s1 i l) = map val l.
Proof.
  intros s l (N & O & H) L NE. unfold NewStructs. rewrite N. set (i := length (f_objs s)).
  set (s1 := mkF None (Some i) (f_objs s ++ [mkO [] false]) (f_wait s ++ [i])).
  assert (Li : (i < length (f_objs s1))%nat) by (cbn; rewrite app_length; cbn; unfold i; lia).
  assert (A0 : o_items (objAt s1 i) = []) by (unfold objAt; cbn; rewrite app_nth2 by (unfold i; lia); unfold i; rewrite Nat.sub_diag; reflexivity).
  assert (A : append s1 i l = putObj s1 i (mkO l true)) by (unfold append; rewrite A0; reflexivity). rewrite A. split.
  - split; [reflexivity|]. split; [apply own_put; [cbn; apply Forall_app; split; [exact O|constructor; [constructor|constructor]]|exact L]|].
    change (f_cache (putObj s1 i (mkO l true))) with (Some i). cbn iota. split; [rewrite put_length; exact Li|]. exists (f_wait s). split; [reflexivity|]. split.
    + destruct (f_cache s) as [c|]; [|rewrite H; constructor]. destruct H as (Lc & w & -> & Fw & _). apply Forall_app. split.
      * rewrite Forall_forall in *. intros j I. specialize (Fw j I). unfold i. lia.
      * constructor; [unfold i; lia|constructor].
    + left. rewrite objAt_put, Nat.eqb_refl by exact Li. reflexivity.
  - unfold shown, StructsList.shown. change (f_cache (putObj s1 i (mkO l true))) with (Some i). cbn iota. rewrite objAt_put, Nat.eqb_refl by exact Li. reflexivity.
Qed.
Lemma mem_get : forall s, mem s -> exists o, GetListStructs s = (s, o) /\ f_cache s = o /\ items_of junk s o = shown s.
Proof.
  intros s (N & _ & _). unfold GetListStructs, shown, StructsList.shown. destruct (f_cache s) as [i|] eqn:C.
  - exists (Some i). auto.
  - rewrite N. exists None. auto.
Qed.
Lemma mem_clear : forall s, mem s -> mem (ClearStructs s) /\ shown (ClearStructs s) = [].
Proof. intros s (N & O & _). split; [|reflexivity]. split; [reflexivity|]. split; [exact O|reflexivity]. Qed.

(** The writes of the other objects. *)
Lemma sync_keeps : forall w s, Forall owns (f_objs s) -> Forall (fun j => (j < length (f_objs s))%nat) w ->
  let s' := fold_left sync w s in Forall owns (f_objs s') /\ length (f_objs s') = length (f_objs s) /\ f_cache s' = f_cache s /\
    (forall j, ~ In j w -> objAt s' j = objAt s j) /\ (Forall (fun j => o_dirty (objAt s j) = false) w -> s' = s).
Proof.
  induction w as [|j w IH]; intros s O L; cbn [fold_left]; [repeat split; auto|]. inversion L as [|x y L1 L2]; subst.
  assert (SY : let s1 := sync s j in Forall owns (f_objs s1) /\ length (f_objs s1) = length (f_objs s) /\ f_cache s1 = f_cache s /\
     (forall j', j' <> j -> objAt s1 j' = objAt s j') /\ (o_dirty (objAt s j) = false -> s1 = s)).
  { unfold StructsList.sync. destruct (o_dirty (objAt s j)) eqn:D; [|cbn zeta; repeat split; auto]. cbn zeta.
    assert (OP : Forall owns (f_objs (putObj s j (mkO (o_items (objAt s j)) false)))) by (apply own_put; [exact O|exact (objs_own s j O)]).
    assert (E : map (fun o => mkO (map stale (o_items o)) (o_dirty o)) (f_objs (putObj s j (mkO (o_items (objAt s j)) false))) = f_objs (putObj s j (mkO (o_items (objAt s j)) false))).
    { set (l := f_objs (putObj s j (mkO (o_items (objAt s j)) false))) in *. clearbody l. clear -OP venc vdec vread vdiff vapply junk beyond f. induction OP as [|o l H OP IH]; [reflexivity|]. cbn. rewrite IH, stale_own by exact H.
      destruct o; reflexivity. }
    cbn [f_objs f_cache]. rewrite E. split; [exact OP|]. split; [apply put_length; exact L1|]. split; [reflexivity|]. split; [|discriminate].
    intros j' NJ. transitivity (objAt (putObj s j (mkO (o_items (objAt s j)) false)) j'); [reflexivity|].
    rewrite objAt_put by exact L1. destruct (Nat.eqb_spec j' j); [congruence|reflexivity]. }
  cbn zeta in SY. destruct SY as (S1 & S2 & S3 & S4 & S5). destruct (IH (sync s j) S1) as (I1 & I2 & I3 & I4 & I5).
  { rewrite S2. exact L2. }
  split; [exact I1|]. split; [lia|]. split; [congruence|]. split.
  - intros j' NJ. rewrite I4 by (intros X; apply NJ; right; exact X). apply S4. intros ->. apply NJ. left. reflexivity.
  - intros F. inversion F as [|x y F1 F2]; subst. rewrite (S5 F1) in I5 |- *. exact (I5 F2).
Qed.
Lemma mem_marshal : forall s, mem s -> (wire (Marshal s) : list V) = shown s.
Proof.
  intros s (N & O & H). unfold Marshal, StructsList.Marshal, wire, shown, StructsList.shown. cbn [f_seg]. destruct (f_cache s) as [i|] eqn:C.
  - destruct H as (L & w & W & F & D). rewrite W, fold_left_app. cbn [fold_left].
    destruct (sync_keeps w s O) as (K1 & K2 & K3 & K4 & K5); [rewrite Forall_forall in *; intros j I; specialize (F j I); lia|].
    assert (NI : ~ In i w) by (intros I; rewrite Forall_forall in F; specialize (F i I); lia). specialize (K4 i NI).
    unfold StructsList.sync at 1. rewrite K4. destruct (o_dirty (objAt s i)) eqn:DI.
    + cbn [f_seg]. destruct (o_items (objAt s i)) as [|x q]; reflexivity.
    + destruct D as [D|(D1 & D2)]; [congruence|]. rewrite (K5 D2), N, D1. reflexivity.
  - rewrite H. cbn. rewrite N. reflexivity.
Qed.

(** * The operations *)
Notation apply_op := (apply_op vdec vread vapply junk beyond f). Notation apply_ops := (apply_ops vdec vread vapply junk beyond f).
Notation patches := (patches vdiff f). Notation good_item := (good_item venc vdec vread). Notation good_pair := (good_pair vdiff vapply).
Notation good_pairs := (good_pairs vdiff vapply).
Lemma own_ins : forall (l : list (item V)) k v, Forall own l -> Forall own (ins l k (Own v)).
Proof.
  intros l k v H. unfold ins. apply Forall_app. split; [|constructor; [eexists; reflexivity|]]; rewrite Forall_forall in *; intros x I; apply H.
  - rewrite <- (firstn_skipn (Z.to_nat k) l). apply in_or_app. left. exact I.
  - rewrite <- (firstn_skipn (Z.to_nat k) l). apply in_or_app. right. exact I.
Qed.
Lemma own_del : forall (l : list (item V)) k, Forall own l -> Forall own (del l k).
Proof.
  intros l k H. unfold del. apply Forall_app. split; rewrite Forall_forall in *; intros x I; apply H.
  - rewrite <- (firstn_skipn (Z.to_nat k) l). apply in_or_app. left. exact I.
  - rewrite <- (firstn_skipn (Z.to_nat (k + 1)) l). apply in_or_app. right. exact I.
Qed.
Lemma map_ins : forall A B (g : A -> B) l k x, map g (ins l k x) = ins (map g l) k (g x).
Proof. intros A B g l k x. unfold ins, take, drop. rewrite map_app, firstn_map. cbn [map]. rewrite skipn_map. reflexivity. Qed.
Lemma map_del : forall A B (g : A -> B) l k, map g (del l k) = del (map g l) k.
Proof. intros A B g l k. unfold del, take, drop. rewrite map_app, firstn_map, skipn_map. reflexivity. Qed.
Lemma len_del : forall A (l : list A) k, 0 <= k < len l -> len (del l k) = len l - 1.
Proof. intros A l k H. unfold del, take, drop, len in *. rewrite app_length, firstn_length, skipn_length. lia. Qed.
Lemma mem_items : forall s, mem s -> exists o, GetListStructs s = (s, o) /\
  Forall own (match o with Some i => o_items (objAt s i) | None => [] end) /\ map val (match o with Some i => o_items (objAt s i) | None => [] end) = shown s /\ f_cache s = o.
Proof.
  intros s M. destruct (mem_get s M) as (o & E & C & Sh). exists o. split; [exact E|]. destruct M as (_ & Ow & _). destruct o as [i|].
  - split; [exact (objs_own s i Ow)|]. split; [exact Sh|exact C].
  - split; [constructor|]. split; [exact Sh|exact C].
Qed.
Lemma insert_mem : forall s k data v, mem s -> 0 <= k <= len (shown s) -> vdec data = Ok v ->
  exists s', applyInsert vdec s k data = Ok s' /\ mem s' /\ shown s' = ins (shown s) k v.
Proof.
  intros s k data v M K D. destruct (mem_items s M) as (o & E & Ow & Sh & _). unfold applyInsert. destruct (Z.ltb_spec k 0); [lia|]. rewrite E.
  set (l := match o with Some i => o_items (objAt s i) | None => [] end) in *. rewrite Z.gtb_ltb. rewrite <- Sh, len_map in K. destruct (Z.ltb_spec (len l) k); [lia|].
  rewrite D. cbn [bind]. pose proof (mem_new s (ins l k (Own v)) M (own_ins l k v Ow)) as X. destruct (NewStructs s) as [s1 i].
  destruct X as (M' & Sh'); [intros Q; unfold ins in Q; destruct (take k l); discriminate|].
  eexists. split; [reflexivity|]. split; [exact M'|]. rewrite Sh', map_ins, Sh. reflexivity.
Qed.
Lemma remove_mem : forall s k, mem s -> 0 <= k < len (shown s) ->
  exists s', applyRemove s k = Ok s' /\ mem s' /\ shown s' = del (shown s) k.
Proof.
  intros s k M K. destruct (mem_items s M) as (o & E & Ow & Sh & _). unfold applyRemove. destruct (Z.ltb_spec k 0); [lia|]. rewrite E.
  rewrite <- Sh, len_map in K. destruct o as [i|]; [|cbn in K; lia]. set (l := o_items (objAt s i)) in *. rewrite Z.geb_leb.
  destruct (Z.leb_spec (len l) k); [lia|]. destruct (Z.eqb_spec (len l) 1) as [L1|L1].
  - eexists. split; [reflexivity|]. destruct (mem_clear s M) as (M' & ->). split; [exact M'|]. rewrite <- Sh.
    destruct l as [|x [|y q]]; unfold len in *; cbn [length] in *; try lia. replace k with 0 by lia. reflexivity.
  - pose proof (mem_new s (del l k) M (own_del l k Ow)) as X. destruct (NewStructs s) as [s1 j].
    destruct X as (M' & Sh'); [intros Q; apply (f_equal len) in Q; rewrite len_del in Q by lia; change (len []) with 0 in Q; lia|].
    eexists. split; [reflexivity|]. split; [exact M'|]. rewrite Sh', map_del, Sh. reflexivity.
Qed.
Lemma mem_put : forall s i l (keep : o_dirty (objAt s i) = true \/ l = [] ), mem s -> f_cache s = Some i -> Forall own l ->
  mem (putObj s i (mkO l (o_dirty (objAt s i)))) /\ shown (putObj s i (mkO l (o_dirty (objAt s i)))) = map val l.
Proof.
  intros s i l KP (N & Ow & H) C L. rewrite C in H. destruct H as (Li & w & W & F & D). split.
  - split; [exact N|]. split; [apply own_put; assumption|]. change (f_cache (putObj s i (mkO l (o_dirty (objAt s i))))) with (f_cache s). rewrite C.
    split; [rewrite put_length; exact Li|]. exists w. split; [exact W|]. split; [exact F|]. rewrite objAt_put, Nat.eqb_refl by exact Li. cbn [o_dirty o_items].
    destruct D as [D|(D1 & D2)]; [left; exact D|]. destruct KP as [KP|KP]; [left; exact KP|]. right. split; [exact KP|].
    rewrite Forall_forall in *. intros j I. rewrite objAt_put by exact Li. specialize (F j I). destruct (Nat.eqb_spec j i); [lia|]. exact (D2 j I).
  - unfold shown, StructsList.shown. change (f_cache (putObj s i (mkO l (o_dirty (objAt s i))))) with (f_cache s). rewrite C. cbn iota. rewrite objAt_put, Nat.eqb_refl by exact Li. reflexivity.
Qed.
Lemma patch_mem : forall s k data x v, mem s -> 0 <= k -> nth_error (shown s) (Z.to_nat k) = Some x -> vapply data x = Ok v ->
  exists s', applyPatch vapply junk beyond s k data = Ok s' /\ mem s' /\ shown s' = upd (shown s) k v.
Proof.
  intros s k data x v M K N A. destruct (mem_items s M) as (o & E & Ow & Sh & C). unfold applyPatch. rewrite E. rewrite <- Sh in N.
  destruct o as [i|]; [|destruct (Z.to_nat k); discriminate]. set (l := o_items (objAt s i)) in *.
  assert (LK : k < len l) by (assert (X : (Z.to_nat k < length (map val l))%nat) by (apply nth_error_Some; congruence); rewrite map_length in X; unfold len; lia).
  rewrite Z.geb_leb. destruct (Z.leb_spec (len l) k); [lia|]. destruct (Z.ltb_spec k 0); [lia|]. rewrite nth_error_map in N.
  destruct (nth_error l (Z.to_nat k)) as [y|] eqn:Y; [|discriminate]. cbn in N. injection N as N. rewrite N, A. cbn [bind]. unfold changeItem. fold l.
  rewrite Z.geb_leb. destruct (Z.leb_spec (len l) k); [lia|]. destruct (Z.ltb_spec k 0); [lia|]. cbn [orb]. rewrite Y.
  assert (X : own y) by (rewrite Forall_forall in Ow; apply Ow; exact (nth_error_In _ _ Y)). destruct X as (u & ->).
  assert (D : o_dirty (objAt s i) = true).
  { destruct M as (_ & _ & M). rewrite C in M. destruct M as (_ & w & _ & _ & [D|(D & _)]); [exact D|]. fold l in D. rewrite D in Y. destruct (Z.to_nat k); discriminate. }
  destruct (mem_put s i (upd l k (Own v)) (or_introl D) M C (own_upd l k v Ow)) as (M' & Sh'). eexists. split; [reflexivity|]. split; [exact M'|].
  rewrite Sh', map_upd, Sh. reflexivity.
Qed.
Lemma set_mem : forall s k data v, mem s -> 0 <= k < len (shown s) -> vdec data = Ok v ->
  exists s', applySet vdec s k data = Ok s' /\ mem s' /\ shown s' = upd (shown s) k v.
Proof.
  intros s k data v M K A. destruct (mem_items s M) as (o & E & Ow & Sh & C). unfold applySet. destruct (Z.ltb_spec k 0); [lia|]. rewrite E.
  rewrite <- Sh, len_map in K. destruct o as [i|]; [|cbn in K; lia]. set (l := o_items (objAt s i)) in *. rewrite Z.geb_leb. destruct (Z.leb_spec (len l) k); [lia|].
  rewrite A. cbn [bind]. unfold setItem. fold l. rewrite Z.geb_leb. destruct (Z.leb_spec (len l) k); [lia|]. destruct (Z.ltb_spec k 0); [lia|]. cbn [orb].
  assert (D : o_dirty (objAt s i) = true).
  { destruct M as (_ & _ & M). rewrite C in M. destruct M as (_ & w & _ & _ & [D|(D & _)]); [exact D|]. fold l in D. rewrite D in K. cbn in K. lia. }
  destruct (mem_put s i (upd l k (Own v)) (or_introl D) M C (own_upd l k v Ow)) as (M' & Sh'). rewrite D in M', Sh'. eexists. split; [reflexivity|]. split; [exact M'|].
  rewrite Sh', map_upd, Sh. reflexivity.
Qed.
Lemma read_items : forall b, Forall good_item b -> readItems vread (length b) (concat (map venc b)) = Ok b.
Proof.
  induction b as [|v b IH]; intros H; [reflexivity|]. inversion H as [|x y (_ & _ & H1) H2]; subst. cbn [length readItems map concat]. rewrite H1. cbn [bind]. rewrite IH by exact H2. reflexivity.
Qed.
Lemma replace_data : forall b, Forall good_item b -> len b < 2 ^ 31 ->
  4 <= len (encodeStructs venc b) /\ readItems vread (Z.to_nat (Z.min (Base.le_dec (take 4 (encodeStructs venc b))) (len (encodeStructs venc b) + 1))) (drop 4 (encodeStructs venc b)) = Ok b.
Proof.
  intros b G L. unfold encodeStructs. assert (L4 : length (le_enc 4 (len b)) = 4%nat) by (apply le_enc_length).
  assert (LB : len b <= len (concat (map venc b))).
  { clear -G. induction G as [|v b (H & _) G IH]; [unfold len; cbn; lia|]. cbn [map concat]. unfold len in *. rewrite app_length. cbn [length].
    destruct (venc v); [congruence|]. cbn [length]. lia. }
  split; [unfold len at 1; rewrite app_length, L4; lia|].
  assert (T : take 4 (le_enc 4 (len b) ++ concat (map venc b)) = le_enc 4 (len b)) by reflexivity.
  assert (D : drop 4 (le_enc 4 (len b) ++ concat (map venc b)) = concat (map venc b)) by reflexivity.
  rewrite T, D, le_dec_enc_id by (change (256 ^ Z.of_nat 4) with (2 ^ 32); unfold len in *; lia).
  replace (Z.min (len b) (len (le_enc 4 (len b) ++ concat (map venc b)) + 1)) with (len b) by (unfold len in *; rewrite app_length; lia).
  replace (Z.to_nat (len b)) with (length b) by (unfold len; lia). apply read_items. exact G.
Qed.
Lemma replace_mem : forall s b, mem s -> Forall good_item b -> b <> [] -> len b < 2 ^ 31 ->
  exists s', applyReplace vread s (encodeStructs venc b) = Ok s' /\ mem s' /\ shown s' = b.
Proof.
  intros s b M G NE L. destruct (replace_data b G L) as (L4 & RD). unfold applyReplace. destruct (Z.eqb_spec (len (encodeStructs venc b)) 0); [lia|].
  destruct (Z.ltb_spec (len (encodeStructs venc b)) 4); [lia|]. pose proof (mem_new s (map Own b) M (own_map b)) as X. destruct (NewStructs s) as [s1 i].
  rewrite RD. cbn [bind]. destruct b as [|v b]; [congruence|]. destruct X as (M' & Sh'); [discriminate|]. eexists. split; [reflexivity|]. split; [exact M'|].
  rewrite Sh', val_own. reflexivity.
Qed.

(** * Sequences of operations *)
Lemma apply_ops_app : forall a b s, apply_ops s (a ++ b) = bind (apply_ops s a) (fun s => apply_ops s b).
Proof. induction a as [|o a IH]; intros b s; [reflexivity|]. cbn [app StructsList.apply_ops]. destruct (apply_op s o); cbn [bind]; [apply IH|reflexivity|reflexivity|reflexivity]. Qed.
Lemma op_insert : forall s k d, apply_op s (mkRop f OpListInsert k d) = applyInsert vdec s k d.
Proof. intros. unfold StructsList.apply_op. cbn [r_fn r_type r_index r_data]. rewrite Z.eqb_refl. reflexivity. Qed.
Lemma op_remove : forall s k d, apply_op s (mkRop f OpListRemove k d) = applyRemove s k.
Proof. intros. unfold StructsList.apply_op. cbn [r_fn r_type r_index r_data]. rewrite Z.eqb_refl. reflexivity. Qed.
Lemma op_set : forall s k d, apply_op s (mkRop f OpListSet k d) = applySet vdec s k d.
Proof. intros. unfold StructsList.apply_op. cbn [r_fn r_type r_index r_data]. rewrite Z.eqb_refl. reflexivity. Qed.
Lemma op_replace : forall s k d, apply_op s (mkRop f OpListReplace k d) = applyReplace vread s d.
Proof. intros. unfold StructsList.apply_op. cbn [r_fn r_type r_index r_data]. rewrite Z.eqb_refl. reflexivity. Qed.
Lemma op_patch : forall s k d, apply_op s (mkRop f OpListStructPatch k d) = applyPatch vapply junk beyond s k d.
Proof. intros. unfold StructsList.apply_op. cbn [r_fn r_type r_index r_data]. rewrite Z.eqb_refl. reflexivity. Qed.

Lemma upd_mid : forall A (pre : list A) x y q, upd (pre ++ x :: q) (len pre) y = pre ++ y :: q.
Proof.
  intros A pre x y q. unfold upd, take, drop, len. rewrite Nat2Z.id, firstn_app, firstn_all, Nat.sub_diag. cbn. rewrite app_nil_r. f_equal. f_equal.
  replace (Z.to_nat (Z.of_nat (length pre) + 1)) with (S (length pre)) by lia. rewrite skipn_app. rewrite skipn_all2 by lia.
  replace (S (length pre) - length pre)%nat with 1%nat by lia. reflexivity.
Qed.
Lemma ins_end : forall A (l : list A) x, ins l (len l) x = l ++ [x].
Proof. intros A l x. unfold ins, take, drop, len. rewrite Nat2Z.id, firstn_all, skipn_all. reflexivity. Qed.
Lemma del_end : forall A (l : list A) x, del (l ++ [x]) (len l) = l.
Proof.
  intros A l x. unfold del, take, drop, len. rewrite Nat2Z.id, firstn_app, firstn_all, Nat.sub_diag. cbn. rewrite app_nil_r.
  rewrite skipn_all2 by (rewrite app_length; cbn; lia). apply app_nil_r.
Qed.
Lemma patches_mem : forall a b pre s, mem s -> shown s = pre ++ a -> good_pairs a b -> len (pre ++ a) < 2 ^ 31 ->
  exists p, patches (len pre) a b = Ok p /\ exists s', apply_ops s p = Ok s' /\ mem s' /\ shown s' = pre ++ firstn (length a) b ++ skipn (length b) a.
Proof.
  induction a as [|x a IH]; intros b pre s M Sh G L.
  - exists []. split; [reflexivity|]. exists s. split; [reflexivity|]. split; [exact M|]. cbn. rewrite skipn_nil. exact Sh.
  - destruct b as [|y b]; [exists []; split; [reflexivity|]; exists s; split; [reflexivity|]; split; [exact M|exact Sh]|].
    destruct (G 0%nat x y eq_refl eq_refl) as (d & D & A). assert (G' : good_pairs a b) by (intros k u w U W; exact (G (S k) u w U W)).
    assert (LP : len (pre ++ [y]) = len pre + 1) by (unfold len; rewrite app_length; cbn; lia).
    assert (P : forall s1, mem s1 -> shown s1 = pre ++ y :: a -> exists p, patches (len pre + 1) a b = Ok p /\ exists s', apply_ops s1 p = Ok s' /\ mem s' /\
      shown s' = pre ++ y :: firstn (length a) b ++ skipn (length b) a).
    { intros s1 M1 Sh1. destruct (IH b (pre ++ [y]) s1 M1) as (p & E & s' & R & M' & Sh'); [rewrite <- app_assoc; exact Sh1|exact G'| |].
      - unfold len in *. rewrite !app_length in *. cbn in *. lia.
      - rewrite LP in E. exists p. split; [exact E|]. exists s'. split; [exact R|]. split; [exact M'|]. rewrite Sh', <- app_assoc. reflexivity. }
    cbn [StructsList.patches]. rewrite D. cbn [bind length firstn skipn app]. destruct d as [pd|].
    + destruct (patch_mem s (len pre) pd x y M) as (s1 & E1 & M1 & Sh1); [unfold len; lia| |exact A|].
      { rewrite Sh. unfold len. rewrite Nat2Z.id, nth_error_app2, Nat.sub_diag by lia. reflexivity. }
      rewrite Sh, upd_mid in Sh1. destruct (P s1 M1 Sh1) as (p & E & s' & R & M' & Sh'). rewrite E. cbn [bind]. eexists. split; [reflexivity|].
      exists s'. split; [|split; [exact M'|exact Sh']]. cbn [StructsList.apply_ops]. rewrite op_patch, s32_id by (unfold len in *; rewrite app_length in L; cbn in L; lia).
      rewrite E1. exact R.
    + subst y. destruct (P s M Sh) as (p & E & s' & R & M' & Sh'). rewrite E. cbn [bind]. exists p. split; [reflexivity|]. exists s'. auto.
Qed.
Lemma inserts_mem : forall l s, mem s -> Forall good_item l -> len (shown s) + len l < 2 ^ 31 ->
  exists s', apply_ops s (map (fun p => mkRop f OpListInsert (s32 (Z.of_nat (fst p))) (venc (snd p))) (combine (seq (length (shown s)) (length l)) l)) = Ok s' /\ mem s' /\ shown s' = shown s ++ l.
Proof.
  induction l as [|v l IH]; intros s M G L; [exists s; split; [reflexivity|]; split; [exact M|rewrite app_nil_r; reflexivity]|].
  inversion G as [|x y (_ & G1 & _) G2]; subst. cbn [length seq combine map fst snd StructsList.apply_ops]. rewrite op_insert.
  assert (LL : len (v :: l) = len l + 1) by (unfold len; cbn; lia).
  rewrite s32_id by (unfold len in *; lia). destruct (insert_mem s (Z.of_nat (length (shown s))) (venc v) v M) as (s1 & E & M1 & Sh); [unfold len; lia|exact G1|].
  rewrite E. cbn [bind]. change (Z.of_nat (length (shown s))) with (len (shown s)) in Sh. rewrite ins_end in Sh.
  destruct (IH s1 M1 G2) as (s' & R & M' & Sh').
  - rewrite Sh. unfold len in *. rewrite app_length. cbn [length] in *. lia.
  - replace (length (shown s1)) with (S (length (shown s))) in R by (rewrite Sh, app_length; cbn; lia). exists s'. split; [exact R|]. split; [exact M'|].
    rewrite Sh', Sh, <- app_assoc. reflexivity.
Qed.
Lemma removes_mem : forall n b rest s, mem s -> shown s = b ++ rest -> length rest = n -> len (shown s) < 2 ^ 31 ->
  exists s', apply_ops s (map (fun i => mkRop f OpListRemove (s32 (Z.of_nat i)) []) (rev (seq (length b) n))) = Ok s' /\ mem s' /\ shown s' = b.
Proof.
  induction n as [|n IH]; intros b rest s M Sh LR L.
  - exists s. split; [reflexivity|]. split; [exact M|]. destruct rest; [|discriminate]. rewrite Sh. apply app_nil_r.
  - rewrite seq_S, rev_app_distr. cbn [rev app map StructsList.apply_ops]. rewrite op_remove.
    destruct (exists_last (l := rest)) as (r & x & ->); [intros ->; discriminate|]. rewrite app_length in LR. cbn in LR.
    assert (K : Z.of_nat (length b + n) = len (b ++ r)) by (unfold len; rewrite app_length; lia).
    assert (LS : len (shown s) = len (b ++ r) + 1) by (rewrite Sh; unfold len; rewrite !app_length; cbn; lia).
    rewrite K, s32_id by (unfold len in *; lia). destruct (remove_mem s (len (b ++ r)) M) as (s1 & E & M1 & Sh1); [unfold len in *; lia|].
    rewrite E. cbn [bind]. rewrite Sh, app_assoc, del_end in Sh1. apply (IH b r s1 M1 Sh1); [lia|]. rewrite Sh1. lia.
Qed.
Lemma diff_mem : forall a b s, mem s -> shown s = a -> good_pairs a b -> Forall good_item b -> len a < 2 ^ 31 -> len b < 2 ^ 31 ->
  exists ops, diff_structs venc vdiff f a b = Ok ops /\ exists s', apply_ops s ops = Ok s' /\ mem s' /\ shown s' = b.
Proof.
  intros a b s M Sh G GI La Lb. unfold diff_structs.
  destruct ((len a =? 0) && (len b =? 0)) eqn:E0.
  { apply andb_true_iff in E0. destruct E0 as (A0 & B0). apply Z.eqb_eq in A0, B0. destruct a; [|unfold len in A0; cbn in A0; lia]. destruct b; [|unfold len in B0; cbn in B0; lia].
    exists []. split; [reflexivity|]. exists s. auto. }
  destruct (patches_mem a b [] s M Sh G La) as (p & E & s1 & R1 & M1 & Sh1). change (len []) with 0 in E. rewrite E. cbn [bind app] in *.
  eexists. split; [reflexivity|].
  destruct ((0 <? _) && _).
  - destruct b as [|v b].
    + cbn. destruct (mem_clear s M) as (MC & SC). exists (ClearStructs s). split; [|split; [exact MC|exact SC]]. unfold StructsList.apply_op. cbn [r_fn r_type r_data]. rewrite Z.eqb_refl. reflexivity.
    + destruct (replace_mem s (v :: b) M GI) as (s' & E' & M' & Sh'); [discriminate|exact Lb|]. exists s'. split; [|auto].
      cbn [replaceStructs StructsList.apply_ops]. replace (len (v :: b) =? 0) with false by (symmetry; apply Z.eqb_neq; unfold len; cbn; lia). rewrite op_replace, E'. reflexivity.
  - rewrite apply_ops_app, R1. cbn [bind]. rewrite apply_ops_app. unfold list_inserts, list_removes. destruct (Nat.le_ge_cases (length a) (length b)) as [H|H].
    + rewrite (skipn_all2 a) in Sh1 by lia. rewrite app_nil_r in Sh1. replace (length a - length b)%nat with 0%nat by lia. cbn [seq rev map].
      destruct (inserts_mem (skipn (length a) b) s1 M1) as (s2 & R2 & M2 & Sh2).
      * rewrite Forall_forall in *. intros x I. apply GI. rewrite <- (firstn_skipn (length a) b). apply in_or_app. right. exact I.
      * rewrite Sh1. unfold len in *. rewrite firstn_length, skipn_length. lia.
      * rewrite Sh1, firstn_length, skipn_length in R2. replace (Nat.min (length a) (length b)) with (length a) in R2 by lia. rewrite R2. cbn [bind].
        exists s2. split; [reflexivity|]. split; [exact M2|]. rewrite Sh2, Sh1. apply firstn_skipn.
    + rewrite (firstn_all2 b) in Sh1 by lia. rewrite (skipn_all2 b) by lia. replace (length b - length a)%nat with 0%nat by lia. cbn [seq combine map bind StructsList.apply_ops].
      destruct (removes_mem (length a - length b) b (skipn (length b) a) s1 M1 Sh1) as (s2 & R2 & M2 & Sh2); [rewrite skipn_length; lia| |].
      * rewrite Sh1. unfold len in *. rewrite app_length, skipn_length. lia.
      * exists s2. auto.
Qed.

(** * Recording *)
Notation edit_good := (edit_good venc vdec vread).
Lemma combine_shift : forall (l : list V) n, map (fun p => mkRop f OpListInsert (s32 (Z.of_nat n + Z.of_nat (fst p))) (venc (snd p))) (combine (seq 0 (length l)) l) =
  map (fun p => mkRop f OpListInsert (s32 (Z.of_nat (fst p))) (venc (snd p))) (combine (seq n (length l)) l).
Proof.
  intros l n. cut (forall k, map (fun p => mkRop f OpListInsert (s32 (Z.of_nat n + Z.of_nat (fst p))) (venc (snd p))) (combine (seq k (length l)) l) =
    map (fun p => mkRop f OpListInsert (s32 (Z.of_nat (fst p))) (venc (snd p))) (combine (seq (k + n) (length l)) l)); [intros X; exact (X 0%nat)|].
  induction l as [|v l IH]; intros k; [reflexivity|]. cbn [length seq combine map fst snd].
  replace (Z.of_nat n + Z.of_nat k) with (Z.of_nat (k + n)) by lia. f_equal. exact (IH (S k)).
Qed.
Lemma record_step : forall s e s1 b, mem1 s -> recordable e -> edit_good e -> step s e = Ok s1 -> mem b -> shown b = shown s ->
  len (shown s1) < 2 ^ 31 -> exists b', apply_ops b (recorded venc f s e) = Ok b' /\ mem b' /\ shown b' = shown s1.
Proof.
  intros s e s1 b M RE GE St B Sh L. pose proof (mem1_step s e M) as X.
  destruct e as [|l|k v|l|k v|]; try contradiction; cbn [plain] in X.
  - destruct X as (s2 & E & _ & Sh2). assert (s2 = s1) by congruence. subst s2. exists b. split; [reflexivity|]. split; [exact B|]. congruence.
  - destruct X as (s2 & E & _ & Sh2). assert (s2 = s1) by congruence. subst s2. cbn [recorded].
    destruct (single_list built s (proj1 M)) as (o & EL & _ & SH & _).
    { intros C. rewrite (proj2 M C). split; [constructor|right; reflexivity]. }
    rewrite EL. cbn [objAt f_objs nth]. rewrite <- (len_map _ _ val), SH, <- Sh. unfold len. rewrite combine_shift.
    destruct (inserts_mem l b B GE) as (b' & R & B' & Sh'); [rewrite Sh; rewrite Sh2 in L; unfold len in *; rewrite app_length in L; lia|].
    exists b'. split; [exact R|]. split; [exact B'|]. congruence.
  - destruct (in_range (shown s) k) eqn:R; [|congruence]. destruct X as (s2 & E & _ & Sh2). assert (s2 = s1) by congruence. subst s2. unfold in_range in R.
    apply andb_true_iff in R. destruct R as (R1 & R2). apply Z.leb_le in R1. apply Z.ltb_lt in R2.
    cbn [recorded StructsList.apply_ops]. destruct GE as (_ & G1 & _).
    assert (LU : len (upd (shown s) k v) = len (shown s)).
    { unfold upd, take, drop, len in *. rewrite app_length, firstn_length. cbn [length]. rewrite skipn_length. lia. }
    rewrite op_set, s32_id by (rewrite Sh2, LU in L; lia). destruct (set_mem b k (venc v) v B) as (b' & E' & B' & Sh'); [rewrite Sh; lia|exact G1|].
    rewrite E'. cbn [bind]. exists b'. split; [reflexivity|]. split; [exact B'|]. congruence.
  - destruct X as (s2 & E & _ & Sh2). assert (s2 = s1) by congruence. subst s2. cbn [recorded StructsList.apply_ops]. rewrite op_replace.
    destruct (replace_mem b l B GE) as (b' & E' & B' & Sh'); [intros ->; exact RE|rewrite Sh2 in L; exact L|].
    rewrite E'. exists b'. split; [reflexivity|]. split; [exact B'|]. congruence.
Qed.
Lemma record_run : forall es s s' b, mem1 s -> Forall recordable es -> Forall edit_good es -> run s es = Ok s' -> mem b -> shown b = shown s ->
  (forall p q s1, es = p ++ q -> run s p = Ok s1 -> len (shown s1) < 2 ^ 31) ->
  exists b', apply_ops b (records venc junk beyond f s es) = Ok b' /\ mem b' /\ shown b' = shown s'.
Proof.
  induction es as [|e es IH]; intros s s' b M R G E B Sh L.
  - injection E as <-. exists b. auto.
  - inversion R as [|x y R1 R2]; subst. inversion G as [|x y G1 G2]; subst. cbn [StructsList.run] in E. destruct (step s e) as [s1| | |] eqn:S1; try discriminate. cbn [bind] in E.
    destruct (record_step s e s1 b M R1 G1 S1 B Sh) as (b1 & A1 & B1 & Sh1).
    { apply (L [e] es); [reflexivity|]. cbn. rewrite S1. reflexivity. }
    assert (M1 : mem1 s1). { pose proof (mem1_step s e M) as X. destruct (plain (shown s) e); [destruct X as (s2 & E2 & X & _); congruence|congruence]. }
    destruct (IH s1 s' b1 M1 R2 G2 E B1 Sh1) as (b' & A2 & B2 & Sh2).
    { intros p q s2 -> Rp. apply (L (e :: p) q); [reflexivity|]. cbn. rewrite S1. exact Rp. }
    exists b'. split; [|auto]. cbn [records]. rewrite S1, apply_ops_app, A1. exact A2.
Qed.
Notation made := (made junk beyond).
Lemma made_mem : forall s, made s -> mem s /\ mem1 s.
Proof.
  intros s (es & N & R). assert (U : single upto (f_new : st)) by (left; repeat split).
  destruct (upto_run_mem es f_new s U mem1_new eq_refl N R) as (U' & M & F). split; [exact (mem_of_edits s U' M F)|exact M].
Qed.
Lemma get_shown : forall s : st, let '(s', o) := GetListStructs s in items_of junk s' o = shown s /\ shown s' = shown s /\ f_seg s' = f_seg s.
Proof.
  intros s. unfold GetListStructs. destruct (f_cache s) as [i|] eqn:C; [unfold StructsList.shown; rewrite C; auto|]. destruct (f_seg s) as [l|] eqn:G.
  - unfold NewStructs. rewrite G. unfold StructsList.shown. cbn [items_of f_cache f_seg]. unfold objAt. cbn [f_objs]. rewrite C, G, nth_middle. cbn [o_items]. rewrite val_view. auto.
  - unfold StructsList.shown. rewrite C, G. auto.
Qed.
End P.
