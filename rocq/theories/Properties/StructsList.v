(** C126, C127: lists of structs. *)
From Coq Require Import List ZArith Lia Bool.
From Verif.Proofs Require Import BaseLemmas ListReplay.
From Verif.Model Require Import StructsList.
From Verif.Spec Require Import StructsList.
From Verif.Proofs Require Import StructsList.
Import ListNotations.
Local Open Scope Z_scope.

Section T.
Context {V : Type} (venc : V -> bytes) (vdec : bytes -> res V) (vread : bytes -> res (V * bytes))
  (vdiff : V -> V -> res (option bytes)) (vapply : bytes -> V -> res V) (junk : V -> V) (beyond : fstate V -> Z -> V -> res (fstate V)) (f : Z).
Notation st := (fstate V).
Notation shown := (shown junk). Notation run := (run junk beyond). Notation step := (step junk beyond). Notation Marshal := (Marshal junk).
Notation made := (made junk beyond). Notation good_item := (good_item venc vdec vread). Notation good_pairs := (good_pairs vdiff vapply).
Notation Diff := (DiffStructs venc vdiff junk f). Notation Apply := (ApplyStructs vdec vread vapply junk beyond f).
Notation records := (records venc junk beyond f).

(** A list of a new struct shows what a plain list would after the same calls (Marshal among them); a call panics where the index is out of range. *)
Theorem C126_shows : forall es : list (edit V),
  match plains [] es with
  | Some l => exists s, run f_new es = Ok s /\ shown s = l
  | None => run f_new es = Panic
  end.
Proof.
  intros es. pose proof (mem1_run venc vdec vread vdiff vapply junk beyond f es f_new (mem1_new venc vdec vread vdiff vapply junk beyond f)) as X. change (shown f_new) with (@nil V) in X.
  destruct (plains [] es); [destruct X as (s & E & _ & Sh); exists s; auto|exact X].
Qed.

(** The same of an unmarshalled struct, up to the first Marshal and as long as no item is changed by its own setters. *)
Theorem C126_shows_read : forall (l : list V) es, Forall of_list es ->
  match plains l es with
  | Some l' => exists s, run (f_read l) es = Ok s /\ shown s = l'
  | None => run (f_read l) es = Panic
  end.
Proof.
  intros l es. change l with (shown (f_read l)) at 1. assert (S0 : single (fun _ _ _ => True) (f_read l)) by (left; repeat split).
  revert S0. generalize (f_read l) as s. clear l. induction es as [|e es IH]; intros s S0 F; cbn [plains]; [exists s; split; reflexivity|].
  inversion F as [|x y F1 F2]; subst.
  assert (X : match plain (shown s) e with Some l => exists s', step s e = Ok s' /\ single (fun _ _ _ => True) s' /\ shown s' = l | None => step s e = Panic end).
  { destruct (single_list venc vdec vread vdiff vapply junk beyond f _ s S0 (fun _ => Logic.I)) as (o & E & _ & SH & _). set (w := match f_cache s with Some _ => f_wait s | None => [0%nat] end) in *.
    assert (K : forall o', single (fun _ _ _ => True) (mkF (f_seg s) (Some 0%nat) [o'] w)) by (intros o'; right; exists o'; repeat split).
    destruct e as [|l|k v|l|k v|]; try contradiction; cbn [plain StructsList.step]; rewrite E.
    - eexists. split; [reflexivity|]. split; [apply K|]. exact SH.
    - eexists. split; [reflexivity|]. split; [apply K|]. unfold StructsList.shown, append, putObj, objAt. cbn. rewrite map_app, SH, (val_own venc vdec vread vdiff vapply junk beyond f). reflexivity.
    - unfold setItem, objAt. cbn [f_objs nth]. rewrite <- (len_map venc vdec vread vdiff vapply junk beyond f _ _ (val junk)), SH, (range_iff venc vdec vread vdiff vapply junk beyond f). destruct ((k <? 0) || (k >=? len (shown s))); [reflexivity|]. cbn [negb].
      eexists. split; [reflexivity|]. split; [apply K|]. unfold StructsList.shown, putObj, objAt. cbn. rewrite (map_upd venc vdec vread vdiff vapply junk beyond f), SH. reflexivity.
    - eexists. split; [reflexivity|]. split; [apply K|]. unfold StructsList.shown, setAll, putObj, objAt. cbn. apply (val_own venc vdec vread vdiff vapply junk beyond f). }
  cbn [StructsList.run]. destruct (plain (shown s) e) as [l'|].
  - destruct X as (s' & E & S' & <-). rewrite E. exact (IH s' S' F2).
  - rewrite X. reflexivity.
Qed.

(** The first Marshal writes the list that the accessor shows: of a struct made in memory; of an unmarshalled struct whose list was edited (not
    its items). *)
Theorem C126_wire_partial : forall s : st,
  made s \/ (exists l es, Forall of_list es /\ run (f_read l) es = Ok s) -> wire (Marshal s) = shown s.
Proof.
  intros s [M|(l & es & O & R)].
  - exact (mem_marshal venc vdec vread vdiff vapply junk beyond f s (proj1 (made_mem venc vdec vread vdiff vapply junk beyond f s M))).
  - apply (upto_run venc vdec vread vdiff vapply junk beyond f es (f_read l) s) in R; [|left; repeat split|exact O]. exact (single_marshal venc vdec vread vdiff vapply junk beyond f s R).
Qed.

Lemma off_marshal : forall s : st, f_cache s <> None -> off (Marshal s) (f_seg (Marshal s)).
Proof.
  intros s C. split; [|split; reflexivity]. unfold StructsList.Marshal. cbn [f_cache].
  enough (X : forall w (s : st), f_cache (fold_left (sync junk) w s) = f_cache s) by (rewrite X; exact C).
  induction w as [|i w IH]; intros t; [reflexivity|]. cbn [fold_left]. rewrite IH. unfold sync. destruct (o_dirty (objAt t i)); reflexivity.
Qed.
(** What the first Marshal writes is what every later one writes, whatever is done with the list in between. *)
Theorem C126_lost : forall es1 es2 (s1 s2 : st),
  ~ In EMarshal es1 -> run f_new (EAccess :: es1) = Ok s1 -> run s1 (EMarshal :: es2) = Ok s2 -> wire (Marshal s2) = shown s1.
Proof.
  intros es1 es2 s1 s2 N R1 R2. assert (MD : made s1) by (exists (EAccess :: es1); split; [intros [X|X]; [discriminate|exact (N X)]|exact R1]).
  destruct (made_mem venc vdec vread vdiff vapply junk beyond f s1 MD) as (M & M1). rewrite <- (mem_marshal venc vdec vread vdiff vapply junk beyond f s1 M).
  assert (C : f_cache s1 <> None).
  { cbn in R1. clear -R1 N venc vdec vread vdiff vapply f. change (run (mkF None (Some O) [mkO [] false] [O]) es1 = Ok s1) in R1.
    assert (U : mem1 (mkF None (Some O) [mkO ([] : list (item V)) false] [O])).
    { split; [right; eexists; split; [reflexivity|]; split; [reflexivity|]; split; [constructor|right; reflexivity]|reflexivity]. }
    assert (C : f_cache (mkF None (Some O) [mkO ([] : list (item V)) false] [O]) <> None) by discriminate.
    revert R1 U C. generalize (mkF None (Some O) [mkO ([] : list (item V)) false] [O]). induction es1 as [|e es IH]; intros s R U C; [injection R as <-; exact C|].
    cbn [StructsList.run] in R. destruct (step s e) as [t| | |] eqn:E; try discriminate.
    apply (IH (fun X => N (or_intror X)) t R).
    - pose proof (mem1_step venc vdec vread vdiff vapply junk beyond f s e U) as X. destruct (plain (shown s) e); [destruct X as (t' & E' & X & _); congruence|congruence].
    - destruct U as ([(C0 & _)|(o & C0 & O0 & B & _)] & _); [congruence|]. destruct e as [|l|k v|l|k v|]; cbn [StructsList.step] in E; unfold XxxList, GetListStructs in E; try rewrite C0 in E.
      + injection E as <-. exact C.
      + injection E as <-. exact C.
      + unfold setItem in E. destruct (_ || _); [discriminate|]. injection E as <-. exact C.
      + injection E as <-. exact C.
      + unfold changeItem in E. destruct (_ || _); [discriminate|]. destruct (nth_error (o_items (objAt s 0)) (Z.to_nat k)) as [i|] eqn:NE; [|discriminate].
        apply nth_error_In in NE. unfold objAt in NE. rewrite O0 in NE. cbn in NE. unfold owns in B. rewrite Forall_forall in B. destruct (B i NE) as (v' & ->). injection E as <-. exact C.
      + exfalso. apply N. left. reflexivity. }
  cbn [StructsList.run StructsList.step bind] in R2. pose proof (off_marshal s1 C) as F.
  assert (MM : mem1 (Marshal s1)). { pose proof (mem1_step venc vdec vread vdiff vapply junk beyond f s1 EMarshal M1) as X. cbn [plain StructsList.step] in X. destruct X as (t & E & X & _). injection E as <-. exact X. }
  revert R2 F MM. generalize (Marshal s1) at 1 2 4 as t. intros t R F MM.
  revert t R F MM. induction es2 as [|e es IH]; intros t R F MM.
  - injection R as <-. rewrite (off_wire venc vdec vread vdiff vapply junk beyond f t _ F). reflexivity.
  - cbn [StructsList.run] in R. destruct (step t e) as [t'| | |] eqn:E; try discriminate. apply (IH t' R).
    + exact (off_step venc vdec vread vdiff vapply junk beyond f t e t' _ F (or_intror MM) E).
    + pose proof (mem1_step venc vdec vread vdiff vapply junk beyond f t e MM) as X. destruct (plain (shown t) e); [destruct X as (u & E' & X & _); congruence|congruence].
Qed.

(** Diff between two structs and Apply on a struct made in memory with the list of the first one give the list of the second one, for the accessor
    and on the wire. *)
Theorem C127_memory_partial : forall from to base : st,
  made base -> shown base = shown from -> Forall good_item (shown to) -> good_pairs (shown from) (shown to) ->
  len (shown from) < 2 ^ 31 -> len (shown to) < 2 ^ 31 ->
  exists from' to' ops, Diff from to = Ok (from', to', ops) /\ shown from' = shown from /\ shown to' = shown to /\
    (len ops <= MaxPatchOps -> exists base', Apply base PatchVersion ops = Ok base' /\ shown base' = shown to /\ wire (Marshal base') = shown to).
Proof.
  intros from to base MD Sh GI GP L1 L2. unfold DiffStructs.
  pose proof (get_shown venc vdec vread vdiff vapply junk beyond f from) as X. destruct (GetListStructs from) as (from' & i). destruct X as (X1 & X2 & _).
  pose proof (get_shown venc vdec vread vdiff vapply junk beyond f to) as Y. destruct (GetListStructs to) as (to' & j). destruct Y as (Y1 & Y2 & _).
  destruct (diff_mem venc vdec vread vdiff vapply junk beyond f (shown from) (shown to) base (proj1 (made_mem venc vdec vread vdiff vapply junk beyond f base MD)) Sh GP GI L1 L2)
    as (ops & E & base' & A & M & Sh').
  rewrite X1, Y1, E. cbn [bind]. exists from', to', ops. split; [reflexivity|]. split; [exact X2|]. split; [exact Y2|]. intros LO.
  exists base'. unfold ApplyStructs. rewrite Z.eqb_refl. cbn [negb]. replace (MaxPatchOps <? len ops) with false by (symmetry; apply Z.ltb_ge; exact LO).
  split; [exact A|]. split; [exact Sh'|]. rewrite (mem_marshal venc vdec vread vdiff vapply junk beyond f base' M). exact Sh'.
Qed.

(** One operation on a struct that was unmarshalled with the list l. *)
Theorem C127_wire : forall (l : list V) k v vs, good_item v -> Forall good_item vs -> 0 < len vs < 2 ^ 31 ->
  let gives o r := exists s, Apply (f_read l) PatchVersion [o] = Ok s /\ shown s = r /\ wire (Marshal s) = r in
  (0 <= k < len l -> gives (mkRop f OpListSet k (venc v)) (upd l k v)) /\
  (0 <= k <= len l -> gives (mkRop f OpListInsert k (venc v)) (l ++ ins l k v)) /\
  (0 <= k < len l -> 1 < len l -> gives (mkRop f OpListRemove k []) (l ++ del l k)) /\
  (0 <= k < len l -> len l = 1 -> gives (mkRop f OpListRemove k []) []) /\
  gives (mkRop f OpListReplace NoListIndex (encodeStructs venc vs)) (l ++ vs).
Proof.
  intros l k v vs (_ & G1 & _) GV LV gives. assert (LM : len (map View l) = len l) by (unfold len; rewrite map_length; reflexivity).
  assert (W : forall (o0 o1 : lobj V), o_dirty o0 = false -> o_dirty o1 = true -> o_items o1 <> [] ->
    wire (Marshal (mkF (Some l) (Some 1%nat) [o0; o1] [0%nat; 1%nat])) = map (val junk) (o_items o1)).
  { intros o0 [i1 d1] D0 D1 NE. cbn in D1, NE. subst d1. unfold StructsList.Marshal, wire. cbn [f_wait fold_left]. unfold sync at 2. unfold objAt. cbn [f_objs nth]. rewrite D0.
    unfold sync, objAt. cbn. destruct i1; [congruence|reflexivity]. }
  assert (W1 : forall (it : list (item V)), it <> [] -> wire (Marshal (mkF (Some l) (Some 0%nat) [mkO it true] [0%nat])) = map (val junk) it).
  { intros it NE. unfold StructsList.Marshal, wire. cbn [f_wait fold_left]. unfold sync, objAt. cbn. destruct it; [congruence|reflexivity]. }
  assert (One : forall o s, apply_op vdec vread vapply junk beyond f (f_read l) o = Ok s -> Apply (f_read l) PatchVersion [o] = Ok s).
  { intros o s E. unfold ApplyStructs. rewrite Z.eqb_refl. cbn [negb]. replace (MaxPatchOps <? len [o]) with false by (vm_compute; reflexivity). cbn [apply_ops]. rewrite E. reflexivity. }
  split; [|split; [|split; [|split]]].
  - intros K. eexists. split; [apply One; rewrite (op_set venc vdec vread vdiff vapply junk beyond f); unfold applySet|].
    { replace (k <? 0) with false by (symmetry; apply Z.ltb_ge; lia). cbn. unfold objAt. cbn [f_objs nth o_items]. rewrite LM.
      replace (k >=? len l) with false by (symmetry; rewrite Z.geb_leb; apply Z.leb_gt; lia). rewrite G1. cbn [bind]. unfold setItem, objAt. cbn [f_objs nth o_items]. rewrite LM.
      replace (k <? 0) with false by (symmetry; apply Z.ltb_ge; lia). replace (k >=? len l) with false by (symmetry; rewrite Z.geb_leb; apply Z.leb_gt; lia). cbn [orb].
      unfold putObj. cbn [f_objs f_seg f_cache f_wait firstn skipn app]. reflexivity. }
    assert (SU : map (val junk) (upd (map View l) k (Own v)) = upd l k v) by (rewrite (map_upd venc vdec vread vdiff vapply junk beyond f), (val_view venc vdec vread vdiff vapply junk beyond f); reflexivity).
    split; [exact SU|]. rewrite W1; [exact SU|]. unfold upd. intros Q. apply app_eq_nil in Q. destruct Q as (_ & Q). discriminate.
  - intros K. eexists. split; [apply One; rewrite (op_insert venc vdec vread vdiff vapply junk beyond f); unfold applyInsert|].
    { replace (k <? 0) with false by (symmetry; apply Z.ltb_ge; lia). cbn. unfold objAt. cbn [f_objs nth o_items]. rewrite LM.
      replace (k >? len l) with false by (symmetry; rewrite Z.gtb_ltb; apply Z.ltb_ge; lia). rewrite G1. cbn. reflexivity. }
    assert (SU : map (val junk) (map View l ++ ins (map View l) k (Own v)) = l ++ ins l k v) by (rewrite map_app, (map_ins venc vdec vread vdiff vapply junk beyond f), !(val_view venc vdec vread vdiff vapply junk beyond f); reflexivity).
    split; [exact SU|]. unfold append, putObj, objAt. cbn. rewrite W; [exact SU|reflexivity|reflexivity|].
    cbn. unfold ins. intros Q. apply app_eq_nil in Q. destruct Q as (_ & Q). apply app_eq_nil in Q. destruct Q as (_ & Q). discriminate.
  - intros K L1. eexists. split; [apply One; rewrite (op_remove venc vdec vread vdiff vapply junk beyond f); unfold applyRemove|].
    { replace (k <? 0) with false by (symmetry; apply Z.ltb_ge; lia). cbn. unfold objAt. cbn [f_objs nth o_items]. rewrite LM.
      replace (k >=? len l) with false by (symmetry; rewrite Z.geb_leb; apply Z.leb_gt; lia). replace (len l =? 1) with false by (symmetry; apply Z.eqb_neq; lia). cbn. reflexivity. }
    assert (SU : map (val junk) (map View l ++ del (map View l) k) = l ++ del l k) by (rewrite map_app, (map_del venc vdec vread vdiff vapply junk beyond f), !(val_view venc vdec vread vdiff vapply junk beyond f); reflexivity).
    split; [exact SU|]. unfold append, putObj, objAt. cbn. rewrite W; [exact SU|reflexivity|reflexivity|].
    cbn. destruct l; [unfold len in L1; cbn in L1; lia|discriminate].
  - intros K L1. exists (mkF None None [mkO (map View l) false] []). split; [apply One; rewrite (op_remove venc vdec vread vdiff vapply junk beyond f); unfold applyRemove|split; reflexivity].
    replace (k <? 0) with false by (symmetry; apply Z.ltb_ge; lia). cbn. unfold objAt. cbn [f_objs nth o_items]. rewrite LM.
    replace (k >=? len l) with false by (symmetry; rewrite Z.geb_leb; apply Z.leb_gt; lia). replace (len l =? 1) with true by (symmetry; apply Z.eqb_eq; lia). reflexivity.
  - destruct (replace_data venc vdec vread vdiff vapply junk beyond f vs GV (proj2 LV)) as (R1 & R2). eexists. split; [apply One; rewrite (op_replace venc vdec vread vdiff vapply junk beyond f); unfold applyReplace|].
    { destruct (Z.eqb_spec (len (encodeStructs venc vs)) 0); [lia|]. destruct (Z.ltb_spec (len (encodeStructs venc vs)) 4); [lia|].
      cbn [NewStructs f_read f_seg f_objs f_wait length app]. rewrite R2. cbn [bind]. destruct vs as [|v0 vs]; [unfold len in LV; cbn in LV; lia|].
      unfold append, putObj, objAt. cbn [f_objs f_seg f_cache f_wait firstn skipn app nth o_items]. reflexivity. }
    assert (SU : map (val junk) (map View l ++ map Own vs) = l ++ vs) by (rewrite map_app, (val_own venc vdec vread vdiff vapply junk beyond f), (val_view venc vdec vread vdiff vapply junk beyond f); reflexivity).
    split; [exact SU|]. rewrite W1; [exact SU|]. intros Q. apply app_eq_nil in Q. destruct Q as (_ & Q). destruct vs; [unfold len in LV; cbn in LV; lia|discriminate].
Qed.

(** A patch of an item with a negative index panics on every struct that has the list. *)
Theorem C127_panics : forall (s : st) k data, f_cache s <> None \/ f_seg s <> None -> k < 0 ->
  Apply s PatchVersion [mkRop f OpListStructPatch k data] = Panic.
Proof.
  intros s k data H K. unfold ApplyStructs. rewrite Z.eqb_refl. cbn [negb]. replace (MaxPatchOps <? len [mkRop f OpListStructPatch k data]) with false by (vm_compute; reflexivity).
  cbn [apply_ops]. rewrite (op_patch venc vdec vread vdiff vapply junk beyond f). unfold applyPatch.
  assert (P : forall t i, (if k >=? len (o_items (objAt t i)) then Err else if k <? 0 then Panic else
    match nth_error (o_items (objAt t i)) (Z.to_nat k) with Some x => v <- vapply data (val junk x) ;; changeItem beyond t i k v | None => Panic end) = Panic).
  { intros t i. replace (k >=? len (o_items (objAt t i))) with false by (symmetry; rewrite Z.geb_leb; apply Z.leb_gt; unfold len; lia).
    replace (k <? 0) with true by (symmetry; apply Z.ltb_lt; exact K). reflexivity. }
  unfold GetListStructs. destruct (f_cache s) as [i|]; [rewrite P; reflexivity|]. destruct (f_seg s); [|destruct H; congruence].
  destruct (NewStructs s) as (t & i). rewrite P. reflexivity.
Qed.

(** The recording of Append, Set and SetAll of some items, replayed on a struct that was made in memory and shows the list from which the recording
    started, gives the recorded list, for the accessor and on the wire. *)
Theorem C127_record_partial : forall before es (s s' base : st),
  run f_new before = Ok s -> run s es = Ok s' -> Forall recordable es -> Forall (edit_good venc vdec vread) es ->
  made base -> shown base = shown s -> (forall p q s1, es = p ++ q -> run s p = Ok s1 -> len (shown s1) < 2 ^ 31) ->
  len (records s es) <= MaxPatchOps ->
  exists base', Apply base PatchVersion (records s es) = Ok base' /\ shown base' = shown s' /\ wire (Marshal base') = shown s'.
Proof.
  intros before es s s' base R0 R RE GE MD Sh L LO.
  assert (M : mem1 s). { pose proof (mem1_run venc vdec vread vdiff vapply junk beyond f before f_new (mem1_new venc vdec vread vdiff vapply junk beyond f)) as X. destruct (plains _ before); [destruct X as (t & E & X & _); congruence|congruence]. }
  destruct (record_run venc vdec vread vdiff vapply junk beyond f es s s' base M RE GE R (proj1 (made_mem venc vdec vread vdiff vapply junk beyond f base MD)) Sh L) as (b' & A & B & Sh').
  exists b'. unfold ApplyStructs. rewrite Z.eqb_refl. cbn [negb]. replace (MaxPatchOps <? len (records s es)) with false by (symmetry; apply Z.ltb_ge; exact LO).
  split; [exact A|]. split; [exact Sh'|]. rewrite (mem_marshal venc vdec vread vdiff vapply junk beyond f b' B). exact Sh'.
Qed.
End T.

(** * A concrete item: a number, which is its own encoding; a patch of it is the new number. *)
Definition zenc (v : Z) : bytes := [v].
Definition zdec (b : bytes) : res Z := match b with [v] => Ok v | _ => Err end.
Definition zread (b : bytes) : res (Z * bytes) := match b with v :: r => Ok (v, r) | [] => Err end.
Definition zdiff (x y : Z) : res (option bytes) := Ok (if x =? y then None else Some [y]).
Definition zapply (p : bytes) (x : Z) : res Z := zdec p.
Definition zjunk (v : Z) : Z := v + 1000.
Definition zbeyond (s : fstate Z) (k v : Z) : res (fstate Z) := Err.
Notation zrun := (run zjunk zbeyond). Notation zshown := (shown zjunk). Notation zM := (Marshal zjunk).
Notation zDiff := (DiffStructs zenc zdiff zjunk 3). Notation zApply := (ApplyStructs zdec zread zapply zjunk zbeyond 3).
Example z_good : forall v, good_item zenc zdec zread v.
Proof. intros v. split; [discriminate|split; reflexivity]. Qed.
Example z_pairs : forall a b, good_pairs zdiff zapply a b.
Proof. intros a b k x y _ _. unfold good_pair, zdiff. eexists. split; [reflexivity|]. destruct (Z.eqb_spec x y); [assumption|reflexivity]. Qed.
Example z_made : forall l, made zjunk zbeyond (mkF None (Some 0%nat) [mkO (map Own l) true] [0%nat]).
Proof. intros l. exists [EAppend l]. split; [intros [X|[]]; discriminate|]. reflexivity. Qed.

Example C126_case : exists s, zrun f_new [EAppend [1; 2]; EMarshal; EAppend [3]; EChange 0 7] = Ok s /\ zshown s = [7; 2; 3] /\ wire (zM s) = [1; 2].
Proof. eexists. split; [reflexivity|]. split; reflexivity. Qed.
(** Marshal always writes what the accessor shows: false. *)
Theorem C126_refuted : ~ (forall (s : fstate Z) es, zrun f_new es = Ok s -> wire (zM s) = zshown s).
Proof.
  intros H. destruct C126_case as (s & R & Sh & W). specialize (H s _ R). rewrite Sh, W in H. discriminate.
Qed.

Example C127_case : exists ops, zDiff (f_read [1; 2; 3; 4]) (f_read [1; 9; 3; 4; 5]) = Ok (fst (GetListStructs (f_read [1; 2; 3; 4])), fst (GetListStructs (f_read [1; 9; 3; 4; 5])), ops) /\ len ops = 2 /\
  exists b, zApply (mkF None (Some 0%nat) [mkO (map Own [1; 2; 3; 4]) true] [0%nat]) PatchVersion ops = Ok b /\ zshown b = [1; 9; 3; 4; 5].
Proof. eexists. split; [reflexivity|]. split; [reflexivity|]. eexists. split; reflexivity. Qed.
(** The law of Diff and Apply for a base that shows the list of the first struct, however it was made: false where the base was unmarshalled. *)
Theorem C127_refuted : ~ (forall (from to base : fstate Z) f' t' ops base',
  zshown base = zshown from -> zDiff from to = Ok (f', t', ops) -> zApply base PatchVersion ops = Ok base' -> zshown base' = zshown to).
Proof.
  intros H. pose proof (H (f_read [1; 2; 3]) (f_read [1; 2; 3; 4]) (f_read [1; 2; 3]) _ _ _ _ eq_refl eq_refl eq_refl) as X. vm_compute in X. discriminate X.
Qed.
(** ... and where it was made in memory and marshalled once. *)
Theorem C127_marshalled_refuted : ~ (forall (from to base : fstate Z) es f' t' ops base', zrun f_new es = Ok base ->
  zshown base = zshown from -> zDiff from to = Ok (f', t', ops) -> zApply base PatchVersion ops = Ok base' -> zshown base' = zshown to).
Proof.
  intros H. pose proof (H (f_read [1; 2; 3]) (f_read [1; 2; 3; 4]) _ [EAppend [1; 2; 3]; EMarshal] _ _ _ _ eq_refl eq_refl eq_refl eq_refl) as X. vm_compute in X. discriminate X.
Qed.
Notation zrecords := (records zenc zjunk zbeyond 3).
Example C127_record_case : exists s, zrun (mkF None (Some 0%nat) [mkO (map Own [1; 2]) true] [0%nat]) [EAppend [3; 4]; ESetItem 1 8; ESetAll [5]; EAppend [6]] = Ok s /\
  len (zrecords (mkF None (Some 0%nat) [mkO (map Own [1; 2]) true] [0%nat]) [EAppend [3; 4]; ESetItem 1 8; ESetAll [5]; EAppend [6]]) = 5 /\ zshown s = [5; 6].
Proof. eexists. split; [reflexivity|]. split; reflexivity. Qed.
(** Replay of a recording gives on the wire what the recorded struct shows: false for SetAll with no items, and for a change of an item. *)
Theorem C127_record_refuted : ~ (forall (s s' base' : fstate Z) es, made zjunk zbeyond s -> Forall of_list es -> zrun s es = Ok s' ->
  zApply s PatchVersion (zrecords s es) = Ok base' -> wire (zM base') = zshown s').
Proof.
  intros H. pose proof (H _ _ _ [ESetAll []] (z_made [1]) ltac:(repeat constructor) eq_refl eq_refl) as X. vm_compute in X. discriminate X.
Qed.
Theorem C127_changes_refuted : ~ (forall (s s' base' : fstate Z) es, made zjunk zbeyond s -> ~ In EMarshal es -> zrun s es = Ok s' ->
  zApply s PatchVersion (zrecords s es) = Ok base' -> zshown base' = zshown s').
Proof.
  intros H. pose proof (H _ _ _ [EChange 0 5] (z_made [1]) ltac:(intros [X|[]]; discriminate) eq_refl eq_refl) as X. vm_compute in X. discriminate X.
Qed.

Print Assumptions C126_shows.
Print Assumptions C126_shows_read.
Print Assumptions C126_wire_partial.
Print Assumptions C126_lost.
Print Assumptions C126_refuted.
Print Assumptions C127_memory_partial.
Print Assumptions C127_wire.
Print Assumptions C127_panics.
Print Assumptions C127_record_partial.
Print Assumptions C127_refuted.
Print Assumptions C127_marshalled_refuted.
Print Assumptions C127_record_refuted.
Print Assumptions C127_changes_refuted.
