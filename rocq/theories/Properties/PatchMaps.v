(** C128: patches of maps and of Any fields. *)
From Coq Require Import List ZArith Lia Bool.
From Verif.Model Require Import PatchMaps.
Import ListNotations.
Local Open Scope Z_scope.

(** A type with a map, an Any or a list of Any has no Diff: it fails for every two structs, also for equal ones. *)
Theorem C128_diff : forall l from to ops, In (Some DOther) l -> Diff l from to <> Ok ops.
Proof.
  intros l from to. unfold Diff. generalize 0. induction l as [|[d|] l IH]; intros i ops I; [destruct I| |].
  - cbn [diff_fields]. destruct (diff_field from to i d) as [x| | |] eqn:E; try discriminate. cbn [bind].
    destruct I as [I|I]; [injection I as ->; discriminate E|]. destruct (diff_fields from to (i + 1) l) as [y| | |] eqn:F; try discriminate.
    exfalso. exact (IH _ _ I F).
  - destruct I as [I|I]; [discriminate|]. exact (IH _ _ I).
Qed.

(** Changes of a map are recorded, but the replay of the recording succeeds and changes nothing, whatever the base. *)
Theorem C128_lost : forall kt vt f es m m' ops h base l, ~ In MClear es -> m_edits kt vt f m es = Ok (m', ops) -> len ops <= MaxPatchOps ->
  m_Apply h base l PatchVersion ops = Ok (h, base).
Proof.
  intros kt vt f es m m' ops h base l NC E LO. unfold m_Apply. rewrite Z.eqb_refl. cbn [negb].
  replace (MaxPatchOps <? len ops) with false by (symmetry; apply Z.ltb_ge; exact LO). clear LO. generalize MaxPatchNestingDepth. intros fuel.
  assert (P : Forall (fun o => r_type o = OpMapSet \/ r_type o = OpMapDelete) ops).
  { revert m m' ops E NC. induction es as [|e es IH]; intros m m' ops E NC; cbn [m_edits] in E; [injection E as <- <-; constructor|].
    destruct (m_recorded kt vt f m e) as [o| | |] eqn:R; try discriminate. cbn [bind] in E. destruct (m_edit kt m e) as [m1| | |]; try discriminate. cbn [bind] in E.
    destruct (m_edits kt vt f m1 es) as [[m2 q]| | |] eqn:E2; try discriminate. cbn [bind] in E. injection E as <- <-. apply Forall_app. split; [|apply (IH _ _ _ E2); intros X; apply NC; right; exact X].
    destruct e as [k v|k|]; cbn in R.
    - injection R as <-. repeat constructor.
    - destruct (mp_Has kt m k) as [[|]| | |]; try discriminate; injection R as <-; repeat constructor; right; reflexivity.
    - exfalso. apply NC. left. reflexivity. }
  clear E. induction P as [|o ops [H|H] P IH]; [reflexivity| |]; cbn [m_apply_ops]; destruct fuel; cbn [m_apply_op]; rewrite H; cbn; exact IH.
Qed.
(** Every Set is recorded, and every Delete of a key that is there: the recording is not empty. *)
Theorem C128_recorded : forall kt vt f m e m' ops, m_edits kt vt f m [e] = Ok (m', ops) ->
  match e with
  | MSet k v => ops = [mkRop f OpMapSet NoListIndex (encodeKeyValue kt vt k v)]
  | MDelete k => mp_Has kt m k = Ok true -> ops = [mkRop f OpMapDelete NoListIndex (encodeKey kt k)]
  | MClear => mp_keys m <> [] -> ops = [mkRop f OpClear NoListIndex []]
  end.
Proof.
  intros kt vt f m e m' ops E. cbn [m_edits] in E. destruct (m_recorded kt vt f m e) as [o| | |] eqn:R; try discriminate. cbn [bind] in E.
  destruct (m_edit kt m e) as [m1| | |]; try discriminate. cbn [bind] in E. injection E as <- <-. rewrite app_nil_r. destruct e as [k v|k|]; cbn in R.
  - congruence.
  - intros H. rewrite H in R. cbn in R. congruence.
  - intros H. unfold mp_Len in R. destruct (mp_keys m) as [|x q]; [congruence|]. replace (len (x :: q) >? 0) with true in R by (symmetry; rewrite Z.gtb_ltb; apply Z.ltb_lt; unfold len; cbn; lia). congruence.
Qed.

Definition map_edits : list medit := [MSet (KNum 5) (MNum 7); MSet (KNum 3) (MNum 9); MDelete (KNum 5)].
Example C128_case : exists m' ops h b, m_edits (KTNum KI32) (VTNum KI32) 1 NewMaps map_edits = Ok (m', ops) /\ len ops = 3 /\
  mp_keys m' = [KNum 3] /\ m_New [] 2 = Ok (h, b) /\ m_Apply h b [Some (DScalar KI32); Some DOther] PatchVersion ops = Ok (h, b).
Proof.
  destruct (m_edits (KTNum KI32) (VTNum KI32) 1 NewMaps map_edits) as [[m' ops]| | |] eqn:E; try (vm_compute in E; discriminate E).
  destruct (m_New [] 2) as [[h b]| | |] eqn:N; try (vm_compute in N; discriminate N).
  assert (L : len ops = 3) by (vm_compute in E; injection E as <- <-; reflexivity).
  exists m', ops, h, b. split; [reflexivity|]. split; [exact L|]. split; [vm_compute in E; injection E as <- <-; reflexivity|]. split; [reflexivity|].
  apply (C128_lost (KTNum KI32) (VTNum KI32) 1 map_edits NewMaps m' ops); [|exact E|rewrite L; vm_compute; discriminate].
  unfold map_edits. intros [X|[X|[X|[]]]]; discriminate.
Qed.
(** The replay of a recording onto a struct equal to the one that was recorded gives its map: false. *)
Theorem C128_refuted : ~ (forall kt vt f l es m' ops h b h' b', m_New [] (length l) = Ok (h, b) -> nth_error l (Z.to_nat f) = Some (Some DOther) ->
  m_edits kt vt f NewMaps es = Ok (m', ops) -> m_Apply h b l PatchVersion ops = Ok (h', b') ->
  exists m, GetMap kt vt (load h' b') f = Ok (Some m) /\ mp_keys m = mp_keys m').
Proof.
  intros H. destruct C128_case as (m' & ops & h & b & E & _ & _ & N & A). destruct (H _ _ 1 [Some (DScalar KI32); Some DOther] _ _ _ _ _ _ _ N eq_refl E A) as (m & G & _).
  vm_compute in N. injection N as <- <-. vm_compute in G. discriminate G.
Qed.
Print Assumptions C128_diff.
Print Assumptions C128_lost.
Print Assumptions C128_recorded.
Print Assumptions C128_refuted.
