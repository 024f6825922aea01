(** C76, C77, C78: the generated Ingest methods against Walk. *)
From Coq Require Import ZArith List Bool Lia ZifyBool.
Import ListNotations.
From Coq Require Import Sorting.Sorted.
From Verif.Model Require Import Base Field MapApi Token Walk TokenStream Ingest.
From Verif.Spec Require Import Message MapSpec TokenGrammar Values Ingest.
From Verif.Proofs Require Import BaseLemmas MapLemmas TokenVals WalkProofs IngestProofs IngestWhole IngestTotal IngestExt.
From Verif.Properties Require Import Tokens.
Open Scope Z_scope.

(** ** C76: Ingest takes over what Walk shows *)
Lemma ingest_toks E ig id x m q : known E ig skippable id m -> struct_of (snd (E id)) x -> forall n, (length (toks m ++ q) <= n)%nat ->
  ingest_from E ig n id x (NewTokenStream (toks m ++ q)) = Ok (merge E id x m, NewTokenStream q).
Proof. intros K S n N. rewrite C37_walk_stream in *. apply (ingest_ok E ig m id n x (NewTokenStream (mtoks m ++ q)) q K S eq_refl N). Qed.
(** The tokens of a walked struct, whatever comes after them, give the struct with the fields taken
    over. *)
Theorem C76_ingest E ig id x m q : known E ig skippable id m -> struct_of (snd (E id)) x -> Ingest E ig id x (toks m ++ q) = Ok (merge E id x m).
Proof. intros K S. unfold Ingest. rewrite (ingest_toks E ig id x m q K S); [reflexivity|]. unfold NewTokenStream, left. cbn. lia. Qed.
(** Ingest into a new struct of the same type is the inverse of Walk: every accessor of the new struct
    returns what that of the walked struct returns. *)
Theorem C76_inverse_partial E ig id nm fs : names_differ E -> whole E id (TMsg nm fs) ->
  Ingest E ig id (blank E id) (toks (TMsg nm fs)) = Ok fs.
Proof.
  intros ND W. rewrite <- (app_nil_r (toks _)). rewrite C76_ingest; [|apply whole_known; assumption|apply struct_of_fresh].
  pose proof (whole_merge E ND _ id W) as H. injection H as _ H. rewrite H. reflexivity.
Qed.
(** And so walking the new struct gives the same tokens. *)
Corollary C76_same_tokens_partial E ig id m : names_differ E -> whole E id m ->
  exists fs, Ingest E ig id (blank E id) (toks m) = Ok fs /\ toks (TMsg (fst (E id)) fs) = toks m.
Proof. destruct m as [nm fs]. intros ND W. exists fs. split; [apply C76_inverse_partial; assumption|]. inversion W; subst. reflexivity. Qed.

(** A struct type with a field of every sort, and a second one for its nested structs. *)
Definition colour : list (bytes * Z) := [([110; 111], 0); ([114; 101; 100], 1)].
Definition demo_env : env := fun id =>
  match id with
  | O => ([65], [([97], TyNum KU8 (Some colour)); ([98], TyNum KF64 None); ([99], TyStr true); ([100], TyMsg 1);
                 ([101], TyNums KI16 None); ([102], TyStrs false); ([103], TyMsgs 1); ([104], TyMap KTStr VTStruct 1);
                 ([105], TyAny); ([106], TyAnys); ([107], TyMap (KTNum KI32) (VTNum KU8) 0)])
  | _ => ([66], [([120], TyNum KI64 None); ([121], TyStr true)])
  end.
Definition inner (z : Z) (b : bytes) : tmsg := TMsg [66] [([120], FNum KI64 z None); ([121], FStr true b)].
Definition demo_full : tmsg :=
  TMsg [65] [([97], FNum KU8 1 (Some [114; 101; 100])); ([98], FNum KF64 (2 ^ 62) None); ([99], FStr true [104; 105]); ([100], FMsg (Some (inner (-3) [])));
             ([101], FNums KI16 [(-1, None); (0, None)]); ([102], FStrs false [[1]; []]); ([103], FMsgs [inner 0 []; inner 4 [122]]);
             ([104], FMap KTStr VTStruct [(KStr [97], EMsg (Some (inner 0 []))); (KStr [98], EMsg (Some (inner 9 [])))]);
             ([105], FAny (Some (repeat 7 16, [1; 2]))); ([106], FAnys [(repeat 8 16, []); (repeat 9 16, [3])]);
             ([107], FMap (KTNum KI32) (VTNum KU8) [(KNum (-2), ENum 5); (KNum 1, ENum 6)])].
Lemma demo_names : names_differ demo_env.
Proof.
  intros [|id]; cbn; repeat (constructor; [cbn; intros H; repeat (destruct H as [H|H]; [discriminate|]); exact H|]); constructor.
Qed.
Lemma inner_whole z b id : plain KI64 z -> whole demo_env (S id) (inner z b).
Proof. intros P. apply (whole_msg demo_env (S id)). repeat constructor; apply P. Qed.
Example C76_case : whole demo_env 0 demo_full /\ Ingest demo_env false 0 (blank demo_env 0) (toks demo_full) = Ok (match demo_full with TMsg _ fs => fs end).
Proof.
  assert (W : whole demo_env 0 demo_full).
  { apply (whole_msg demo_env 0).
    assert (P : forall z, -10 < z < 10 -> plain KI64 z) by (intros z Hz; split; [unfold in_range; cbn; lia|reflexivity]).
    repeat (constructor; [split; [reflexivity|]|]); cbn [fst snd]; try constructor.
    - split; [unfold in_range; cbn; lia|reflexivity].
    - split; [unfold in_range; vm_compute; split; congruence|reflexivity].
    - apply inner_whole, P. lia.
    - reflexivity.
    - repeat constructor; cbn; unfold in_range; cbn; try lia.
    - constructor; [|constructor; [|constructor]]; apply inner_whole, P; lia.
    - repeat constructor. exists []. right. exists 97, 98, [], []. repeat split; lia.
    - repeat (constructor; [split; [repeat constructor; unfold is_byte; lia|constructor; apply inner_whole, P; lia]|]). constructor.
    - reflexivity.
    - discriminate.
    - repeat constructor.
    - repeat constructor. 
    - repeat constructor; unfold in_range; cbn; lia. }
  split; [exact W|]. apply (C76_inverse_partial demo_env false 0 [65] _ demo_names W).
Qed.
(** Without the conditions on the message it is not the inverse: a nested struct in which nothing is set
    is lost; lists of a struct that is not new are extended; a nil struct in a map is an error. *)
Theorem C76_empty_struct_refuted : exists E fs fs', names_differ E /\ struct_of (snd (E 0%nat)) fs /\ known E false skippable 0 (TMsg (fst (E 0%nat)) fs) /\
  Ingest E false 0 (blank E 0) (toks (TMsg (fst (E 0%nat)) fs)) = Ok fs' /\ assoc [100] fs = Some (FMsg (Some (inner 0 []))) /\ assoc [100] fs' = Some (FMsg None).
Proof.
  exists (fun id => match id with O => ([65], [([100], TyMsg 1)]) | _ => demo_env 1%nat end), [([100], FMsg (Some (inner 0 [])))], [([100], FMsg None)].
  split; [|split; [|split; [|vm_compute; auto]]].
  - intros [|id]; cbn; repeat (constructor; [cbn; intros H; repeat (destruct H as [H|H]; [discriminate|]); exact H|]); constructor.
  - repeat constructor.
  - constructor. constructor; [|constructor]. eapply known_declared; [reflexivity|]. constructor. constructor.
    constructor; [|constructor; [|constructor]]; (eapply known_declared; [reflexivity|]; constructor). unfold in_range. cbn. lia.
Qed.
Theorem C76_used_refuted : exists E fs, struct_of (snd (E 0%nat)) fs /\ whole E 0 (TMsg (fst (E 0%nat)) fs) /\
  fs = [([101], FNums KI16 [(5, None)])] /\
  Ingest E false 0 fs (toks (TMsg (fst (E 0%nat)) fs)) = Ok [([101], FNums KI16 [(5, None); (5, None)])].
Proof.
  exists (fun _ => ([65], [([101], TyNums KI16 None)])), [([101], FNums KI16 [(5, None)])].
  split; [repeat constructor|]. split; [|vm_compute; auto].
  apply (whole_msg (fun _ => ([65], [([101], TyNums KI16 None)])) 0). repeat constructor; cbn; unfold in_range; cbn; lia.
Qed.
Theorem C76_nil_in_map_refuted :
  Ingest (fun id => match id with O => ([65], [([104], TyMap KTStr VTStruct 1)]) | _ => demo_env 1%nat end) true 0
    [([104], FMap KTStr VTStruct [])] (toks (TMsg [65] [([104], FMap KTStr VTStruct [(KStr [97], EMsg None)])])) = Err.
Proof. vm_compute. reflexivity. Qed.

(** ** C77: fields the reader does not know *)
Section Unknown.
Variable E : env.
Variable ig : bool.
Lemma assoc_set n v m x : assoc n (set_field m v x) = if bytes_eqb n m then option_map (fun _ => v) (assoc n x) else assoc n x.
Proof.
  induction x as [|[p w] x IH]; cbn [set_field assoc]; [destruct (bytes_eqb n m); reflexivity|].
  destruct (bytes_eqb m p) eqn:Q; cbn [assoc].
  - apply bytes_eqb_eq in Q. subst p. destruct (bytes_eqb n m); reflexivity.
  - rewrite IH. destruct (bytes_eqb n p) eqn:Q1; [|reflexivity]. apply bytes_eqb_eq in Q1. subst p.
    destruct (bytes_eqb n m) eqn:Q2; [|reflexivity]. apply bytes_eqb_eq in Q2. subst m. rewrite bytes_eqb_refl in Q. discriminate.
Qed.
Lemma assoc_merge id n ty : assoc n (snd (E id)) = Some ty -> forall fs x old, NoDup (map fst fs) -> assoc n x = Some old ->
  assoc n (fold_left (mstep E id) fs x) = Some (match assoc n fs with Some v => absorb E ty old v | None => old end).
Proof.
  intros A. induction fs as [|[m v] fs IH]; intros x old N O; [exact O|]. cbn [map fst] in N. inversion N; subst. cbn [fold_left assoc].
  destruct (bytes_eqb n m) eqn:Q.
  - apply bytes_eqb_eq in Q. subst m.
    assert (O' : assoc n (mstep E id x (n, v)) = Some (absorb E ty old v)).
    { unfold mstep. cbn [fst snd]. rewrite A, O, assoc_set, bytes_eqb_refl, O. reflexivity. }
    rewrite (IH _ _ H2 O'). rewrite (assoc_none n fs H1). reflexivity.
  - apply IH; [exact H2|]. unfold mstep. cbn [fst snd]. destruct (assoc m (snd (E id))); [|exact O]. destruct (assoc m x); [|exact O].
    rewrite assoc_set, Q. exact O.
Qed.
Definition declared (id : nat) (nv : bytes * fval) : bool := match assoc (fst nv) (snd (E id)) with Some _ => true | None => false end.
Lemma merge_declared id nm fs x : merge E id x (TMsg nm fs) = merge E id x (TMsg nm (filter (declared id) fs)).
Proof.
  rewrite !merge_eq. revert x. induction fs as [|[n v] fs IH]; intros x; [reflexivity|]. cbn [fold_left filter]. unfold declared at 1. cbn [fst].
  unfold mstep at 2. cbn [fst snd]. destruct (assoc n (snd (E id))) eqn:A; [|apply IH]. cbn [fold_left]. unfold mstep at 3. cbn [fst snd]. rewrite A. apply IH.
Qed.
(** A message of another version of the type: each field both versions have arrives, every other field
    of the new struct keeps its zero value. *)
Theorem C77_forward_partial id nm fs n ty : NoDup (map fst fs) -> known E ig skippable id (TMsg nm fs) -> assoc n (snd (E id)) = Some ty ->
  exists r, Ingest E ig id (blank E id) (toks (TMsg nm fs)) = Ok r /\
    assoc n r = Some (match assoc n fs with Some v => absorb E ty (zero_value ty) v | None => zero_value ty end).
Proof.
  intros N K A. exists (merge E id (blank E id) (TMsg nm fs)). split.
  - rewrite <- (app_nil_r (toks _)). apply C76_ingest; [exact K|apply struct_of_fresh].
  - rewrite merge_eq. apply assoc_merge; [exact A|exact N|]. unfold blank. clear -A. induction (snd (E id)) as [|[m t] l IH]; cbn in *; [discriminate|].
    destruct (bytes_eqb n m); [|exact (IH A)]. inversion A. reflexivity.
Qed.
(** The unknown fields make no difference. *)
Theorem C77_unknown_no_effect_partial id nm fs x : known E ig skippable id (TMsg nm fs) -> struct_of (snd (E id)) x ->
  Ingest E ig id x (toks (TMsg nm fs)) = Ingest E ig id x (toks (TMsg nm (filter (declared id) fs))).
Proof.
  intros K S. rewrite <- (app_nil_r (toks (TMsg nm fs))), <- (app_nil_r (toks (TMsg nm (filter _ _)))).
  rewrite !C76_ingest; auto; [rewrite merge_declared; reflexivity|]. inversion K as [? ? ? F]; subst. constructor. apply Forall_forall. intros nv I. apply filter_In in I.
  rewrite Forall_forall in F. apply F, I.
Qed.
(** A field of a type that SkipValue does not know stops Ingest even if unknown fields are to be
    ignored. *)
Theorem C77_list_any_refuted id nm fs n x0 l rest x : Forall (fun nv => known_field E true skippable id (fst nv) (snd nv)) fs -> struct_of (snd (E id)) x ->
  assoc n (snd (E id)) = None -> Ingest E true id x (toks (TMsg nm (fs ++ (n, FAnys (x0 :: l)) :: rest))) = Err.
Proof.
  intros F S A. rewrite C37_walk_stream.
  replace (mtoks (TMsg nm (fs ++ (n, FAnys (x0 :: l)) :: rest))) with (tok0 TStructStart nm 0 :: ftoks fs ++ (ftoks ((n, FAnys (x0 :: l)) :: rest) ++ [tok0 TStructEnd nm 0])).
  2:{ change (mtoks (TMsg nm ?f)) with (tok0 TStructStart nm 0 :: ftoks f ++ [tok0 TStructEnd nm 0]). unfold ftoks. rewrite flat_map_app, <- app_assoc. reflexivity. }
  destruct (ingest_pre E true id nm fs x (ftoks ((n, FAnys (x0 :: l)) :: rest) ++ [tok0 TStructEnd nm 0]) F S) as (k1 & k & ts & -> & C & L & _).
  cbn [fields_loop]. rewrite Next_content, C. unfold ftoks. cbn [flat_map]. rewrite <- !app_comm_cons, ffield_kind, ffield_name. cbn [tkind_eqb negb]. rewrite A.
  match goal with |- context [SkipValue ?s _] => replace (SkipValue s (ffield n (FAnys (x0 :: l)))) with (Ok s) by reflexivity end. cbn [bind].
  destruct k as [|k]; [cbn in L; lia|]. cbn [fields_loop]. rewrite Next_content. cbn [content ts_peeked ts_src]. cbn. reflexivity.
Qed.
End Unknown.
(** If unknown fields are not to be ignored the first one is an error. *)
Theorem C77_unknown_refused E id nm fs n v rest x : Forall (fun nv => known_field E false skippable id (fst nv) (snd nv)) fs -> struct_of (snd (E id)) x ->
  assoc n (snd (E id)) = None -> Ingest E false id x (toks (TMsg nm (fs ++ (n, v) :: rest))) = Err.
Proof.
  intros F S A. rewrite C37_walk_stream.
  replace (mtoks (TMsg nm (fs ++ (n, v) :: rest))) with (tok0 TStructStart nm 0 :: ftoks fs ++ (ftoks ((n, v) :: rest) ++ [tok0 TStructEnd nm 0])).
  2:{ change (mtoks (TMsg nm ?f)) with (tok0 TStructStart nm 0 :: ftoks f ++ [tok0 TStructEnd nm 0]). unfold ftoks. rewrite flat_map_app, <- app_assoc. reflexivity. }
  destruct (ingest_pre E false id nm fs x (ftoks ((n, v) :: rest) ++ [tok0 TStructEnd nm 0]) F S) as (k1 & k & ts & -> & C & L & _).
  cbn [fields_loop]. rewrite Next_content, C. unfold ftoks. cbn [flat_map]. rewrite <- !app_comm_cons, ffield_kind, ffield_name. cbn [tkind_eqb negb]. rewrite A. reflexivity.
Qed.

(** ** C78: any tokens *)
(** Whatever the tokens are, Ingest comes to an end without a panic: with an error or with a struct that
    has the declared fields. *)
Theorem C78_any_tokens E ig id x seq : struct_of (snd (E id)) x -> Ingest E ig id x seq = Err \/ exists r, Ingest E ig id x seq = Ok r.
Proof.
  intros S. unfold Ingest. pose proof (ingest_from_ends E ig (Datatypes.S (left (NewTokenStream seq))) id x (NewTokenStream seq) (struct_of_has _ _ S) (Nat.lt_succ_diag_r _)) as H.
  destruct (ingest_from E ig (Datatypes.S (left (NewTokenStream seq))) id x (NewTokenStream seq)) as [[r s]| | |]; cbn in *; try contradiction; eauto.
Qed.
(** A sequence that ends inside the struct is an error, wherever it ends. *)
Theorem C78_cut_short E ig id x m p t q : known E ig skippable id m -> struct_of (snd (E id)) x -> toks m = p ++ t :: q -> Ingest E ig id x p = Err.
Proof.
  intros K S Q. destruct (C78_any_tokens E ig id x p S) as [H|[r H]]; [exact H|]. exfalso. unfold Ingest in H. apply bind_ok in H as ([r' s] & H & _).
  assert (L : (length (toks m) = length p + Datatypes.S (length q))%nat) by (rewrite Q, app_length; reflexivity).
  apply (ingest_from_ext (t :: q) E ig _ (Datatypes.S (length (toks m)))) in H; [|unfold NewTokenStream, left; cbn; lia].
  pose proof (ingest_toks E ig id x m [] K S (Datatypes.S (length (toks m)))) as G. rewrite app_nil_r in G. specialize (G ltac:(lia)).
  unfold ext, NewTokenStream in *. cbn [ts_src ts_peeked] in H. rewrite <- Q in H. rewrite H in G. destruct s as [s1 s2]. cbn in G. inversion G. destruct s1; discriminate.
Qed.
(** The conditions of the theorems about unknown fields and prefixes: a message of a newer version of the
    second type of [demo_env], with two more fields. *)
Example C77_case :
  known demo_env true skippable 1 (TMsg [66] [([122], FMsgs [inner 1 []]); ([121], FStr true [97]); ([123], FNums KU8 [(1, None)])]) /\
  Ingest demo_env true 1 (blank demo_env 1) (toks (TMsg [66] [([122], FMsgs [inner 1 []]); ([121], FStr true [97]); ([123], FNums KU8 [(1, None)])])) =
    Ok [([120], FNum KI64 0 None); ([121], FStr true [97])] /\
  Ingest demo_env false 1 (blank demo_env 1) (toks (TMsg [66] [([122], FMsgs [inner 1 []]); ([121], FStr true [97])])) = Err.
Proof.
  split; [|vm_compute; auto]. constructor. constructor; [|constructor; [|constructor; [|constructor]]].
  - apply known_other; [reflexivity|reflexivity|exact I].
  - eapply known_declared; [reflexivity|constructor].
  - apply known_other; [reflexivity|reflexivity|exact I].
Qed.
Print Assumptions C76_ingest.
Print Assumptions C76_inverse_partial.
Print Assumptions C77_forward_partial.
Print Assumptions C77_unknown_no_effect_partial.
Print Assumptions C77_unknown_refused.
Print Assumptions C77_list_any_refuted.
Print Assumptions C78_any_tokens.
Print Assumptions C78_cut_short.
Print Assumptions C76_same_tokens_partial.
Print Assumptions C76_empty_struct_refuted.
Print Assumptions C76_used_refuted.
Print Assumptions C76_nil_in_map_refuted.
