(** C145: the lists of Go reflection.  C146: NewField. *)
From Verif.Spec Require Import GoReflectList.
From Verif.Proofs Require Import BaseLemmas Demo ListHeapProofs GoReflect GoReflectList.
From Verif.Properties Require Import GoReflect.
From Coq Require Import Lia.

Section Any.
(** fmt.Sprint, the registry of packages, the room that append leaves: anything. *)
Variable sprint : option gany -> bytes.
Variable fuel : nat.
Variable reg : registry.
Variable room : nat -> nat.
Notation str := (String_ sprint (S fuel) reg).
Notation run := (rlrun str room).
Notation takes := (acc_of str).

(** ** C145 *)
(** Whatever a program does with lists, they are cells of a fixed number: Len is that number, Get gives the cell and panics
    outside, Set changes one cell, which copies share, and Append changes nothing. *)
Theorem C145_cells ops : length (run ops).(ls_live) = length (crun takes ops).(c_live) /\
  forall j l, nth_error (run ops).(ls_live) j = Some l ->
    exists items, cget (crun takes ops) j = Some items /\ LenOf l = Z.of_nat (length items) /\
      forall i, GetAt (run ops).(ls_st) l i =
        if (0 <=? i) && (i <? Z.of_nat (length items)) then match nth_error items (Z.to_nat i) with Some v => Ok v | None => Panic end else Panic.
Proof. exact (refines str room ops). Qed.
(** Append, of any value to any list: no list is longer or holds anything else. *)
Theorem C145_append_nothing ops j v l i : In l (run ops).(ls_live) ->
  (run (ops ++ [AppendItem j v])).(ls_live) = (run ops).(ls_live) /\
  GetAt (run (ops ++ [AppendItem j v])).(ls_st) l i = GetAt (run ops).(ls_st) l i.
Proof.
  intros I. assert (L : (run (ops ++ [AppendItem j v])).(ls_live) = (run ops).(ls_live)).
  { unfold rlrun. rewrite fold_left_app. cbn [fold_left rlstep]. destruct (nth_error _ j) as [x|]; [|reflexivity]. destruct (AppendTo _ _ _ _ _); reflexivity. }
  split; [exact L|]. apply In_nth_error in I. destruct I as (n & I).
  destruct (refines str room ops) as (_ & A). destruct (refines str room (ops ++ [AppendItem j v])) as (_ & B). rewrite L in B.
  destruct (A n l I) as (x & X1 & _ & X2). destruct (B n l I) as (y & Y1 & _ & Y2). rewrite X2, Y2.
  assert (E : crun takes (ops ++ [AppendItem j v]) = crun takes ops) by (unfold crun; rewrite fold_left_app; reflexivity). rewrite E in Y1.
  assert (x = y) by congruence. subst y. reflexivity.
Qed.
(** Set of a value that the list takes: Get gives it. *)
Theorem C145_set ops j i v l e : nth_error (run ops).(ls_live) j = Some l -> elem_of str l.(lv_kind) v = Ok e -> 0 <= i < LenOf l ->
  (run (ops ++ [SetItem j i v])).(ls_live) = (run ops).(ls_live) /\ GetAt (run (ops ++ [SetItem j i v])).(ls_st) l i = Ok e /\
  forall i', i' <> i -> GetAt (run (ops ++ [SetItem j i v])).(ls_st) l i' = GetAt (run ops).(ls_st) l i'.
Proof. exact (set_then_get str room ops j i v l e). Qed.

(** The values a list takes are those of the type of its elements, for bools, numbers and bytes; others panic. *)
Theorem C145_elements_partial k v : (k = LKBools \/ (exists n, n <> KBool /\ k = LKNums n) \/ k = LKBytes) ->
  (element k v -> elem_of str k v = Ok v) /\ (~ element k v -> elem_of str k v = Panic).
Proof. exact (elements str k v). Qed.
(** Lists of strings and of structs take those of the type of their elements too. *)
Theorem C145_elements_taken k v : k <> LKNums KBool -> element k v -> elem_of str k v = Ok v.
Proof. exact (elements_taken sprint fuel reg k v). Qed.
(** A list of structs takes structs only, whatever struct it is a list of; other values panic. *)
Theorem C145_structs_only fs v :
  (forall h fs', v = RStruct h fs' -> elem_of str (LKStructs fs) v = Ok (RStruct h fs)) /\
  ((forall h fs', v <> RStruct h fs') -> elem_of str (LKStructs fs) v = Panic).
Proof. split; [intros h fs' ->; reflexivity|]. intros H. destruct v; try reflexivity. exfalso. eapply H. reflexivity. Qed.
(** Set returns exactly for values the list takes and indices it has, Append exactly for values the list takes. *)
Theorem C145_set_returns st l i v : (exists st', SetAt str st l i v = Ok st') <-> (exists e, elem_of str l.(lv_kind) v = Ok e) /\ 0 <= i < LenOf l.
Proof. exact (set_returns str st l i v). Qed.
Theorem C145_append_returns st l v : (exists st', AppendTo str room st l v = Ok st') <-> exists e, elem_of str l.(lv_kind) v = Ok e.
Proof. exact (append_returns str room st l v). Qed.
End Any.
(** Type of the lists that are no lists of numbers. *)
Theorem C145_type_partial a n : Type_ (mkLV LKBools a n) = FTListBools /\ Type_ (mkLV LKBytes a n) = FTListBytes /\
  Type_ (mkLV LKStrings a n) = FTListStrings /\ forall fs, Type_ (mkLV (LKStructs fs) a n) = FTListStructs.
Proof. repeat split. Qed.

(** ** C146 *)
(** The types for which NewField keeps its word. *)
Definition new_type (ty : Z) : Prop := (exists k, ty = scalar_type k) \/ ty = FTBytes \/ ty = FTString \/ ty = FTListBools \/
  (exists k, k <> KBool /\ ty = list_type k) \/ ty = FTListBytes \/ ty = FTListStrings.
(** The full statement. *)
Definition gives_new : Prop := forall byValue fs d eg, (fd_enum d <> None -> eg <> None) -> (In (fd_ty d) [FTStruct; FTListStructs; FTMap; FTAny; FTListAny] \/ new_type (fd_ty d)) ->
  exists v, NewField byValue fs d eg = Ok v /\ new_value d v.
Theorem C146_new_partial byValue fs d eg : (fd_enum d <> None -> eg <> None) -> new_type (fd_ty d) ->
  exists v, NewField byValue fs d eg = Ok v /\ new_value d v.
Proof. exact (new_field byValue fs d eg). Qed.
(** A struct: it has the fields of the struct that NewField was called on, whatever the type of the field. *)
Theorem C146_struct byValue fs d eg : fd_ty d = FTStruct ->
  exists s, NewField byValue fs d eg = Ok (RStruct (hstart s) fs) /\ reached (length fs) s [] /\ (new_value d (RStruct (hstart s) fs) <-> fd_child d = Some fs).
Proof. exact (new_struct byValue fs d eg). Qed.
(** Lists of structs, for structs of generated code; maps and Any values, for all. *)
Theorem C146_panics byValue fs d eg : (fd_ty d = FTListStructs /\ byValue = false) \/ fd_ty d = FTMap \/ fd_ty d = FTAny \/ fd_ty d = FTListAny ->
  NewField byValue fs d eg = Panic.
Proof. exact (new_panics byValue fs d eg). Qed.
(** Enums whose descriptor has no group. *)
Theorem C146_no_group byValue fs d : fd_enum d <> None -> fd_ty d = FTUint8 \/ fd_ty d = FTUint16 -> NewField byValue fs d None = Panic.
Proof. exact (new_no_group byValue fs d). Qed.
(** A new bool, or number that is no enum, can be stored, and the field is then not set. *)
Theorem C146_stored fs h m f d byValue eg : reached (length fs) (h_s h) m -> 0 <= f < 2 ^ 16 -> nth_error fs (Z.to_nat f) = Some d ->
  fd_enum d = None -> (exists k, fd_ty d = scalar_type k) ->
  exists v s, NewField byValue fs d eg = Ok v /\ Set_ h fs f v = Ok (with_s h s) /\ reached (length fs) s (fdel f m).
Proof. exact (new_stored fs h m f d byValue eg). Qed.
(** A list, new or not, cannot be stored in any field. *)
Theorem C146_no_lists fs h f l : exists_field fs f -> Set_ h fs f (RList l) = Panic.
Proof. exact (no_lists fs h f l). Qed.

(** ** Cases *)
Definition no_sprint (_ : option gany) : bytes := [63].
Definition no_reg : registry := fun _ => None.
Notation ex_str := (String_ no_sprint 5 no_reg).
Notation ex_run := (rlrun ex_str (fun n => n)).
(** A list of three numbers and a copy of it: a change through the copy shows; an Append does not. *)
Definition ex_ops : list rlop :=
  [MkList (LKNums KU16) [RNum KU16 1; RNum KU16 2; RNum KU16 3] [RNum KU16 0]; CopyList 0; SetItem 1 2 (RNum KU16 7); AppendItem 0 (RNum KU16 9); SetItem 0 3 (RNum KU16 9); SetItem 0 0 (RBool true)].
Example C145_nonvacuous : exists l, nth_error (ex_run ex_ops).(ls_live) 0 = Some l /\ LenOf l = 3 /\ Type_ l = FTUint16 /\
  map (GetAt (ex_run ex_ops).(ls_st) l) [0; 1; 2; 3] = [Ok (RNum KU16 1); Ok (RNum KU16 2); Ok (RNum KU16 7); Panic] /\
  cget (crun (acc_of ex_str) ex_ops) 0 = Some [RNum KU16 1; RNum KU16 2; RNum KU16 7] /\
  elem_of ex_str l.(lv_kind) (RNum KU16 9) = Ok (RNum KU16 9).
Proof. eexists. repeat split; reflexivity. Qed.
Example C146_nonvacuous : new_type FTUint16 /\ exists d, nth_error gr_fs 6 = Some d /\ fd_ty d = list_type KU16 /\ NewField true gr_fs d None = Ok (RList (RNums KU16 [])).
Proof. split; [left; exists KU16; reflexivity|]. eexists. repeat split; reflexivity. Qed.
Example C146_stored_case : exists d v s, nth_error gr_fs 0 = Some d /\ NewField true gr_fs d None = Ok v /\ Set_ (hstart (gr_s gr_ops)) gr_fs 0 v = Ok (with_s (hstart (gr_s gr_ops)) s) /\
  reached 11 s (fdel 0 (sem [] gr_ops)) /\ flook 0 (sem [] gr_ops) <> None.
Proof.
  eexists. destruct (C146_stored gr_fs (hstart (gr_s gr_ops)) _ 0 _ true None gr_reached ltac:(lia) eq_refl eq_refl (ex_intro _ KI16 eq_refl)) as (v & s & A & B & C).
  exists v, s. split; [reflexivity|]. split; [exact A|]. split; [exact B|]. split; [exact C|]. vm_compute. discriminate.
Qed.

(** ** What is not true *)
(** Append appends. *)
Definition appends : Prop := forall ops j l v, nth_error (ex_run ops).(ls_live) j = Some l -> element l.(lv_kind) v ->
  exists l', nth_error (ex_run (ops ++ [AppendItem j v])).(ls_live) j = Some l' /\ LenOf l' = LenOf l + 1 /\
    GetAt (ex_run (ops ++ [AppendItem j v])).(ls_st) l' (LenOf l) = Ok v.
Theorem C145_append_refuted : ~ appends.
Proof.
  intros A. destruct (A [MkList LKBools [] []] 0%nat (mkLV LKBools 0 0) (RBool true) eq_refl (ex_intro _ true eq_refl)) as (l & E & L & _). cbn in E. injection E as <-. discriminate.
Qed.
(** A list of strings takes a bool, and prints it; Set should panic. *)
Theorem C145_strings_refuted : ~ element LKStrings (RBool true) /\ elem_of ex_str LKStrings (RBool true) = Ok (RStr [63]).
Proof. split; [intros (b & E); discriminate|reflexivity]. Qed.
(** A list of structs takes any struct, and shows it with the fields of the type of the list. *)
Theorem C145_structs_refuted : exists fs fs' h, ~ element (LKStructs fs) (RStruct h fs') /\ elem_of ex_str (LKStructs fs) (RStruct h fs') = Ok (RStruct h fs).
Proof. exists [], gr_fs, (hstart (gr_s gr_ops)). split; [intros (h & E); discriminate|reflexivity]. Qed.
(** Type of a list of numbers is the type of its elements. *)
Theorem C145_type_refuted k a n : k <> KBool -> Type_ (mkLV (LKNums k) a n) = scalar_type k /\ scalar_type k <> list_type k.
Proof. intros N. split; [reflexivity|]. destruct k; try congruence; discriminate. Qed.
(** NewField for a struct field of another type, as in the example of Properties/GoReflect.v. *)
Theorem C146_refuted : ~ gives_new.
Proof.
  intros G. destruct (G true [] (Fd [65] FTStruct None (Some gr_fs)) None (fun H => False_ind _ (H eq_refl)) (or_introl (or_introl eq_refl))) as (v & E & W).
  destruct (C146_struct true [] (Fd [65] FTStruct None (Some gr_fs)) None eq_refl) as (s & E' & _ & I). rewrite E in E'. injection E' as ->. apply I in W. discriminate.
Qed.

Print Assumptions C145_cells.
Print Assumptions C145_append_nothing.
Print Assumptions C145_set.
Print Assumptions C145_elements_partial.
Print Assumptions C145_elements_taken.
Print Assumptions C145_structs_only.
Print Assumptions C145_set_returns.
Print Assumptions C145_append_returns.
Print Assumptions C145_type_partial.
Print Assumptions C146_new_partial.
Print Assumptions C146_struct.
Print Assumptions C146_panics.
Print Assumptions C146_no_group.
Print Assumptions C146_stored.
Print Assumptions C146_no_lists.
Print Assumptions C145_append_refuted.
Print Assumptions C145_strings_refuted.
Print Assumptions C145_structs_refuted.
Print Assumptions C145_type_refuted.
Print Assumptions C146_refuted.
