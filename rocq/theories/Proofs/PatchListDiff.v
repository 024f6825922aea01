(** The operations Diff makes for two lists lead from the one to the other. *)
From Coq Require Import List ZArith Lia.
From Verif.Proofs Require Export ListHeapProofs PatchAgree.
From Verif.Spec Require Export PatchLists.

Lemma combine_snoc {A B} (a : list A) : forall (b : list B) x y, length a = length b ->
  combine (a ++ [x]) (b ++ [y]) = combine a b ++ [(x, y)].
Proof. induction a; destruct b; cbn; intros; try discriminate; auto. f_equal. auto. Qed.

(** [iop l o l']: the operation o, on field f, changes the sequence l to l'. *)
Section Items.
Context {A : Type} (f : Z) (enc : A -> bytes) (rep : list A -> bytes -> Prop) (P : A -> Prop).

Inductive iop : list A -> rop -> list A -> Prop :=
| I_set l i x : 0 <= i < len l -> P x -> iop l (mkRop f OpListSet i (enc x)) (upd l i x)
| I_ins l i x : 0 <= i <= len l -> P x -> iop l (mkRop f OpListInsert i (enc x)) (ins l i x)
| I_rem l i : 0 <= i < len l -> iop l (mkRop f OpListRemove i []) (del l i)
| I_rep l l' d : rep l' d -> Forall P l' -> iop l (mkRop f OpListReplace NoListIndex d) l'.
(** The intermediate lists are not longer than N. *)
Inductive iops (N : Z) : list A -> list rop -> list A -> Prop :=
| Is_nil l : iops N l [] l
| Is_cons l o l1 r l2 : iop l o l1 -> len l1 <= N -> iops N l1 r l2 -> iops N l (o :: r) l2.

Lemma iops_app N a o1 : forall b o2 c, iops N a o1 b -> iops N b o2 c -> iops N a (o1 ++ o2) c.
Proof. intros b o2 c H. induction H; cbn; auto. intros. econstructor; eauto. Qed.

Definition sets_only (ops : list rop) : Prop := Forall (fun o => r_type o = OpListSet) ops.

Variable eq : A -> A -> bool.
Fixpoint merge (a b : list A) : list A :=
  match a with
  | [] => []
  | x :: a' => match b with [] => a | y :: b => (if eq x y then x else y) :: merge a' b end
  end.
Lemma merge_len a : forall b, length (merge a b) = length a.
Proof. induction a; destruct b; cbn; auto. Qed.

Lemma s32_small i : 0 <= i < 2 ^ 31 -> s32 i = i.
Proof. intros H. unfold s32, sN. change (2 ^ (32 - 1)) with (2 ^ 31). rewrite Z.mod_small by lia. destruct (Z.ltb_spec i (2 ^ 31)); lia. Qed.

Lemma upd_app (l : list A) x y r : upd (l ++ x :: r) (len l) y = l ++ y :: r.
Proof.
  unfold upd, len. rewrite Nat2Z.id. induction l; cbn; auto. now rewrite IHl.
Qed.

Lemma sets_from N a : forall b p,
  Forall P b -> len p + len a <= N -> len p + len a < 2 ^ 31 ->
  iops N (p ++ a)
    (flat_map (fun q : nat * (A * A) =>
       let '(i, (x, y)) := q in if eq x y then [] else [mkRop f OpListSet (s32 (Z.of_nat i)) (enc y)])
       (combine (seq (length p) (length a)) (combine a b)))
    (p ++ merge a b).
Proof.
  induction a as [|x a IH]; intros b p HP HN HS; [cbn; constructor|].
  destruct b as [|y b].
  { cbn [combine merge]. rewrite combine_nil. cbn. constructor. }
  rewrite len_cons in HN, HS. pose proof (len_nonneg p). pose proof (len_nonneg a).
  inversion HP; subst.
  assert (G : forall z, iops N (p ++ z :: a)
     (flat_map (fun q : nat * (A * A) =>
       let '(i, (x, y)) := q in if eq x y then [] else [mkRop f OpListSet (s32 (Z.of_nat i)) (enc y)])
       (combine (seq (S (length p)) (length a)) (combine a b))) (p ++ z :: merge a b)).
  { intros z. specialize (IH b (p ++ [z])). rewrite <- !app_assoc in IH. cbn [app] in IH.
    rewrite app_length in IH. cbn [length] in IH. rewrite Nat.add_1_r in IH.
    apply IH; auto; rewrite len_app; cbn; lia. }
  cbn [length seq combine flat_map merge].
  destruct (eq x y) eqn:E; cbn [app]; [apply G|].
  eapply Is_cons; [|  |apply G].
  - rewrite s32_small by (unfold len in *; lia). fold (len p). rewrite <- (upd_app p x y a).
    apply I_set; auto. rewrite len_app, len_cons. unfold len in *; lia.
  - rewrite len_app, len_cons. lia.
Qed.

Lemma ins_end (l : list A) x : ins l (len l) x = l ++ [x].
Proof. unfold ins, take, drop, len. rewrite Nat2Z.id, firstn_all, skipn_all. reflexivity. Qed.
Lemma inserts_from N b : forall l, Forall P b -> len l + len b <= N -> len l + len b < 2 ^ 31 ->
  iops N l (map (fun p => mkRop f OpListInsert (s32 (Z.of_nat (fst p))) (enc (snd p)))
              (combine (seq (length l) (length b)) b)) (l ++ b).
Proof.
  induction b as [|x b IH]; intros l HP HN HS; cbn; [rewrite app_nil_r; constructor|].
  rewrite len_cons in HN, HS. pose proof (len_nonneg l). pose proof (len_nonneg b). inversion HP; subst.
  eapply Is_cons.
  - rewrite s32_small by (unfold len in *; lia). apply I_ins; auto. unfold len; lia.
  - rewrite <- (Z2Nat.id (Z.of_nat (length l))) by lia. rewrite Nat2Z.id. fold (len l). rewrite ins_end, len_app. cbn. lia.
  - fold (len l). rewrite ins_end. replace (l ++ x :: b) with ((l ++ [x]) ++ b) by now rewrite <- app_assoc.
    specialize (IH (l ++ [x])). rewrite app_length in IH. cbn [length] in IH. rewrite Nat.add_1_r in IH.
    apply IH; auto; rewrite len_app; cbn; lia.
Qed.
Lemma del_end (l : list A) x : del (l ++ [x]) (len l) = l.
Proof.
  unfold del, take, drop, len. rewrite Nat2Z.id, firstn_app, firstn_all, Nat.sub_diag. cbn.
  replace (Z.to_nat (Z.of_nat (length l) + 1)) with (length (l ++ [x])) by (rewrite app_length; cbn; lia).
  rewrite skipn_all. now rewrite !app_nil_r.
Qed.
Lemma removes_from N c : forall l, len l + len c <= N -> len l + len c < 2 ^ 31 ->
  iops N (l ++ c) (map (fun i => mkRop f OpListRemove (s32 (Z.of_nat i)) []) (rev (seq (length l) (length c)))) l.
Proof.
  induction c as [|x c IH] using rev_ind; intros l HN HS; [cbn; rewrite app_nil_r; constructor|].
  rewrite len_app in HN, HS. change (len [x]) with 1 in *. pose proof (len_nonneg l). pose proof (len_nonneg c).
  rewrite app_length. cbn [length]. rewrite Nat.add_1_r, seq_S, rev_app_distr. cbn [rev map app].
  assert (E : s32 (Z.of_nat (length l + length c)) = len (l ++ c)).
  { rewrite s32_small; rewrite ?len_app; unfold len in *; lia. }
  rewrite E, app_assoc. eapply Is_cons.
  - apply I_rem. rewrite !len_app. change (len [x]) with 1. lia.
  - rewrite del_end, len_app. lia.
  - rewrite del_end. apply IH; lia.
Qed.

Lemma skipn_len_nil (a b : list A) : (length b <= length a)%nat -> skipn (length a) b = [].
Proof. intros. apply skipn_all2. lia. Qed.

(** Where the single operations lead. *)
Definition target (a b : list A) : list A :=
  if (length a <=? length b)%nat then merge a b ++ skipn (length a) b else firstn (length b) (merge a b).
Lemma single_ops N a b : Forall P b -> len a <= N -> len b <= N -> N < 2 ^ 31 ->
  iops N a (list_sets eq enc f a b ++ list_inserts enc f a b ++ list_removes f a b) (target a b).
Proof.
  intros HP Ha Hb HN.
  assert (S1 : iops N a (list_sets eq enc f a b) (merge a b)).
  { apply (sets_from N a b []); auto; cbn; lia. }
  eapply iops_app; [exact S1|]. unfold target. destruct (Nat.leb_spec (length a) (length b)) as [L|L].
  - replace (list_removes f a b) with (@nil rop).
    2:{ unfold list_removes. replace (length a - length b)%nat with O by lia. reflexivity. }
    rewrite app_nil_r. unfold list_inserts. rewrite <- (skipn_length (length a) b).
    rewrite <- (merge_len a b) at 1. apply inserts_from.
    + rewrite <- (firstn_skipn (length a) b) in HP. apply Forall_app in HP. tauto.
    + unfold len in *. rewrite merge_len, skipn_length. lia.
    + unfold len in *. rewrite merge_len, skipn_length. lia.
  - replace (list_inserts enc f a b) with (@nil rop).
    2:{ unfold list_inserts. replace (length b - length a)%nat with O by lia. reflexivity. }
    cbn [app]. unfold list_removes.
    assert (E : length (skipn (length b) (merge a b)) = (length a - length b)%nat) by now rewrite skipn_length, merge_len.
    assert (E2 : length (firstn (length b) (merge a b)) = length b).
    { rewrite firstn_length, merge_len. lia. }
    rewrite <- E. rewrite <- E2 at 1. rewrite <- (firstn_skipn (length b) (merge a b)) at 1. apply removes_from.
    + unfold len in *. rewrite E, E2. lia.
    + unfold len in *. rewrite E, E2. lia.
Qed.
Lemma target_same a : forall b, Forall2 (fun x y => x = y \/ eq x y = true) (target a b) b.
Proof.
  assert (R : forall b, Forall2 (fun x y => x = y \/ eq x y = true) b b) by (induction b; constructor; auto).
  unfold target. intros b. destruct (Nat.leb_spec (length a) (length b)) as [L|L].
  - revert b L. induction a as [|x a IH]; intros b L; [apply R|]. destruct b as [|y b]; [cbn in L; lia|].
    cbn [merge length skipn app]. constructor; [destruct (eq x y) eqn:E; auto|]. apply IH. cbn in L. lia.
  - revert b L. induction a as [|x a IH]; intros b L; [cbn in L; lia|]. destruct b as [|y b]; [constructor|].
    cbn [merge length firstn]. constructor; [destruct (eq x y) eqn:E; auto|]. apply IH. cbn in L. lia.
Qed.
Lemma target_len a b : length (target a b) = length b.
Proof. pose proof (target_same a b) as H. induction H; cbn; congruence. Qed.
Lemma merge_P a : forall b, Forall P a -> Forall P b -> Forall P (merge a b).
Proof.
  induction a as [|x a IH]; intros b Ha Hb; cbn; auto. destruct b as [|y b]; auto. inversion Ha; inversion Hb; subst.
  constructor; auto. destruct (eq x y); auto.
Qed.

(** The last operation is not a Set when the lengths differ. *)
Lemma list_sets_only a b : sets_only (list_sets eq enc f a b).
Proof.
  unfold sets_only, list_sets. apply Forall_forall. intros o HI. apply in_flat_map in HI.
  destruct HI as ((i & x & y) & _ & HI). destruct (eq x y); [destruct HI|]. destruct HI as [<-|[]]. reflexivity.
Qed.
Definition ends_other (ops : list rop) : Prop := exists r o, ops = r ++ [o] /\ r_type o <> OpListSet.
Lemma ends_app x y : ends_other y -> ends_other (x ++ y).
Proof. intros (r & o & -> & H). exists (x ++ r), o. now rewrite <- app_assoc. Qed.
Lemma single_ops_kind a b :
  let ops := list_sets eq enc f a b ++ list_inserts enc f a b ++ list_removes f a b in
  if (length a =? length b)%nat then sets_only ops else ends_other ops.
Proof.
  cbn zeta. destruct (Nat.eqb_spec (length a) (length b)) as [L|L].
  - unfold list_inserts, list_removes. rewrite L, Nat.sub_diag. cbn. rewrite app_nil_r. apply list_sets_only.
  - apply ends_app. destruct (Nat.lt_ge_cases (length a) (length b)) as [L1|L1].
    + replace (list_removes f a b) with (@nil rop).
      2:{ unfold list_removes. replace (length a - length b)%nat with O by lia. reflexivity. }
      rewrite app_nil_r. unfold list_inserts.
      assert (NE : skipn (length a) b <> []).
      { intros E. apply (f_equal (@length A)) in E. rewrite skipn_length in E. cbn in E. lia. }
      destruct (exists_last NE) as (c0 & x & E). rewrite E. assert (LE : (length b - length a)%nat = S (length c0)).
      { rewrite <- skipn_length, E, app_length. cbn. lia. }
      rewrite LE, seq_S. rewrite combine_snoc by (now rewrite seq_length). rewrite map_app. cbn.
      eexists _, _. split; [reflexivity|]. discriminate.
    + replace (list_inserts enc f a b) with (@nil rop).
      2:{ unfold list_inserts. replace (length b - length a)%nat with O by lia. reflexivity. }
      cbn [app]. unfold list_removes. destruct (length a - length b)%nat as [|q] eqn:E; [lia|].
      cbn [seq rev]. rewrite map_app. eexists _, _. split; [reflexivity|]. discriminate.
Qed.
End Items.

Lemma len_0 {A} (l : list A) : len l = 0 -> l = [].
Proof. destruct l; auto. cbn. lia. Qed.

(** ** The three kinds of lists *)
Definition bool_rep (l : list bool) (d : bytes) : Prop := d = map b2z l.
Definition nums_rep (k : kind) (l : list Z) (d : bytes) : Prop := d = nums_data k l.
Definition blob_rep (l : list bytes) (d : bytes) : Prop :=
  (l = [] /\ d = []) \/ (d = encodeForPatch l /\ len l < 2 ^ 32 /\ Forall (fun b => len b < 2 ^ 32) l).
Definition vops (f N : Z) (v : value) (ops : list rop) (v' : value) : Prop :=
  match v with
  | VBools a => exists b, v' = VBools b /\ iops f (fun x => [b2z x]) bool_rep (fun _ => True) N a ops b
  | VNums k a => exists b, v' = VNums k b /\ iops f (le_enc (kind_size k)) (nums_rep k) (in_range k) N a ops b
  | VBlobs s a => exists b, v' = VBlobs s b /\ iops f (fun x => x) blob_rep byte_list N a ops b
  | _ => False
  end.
(** A list with items of its type. *)
Definition list_ok (v : value) : Prop :=
  match v with
  | VBools _ => True
  | VNums k l => k <> KBool /\ Forall (in_range k) l
  | VBlobs _ l => Forall byte_list l
  | _ => False
  end.

Lemma num_data_item k v : k <> KBool -> num_data k v = le_enc (kind_size k) v.
Proof.
  destruct k; cbn [num_data kind_size]; intros; try congruence; try reflexivity;
    unfold u8, u16, u32, u64; symmetry.
  - now rewrite <- (le_enc_mod 1).
  - now rewrite <- (le_enc_mod 2).
  - now rewrite <- (le_enc_mod 4).
  - now rewrite <- (le_enc_mod 8).
Qed.

Lemma flat_map_short {A B} (g : A -> list B) (l : list A) :
  (forall x, (length (g x) <= 1)%nat) -> (length (flat_map g l) <= length l)%nat.
Proof. intros H. induction l; cbn; auto. rewrite app_length. pose proof (H a). lia. Qed.
Lemma list_sets_len {A} f enc eq (a b : list A) : (length (list_sets eq enc f a b) <= length a)%nat.
Proof.
  unfold list_sets. etransitivity; [apply flat_map_short|].
  - intros (i & x & y). destruct (eq x y); cbn; lia.
  - rewrite combine_length, seq_length. lia.
Qed.

(** What Diff chooses. *)
Lemma diff_items_ok {A} f enc rep P eq (rp : list A -> list rop) a b :
  Forall P b -> len a < 2 ^ 31 -> len b < 2 ^ 31 ->
  (len a <> len b -> exists d, rp b = [mkRop f OpListReplace NoListIndex d] /\ rep b d) ->
  let ops := diff_items eq enc rp f a b in
  exists r, iops f enc rep P (Z.max (len a) (len b)) a ops r /\ Forall2 (fun x y => x = y \/ eq x y = true) r b /\
    (Forall P a -> Forall P r) /\
    (if len a =? len b then sets_only ops else ends_other ops).
Proof.
  intros HP La Lb HR. cbn zeta. unfold diff_items.
  assert (R : forall b : list A, Forall2 (fun x y => x = y \/ eq x y = true) b b) by (induction b0; constructor; auto).
  destruct (Z.eqb_spec (len a) 0) as [Ea|Ea], (Z.eqb_spec (len b) 0) as [Eb|Eb]; cbn [andb].
  1:{ apply len_0 in Ea, Eb. subst.
      exists []. cbn. repeat split; auto; constructor. }
  all: pose proof (single_ops_kind f enc rep P eq a b) as HK; cbn zeta in HK;
    pose proof (single_ops f enc rep P eq (Z.max (len a) (len b)) a b HP ltac:(lia) ltac:(lia) ltac:(lia)) as HO;
    pose proof (list_sets_len f enc eq a b) as HL;
    set (ops := list_sets eq enc f a b ++ list_inserts enc f a b ++ list_removes f a b) in *;
    assert (HK' : if len a =? len b then sets_only ops else ends_other ops)
      by (unfold len; destruct (Nat.eqb_spec (length a) (length b)), (Z.eqb_spec (Z.of_nat (length a)) (Z.of_nat (length b))); auto; lia);
    (destruct ((0 <? len ops) && ((len a + len b) / 2 <? len ops)) eqn:EC;
     [ assert (NE : len a <> len b);
       [ intros EL; apply andb_prop in EC; destruct EC as [_ EC]; rewrite EL in EC;
         replace (len b + len b) with (len b * 2) in EC by lia; rewrite Z.div_mul in EC by lia;
         unfold ops, list_inserts, list_removes in EC; unfold len in *;
         rewrite !app_length, !map_length, rev_length, combine_length, !seq_length in EC; lia
       | destruct (HR NE) as (d & ED & HD); rewrite ED; exists b; repeat split; auto;
         [ apply (Is_cons _ _ _ _ _ _ _ b); [apply I_rep; auto|lia|constructor]
         | destruct (Z.eqb_spec (len a) (len b)); [lia|]; exists [], (mkRop f OpListReplace NoListIndex d); split; [reflexivity|discriminate] ] ]
     | exists (target eq a b); repeat split; auto;
       [ apply (target_same enc rep P eq)
       | intros HPa; pose proof (merge_P P eq a b HPa HP) as HM; unfold target; destruct (_ <=? _)%nat;
         [ apply Forall_app; split; auto; rewrite <- (firstn_skipn (length a) b) in HP; apply Forall_app in HP; tauto
         | rewrite <- (firstn_skipn (length b) (merge eq a b)) in HM; apply Forall_app in HM; tauto ] ] ]).
Qed.

Lemma iops_ext {A} f (enc enc' : A -> bytes) rep P N a ops b :
  (forall x, enc x = enc' x) -> iops f enc rep P N a ops b -> iops f enc' rep P N a ops b.
Proof.
  intros HE H. induction H; [constructor|]. econstructor; eauto. inversion H; subst; rewrite ?HE; constructor; auto.
Qed.
Lemma bytes_equal_iff a b : bytes_equal a b = true -> a = b.
Proof. unfold bytes_equal. destruct (list_eq_dec Z.eq_dec a b); congruence. Qed.
Lemma Forall2_eq {A} (R : A -> A -> Prop) a b : (forall x y, R x y -> x = y) -> Forall2 R a b -> a = b.
Proof. intros HR H. induction H; auto. f_equal; auto. Qed.

Lemma diff_values_ok f a b t :
  lty_of a = Some t -> lty_of b = Some t -> list_ok a -> list_ok b -> indexed a -> indexed b ->
  exists v', vops f (Z.max (items a) (items b)) a (diff_values f a b) v' /\ same_list v' b /\ list_ok v' /\ lty_of v' = Some t /\
    items v' = items b /\
    if items a =? items b then sets_only (diff_values f a b) else ends_other (diff_values f a b).
Proof.
  intros Ta Tb Oa Ob Ia Ib. unfold indexed in Ia, Ib. destruct a; try discriminate; inv Ta; destruct b; try discriminate; inv Tb;
    cbn [list_ok indexed items diff_values vops] in *.
  - destruct (diff_items_ok f (fun x => [b2z x]) bool_rep (fun _ => True) Bool.eqb (replace_bools f) l l0) as (r & H1 & H2 & H3 & H4).
    + apply Forall_forall; auto.
    + tauto.
    + tauto.
    + intros _. eexists. split; reflexivity.
    + exists (VBools r). split; [eauto|]. assert (r = l0).
      { eapply Forall2_eq; [|exact H2]. intros x y [|E]; auto. now apply Bool.eqb_prop. }
      subst r. cbn [same_list list_ok lty_of items]. auto.
  - destruct Oa as [HK Oa], Ob as [_ Ob].
    destruct (diff_items_ok f (num_data k) (nums_rep k) (in_range k) (num_equal k) (replace_nums f k l) l l0) as (r & H1 & H2 & H3 & H4); auto; try tauto.
    + intros NE. unfold replace_nums. replace (len l =? len l0) with false by lia. cbn [andb].
      eexists. split; [reflexivity|]. unfold nums_rep, nums_data. f_equal. apply map_ext. intros z. now apply num_data_item.
    + exists (VNums k r). split.
      { exists r. split; auto. eapply iops_ext; [|exact H1]. intros z. now apply num_data_item. }
      specialize (H3 Oa). cbn [same_list list_ok lty_of items]. split.
      { split; auto. clear - H2 H3 Ob. revert H3 Ob. induction H2; intros; [constructor|]. inversion H3; inversion Ob; subst.
        constructor; auto. destruct H as [->|H]; [now left|]. now apply num_equal_iff. }
      split; auto. split; auto. split; auto. unfold len. f_equal. clear - H2. induction H2; cbn; auto.
  - destruct (diff_items_ok f (fun x => x) blob_rep byte_list bytes_equal (replace_blobs f) l l0) as (r & H1 & H2 & H3 & H4); auto; try tauto.
    + intros _. unfold replace_blobs. eexists. split; [reflexivity|]. destruct (Z.eqb_spec (len l0) 0) as [E|E].
      * left. split; auto. now apply len_0.
      * right. split; auto. split; [lia|tauto].
    + exists (VBlobs strings r). split; [eauto|]. assert (r = l0).
      { eapply Forall2_eq; [|exact H2]. intros x y [|E]; auto. now apply bytes_equal_iff. }
      subst r. cbn [same_list list_ok lty_of items]. auto.
Qed.
