(** The reflection service: the proofs. *)
From Coq Require Import ZArith List Bool Permutation Sorted Lia.
Import ListNotations.
From Verif.Model Require Import Base Field MapApi Any Registry Reflection.
From Verif.Spec Require Import Message MapSpec Reach Reflection.
From Verif.Proofs Require Import BaseLemmas FMapLemmas HeaderLemmas WireLemmas SimLemmas GetLemmas QueryLemmas ReachLemmas MapLemmas.
From Verif.Spec Require Import Raw.
From Verif.Proofs Require Import RawProofs.
From Verif.Properties Require Import Registry.
From Verif.Model Require Import Reflection.
From Verif.Spec Require Import Reflection.
Open Scope Z_scope.

(** ** Fields *)
Definition name_field (b : bytes) : option value := match b with [] => None | _ => Some (VBytes false b) end.
Lemma put_field n s m f o b v : reached n s m -> 0 <= f < Z.of_nat n -> f < 2 ^ 16 -> valid_value v ->
  (forall m, apply_op m o = mset b f v m) -> (forall m, valid_value v -> fits 0 (apply_op m o) -> ok_op n 0 m o) ->
  8 + len (wire_msg m) + len (wire_value f v) < 2 ^ 32 ->
  exists s', do_op s o = Ok s' /\ reached n s' (mset b f v m) /\ len (wire_msg (mset b f v m)) <= len (wire_msg m) + len (wire_value f v) /\
    flook f (mset b f v m) = (if b then None else Some v) /\ forall g, g <> f -> flook g (mset b f v m) = flook g m.
Proof.
  intros HR Hf Hf' HV HA HO HZ. destruct (reached_sorted _ _ _ HR) as (S & _ & _ & L).
  assert (F : fits 0 (mset b f v m)) by (eapply fits_mset; eauto; lia).
  destruct (reached_op n s m o HR) as (s' & E & R'); [apply HO; auto; rewrite HA; auto|]. rewrite HA in R'.
  exists s'. split; auto. split; auto. split; [|split].
  - unfold mset. pose proof (len_wire_put f v m S). pose proof (len_wire_del f m S). pose proof (len_nonneg (wire_value f v)). destruct b; lia.
  - unfold mset. destruct b; [rewrite flook_fdel by auto|rewrite flook_fput by auto]; now rewrite Z.eqb_refl.
  - intros g Hg. apply flook_mset_ne; auto.
Qed.
Lemma put_string n s m f x : reached n s m -> 0 <= f < Z.of_nat n -> f < 2 ^ 16 -> byte_list x ->
  8 + len (wire_msg m) + (15 + len x) < 2 ^ 32 ->
  exists s' m', SetString s f x = Ok s' /\ reached n s' m' /\ len (wire_msg m') <= len (wire_msg m) + 15 + len x /\
    flook f m' = name_field x /\ forall g, g <> f -> flook g m' = flook g m.
Proof.
  intros HR Hf Hf' HB HZ.
  assert (LW : len (wire_value f (VBytes false x)) <= 15 + len x).
  { rewrite len_wire_value. cbn [v_rest]. pose proof (len_padded_le x). lia. }
  destruct (put_field n s m f (OBytes f false x) (nil_b x) (VBytes false x) HR Hf Hf') as (s' & E & R' & L & F & G).
  - exact HB.
  - intros. reflexivity.
  - intros. cbn [ok_op]. auto.
  - lia.
  - exists s', (mset (nil_b x) f (VBytes false x) m). split; [exact E|]. split; auto. split; [lia|]. split; auto. rewrite F. destruct x; reflexivity.
Qed.
Lemma put_u8 n s m f x : reached n s m -> 0 <= f < Z.of_nat n -> f < 2 ^ 16 -> 0 <= x < 256 ->
  8 + len (wire_msg m) + 8 < 2 ^ 32 ->
  exists s' m', SetUint8 s f x = Ok s' /\ reached n s' m' /\ len (wire_msg m') <= len (wire_msg m) + 8 /\
    flook f m' = (if x =? 0 then None else Some (VScalar KU8 x)) /\ forall g, g <> f -> flook g m' = flook g m.
Proof.
  intros HR Hf Hf' HB HZ.
  assert (LW : len (wire_value f (VScalar KU8 x)) = 8) by (rewrite len_wire_value; reflexivity).
  destruct (put_field n s m f (OScalar f KU8 x) (is_zero KU8 x) (VScalar KU8 x) HR Hf Hf') as (s' & E & R' & L & F & G).
  - cbn. lia.
  - intros. reflexivity.
  - intros. cbn [ok_op]. auto.
  - lia.
  - exists s', (mset (is_zero KU8 x) f (VScalar KU8 x) m). split; [exact E|]. split; [exact R'|]. split; [lia|]. split; [exact F|exact G].
Qed.
Lemma put_bool n s m f (x : bool) : reached n s m -> 0 <= f < Z.of_nat n -> f < 2 ^ 16 ->
  8 + len (wire_msg m) + 8 < 2 ^ 32 ->
  exists s' m', SetBool s f x = Ok s' /\ reached n s' m' /\ len (wire_msg m') <= len (wire_msg m) + 8 /\
    flook f m' = (if x then Some (VScalar KBool 1) else None) /\ forall g, g <> f -> flook g m' = flook g m.
Proof.
  intros HR Hf Hf' HZ. set (z := if x then 1 else 0).
  assert (LW : len (wire_value f (VScalar KBool z)) = 8) by (rewrite len_wire_value; reflexivity).
  destruct (put_field n s m f (OScalar f KBool z) (is_zero KBool z) (VScalar KBool z) HR Hf Hf') as (s' & E & R' & L & F & G).
  - subst z. destruct x; cbn; lia.
  - intros. reflexivity.
  - intros. cbn [ok_op]. auto.
  - lia.
  - exists s', (mset (is_zero KBool z) f (VScalar KBool z) m). split; [cbn [do_op set_scalar] in E; subst z; destruct x; exact E|].
    split; auto. split; [lia|]. split; auto. rewrite F. subst z. destruct x; reflexivity.
Qed.
Lemma seen_in nt mt i : 0 <= i < Z.of_nat nt -> seen nt mt i = flook i mt.
Proof. intros H. unfold seen. replace ((0 <=? i) && (i <? Z.of_nat nt)) with true by lia. reflexivity. Qed.
Lemma get_string t n h3 m tail f x : Sim t n h3 m tail -> 0 <= f < Z.of_nat n -> flook f m = name_field x -> GetString t f = Ok x.
Proof.
  intros HS Hf HF.
  assert (A : answer t (QBytes f) = Ok (ABytes x)).
  { eapply answer_expects; [exact HS|]. cbn. split; [lia|]. rewrite seen_in by auto. rewrite HF. destruct x; reflexivity. }
  cbn [answer] in A. unfold GetString. destruct (GetBytes t f); cbn in A |- *; congruence.
Qed.
Lemma get_u8 t n h3 m tail f x : Sim t n h3 m tail -> 0 <= f < Z.of_nat n -> flook f m = (if x =? 0 then None else Some (VScalar KU8 x)) -> GetUint8 t f = Ok x.
Proof.
  intros HS Hf HF.
  assert (A : answer t (QScalar f KU8) = Ok (ANum x)).
  { eapply answer_expects; [exact HS|]. cbn. split; [lia|]. rewrite seen_in by auto. rewrite HF. destruct (Z.eqb_spec x 0) as [->|]; auto. }
  cbn [answer get_scalar] in A. destruct (GetUint8 t f); cbn in A |- *; congruence.
Qed.
Lemma get_bool t n h3 m tail f (x : bool) : Sim t n h3 m tail -> 0 <= f < Z.of_nat n -> flook f m = (if x then Some (VScalar KBool 1) else None) -> GetBool t f = Ok x.
Proof.
  intros HS Hf HF.
  assert (A : answer t (QScalar f KBool) = Ok (ANum (if x then 1 else 0))).
  { eapply answer_expects; [exact HS|]. cbn. split; [lia|]. rewrite seen_in by auto. rewrite HF. destruct x; auto. }
  cbn [answer get_scalar] in A. destruct (GetBool t f) as [b| | |]; cbn in A; try discriminate. destruct b, x; cbn in A; congruence.
Qed.

(** ** Structs *)
Section Good.
Context {A : Type}.
Variable mk : A -> res strct.
Variable rd : strct -> res A.
Variable cost : A -> Z.
(** Building [a] works and reading gives it back. *)
Definition good (a : A) : Prop :=
  exists s m, mk a = Ok s /\ reached 2 s m /\ len (wire_msg m) <= cost a /\ m <> [] /\ forall t h3 tail, Sim t 2 h3 m tail -> rd t = Ok a.
Definition costs (l : list A) : Z := total (fun a => 8 + cost a) l.
Lemma each_good l : Forall good l ->
  exists items cs, each mk l = Ok items /\ reached_all 2 items cs /\ (forall i, len (wire_items i cs) <= costs l) /\ length items = length l /\ length cs = length l /\
    forall i, Forall (fun c => valid_msg c /\ fits 0 c) cs -> each rd (map (item_struct 2) (numbered i cs)) = Ok l.
Proof.
  induction 1 as [|a l (s & m & E & R & L & _ & Q) HF (items & cs & E2 & R2 & L2 & N1 & N2 & Q2)].
  - exists [], []. split; auto. split; [constructor|]. split; [intros; cbn; lia|]. auto.
  - exists (s :: items), (m :: cs). cbn [each]. rewrite E, bind_Ok, E2, bind_Ok. split; auto. split; [constructor; auto|]. split; [|split; [cbn; lia|split; [cbn; lia|]]].
    + intros i. cbn [wire_items costs total]. rewrite len_app. specialize (L2 (i + 1)). unfold costs in L2.
      assert (len (wire_struct i m) = 8 + len (wire_msg m)) by (unfold wire_struct; rewrite len_app; reflexivity). lia.
    + intros i HV. apply Forall_cons_iff in HV. destruct HV as [[V1 F1] V2]. cbn [numbered map each].
      erewrite Q by (apply Sim_child; auto). rewrite bind_Ok, Q2 by auto. reflexivity.
Qed.
Definition list_field (cs : list msg) : option value := match cs with [] => None | _ => Some (VStructs cs) end.
Lemma append_good n s m f l items cs : Forall good l -> reached n s m -> 0 <= f < Z.of_nat n -> f < 2 ^ 16 -> flook f m = None ->
  reached_all 2 items cs -> length items = length cs -> 8 + len (wire_msg m) + 8 + len (wire_items 0 cs) < 2 ^ 32 ->
  exists s' m', append_all s f items = Ok s' /\ reached n s' m' /\ len (wire_msg m') <= len (wire_msg m) + 8 + len (wire_items 0 cs) /\
    flook f m' = list_field cs /\ forall g, g <> f -> flook g m' = flook g m.
Proof.
  intros HG HR Hf Hf' HN RA LE HZ. destruct items as [|i0 items], cs as [|c0 cs]; try discriminate LE.
  - exists s, m. split; [reflexivity|]. split; auto. split; [cbn; lia|]. split; auto.
  - destruct (reached_sorted _ _ _ HR) as (S & _ & _ & LD).
    assert (LW : len (wire_value f (VStructs (c0 :: cs))) = 8 + len (wire_items 0 (c0 :: cs))) by (rewrite len_wire_value; reflexivity).
    assert (F : fits 0 (mset (nil_b (c0 :: cs)) f (VStructs (c0 :: cs)) m)) by (eapply fits_mset; eauto; lia).
    destruct (reached_good _ _ _ HR) as (g & _ & SIM & _).
    destruct (Sim_sync_structs _ _ _ _ _ f _ _ _ SIM (reached_all_Sim _ _ _ RA) Hf Hf' F) as (s' & items' & E2 & _).
    exists s', (mset false f (VStructs (c0 :: cs)) m). cbn [append_all]. rewrite E2. split; [reflexivity|].
    split; [exact (R_set_structs n s m f 2 _ _ s' items' HR RA (conj Hf (conj Hf' F)) E2)|]. split; [|split].
    + unfold mset. pose proof (len_wire_put f (VStructs (c0 :: cs)) m S). lia.
    + unfold mset. rewrite flook_fput by auto. now rewrite Z.eqb_refl.
    + intros k Hk. apply flook_mset_ne; auto.
Qed.
Lemma get_list t n h3 m tail f l cs : Sim t n h3 m tail -> 0 <= f < Z.of_nat n -> flook f m = list_field cs -> length cs = length l ->
  (forall i, Forall (fun c => valid_msg c /\ fits 0 c) cs -> each rd (map (item_struct 2) (numbered i cs)) = Ok l) ->
  exists items, get_structs t f 2 = Ok items /\ each rd items = Ok l.
Proof.
  intros HS Hf HF HL Q. pose proof (get_structs_spec t n h3 m tail f 2 HS (proj1 Hf)) as G. rewrite seen_in in G by auto. rewrite HF in G.
  destruct cs as [|c0 cs]; cbn [list_field] in G.
  - rewrite G. exists []. split; auto. destruct l; [reflexivity|discriminate].
  - destruct G as (-> & FV). eexists. split; [reflexivity|]. apply Q. exact FV.
Qed.
(** The shape of ServiceInfo and PackageInfo. *)
Definition mk_named (x : bytes * list A) : res strct :=
  s <- New 2 ;; s <- SetString s 0 (fst x) ;; items <- each mk (snd x) ;; append_all s 1 items.
Definition rd_named (s : strct) : res (bytes * list A) :=
  n <- GetString s 0 ;; items <- get_structs s 1 2 ;; ms <- each rd items ;; Ok (n, ms).
Definition cost_named (x : bytes * list A) : Z := 23 + len (fst x) + costs (snd x).
Lemma costs_nonneg l : Forall good l -> 0 <= costs l.
Proof.
  induction 1 as [|a l (s & m & _ & _ & L & _) _ IH]; [unfold costs; cbn; lia|]. change (costs (a :: l)) with (8 + cost a + costs l). pose proof (len_nonneg (wire_msg m)). lia.
Qed.
Lemma named_built x : byte_list (fst x) -> snd x <> [] -> Forall good (snd x) -> 8 + cost_named x < 2 ^ 32 ->
  exists s m, mk_named x = Ok s /\ reached 2 s m /\ len (wire_msg m) <= cost_named x /\ m <> [] /\ forall t h3 tail, Sim t 2 h3 m tail -> rd_named t = Ok x.
Proof.
  destruct x as [name l]. unfold cost_named, mk_named, rd_named. cbn [fst snd]. intros HB NE HG HZ. pose proof (costs_nonneg l HG). pose proof (len_nonneg name).
  rewrite New_spec, bind_Ok. pose proof (R_new 2 _ (New_spec 2)) as R0.
  destruct (put_string _ _ _ 0 name R0) as (s1 & m1 & E1 & R1 & L1 & F1 & G1); [lia|lia|exact HB|change (len (wire_msg [])) with 0; lia|].
  change (len (wire_msg [])) with 0 in L1. rewrite E1, bind_Ok.
  destruct (each_good l HG) as (items & cs & E2 & R2 & L2 & N1 & N2 & Q2). rewrite E2, bind_Ok. specialize (L2 0).
  destruct (append_good 2 s1 m1 1 l items cs HG R1) as (s2 & m2 & E3 & R3 & L3 & F3 & G3); [lia|lia|rewrite G1 by lia; reflexivity|exact R2|congruence|lia|].
  exists s2, m2. rewrite E3. split; auto. split; auto. split; [lia|]. split.
  - intros ->. destruct cs; [destruct l; [congruence|discriminate]|discriminate F3].
  - intros t h3 tail HS. rewrite (get_string t 2 h3 m2 tail 0 name HS); [|lia|rewrite G3 by lia; exact F1]. rewrite bind_Ok.
    destruct (get_list t 2 h3 m2 tail 1 l cs HS ltac:(lia) F3 N2 Q2) as (is & -> & Q). rewrite bind_Ok, Q. reflexivity.
Qed.
End Good.

Definition cost_method (m : method) : Z := 23 + len (fst m).
Lemma method_good m : byte_list (fst m) -> 1 <= snd m < 256 -> 8 + cost_method m < 2 ^ 32 -> good methodInfo read_method cost_method m.
Proof.
  destruct m as [c t]. unfold cost_method. cbn [fst snd]. intros HB HT HZ. pose proof (len_nonneg c). unfold good, methodInfo, read_method, cost_method. cbn [fst snd].
  rewrite New_spec, bind_Ok. pose proof (R_new 2 _ (New_spec 2)) as R0.
  destruct (put_string _ _ _ 0 c R0) as (s1 & m1 & E1 & R1 & L1 & F1 & G1); [lia|lia|exact HB|change (len (wire_msg [])) with 0; lia|].
  change (len (wire_msg [])) with 0 in L1. rewrite E1, bind_Ok.
  destruct (put_u8 _ _ _ 1 t R1) as (s2 & m2 & E2 & R2 & L2 & F2 & G2); [lia|lia|lia|lia|].
  exists s2, m2. split; auto. split; auto. split; [lia|]. split.
  - intros ->. destruct (Z.eqb_spec t 0); [lia|discriminate F2].
  - intros st h3 tail HS. rewrite (get_string st 2 h3 m2 tail 0 c HS); [|lia|rewrite G2 by lia; exact F1]. rewrite bind_Ok.
    rewrite (get_u8 st 2 h3 m2 tail 1 t HS); [reflexivity|lia|exact F2].
Qed.

(** ** Grouping and sorting *)
Lemma beq_refl a : bytes_eqb a a = true.
Proof. now apply beq_spec. Qed.
Lemma beq_case a b : (a = b /\ bytes_eqb a b = true) \/ (a <> b /\ bytes_eqb a b = false).
Proof. destruct (bytes_eqb a b) eqn:E; [left; split; auto; now apply beq_spec|right; split; auto; intros ->; rewrite beq_refl in E; discriminate]. Qed.
Section Sort.
Context {A : Type}.
Implicit Types l m : list (bytes * A).
Lemma insert_perm x l : Permutation (insert x l) (x :: l).
Proof. induction l as [|y l IH]; cbn; auto. destruct (_ <? 0); auto. rewrite IH. apply perm_swap. Qed.
Lemma sorted_perm l : Permutation (sorted l) l.
Proof. induction l as [|x l IH]; cbn; auto. rewrite insert_perm, IH. reflexivity. Qed.
Lemma lt_trans a b c : str_lt a b -> str_lt b c -> str_lt a c.
Proof.
  revert b c. induction a as [|x a IH]; intros [|y b] [|z c] H1 H2; try (now apply str_lt_nil_r in H1); try (now apply str_lt_nil_r in H2); auto using str_lt_nil_l.
  apply str_lt_inv in H1. apply str_lt_inv in H2. destruct H1 as [H1|[-> H1]], H2 as [H2|[-> H2]]; try (apply str_lt_hd; lia).
  apply str_lt_cons. eauto.
Qed.
Lemma insert_sorted x l : ~ In (fst x) (map fst l) -> ascending l -> ascending (insert x l).
Proof.
  unfold ascending. induction l as [|y l IH]; cbn [insert]; intros NI HS; [repeat constructor|]. inversion HS as [|? ? S1 S2]; subst.
  cbn [map In] in NI.
  destruct (cmpS_spec (fst x) (fst y)) as [[-> L]|[[_ L]|[-> L]]]; cbn [Z.ltb Z.compare].
  - constructor; auto. constructor; auto. eapply Forall_impl; [|exact S2]. cbn. intros. eapply lt_trans; eauto.
  - exfalso. apply NI. left. auto.
  - constructor; [apply IH; auto|]. eapply Permutation_Forall; [symmetry; apply insert_perm|]. constructor; auto.
Qed.
Lemma sorted_ok l : NoDup (map fst l) -> ascending (sorted l).
Proof.
  induction l as [|x l IH]; cbn [sorted fold_right map]; intros HN; [constructor|]. inversion HN; subst. apply insert_sorted; auto.
  intros C. apply H1. eapply Permutation_in; [|exact C]. apply Permutation_map, sorted_perm.
Qed.
(** The values under a key. *)
Lemma gput_keys k f m x : In x (map fst (gput k f m)) <-> x = k \/ In x (map fst m).
Proof.
  induction m as [|[k' v] m IH]; cbn [gput map fst In]; [intuition|].
  destruct (beq_case k k') as [[-> ->]|[N ->]]; cbn [map fst In]; [intuition|]. rewrite IH. intuition.
Qed.
Lemma gput_nodup k f m : NoDup (map fst m) -> NoDup (map fst (gput k f m)).
Proof.
  induction m as [|[k' v] m IH]; cbn [gput map fst]; intros HN; [repeat constructor; intros []|]. inversion HN; subst.
  destruct (beq_case k k') as [[-> ->]|[N ->]]; cbn [map fst]; [constructor; auto|]. constructor; auto.
  rewrite gput_keys. intros [C|C]; congruence.
Qed.
Fixpoint glook (k : bytes) (m : list (bytes * A)) : option A :=
  match m with [] => None | (k', v) :: m => if bytes_eqb k k' then Some v else glook k m end.
Lemma glook_gput k f m k2 : glook k2 (gput k f m) = if bytes_eqb k2 k then Some (f (glook k m)) else glook k2 m.
Proof.
  induction m as [|[k' v] m IH]; cbn [gput glook]; [reflexivity|].
  destruct (beq_case k k') as [[-> ->]|[N E]].
  - cbn [glook]. destruct (bytes_eqb k2 k'); auto.
  - rewrite E. cbn [glook]. rewrite IH. destruct (beq_case k2 k') as [[-> ->]|[N2 ->]]; auto.
    destruct (beq_case k' k) as [[-> ->]|[_ ->]]; auto. congruence.
Qed.
Lemma glook_In k v m : NoDup (map fst m) -> In (k, v) m <-> glook k m = Some v.
Proof.
  induction m as [|[k' w] m IH]; cbn [glook map fst]; intros HN; [split; [intros []|discriminate]|]. inversion HN; subst. cbn [In].
  destruct (beq_case k k') as [[-> ->]|[N ->]].
  - split; [intros [E|E]; [congruence|]|intros E; left; congruence]. exfalso. apply H1. apply in_map_iff. exists (k', v). auto.
  - rewrite <- IH by auto. split; [intros [E|E]; [congruence|auto]|auto].
Qed.
Lemma gput_Forall (P : bytes * A -> Prop) k f m : Forall P m -> (forall o, (forall v, o = Some v -> P (k, v)) -> P (k, f o)) -> Forall P (gput k f m).
Proof.
  intros HF HP. induction HF as [|[k' v] m H1 H2 IH]; cbn [gput]; [constructor; [apply HP; discriminate|constructor]|].
  destruct (beq_case k k') as [[-> ->]|[N ->]]; constructor; auto. apply HP. intros w E. injection E as <-. auto.
Qed.
Lemma gput_total (c : bytes * A -> Z) k f m d : (forall v, c (k, f (Some v)) <= c (k, v) + d) -> c (k, f None) <= d -> total c (gput k f m) <= total c m + d.
Proof.
  intros H1 H2. induction m as [|[k' v] m IH]; cbn [gput total]; [lia|]. destruct (beq_case k k') as [[-> ->]|[N ->]]; cbn [total]; [specialize (H1 v)|]; lia.
Qed.
End Sort.

(** ** The collected handlers *)
Definition look (pkgs : list package) (p s : bytes) : list method := or_empty (glook s (or_empty (glook p pkgs))).
Definition tidy (pkgs : list package) : Prop :=
  NoDup (map fst pkgs) /\ Forall (fun p => snd p <> [] /\ NoDup (map fst (snd p)) /\ Forall (fun s => snd s <> []) (snd p)) pkgs.
Lemma gput_nonempty {A} k f (m : list (bytes * A)) : gput k f m <> [].
Proof. destruct m as [|[k' v] m]; cbn [gput]; [discriminate|]. destruct (bytes_eqb k k'); discriminate. Qed.
Lemma collect_one_tidy pkgs i : tidy pkgs -> tidy (collect_one pkgs i).
Proof.
  destruct i as [[[p s] c] t]. intros [H1 H2]. unfold collect_one. split; [now apply gput_nodup|].
  apply gput_Forall; auto. cbn [snd]. intros o HO. split; [apply gput_nonempty|].
  assert (X : NoDup (map fst (or_empty o)) /\ Forall (fun s0 : service => snd s0 <> []) (or_empty o)).
  { destruct o as [ss|]; cbn [or_empty]; [destruct (HO ss eq_refl) as (_ & X & Y); auto|split; constructor]. }
  destruct X as [X1 X2]. split; [now apply gput_nodup|]. apply gput_Forall; auto. cbn [snd]. intros o' _ C. apply app_eq_nil in C. destruct C as [_ C]. discriminate C.
Qed.
Lemma collect_one_look pkgs p s c t p' s' : look (collect_one pkgs (p, s, c, t)) p' s' = look pkgs p' s' ++ methods_of [(p, s, c, t)] p' s'.
Proof.
  unfold look, collect_one, methods_of. cbn [flat_map]. rewrite app_nil_r, glook_gput.
  destruct (beq_case p' p) as [[-> ->]|[N ->]].
  - cbn [or_empty andb]. rewrite glook_gput. destruct (beq_case s' s) as [[-> ->]|[N ->]].
    + cbn [or_empty]. reflexivity.
    + destruct (beq_case s s') as [[-> ->]|[_ ->]]; [congruence|]. now rewrite app_nil_r.
  - destruct (beq_case p p') as [[-> ->]|[_ ->]]; [congruence|]. cbn [andb]. now rewrite app_nil_r.
Qed.
Lemma collect_ok infos : forall pkgs, tidy pkgs -> tidy (fold_left collect_one infos pkgs) /\
  forall p s, look (fold_left collect_one infos pkgs) p s = look pkgs p s ++ methods_of infos p s.
Proof.
  induction infos as [|i infos IH]; intros pkgs HT; cbn [fold_left].
  - split; auto. intros. cbn. now rewrite app_nil_r.
  - destruct (IH _ (collect_one_tidy pkgs i HT)) as [T L]. split; auto. intros p s. rewrite L. destruct i as [[[p0 s0] c0] t0].
    rewrite collect_one_look, <- app_assoc. unfold methods_of. cbn [flat_map]. rewrite app_nil_r. reflexivity.
Qed.
Lemma methods_In infos p s c t : In (c, t) (methods_of infos p s) <-> In (p, s, c, t) infos.
Proof.
  unfold methods_of. rewrite in_flat_map. split.
  - intros ([[[p' s'] c'] t'] & HI & H). destruct (beq_case p' p) as [[-> E]|[_ E]]; rewrite E in H; [|destruct H].
    destruct (beq_case s' s) as [[-> E2]|[_ E2]]; rewrite E2 in H; [|destruct H]. destruct H as [H|[]]. injection H as -> ->. auto.
  - intros HI. exists (p, s, c, t). split; auto. rewrite !beq_refl. left. auto.
Qed.
Lemma methods_nodup infos p s : NoDup (map fst infos) -> NoDup (map fst (methods_of infos p s)).
Proof.
  unfold methods_of. induction infos as [|[[[p' s'] c'] t'] infos IH]; cbn [map fst flat_map]; intros HN; [constructor|]. inversion HN; subst.
  destruct (beq_case p' p) as [[-> E]|[_ E]]; rewrite E; [|now apply IH]. destruct (beq_case s' s) as [[-> E2]|[_ E2]]; rewrite E2; [|now apply IH].
  cbn [andb app map fst]. constructor; [|now apply IH]. intros C. apply in_map_iff in C. destruct C as ([c t] & X & C). cbn [fst] in X. subst c.
  apply (methods_In infos p s c' t) in C. apply H1. apply in_map_iff. exists (p, s, c', t). auto.
Qed.
Lemma tidy_shows pkgs p s c t : tidy pkgs -> shows pkgs p s c t <-> In (c, t) (look pkgs p s).
Proof.
  intros [H1 H2]. unfold shows, look. split.
  - intros (ss & ms & I1 & I2 & I3). rewrite Forall_forall in H2. destruct (H2 _ I1) as (_ & N2 & _). cbn [snd] in N2.
    apply (glook_In _ _ _ H1) in I1. rewrite I1. cbn [or_empty]. apply (glook_In _ _ _ N2) in I2. rewrite I2. exact I3.
  - destruct (glook p pkgs) as [ss|] eqn:E1; [|intros []]. cbn [or_empty]. destruct (glook s ss) as [ms|] eqn:E2; [|intros []]. cbn [or_empty]. intros HI.
    apply (glook_In _ _ _ H1) in E1. rewrite Forall_forall in H2. destruct (H2 _ E1) as (_ & N2 & _). apply (glook_In _ _ _ N2) in E2. exists ss, ms. auto.
Qed.

Lemma sorted_In {A} (x : bytes * A) l : In x (sorted l) <-> In x l.
Proof. split; apply Permutation_in; [|symmetry]; apply sorted_perm. Qed.
Definition order_service (s : service) : service := (fst s, sorted (snd s)).
Definition order_package (p : package) : package := (fst p, sorted (map order_service (snd p))).
Lemma in_order_In p ss pkgs : In (p, ss) (in_order pkgs) <-> exists ss0, In (p, ss0) pkgs /\ ss = sorted (map order_service ss0).
Proof.
  unfold in_order. rewrite sorted_In. change (map _ pkgs) with (map order_package pkgs). rewrite in_map_iff. split.
  - intros ([p0 ss0] & E & H). unfold order_package in E. cbn [fst snd] in E. injection E as -> <-. eauto.
  - intros (ss0 & H & ->). exists (p, ss0). auto.
Qed.
Lemma order_service_In s ms ss : In (s, ms) (sorted (map order_service ss)) <-> exists ms0, In (s, ms0) ss /\ ms = sorted ms0.
Proof.
  rewrite sorted_In, in_map_iff. split.
  - intros ([s0 ms0] & E & H). unfold order_service in E. cbn [fst snd] in E. injection E as -> <-. eauto.
  - intros (ms0 & H & ->). exists (s, ms0). auto.
Qed.
Lemma in_order_shows pkgs p s c t : shows (in_order pkgs) p s c t <-> shows pkgs p s c t.
Proof.
  unfold shows. split.
  - intros (ss & ms & I1 & I2 & I3). apply in_order_In in I1. destruct I1 as (ss0 & I1 & ->). apply order_service_In in I2. destruct I2 as (ms0 & I2 & ->).
    rewrite sorted_In in I3. exists ss0, ms0. split; [exact I1|]. split; [exact I2|exact I3].
  - intros (ss & ms & I1 & I2 & I3). exists (sorted (map order_service ss)), (sorted ms). rewrite in_order_In, order_service_In, sorted_In.
    split; [exists ss; split; [exact I1|reflexivity]|]. split; [exists ms; split; [exact I2|reflexivity]|exact I3].
Qed.
Lemma sorted_nonempty {A} (l : list (bytes * A)) : l <> [] -> sorted l <> [].
Proof. intros N C. apply N. apply Permutation_nil. rewrite <- C. apply sorted_perm. Qed.
Theorem listing_collect infos : NoDup (map fst infos) ->
  let out := in_order (collect infos) in
  ascending out /\ Forall (fun p => snd p <> [] /\ ascending (snd p) /\ Forall (fun s => snd s <> [] /\ ascending (snd s)) (snd p)) out /\
  forall p s c t, shows out p s c t <-> In (p, s, c, t) infos.
Proof.
  intros HN out. destruct (collect_ok infos []) as [T L]; [split; constructor|]. fold (collect infos) in T, L. split; [|split].
  - unfold out, in_order. apply sorted_ok. rewrite map_map. exact (proj1 T).
  - apply Forall_forall. intros [p ss] HI. apply in_order_In in HI. destruct HI as (ss0 & HI & ->). cbn [snd].
    destruct T as [T1 T2]. rewrite Forall_forall in T2. destruct (T2 _ HI) as (X1 & X2 & X3). cbn [snd] in X1, X2, X3. split; [|split].
    + apply sorted_nonempty. destruct ss0; [intros _; apply X1; reflexivity|discriminate].
    + apply sorted_ok. rewrite map_map. cbn [fst order_service]. exact X2.
    + apply Forall_forall. intros [s ms] HI2. apply order_service_In in HI2. destruct HI2 as (ms0 & HI2 & ->). cbn [snd]. split.
      * apply sorted_nonempty. rewrite Forall_forall in X3. exact (X3 _ HI2).
      * apply sorted_ok. specialize (L p s). unfold look in L at 1.
        rewrite (proj1 (glook_In _ _ _ T1) HI) in L. cbn [or_empty] in L. rewrite (proj1 (glook_In _ _ _ X2) HI2) in L. cbn in L. rewrite L. now apply methods_nodup.
  - intros p s c t. unfold out. rewrite in_order_shows, tidy_shows by exact T. rewrite L. cbn [look or_empty glook app]. apply methods_In.
Qed.

(** ** Sizes *)
Definition cost_service : service -> Z := cost_named cost_method.
Definition cost_package : package -> Z := cost_named cost_service.
Lemma cost_method_nonneg m : 0 <= cost_method m.
Proof. unfold cost_method. pose proof (len_nonneg (fst m)). lia. Qed.
Lemma costs_pos {A} (c : A -> Z) l : (forall a, 0 <= c a) -> 0 <= costs c l.
Proof. intros H. apply total_nonneg. intros a. specialize (H a). lia. Qed.
Lemma named_pos {A} (c : A -> Z) x : (forall a, 0 <= c a) -> 0 <= cost_named c x.
Proof. intros H. unfold cost_named. pose proof (len_nonneg (fst x)). pose proof (costs_pos c (snd x) H). lia. Qed.
Lemma cost_service_nonneg x : 0 <= cost_service x.
Proof. apply named_pos, cost_method_nonneg. Qed.
Lemma cost_package_nonneg x : 0 <= cost_package x.
Proof. apply named_pos, cost_service_nonneg. Qed.
Lemma costs_In {A} (c : A -> Z) l x : (forall a, 0 <= c a) -> In x l -> 8 + c x <= costs c l.
Proof.
  intros H. induction l as [|y l IH]; [intros []|]. change (costs c (y :: l)) with (8 + c y + costs c l). pose proof (costs_pos c l H). pose proof (H y).
  intros [->|HI]; [lia|]. specialize (IH HI). lia.
Qed.
Lemma costs_perm {A} (c : A -> Z) l l' : Permutation l l' -> costs c l = costs c l'.
Proof. apply total_perm. Qed.
Lemma costs_map {A} (c : A -> Z) g l : (forall a, c (g a) = c a) -> costs c (map g l) = costs c l.
Proof. intros H. induction l as [|a l IH]; [reflexivity|]. cbn [map]. change (costs c (g a :: map g l)) with (8 + c (g a) + costs c (map g l)). rewrite H, IH. reflexivity. Qed.
Lemma costs_app {A} (c : A -> Z) l l' : costs c (l ++ l') = costs c l + costs c l'.
Proof. induction l as [|a l IH]; [reflexivity|]. cbn [app]. change (costs c (a :: l ++ l')) with (8 + c a + costs c (l ++ l')). change (costs c (a :: l)) with (8 + c a + costs c l). lia. Qed.
Lemma order_cost pkgs : costs cost_package (in_order pkgs) = costs cost_package pkgs.
Proof.
  unfold in_order. etransitivity; [apply costs_perm, sorted_perm|]. apply costs_map. intros [p ss]. unfold cost_package, cost_named. cbn [fst snd]. f_equal.
  etransitivity; [apply costs_perm, sorted_perm|]. apply costs_map. intros [s ms]. unfold cost_service, cost_named. cbn [fst snd]. f_equal. apply costs_perm, sorted_perm.
Qed.
Lemma collect_one_cost pkgs p s c t : costs cost_package (collect_one pkgs (p, s, c, t)) <= costs cost_package pkgs + (93 + len p + len s + len c).
Proof.
  assert (M : forall ms : list method, costs cost_method (ms ++ [(c, t)]) = costs cost_method ms + (31 + len c)).
  { intros ms. rewrite costs_app. unfold costs at 2, cost_method. cbn [total fst]. lia. }
  assert (S : forall ss : list service, costs cost_service (gput s (fun ms => or_empty ms ++ [(c, t)]) ss) <= costs cost_service ss + (62 + len s + len c)).
  { intros ss. unfold costs at 1 2. pose proof (len_nonneg s). apply gput_total; [intros v|]; unfold cost_service, cost_named; cbn [fst snd or_empty]; rewrite M; [lia|]. change (costs cost_method []) with 0. lia. }
  pose proof (len_nonneg p). unfold collect_one, costs at 1 2. apply gput_total; [intros v|]; unfold cost_package, cost_named; cbn [fst snd or_empty].
  - specialize (S v). lia.
  - match goal with |- context [costs cost_service ?x] => assert (X : costs cost_service x <= 0 + (62 + len s + len c)) by exact (S []) end. lia.
Qed.
Lemma collect_cost infos : forall pkgs, costs cost_package (fold_left collect_one infos pkgs) <= costs cost_package pkgs + weight infos.
Proof.
  induction infos as [|[[[p s] c] t] infos IH]; intros pkgs; cbn [fold_left weight]; [lia|]. specialize (IH (collect_one pkgs (p, s, c, t))).
  pose proof (collect_one_cost pkgs p s c t). lia.
Qed.
Lemma weight_nonneg l : 0 <= weight l.
Proof. induction l as [|[[[p s] c] t] l IH]; cbn [weight]; [lia|]. pose proof (len_nonneg p). pose proof (len_nonneg s). pose proof (len_nonneg c). lia. Qed.
Lemma weight_perm l l' : Permutation l l' -> weight l = weight l'.
Proof. induction 1 as [|[[[p s] c] t] l l'|[[[p s] c] t] [[[p' s'] c'] t'] l|]; cbn [weight]; lia. Qed.
Lemma methods_weight infos p s : costs cost_method (methods_of infos p s) <= weight infos.
Proof.
  unfold methods_of. induction infos as [|[[[p' s'] c'] t'] infos IH]; cbn [flat_map weight]; [cbn; lia|]. rewrite costs_app.
  pose proof (len_nonneg p'). pose proof (len_nonneg s'). pose proof (len_nonneg c'). 
  assert (X : costs cost_method (if bytes_eqb p' p && bytes_eqb s' s then [(c', t')] else []) <= 31 + len c').
  { destruct (_ && _); unfold costs, cost_method; cbn [total fst]; lia. }
  etransitivity; [apply Z.add_le_mono; [exact X|exact IH]|]. lia.
Qed.

(** ** The calls *)
Definition info_ok (i : info) : Prop := let '(p, s, c, t) := i in byte_list p /\ byte_list s /\ byte_list c /\ 1 <= t < 256.
Lemma service_good sv : byte_list (fst sv) -> snd sv <> [] -> Forall (fun m => byte_list (fst m) /\ 1 <= snd m < 256) (snd sv) -> 8 + cost_service sv < 2 ^ 32 ->
  good serviceInfo read_service cost_service sv.
Proof.
  intros HB NE HM HZ. apply (named_built methodInfo read_method cost_method); auto.
  apply Forall_forall. intros m HI. rewrite Forall_forall in HM. destruct (HM m HI) as [M1 M2]. apply method_good; auto.
  assert (X : 8 + cost_method m <= costs cost_method (snd sv)) by exact (costs_In cost_method (snd sv) m cost_method_nonneg HI).
  assert (Y : cost_service sv = 23 + len (fst sv) + costs cost_method (snd sv)) by reflexivity. pose proof (len_nonneg (fst sv)). lia.
Qed.
Lemma packages_good infos : NoDup (map fst infos) -> Forall info_ok infos -> 8 + weight infos < 2 ^ 32 ->
  Forall (good packageInfo read_package cost_package) (in_order (collect infos)).
Proof.
  intros HN HI HZ. destruct (listing_collect infos HN) as (_ & HF & HS). set (out := in_order (collect infos)) in *.
  assert (C : costs cost_package out <= weight infos).
  { unfold out. rewrite order_cost. pose proof (collect_cost infos []). unfold collect. change (costs cost_package []) with 0 in *. lia. }
  apply Forall_forall. intros [p ss] IP. rewrite Forall_forall in HF. destruct (HF _ IP) as (N1 & _ & F1). cbn [snd] in N1, F1.
  pose proof (costs_In cost_package out _ cost_package_nonneg IP) as C1. change (cost_package (p, ss)) with (23 + len p + costs cost_service ss) in C1.
  rewrite Forall_forall in F1, HI.
  assert (K : forall s ms c t, In (s, ms) ss -> In (c, t) ms -> info_ok (p, s, c, t)).
  { intros s ms c t I1 I2. apply HI, HS. exists ss, ms. auto. }
  pose proof (len_nonneg p).
  assert (G : Forall (good serviceInfo read_service cost_service) ss).
  { apply Forall_forall. intros [s ms] IS. destruct (F1 _ IS) as (N2 & _). cbn [snd] in N2.
    pose proof (costs_In cost_service ss _ cost_service_nonneg IS) as C2.
    apply service_good; cbn [fst snd]; auto.
    - destruct ms as [|[c t] ms]; [destruct (N2 eq_refl)|]. destruct (K s _ c t IS (or_introl eq_refl)) as (_ & X & _). exact X.
    - apply Forall_forall. intros [c t] IM. destruct (K s _ c t IS IM) as (_ & _ & X & Y). auto.
    - lia. }
  apply (named_built serviceInfo read_service cost_service); cbn [fst snd]; auto.
  - destruct ss as [|[s ms] ss]; [destruct (N1 eq_refl)|]. destruct (F1 _ (or_introl eq_refl)) as (N2 & _). cbn [snd] in N2.
    destruct ms as [|[c t] ms]; [destruct (N2 eq_refl)|]. destruct (K s _ c t (or_introl eq_refl) (or_introl eq_refl)) as (X & _). exact X.
  - unfold cost_named. cbn [fst snd]. fold cost_service. lia.
Qed.
Lemma there_and_back n s m : reached n s m -> exists s' b t, Marshal s = Ok (s', b) /\ Unmarshal (mkStruct (hdr 0 FTStruct 8) (repeat fe_zero n) false false None false []) b = Ok t /\
  exists g, Sim t n (hdr3 g) m [].
Proof.
  intros HR. destruct (reached_unmarshal n n s m [] HR) as (s' & b & s0 & t & EM & EN & EU & RT). rewrite app_nil_r in EU.
  rewrite New_spec in EN. injection EN as <-. exists s', b, t. split; auto. split; auto. destruct (reached_good _ _ _ RT) as (g & _ & S & _). eauto.
Qed.
Theorem list_services_ok infos : NoDup (map fst infos) -> Forall info_ok infos -> 32 + weight infos < 2 ^ 32 ->
  list_services true infos = Ok (in_order (collect infos)).
Proof.
  intros HN HI HZ. pose proof (weight_nonneg infos). unfold list_services, list_request, ListServices, list_response. rewrite !New_spec, !bind_Ok.
  pose proof (R_new 1 _ (New_spec 1)) as R0. destruct (there_and_back _ _ _ R0) as (q & b & t & EM & EU & _). rewrite EM, !bind_Ok, EU, !bind_Ok.
  pose proof (packages_good infos HN HI ltac:(lia)) as G. set (out := in_order (collect infos)) in *.
  assert (C : costs cost_package out <= weight infos).
  { unfold out. rewrite order_cost. pose proof (collect_cost infos []). unfold collect. change (costs cost_package []) with 0 in *. lia. }
  destruct (each_good _ _ _ out G) as (items & cs & E2 & R2 & L2 & N1 & N2 & Q2). rewrite E2, bind_Ok. specialize (L2 0).
  destruct (append_good packageInfo read_package cost_package 1 _ _ 0 out items cs G R0) as (s2 & m2 & E3 & R3 & L3 & F3 & G3);
    [lia|lia|reflexivity|exact R2|congruence|change (len (wire_msg [])) with 0; lia|].
  rewrite E3, bind_Ok. destruct (there_and_back _ _ _ R3) as (q' & b' & t' & EM' & EU' & g & S). rewrite EM', !bind_Ok, EU', bind_Ok.
  destruct (get_list read_package t' 1 _ m2 [] 0 out cs S ltac:(lia) F3 N2 Q2) as (is & E4 & Q). rewrite E4, bind_Ok. exact Q.
Qed.
Lemma put_nested n s m f c mc : reached n s m -> reached 2 c mc -> mc <> [] -> 0 <= f < Z.of_nat n -> f < 2 ^ 16 ->
  8 + len (wire_msg m) + 8 + len (wire_msg mc) < 2 ^ 32 ->
  exists s' m', SetNestedStruct s f (Some c) = Ok s' /\ reached n s' m' /\ flook f m' = Some (VStruct mc) /\ forall g, g <> f -> flook g m' = flook g m.
Proof.
  intros HR RC NE Hf Hf' HZ. destruct (reached_sorted _ _ _ HR) as (S & _ & _ & LD).
  assert (LW : len (wire_value f (VStruct mc)) = 8 + len (wire_msg mc)) by (rewrite len_wire_value; reflexivity).
  assert (F : fits 0 (mset (nil_b mc) f (VStruct mc) m)) by (eapply fits_mset; eauto; lia).
  destruct (reached_good _ _ _ HR) as (g & _ & SIM & _). destruct (reached_good _ _ _ RC) as (g' & _ & SIM' & _).
  destruct (Sim_SetNested _ _ _ _ _ f _ _ _ _ SIM SIM' Hf Hf' F) as (s' & E2 & _).
  pose proof (R_set_nested n s m f 2 c mc s' HR RC (conj Hf (conj Hf' F)) E2) as R2.
  destruct mc as [|p mc]; [congruence|]. cbn [nil_b] in R2. exists s', (mset false f (VStruct (p :: mc)) m). split; auto. split; auto. split.
  - unfold mset. rewrite flook_fput by auto. now rewrite Z.eqb_refl.
  - intros k Hk. apply flook_mset_ne; auto.
Qed.
Lemma found_answer {A} (mk : A -> res strct) rd cost a : good mk rd cost a -> 32 + cost a < 2 ^ 32 ->
  (b <- (resp <- New 2 ;; resp <- SetBool resp 1 true ;; c <- mk a ;; resp <- SetNestedStruct resp 0 (Some c) ;; '(_, b) <- Marshal resp ;; Ok b) ;;
   info_response rd b) = Ok (Some a, true).
Proof.
  intros (c & mc & EC & RC & LC & NE & Q) HZ. unfold info_response. rewrite !New_spec, !bind_Ok. pose proof (R_new 2 _ (New_spec 2)) as R0. pose proof (len_nonneg (wire_msg mc)).
  destruct (put_bool _ _ _ 1 true R0) as (s1 & m1 & E1 & R1 & L1 & F1 & G1); [lia|lia|change (len (wire_msg [])) with 0; lia|].
  change (len (wire_msg [])) with 0 in L1. rewrite E1, bind_Ok, EC, bind_Ok.
  destruct (put_nested _ _ _ 0 c mc R1 RC NE) as (s2 & m2 & E2 & R2 & F2 & G2); [lia|lia|lia|]. rewrite E2, bind_Ok.
  destruct (there_and_back _ _ _ R2) as (q' & b' & t' & EM' & EU' & g & S). rewrite EM', !bind_Ok, EU', bind_Ok.
  pose proof (GetNestedStruct_spec _ _ _ _ _ 0 2 S ltac:(lia)) as GN. rewrite seen_in in GN by lia. rewrite F2 in GN. destruct GN as (c' & -> & SC & _).
  rewrite bind_Ok, (get_bool t' 2 _ m2 [] 1 true S); [|lia|rewrite G2 by lia; exact F1]. rewrite bind_Ok, (Q _ _ _ SC). reflexivity.
Qed.
Lemma missing_answer {A} (rd : strct -> res A) :
  (b <- (resp <- New 2 ;; resp <- SetBool resp 1 false ;; '(_, b) <- Marshal resp ;; Ok b) ;; info_response rd b) = Ok (None, false).
Proof.
  unfold info_response. rewrite !New_spec, !bind_Ok. pose proof (R_new 2 _ (New_spec 2)) as R0.
  destruct (put_bool _ _ _ 1 false R0) as (s1 & m1 & E1 & R1 & L1 & F1 & G1); [lia|lia|change (len (wire_msg [])) with 0; lia|].
  rewrite E1, bind_Ok. destruct (there_and_back _ _ _ R1) as (q' & b' & t' & EM' & EU' & g & S). rewrite EM', !bind_Ok, EU', bind_Ok.
  pose proof (GetNestedStruct_spec _ _ _ _ _ 0 2 S ltac:(lia)) as GN. rewrite seen_in in GN by lia. rewrite G1 in GN by lia. cbn [flook] in GN. rewrite GN.
  rewrite bind_Ok, (get_bool t' 2 _ m1 [] 1 false S); [|lia|exact F1]. reflexivity.
Qed.
Lemma service_asked p s : byte_list p -> byte_list s -> 64 + len p + len s < 2 ^ 32 ->
  exists q, service_request p s = Ok q /\ exists t, Unmarshal (mkStruct (hdr 0 FTStruct 8) (repeat fe_zero 2) false false None false []) q = Ok t /\ GetString t 0 = Ok p /\ GetString t 1 = Ok s.
Proof.
  intros HP HS HZ. pose proof (len_nonneg p). pose proof (len_nonneg s). unfold service_request. rewrite New_spec, bind_Ok. pose proof (R_new 2 _ (New_spec 2)) as R0.
  destruct (put_string _ _ _ 0 p R0) as (s1 & m1 & E1 & R1 & L1 & F1 & G1); [lia|lia|exact HP|change (len (wire_msg [])) with 0; lia|].
  change (len (wire_msg [])) with 0 in L1. rewrite E1, bind_Ok.
  destruct (put_string _ _ _ 1 s R1) as (s2 & m2 & E2 & R2 & L2 & F2 & G2); [lia|lia|exact HS|lia|]. rewrite E2, bind_Ok.
  destruct (there_and_back _ _ _ R2) as (q' & b' & t' & EM' & EU' & g & S). rewrite EM', bind_Ok. exists b'. split; auto. exists t'. split; auto.
  split; eapply get_string; try exact S; try lia; auto. rewrite G2 by lia. exact F1.
Qed.
Lemma method_asked p s c : byte_list p -> byte_list s -> byte_list c -> 64 + len p + len s + len c < 2 ^ 32 ->
  exists q, method_request p s c = Ok q /\ exists t, Unmarshal (mkStruct (hdr 0 FTStruct 8) (repeat fe_zero 3) false false None false []) q = Ok t /\
    GetString t 0 = Ok p /\ GetString t 1 = Ok s /\ GetString t 2 = Ok c.
Proof.
  intros HP HS HC HZ. pose proof (len_nonneg p). pose proof (len_nonneg s). pose proof (len_nonneg c). unfold method_request. rewrite New_spec, bind_Ok.
  pose proof (R_new 3 _ (New_spec 3)) as R0.
  destruct (put_string _ _ _ 0 p R0) as (s1 & m1 & E1 & R1 & L1 & F1 & G1); [lia|lia|exact HP|change (len (wire_msg [])) with 0; lia|].
  change (len (wire_msg [])) with 0 in L1. rewrite E1, bind_Ok.
  destruct (put_string _ _ _ 1 s R1) as (s2 & m2 & E2 & R2 & L2 & F2 & G2); [lia|lia|exact HS|lia|]. rewrite E2, bind_Ok.
  destruct (put_string _ _ _ 2 c R2) as (s3 & m3 & E3 & R3 & L3 & F3 & G3); [lia|lia|exact HC|lia|]. rewrite E3, bind_Ok.
  destruct (there_and_back _ _ _ R3) as (q' & b' & t' & EM' & EU' & g & S). rewrite EM', bind_Ok. exists b'. split; auto. exists t'. split; auto.
  split; [|split]; eapply get_string; try exact S; try lia; auto.
  - rewrite G3, G2 by lia. exact F1.
  - rewrite G3 by lia. exact F2.
Qed.
Theorem service_info_ok infos p s : Forall info_ok infos -> byte_list p -> byte_list s -> 100 + len p + len s + weight infos < 2 ^ 32 ->
  get_service_info true infos p s =
    Ok (match methods_of infos p s with [] => (None, false) | ms => (Some (s, sorted ms), true) end).
Proof.
  intros HI HP HS HZ. pose proof (weight_nonneg infos). pose proof (len_nonneg p). pose proof (len_nonneg s).
  destruct (service_asked p s HP HS ltac:(lia)) as (q & E1 & t & E2 & E3 & E4). unfold get_service_info. rewrite E1, bind_Ok. unfold GetServiceInfo.
  rewrite (New_spec 2) at 1. rewrite bind_Ok, E2, bind_Ok, E3, bind_Ok, E4, bind_Ok.
  pose proof (methods_weight infos p s) as W.
  assert (HM : Forall (fun m : method => byte_list (fst m) /\ 1 <= snd m < 256) (methods_of infos p s)).
  { apply Forall_forall. intros [c' t'] I. apply (methods_In infos p s c' t') in I. rewrite Forall_forall in HI. destruct (HI _ I) as (_ & _ & X & Y). auto. }
  destruct (methods_of infos p s) as [|m0 ms] eqn:EM.
  - apply missing_answer.
  - rewrite <- EM in *. set (l := methods_of infos p s) in *. assert (CS : costs cost_method (sorted l) = costs cost_method l) by (apply costs_perm, sorted_perm).
    assert (X : cost_service (s, sorted l) = 23 + len s + costs cost_method (sorted l)) by reflexivity.
    apply (found_answer serviceInfo read_service cost_service (s, sorted l)); [|lia].
    apply service_good; cbn [fst snd]; auto; [apply sorted_nonempty; rewrite EM; discriminate| |lia].
    eapply Permutation_Forall; [symmetry; apply sorted_perm|exact HM].
Qed.
Lemma find_info infos p s c : NoDup (map fst infos) ->
  match find (fun i : info => let '(p', s', c', _) := i in bytes_eqb p' p && bytes_eqb s' s && bytes_eqb c' c) infos with
  | Some (p', s', c', t) => p' = p /\ s' = s /\ c' = c /\ In (p, s, c, t) infos
  | None => forall t, ~ In (p, s, c, t) infos
  end.
Proof.
  intros HN. destruct (find _ infos) as [[[[p' s'] c'] t]|] eqn:E.
  - apply find_some in E. destruct E as [I E]. apply andb_prop in E. destruct E as [E E3]. apply andb_prop in E. destruct E as [E1 E2].
    apply beq_spec in E1, E2, E3. subst. auto.
  - intros t I. apply (find_none _ _ E) in I. rewrite !beq_refl in I. discriminate.
Qed.
Theorem method_info_ok infos p s c : NoDup (map fst infos) -> Forall info_ok infos -> byte_list p -> byte_list s -> byte_list c ->
  100 + len p + len s + len c < 2 ^ 32 ->
  exists r, get_method_info true infos p s c = Ok r /\
    match r with
    | (Some (c', t), found) => found = true /\ c' = c /\ In (p, s, c, t) infos
    | (None, found) => found = false /\ forall t, ~ In (p, s, c, t) infos
    end.
Proof.
  intros HN HI HP HS HC HZ. pose proof (len_nonneg p). pose proof (len_nonneg s). pose proof (len_nonneg c).
  destruct (method_asked p s c HP HS HC ltac:(lia)) as (q & E1 & t & E2 & E3 & E4 & E5). unfold get_method_info. rewrite E1, bind_Ok. unfold GetMethodInfo.
  rewrite (New_spec 3), bind_Ok, E2, bind_Ok, E3, bind_Ok, E4, bind_Ok, E5, bind_Ok.
  pose proof (find_info infos p s c HN) as FI. destruct (find _ infos) as [[[[p' s'] c'] t']|].
  - destruct FI as (-> & -> & -> & I). exists (Some (c, t'), true). split; [|auto].
    apply (found_answer methodInfo read_method cost_method (c, t')); [|unfold cost_method; cbn [fst]; lia].
    rewrite Forall_forall in HI. destruct (HI _ I) as (_ & _ & _ & T). apply method_good; cbn [fst snd]; auto. unfold cost_method. cbn [fst]. lia.
  - exists (None, false). split; [|auto]. apply missing_answer.
Qed.

(** ** From registrations *)
Definition plain_info (i : info) : Prop := ~ In 47 (fst (fst (fst i))) /\ ~ In 47 (snd (fst (fst i))).
Lemma usable_plain l : Forall usable l -> Forall (fun e => Registry.plain (fst e)) l.
Proof. apply Forall_impl. intros [[[p s] c] t] (_ & _ & _ & _ & H1 & H2). split; assumption. Qed.
Lemma handlers_cons p s c t r : Registry.plain (p, s, c) -> Handlers ((makeKey p s c, t) :: r) = (p, s, c, t) :: Handlers (H := Z) r.
Proof. intros H. unfold Handlers. cbn [flat_map fst snd]. rewrite (split_key (p, s, c) H : splitN 3 (makeKey p s c) = _). reflexivity. Qed.
Lemma run_handlers (P : info -> Prop) l : Forall (fun e => Registry.plain (fst e)) l -> Forall P l -> forall r, Forall P (Handlers r) ->
  Forall P (Handlers (fst (reg_run Z r l))) /\ weight (Handlers (fst (reg_run Z r l))) <= weight (Handlers r) + weight l.
Proof.
  induction l as [|[[[p s] c] t] l IH]; intros HL HP r HR; cbn [reg_run weight fst]; [split; [auto|lia]|].
  apply Forall_cons_iff in HL. destruct HL as [L1 L2]. apply Forall_cons_iff in HP. destruct HP as [P1 P2]. cbn [fst] in L1.
  pose proof (len_nonneg p). pose proof (len_nonneg s). pose proof (len_nonneg c).
  unfold Register. destruct (reg_find (makeKey p s c) r).
  - specialize (IH L2 P2 r HR). destruct (reg_run Z r l). cbn [fst] in *. destruct IH as [X Y]. split; [auto|lia].
  - specialize (IH L2 P2 ((makeKey p s c, t) :: r)). rewrite handlers_cons in IH by auto. destruct (reg_run Z _ l). cbn [fst] in *.
    destruct IH as [X Y]; [constructor; auto|]. cbn [weight] in Y. split; [auto|lia].
Qed.
Lemma in_force_first l p s c : in_force l p s c = first_for Z (p, s, c) l.
Proof.
  induction l as [|[[[p' s'] c'] t] l IH]; cbn [in_force first_for triple_eqb]; [reflexivity|]. rewrite IH.
  destruct (list_eq_dec Z.eq_dec p' p) as [->|N1]; [rewrite beq_refl|destruct (beq_case p p') as [[-> _]|[_ ->]]; [congruence|reflexivity]].
  destruct (list_eq_dec Z.eq_dec s' s) as [->|N2]; [rewrite beq_refl|destruct (beq_case s s') as [[-> _]|[_ ->]]; [congruence|reflexivity]].
  destruct (list_eq_dec Z.eq_dec c' c) as [->|N3]; [rewrite beq_refl|destruct (beq_case c c') as [[-> _]|[_ ->]]; [congruence|reflexivity]]. reflexivity.
Qed.
