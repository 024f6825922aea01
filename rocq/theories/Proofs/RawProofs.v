(** Plain Go structs to Claw structs and back: the proofs. *)
From Coq Require Import ZArith List Bool Permutation Lia.
Import ListNotations.
From Verif.Model Require Import Base Field MapApi Raw.
From Verif.Spec Require Import Message MapSpec Reach Raw.
From Verif.Proofs Require Import BaseLemmas FMapLemmas HeaderLemmas WireLemmas SimLemmas GetLemmas QueryLemmas ReachLemmas MapLemmas MapCodec.
From Verif.Properties Require Import Maps.
Open Scope Z_scope.

Lemma total_nonneg {A} (f : A -> Z) l : (forall x, 0 <= f x) -> 0 <= total f l.
Proof. intros H. induction l as [|x l IH]; cbn [total]; [lia|]. specialize (H x). lia. Qed.

Lemma Forall2_weaken {A B} (P Q : A -> B -> Prop) l l' : (forall a b, P a b -> Q a b) -> Forall2 P l l' -> Forall2 Q l l'.
Proof. induction 2; constructor; auto. Qed.
Lemma Forall2_perm {A B} (R : A -> B -> Prop) l1 l2 : Permutation l1 l2 -> forall r1, Forall2 R l1 r1 -> exists r2, Permutation r1 r2 /\ Forall2 R l2 r2.
Proof.
  induction 1 as [|x l1 l2 P IH|x y l|l1 l2 l3 P1 IH1 P2 IH2]; intros r1 HF.
  - inversion HF; subst. exists []. auto.
  - inversion HF as [|? y ? r HR HF']; subst. destruct (IH _ HF') as (r2 & Q & F2). exists (y :: r2). split; auto.
  - inversion HF as [|? a ? r HR HF']; subst. inversion HF' as [|? b ? r' HR' HF'']; subst. exists (b :: a :: r'). split; [apply perm_swap|auto].
  - destruct (IH1 _ HF) as (r2 & Q & F2). destruct (IH2 _ F2) as (r3 & Q3 & F3). exists r3. split; auto. now transitivity r2.
Qed.

Section RawInd.
Variable P : rawval -> Prop.
Definition inside (o : option (list rawval)) : Prop := match o with Some fs => Forall P fs | None => True end.
Definition inner (v : rawval) : Prop := match v with RawMsg o => inside o | _ => True end.
Definition inside_entry (ke : mkey * rawval) : Prop := P (snd ke) /\ inner (snd ke).
Hypothesis Hleaf : forall v, match v with RawMsg (Some _) | RawMsgs (Some _) | RawMap (Some _) => False | _ => True end -> P v.
Hypothesis Hmsg : forall fs, Forall P fs -> P (RawMsg (Some fs)).
Hypothesis Hmsgs : forall l, Forall inside l -> P (RawMsgs (Some l)).
Hypothesis Hmap : forall es, Forall inside_entry es -> P (RawMap (Some es)).
Fixpoint raw_ind (v : rawval) : P v :=
  let all := (fix all (fs : list rawval) : Forall P fs :=
                match fs with [] => Forall_nil P | v :: q => Forall_cons v (raw_ind v) (all q) end) in
  let ins o : inside o := match o with Some fs => all fs | None => I end in
  match v with
  | RawMsg (Some fs) => Hmsg fs (all fs)
  | RawMsgs (Some l) =>
    Hmsgs l ((fix items l : Forall inside l := match l with
                             | [] => Forall_nil _
                             | o :: q => @Forall_cons _ inside o q (ins o) (items q)
                             end) l)
  | RawMap (Some es) =>
    Hmap es ((fix ents es : Forall inside_entry es := match es with
                             | [] => Forall_nil _
                             | (k, v) :: q => @Forall_cons _ inside_entry (k, v) q
                                 (conj (raw_ind v) (match v as v return inner v with
                                                           | RawMsg o => ins o
                                                           | _ => I
                                                           end)) (ents q)
                             end) es)
  | v => Hleaf v I
  end.
End RawInd.

Lemma raw_size_nonneg v : 0 <= raw_size v.
Proof.
  assert (T : forall fs, Forall (fun v => 0 <= raw_size v) fs -> 0 <= total raw_size fs).
  { induction 1; cbn [total]; lia. }
  induction v using raw_ind.
  - destruct v as [| |[]|[]|[]|[]|[]|[]|[]|]; try destruct H; cbn [raw_size]; try lia;
      try (match goal with |- context [len ?b] => pose proof (len_nonneg b) end; lia).
    match goal with |- context [total ?f ?l] => assert (0 <= total f l) end; [|lia].
    apply total_nonneg. intros x. pose proof (len_nonneg x). lia.
  - cbn [raw_size]. specialize (T _ H). lia.
  - cbn [raw_size]. assert (0 <= total (fun o => match o with Some fs => 8 + total raw_size fs | None => 0 end) l); [|lia].
    induction H as [|[fs|] l H _ IH]; cbn [total]; cbn [inside] in *; try specialize (T _ H); lia.
  - cbn [raw_size]. match goal with |- context [total ?f ?l] => assert (0 <= total f l) end; [|lia].
    induction H as [|[k v] l [H _] _ IH]; cbn [total]; [lia|]. cbn [snd] in H.
    destruct k; [lia|]. pose proof (len_nonneg b). lia.
Qed.
Lemma total_size_nonneg fs : 0 <= total raw_size fs.
Proof. apply total_nonneg. apply raw_size_nonneg. Qed.

(** ** Equations *)
Section Raw.
Variable E : nat -> list rty.
Hypothesis HE : forall id, len (E id) <= 2 ^ 16.

Section Items.
Variable (kt : keyty) (id : nat).
Fixpoint raw_items (l : list (option (list rawval))) : res (list strct) :=
  match l with
  | [] => Ok []
  | None :: l => raw_items l
  | Some fs :: l => c <- FromRaw E id fs ;; q <- raw_items l ;; Ok (c :: q)
  end.
Fixpoint raw_entries (m : mapobj) (es : list (mkey * rawval)) : res mapobj :=
  match es with
  | [] => Ok m
  | (k, RawMsg (Some fs)) :: es => c <- FromRaw E id fs ;; m <- mp_Set kt m k (MStruct c.(st_data)) ;; raw_entries m es
  | (k, RawNum z) :: es => m <- mp_Set kt m k (MNum z) ;; raw_entries m es
  | (k, RawStr b) :: es => m <- mp_Set kt m k (MStr b) ;; raw_entries m es
  | _ :: es => raw_entries m es
  end.
End Items.
Lemma put_msg s i id fs : put_raw E s i (RTMsg id) (RawMsg (Some fs)) = (c <- FromRaw E id fs ;; SetNestedStruct s i (Some c)).
Proof. reflexivity. Qed.
Lemma put_msgs s i id l : put_raw E s i (RTMsgs id) (RawMsgs (Some l)) =
  (items <- raw_items id l ;; '(s, _) <- sync_structs s i items ;; Ok s).
Proof. reflexivity. Qed.
Lemma put_map s i kt vt id es : put_raw E s i (RTMap kt vt id) (RawMap (Some es)) =
  (m <- raw_entries kt id NewMaps es ;; '(s, _) <- mp_Sync kt vt s i m ;; Ok s).
Proof. reflexivity. Qed.

(** ** Writing and reading one field *)
Definition reads_as (i : Z) (ty : rty) (o : option value) (v' : rawval) : Prop :=
  exists N, forall N', (N <= N')%nat -> forall t nt h3 mt tail, Sim t nt h3 mt tail -> i < Z.of_nat nt ->
    flook i mt = o -> get_raw E (ToRaw E N') t i ty = Ok v'.
Lemma seen_flook nt mt i : 0 <= i < Z.of_nat nt -> seen nt mt i = flook i mt.
Proof. intros H. unfold seen. replace ((0 <=? i) && (i <? Z.of_nat nt)) with true by lia. reflexivity. Qed.

Definition absent (ty : rty) : rawval :=
  match ty with
  | RTNum _ => RawNum 0 | RTStr => RawStr [] | RTBytes => RawBytes None | RTMsg _ => RawMsg None | RTBools => RawBools None
  | RTNums _ => RawNums None | RTStrs _ => RawStrs None | RTMsgs _ => RawMsgs None | RTMap _ _ _ => RawMap None | _ => RawAny None
  end.
Lemma zero_absent ty : zero_raw (absent ty).
Proof. unfold zero_raw. destruct ty; cbn; tauto. Qed.
(** What is read of a field that is not there. *)
Lemma get_absent rec t nt h3 mt tail i ty : Sim t nt h3 mt tail -> 0 <= i -> seen nt mt i = None -> get_raw E rec t i ty = Ok (absent ty).
Proof.
  intros HS Hi HN.
  assert (HH : HasField t i = Ok false).
  { assert (A : answer t (QHas i) = Ok (ABool false)) by (eapply answer_expects; [exact HS|]; cbn; rewrite HN; auto).
    cbn [answer] in A. destruct (HasField t i); cbn [bind] in *; congruence. }
  destruct ty; cbn [get_raw absent]; rewrite ?HH; cbn [bind]; auto.
  - assert (A : answer t (QScalar i k) = Ok (ANum 0)) by (eapply answer_expects; [exact HS|]; cbn; rewrite HN; auto).
    cbn [answer] in A. change (get_num t i k) with (get_scalar t i k).
    destruct (get_scalar t i k); cbn [bind] in *; congruence.
  - assert (A : answer t (QBytes i) = Ok (ABytes [])) by (eapply answer_expects; [exact HS|]; cbn; rewrite HN; auto).
    cbn [answer] in A. destruct (GetBytes t i); cbn [bind] in *; congruence.
  - pose proof (Sim_seen _ _ _ _ _ i HS Hi) as L. rewrite HN in L. unfold GetMap. rewrite L. reflexivity.
Qed.
Definition good_put (n : nat) (s : strct) (m : msg) (i : Z) (ty : rty) (v : rawval) : Prop :=
  exists s' m' v', put_raw E s i ty v = Ok s' /\ reached n s' m' /\ (forall g, g <> i -> flook g m' = flook g m) /\
    len (wire_msg m') <= len (wire_msg m) + raw_size v /\ back E ty v v' /\ (zero_raw v' <-> flook i m' = None) /\
    reads_as i ty (flook i m') v'.
Lemma absent_reads i ty : 0 <= i -> reads_as i ty None (absent ty).
Proof.
  intros Hi. exists O. intros N' _ t nt h3 mt tail HS Hi' HF. eapply get_absent; eauto. rewrite seen_flook by lia. auto.
Qed.
Lemma put_nothing n s m i ty v : reached n s m -> 0 <= i -> flook i m = None -> put_raw E s i ty v = Ok s -> back E ty v (absent ty) ->
  good_put n s m i ty v.
Proof.
  intros HR Hi HN HP HB. exists s, m, (absent ty). split; auto. split; auto. split; auto.
  split; [pose proof (raw_size_nonneg v); lia|]. split; auto. split; [split; intros; auto using zero_absent|].
  rewrite HN. now apply absent_reads.
Qed.
Definition reads_value (i : Z) (ty : rty) (w : value) (v' : rawval) : Prop :=
  exists N, forall N', (N <= N')%nat -> forall t nt h3 mt tail, Sim t nt h3 mt tail -> seen nt mt i = Some w ->
    get_raw E (ToRaw E N') t i ty = Ok v'.
Lemma put_done n s m i ty v s' b w v' : reached n s m -> 0 <= i ->
  put_raw E s i ty v = Ok s' -> reached n s' (mset b i w m) -> len (wire_value i w) <= raw_size v ->
  (if b then v' = absent ty else ~ zero_raw v' /\ reads_value i ty w v') -> back E ty v v' ->
  good_put n s m i ty v.
Proof.
  intros HR Hi HP HR' HW HV HB. destruct (reached_sorted _ _ _ HR) as (S & _ & _ & L).
  exists s', (mset b i w m), v'. split; auto. split; auto. split; [intros; apply flook_mset_ne; auto|]. split.
  { unfold mset. pose proof (len_wire_put i w m S). pose proof (len_wire_del i m S). pose proof (len_nonneg (wire_value i w)).
    pose proof (raw_size_nonneg v). destruct b; lia. }
  split; auto.
  assert (FL : flook i (mset b i w m) = if b then None else Some w).
  { unfold mset. destruct b; [rewrite flook_fdel by auto|rewrite flook_fput by auto]; now rewrite Z.eqb_refl. }
  rewrite FL. destruct b.
  - subst v'. split; [split; intros; auto using zero_absent|]. now apply absent_reads.
  - destruct HV as [NZ (N & RD)]. split; [split; [tauto|discriminate]|].
    exists N. intros N' HN' t nt h3 mt tail HS Hi' HF. eapply RD; eauto. rewrite seen_flook by lia. auto.
Qed.
(** A field written by one call. *)
Lemma put_op n s m i ty v o b w v' : reached n s m -> 0 <= i < Z.of_nat n -> i < 2 ^ 16 ->
  8 + len (wire_msg m) + raw_size v < 2 ^ 32 -> len (wire_value i w) <= raw_size v ->
  put_raw E s i ty v = do_op s o ->
  apply_op m o = mset b i w m -> (fits 0 (mset b i w m) -> ok_op n 0 m o) ->
  (if b then v' = absent ty else ~ zero_raw v' /\ reads_value i ty w v') -> back E ty v v' ->
  good_put n s m i ty v.
Proof.
  intros HR Hi Hi' HZ HW HP HA HO HV HB. destruct (reached_sorted _ _ _ HR) as (S & _ & _ & L).
  assert (F : fits 0 (mset b i w m)) by (eapply fits_mset; eauto; lia).
  destruct (reached_op _ _ _ _ HR (HO F)) as (s' & E1 & R1). rewrite HA in R1.
  eapply put_done; eauto; [lia|congruence].
Qed.
Lemma has_field t nt h3 mt tail i w : Sim t nt h3 mt tail -> 0 <= i -> seen nt mt i = Some w -> HasField t i = Ok true.
Proof.
  intros HS Hi HN.
  assert (A : answer t (QHas i) = Ok (ABool true)) by (eapply answer_expects; [exact HS|]; cbn; rewrite HN; auto).
  cbn [answer] in A. destruct (HasField t i); cbn [bind] in *; congruence.
Qed.
Ltac nz := unfold zero_raw; intros [?|[?|[?|[?|[?|[?|[?|[?|[?|?]]]]]]]]]; congruence.
Ltac by_query q r HS HN :=
  match goal with |- context [get_raw _ _ ?t ?i _] =>
    let A := fresh "A" in let P := fresh "P" in let H := fresh "H" in
    assert (P : 0 <= i) by lia;
    assert (A : answer t q = r) by (eapply answer_expects; [exact HS|]; cbn; rewrite HN; auto);
    pose proof (has_field _ _ _ _ _ _ _ HS P HN) as H;
    cbn [answer] in A; cbn [get_raw]; rewrite ?H; cbn [bind]
  end.

Lemma is_zero_non k z : is_zero k z = negb (non_zero k z).
Proof. destruct k; cbn; rewrite ?negb_involutive; reflexivity. Qed.
Lemma len_padded_le b : len (padded b) <= len b + 7.
Proof. rewrite len_padded. pose proof (pad_len_range (len b)). lia. Qed.
Lemma total_blobs l : len (concat (map blob l)) = total (fun b => 4 + len b) l.
Proof.
  induction l as [|b l IH]; [reflexivity|]. cbn [map concat total]. rewrite len_app, IH. unfold blob. rewrite len_app, len_le_enc. lia.
Qed.
Lemma total_nums k l : len (concat (map (le_enc (kind_size k)) l)) <= 8 * len l.
Proof.
  induction l as [|b l IH]; [cbn; lia|]. cbn [map concat]. rewrite len_app, len_cons, len_le_enc. pose proof (kind_size_pos k).
  assert (Z.of_nat (kind_size k) <= 8) by (destruct k; cbn; lia). lia.
Qed.

Lemma put_leaf v : match v with RawMsg (Some _) | RawMsgs (Some _) | RawMap (Some _) => False | _ => True end ->
  forall ty n s m i, typed E ty v -> reached n s m -> 0 <= i < Z.of_nat n -> i < 2 ^ 16 -> flook i m = None ->
  8 + len (wire_msg m) + raw_size v < 2 ^ 32 -> good_put n s m i ty v.
Proof.
  intros HL ty n s m i HT HR Hi Hi' HN HZ.
  inversion HT; subst; cbn in HL; try tauto;
    try (apply put_nothing; auto; [lia|constructor]).
  - (* a number *) destruct (non_zero k z) eqn:NZ.
    + assert (IZ : is_zero k z = false) by (rewrite is_zero_non, NZ; auto).
      eapply put_op with (o := OScalar i k z) (b := is_zero k z) (w := VScalar k z) (v' := RawNum z); [exact HR|exact Hi|exact Hi'|exact HZ| | |reflexivity| | |].
      * rewrite len_wire_value. cbn [v_rest raw_size]. destruct (is_wide k); [rewrite len_le_enc|cbn]; lia.
      * cbn [put_raw do_op]. rewrite NZ. reflexivity.
      * cbn. auto.
      * rewrite IZ. split; [intros Q; assert (z = 0) by (unfold zero_raw in Q; intuition congruence); subst; destruct k; discriminate|].
        exists O. intros N' _ t nt h3 mt tail HS HS'. by_query (QScalar i k) (Ok (ANum z)) HS HS'.
        change (get_num t i k) with (get_scalar t i k). destruct (get_scalar t i k); cbn [bind] in *; congruence.
      * replace z with (keep_num k z) at 2 by (unfold keep_num; rewrite IZ; auto). constructor.
    + apply put_nothing; auto; [lia|cbn [put_raw]; rewrite NZ; auto|].
      cbn [absent]. replace 0 with (keep_num k z) by (unfold keep_num; rewrite is_zero_non, NZ; auto). constructor.
  - (* a string *) destruct b as [|c b]; [apply put_nothing; auto; [lia|constructor]|].
    eapply put_op with (o := OBytes i false (c :: b)) (b := false) (w := VBytes false (c :: b)) (v' := RawStr (c :: b)); [exact HR|exact Hi|exact Hi'|exact HZ| | |reflexivity| | |].
    + rewrite len_wire_value. cbn [v_rest raw_size]. pose proof (len_padded_le (c :: b)). lia.
    + cbn [put_raw do_op]. rewrite len_cons. pose proof (len_nonneg b). destruct (Z.eqb_spec (1 + len b) 0); [lia|]. reflexivity.
    + cbn. auto.
    + split; [nz|].
      exists O. intros N' _ t nt h3 mt tail HS HS'. by_query (QBytes i) (Ok (ABytes (c :: b))) HS HS'.
      destruct (GetBytes t i); cbn [bind] in *; congruence.
    + constructor.
  - (* bytes *)
    eapply put_op with (o := OBytes i false b) (b := nil_b b) (w := VBytes false b) (v' := RawBytes (not_empty b)); [exact HR|exact Hi|exact Hi'|exact HZ| | |reflexivity| | |].
    + rewrite len_wire_value. cbn [v_rest raw_size]. pose proof (len_padded_le b). lia.
    + reflexivity.
    + cbn. auto.
    + destruct b as [|c b]; [reflexivity|]. cbn [nil_b not_empty]. split; [nz|].
      exists O. intros N' _ t nt h3 mt tail HS HS'. by_query (QBytes i) (Ok (ABytes (c :: b))) HS HS'.
      destruct (GetBytes t i); cbn [bind] in *; congruence.
    + constructor.
  - (* bools *) destruct o as [l|]; [|apply put_nothing; auto; [lia|constructor]].
    eapply put_op with (o := OBools i l) (b := nil_b l) (w := VBools l) (v' := RawBools (not_empty l)); [exact HR|exact Hi|exact Hi'|exact HZ| | |reflexivity| | |].
    + rewrite len_wire_value. cbn [v_rest raw_size]. pose proof (len_padded_le (bit_bytes l)). rewrite len_bit_bytes in *.
      pose proof (len_nonneg l). assert ((len l + 7) / 8 <= len l + 1) by (apply Z.div_le_upper_bound; lia). lia.
    + reflexivity.
    + cbn. auto.
    + destruct l as [|c b]; [reflexivity|]. cbn [nil_b not_empty]. split; [nz|].
      exists O. intros N' _ t nt h3 mt tail HS HS'. by_query (QBools i) (Ok (ABools (Some (c :: b)))) HS HS'.
      destruct (get_bools t i); cbn [bind] in *; try congruence. injection A as ->. reflexivity.
    + constructor.
  - (* numbers *)
    eapply put_op with (o := ONums i k l) (b := nil_b l) (w := VNums k l) (v' := RawNums (not_empty l)); [exact HR|exact Hi|exact Hi'|exact HZ| | |reflexivity| | |].
    + rewrite len_wire_value. cbn [v_rest raw_size]. unfold nums_data. pose proof (total_nums k l). lia.
    + reflexivity.
    + cbn. auto.
    + destruct l as [|c b]; [reflexivity|]. cbn [nil_b not_empty]. split; [nz|].
      exists O. intros N' _ t nt h3 mt tail HS HS'. by_query (QNums i k) (Ok (ANums (Some (c :: b)))) HS HS'.
      destruct (get_numbers t i k) as [[nu|]| | |]; cbn [bind] in *; try congruence.
      destruct (nu_slice k nu); cbn [bind] in *; congruence.
    + constructor.
  - (* strings *)
    eapply put_op with (o := OBlobs i st l) (b := nil_b l) (w := VBlobs st l) (v' := RawStrs (not_empty l)); [exact HR|exact Hi|exact Hi'|exact HZ| | |reflexivity| | |].
    + rewrite len_wire_value. cbn [v_rest raw_size]. rewrite <- total_blobs.
      match goal with |- context [padded ?x] => pose proof (len_padded_le x) end. lia.
    + reflexivity.
    + cbn. auto.
    + destruct l as [|c b]; [reflexivity|]. cbn [nil_b not_empty]. split; [nz|].
      exists O. intros N' _ t nt h3 mt tail HS HS'. by_query (QBlobs i) (Ok (ABlobs (Some (c :: b)))) HS HS'.
      destruct (get_blobs t i); cbn [bind] in *; try congruence. injection A as ->. reflexivity.
    + constructor.
Qed.

(** ** Structs *)
Definition put_ok (v : rawval) : Prop := forall ty n s m i,
  typed E ty v -> reached n s m -> 0 <= i < Z.of_nat n -> i < 2 ^ 16 -> flook i m = None ->
  8 + len (wire_msg m) + raw_size v < 2 ^ 32 -> good_put n s m i ty v.

Definition reads_struct (tys : list rty) (i : Z) (m : msg) (fs' : list rawval) : Prop :=
  exists N, forall N', (N <= N')%nat -> forall t nt h3 tail, Sim t nt h3 m tail -> i + len tys <= Z.of_nat nt ->
    get_all E (ToRaw E N') t i tys = Ok fs'.
Lemma put_all_ok fs : Forall put_ok fs -> forall tys n s m i,
  Forall2 (typed E) tys fs -> reached n s m -> 0 <= i -> i + len tys <= Z.of_nat n -> i + len tys <= 2 ^ 16 ->
  (forall g, i <= g -> flook g m = None) -> 8 + len (wire_msg m) + total raw_size fs < 2 ^ 32 ->
  exists s' m' fs', put_all E s i tys fs = Ok s' /\ reached n s' m' /\ (forall g, g < i \/ i + len tys <= g -> flook g m' = flook g m) /\
    len (wire_msg m') <= len (wire_msg m) + total raw_size fs /\ backs E tys fs fs' /\
    (Forall zero_raw fs' <-> forall g, i <= g -> flook g m' = None) /\ reads_struct tys i m' fs'.
Proof.
  induction 1 as [|v fs PV PF IH]; intros tys n s m i HT HR Hi HLen H16 HN HZ; inversion HT as [|ty ? tys' ? T1 T2]; subst.
  - exists s, m, []. cbn [put_all total]. split; auto. split; auto. split; auto. split; [lia|]. split; [constructor|].
    split; [split; auto|]. exists O. intros. reflexivity.
  - rewrite len_cons in *. pose proof (len_nonneg tys'). cbn [total] in *. pose proof (total_size_nonneg fs).
    destruct (PV ty n s m i T1 HR ltac:(lia) ltac:(lia) (HN i ltac:(lia)) ltac:(lia)) as (s1 & m1 & v' & E1 & R1 & G1 & L1 & B1 & Z1 & N1 & RD1).
    destruct (IH tys' n s1 m1 (i + 1)) as (s2 & m2 & fs' & E2 & R2 & G2 & L2 & B2 & Z2 & N2 & RD2); auto; try lia.
    { intros g Hg. rewrite G1 by lia. apply HN. lia. }
    exists s2, m2, (v' :: fs'). cbn [put_all]. rewrite E1. cbn [bind]. split; auto. split; auto.
    split; [intros g Hg; rewrite G2 by lia; apply G1; lia|]. split; [lia|]. split; [constructor; auto|]. split.
    + split.
      * intros HF. apply Forall_cons_iff in HF. destruct HF as [F1 F2]. intros g Hg.
        destruct (Z.eq_dec g i) as [->|NE]; [rewrite G2 by lia; now apply Z1|]. apply Z2; auto. lia.
      * intros HG. constructor; [apply Z1; rewrite <- G2 by lia; apply HG; lia|]. apply Z2. intros. apply HG. lia.
    + exists (Nat.max N1 N2). intros N' HN' t nt h3 tail HS Hnt. rewrite len_cons in Hnt. cbn [get_all].
      rewrite (RD1 N' ltac:(lia) t nt h3 m2 tail HS ltac:(lia)) by (apply G2; lia). cbn [bind].
      rewrite (RD2 N' ltac:(lia) t nt h3 tail HS ltac:(lia)). reflexivity.
Qed.

Lemma fsorted_nil (m : msg) : valid_msg m -> (forall g, 0 <= g -> flook g m = None) -> m = [].
Proof.
  intros (_ & HV) HG. destruct m as [|[g w] m]; auto. exfalso. apply Forall_inv in HV. cbn in HV.
  specialize (HG g ltac:(lia)). cbn in HG. rewrite Z.eqb_refl in HG. discriminate.
Qed.
Definition reads_msg (id : nat) (c : msg) (fs' : list rawval) : Prop :=
  exists N, forall N', (N <= N')%nat -> forall t h3 tail, Sim t (length (E id)) h3 c tail -> ToRaw E N' id t = Ok fs'.
Lemma from_ok id fs : Forall put_ok fs -> Forall2 (typed E) (E id) fs -> 8 + total raw_size fs < 2 ^ 32 ->
  exists s c fs', FromRaw E id fs = Ok s /\ reached (length (E id)) s c /\ len (wire_msg c) <= total raw_size fs /\
    backs E (E id) fs fs' /\ (Forall zero_raw fs' <-> c = []) /\ reads_msg id c fs'.
Proof.
  intros PF HT HZ. unfold FromRaw. rewrite New_spec. cbn [bind].
  destruct (put_all_ok fs PF (E id) (length (E id)) _ [] 0 HT (R_new _ _ (New_spec _))) as (s & c & fs' & E1 & R1 & G1 & L1 & B1 & Z1 & N1 & RD1);
    auto; [lia|unfold len; lia|apply HE|].
  exists s, c, fs'. split; auto. split; auto. split; [cbn in L1; lia|]. split; auto. split.
  - rewrite Z1. destruct (reached_sorted _ _ _ R1) as (_ & V & _). split; [intros; now apply fsorted_nil|]. intros ->. reflexivity.
  - exists (S N1). intros [|N'] HN' t h3 tail HS; [lia|]. cbn [ToRaw]. eapply RD1; [lia|exact HS|unfold len; lia].
Qed.

Lemma put_struct fs : Forall put_ok fs -> put_ok (RawMsg (Some fs)).
Proof.
  intros PF ty n s m i HT HR Hi Hi' HN HZ. inversion HT as [| | | | |id ? HF| | | | | | | | | | |]; subst. cbn [raw_size] in HZ.
  pose proof (len_nonneg (wire_msg m)).
  destruct (from_ok id fs PF HF ltac:(lia)) as (c & mc & fs' & E1 & R1 & L1 & B1 & Z1 & N1 & RD1).
  destruct (reached_sorted _ _ _ HR) as (_ & _ & _ & LD).
  assert (LW : len (wire_value i (VStruct mc)) = 8 + len (wire_msg mc)) by (rewrite len_wire_value; reflexivity).
  assert (F : fits 0 (mset (nil_b mc) i (VStruct mc) m)) by (eapply fits_mset; eauto; lia).
  destruct (reached_good _ _ _ HR) as (g & _ & SIM & _). destruct (reached_good _ _ _ R1) as (g' & _ & SIM' & _).
  destruct (Sim_SetNested _ _ _ _ _ i _ _ _ _ SIM SIM' Hi Hi' F) as (s' & E2 & _).
  eapply put_done with (s' := s') (b := nil_b mc) (w := VStruct mc) (v' := RawMsg (if nil_b mc then None else Some fs')).
  - exact HR.
  - lia.
  - rewrite put_msg, E1. cbn [bind]. auto.
  - eapply R_set_nested; eauto. split; auto.
  - cbn [raw_size]. lia.
  - destruct mc as [|p mc]; [reflexivity|]. cbn [nil_b]. split; [nz|].
    exists N1. intros N' HN' t nt h3 mt tail HS HS'. cbn [get_raw]. rewrite (has_field _ _ _ _ _ _ _ HS (proj1 Hi) HS'). cbn [bind].
    pose proof (GetNestedStruct_spec _ _ _ _ _ i (length (E id)) HS (proj1 Hi)) as G. rewrite HS' in G.
    destruct G as (c' & -> & SC & _). cbn [bind]. rewrite (RD1 _ HN' _ _ _ SC). reflexivity.
  - destruct mc as [|p mc]; cbn [nil_b].
    + eapply bk_msg_zero; [exact B1|]. apply Z1. reflexivity.
    + apply bk_msg; auto. rewrite Z1. discriminate.
Qed.

(** ** Lists of structs *)
Definition items_size (l : list (option (list rawval))) : Z := total (fun o => match o with Some fs => 8 + total raw_size fs | None => 0 end) l.
Lemma items_ok id l : Forall (inside put_ok) l -> Forall (fun o => typed E (RTMsg id) (RawMsg o)) l -> 8 + items_size l < 2 ^ 32 ->
  exists items cs l', raw_items id l = Ok items /\ reached_all (length (E id)) items cs /\ back_items E id l l' /\
    (forall i, len (wire_items i cs) <= items_size l) /\ (cs = [] <-> l' = []) /\
    exists N, forall N', (N <= N')%nat -> forall i, Forall (fun c => valid_msg c /\ fits 0 c) cs ->
      all_raw (ToRaw E N') id (map (item_struct (length (E id))) (numbered i cs)) = Ok l'.
Proof.
  intros PF. induction PF as [|[fs|] l P1 PF IH]; intros HT HZ; cbn [raw_items items_size total] in *.
  - exists [], [], []. split; auto. split; [constructor|]. split; [constructor|]. split; [cbn; lia|]. split; [tauto|].
    exists O. intros. reflexivity.
  - apply Forall_cons_iff in HT. destruct HT as [T1 T2]. cbn [inside] in P1.
    inversion T1 as [| | | | |id' ? HF| | | | | | | | | | |]; subst.
    fold (items_size l) in HZ. pose proof (total_size_nonneg fs).
    assert (0 <= items_size l) by (apply total_nonneg; intros [x|]; [pose proof (total_size_nonneg x)|]; lia).
    destruct (IH T2) as (items & cs & l' & E2 & R2 & B2 & L2 & Z2 & N2 & RD2); [unfold items_size in *; lia|].
    destruct (from_ok id fs P1 HF ltac:(lia)) as (c & mc & fs' & E1 & R1 & L1 & B1 & Z1 & N1 & RD1).
    exists (c :: items), (mc :: cs), (Some fs' :: l'). rewrite E1, E2. split; auto. split; [constructor; auto|]. split; [constructor; auto|].
    split; [|split; [split; discriminate|]].
    + intros i. cbn [wire_items]. rewrite len_app. specialize (L2 (i + 1)). fold (items_size l).
      assert (len (wire_struct i mc) = 8 + len (wire_msg mc)) by (unfold wire_struct; rewrite len_app; reflexivity). lia.
    + exists (Nat.max N1 N2). intros N' HN' i HV. apply Forall_cons_iff in HV. destruct HV as [[V1 F1] V2]. cbn [numbered map all_raw].
      erewrite RD1; [|lia|apply Sim_child; auto]. cbn [bind]. rewrite RD2 by (auto; lia). reflexivity.
  - apply Forall_cons_iff in HT. destruct HT as [T1 T2].
    destruct (IH T2) as (items & cs & l' & E2 & R2 & B2 & L2 & Z2 & RD2); [unfold items_size in *; lia|].
    exists items, cs, l'. split; auto. split; auto. split; [constructor; auto|]. split; auto.
Qed.
Lemma reached_all_Sim n items cs : reached_all n items cs -> Forall2 (fun c mc => exists g, Sim c n (hdr3 g) mc []) items cs.
Proof.
  induction 1 as [|? ? ? ? ? HR]; constructor; auto. destruct (reached_good _ _ _ HR) as (g & _ & SIM & _). eauto.
Qed.
Lemma put_structs l : Forall (inside put_ok) l -> put_ok (RawMsgs (Some l)).
Proof.
  intros PF ty n s m i HT HR Hi Hi' HN HZ. inversion HT as [| | | | | | | | | | | |id ? HF| | | |]; subst.
  cbn [raw_size] in HZ. fold (items_size l) in HZ. pose proof (len_nonneg (wire_msg m)).
  destruct (items_ok id l PF HF ltac:(lia)) as (items & cs & l' & E1 & R1 & B1 & L1 & Z1 & N1 & RD1).
  destruct (reached_sorted _ _ _ HR) as (_ & _ & _ & LD).
  assert (LW : len (wire_value i (VStructs cs)) = 8 + len (wire_items 0 cs)) by (rewrite len_wire_value; reflexivity). specialize (L1 0).
  assert (F : fits 0 (mset (nil_b cs) i (VStructs cs) m)) by (eapply fits_mset; eauto; lia).
  destruct (reached_good _ _ _ HR) as (g & _ & SIM & _).
  destruct (Sim_sync_structs _ _ _ _ _ i _ _ _ SIM (reached_all_Sim _ _ _ R1) Hi Hi' F) as (s' & items' & E2 & _).
  eapply put_done with (s' := s') (b := nil_b cs) (w := VStructs cs) (v' := RawMsgs (not_empty l')).
  - exact HR.
  - lia.
  - rewrite put_msgs, E1. cbn [bind]. rewrite E2. reflexivity.
  - eapply R_set_structs; eauto. split; auto.
  - cbn [raw_size]. fold (items_size l). lia.
  - destruct cs as [|p cs]; [rewrite (proj1 Z1 eq_refl); reflexivity|]. cbn [nil_b].
    assert (NE : not_empty l' = Some l') by (destruct l'; auto; discriminate (proj2 Z1 eq_refl)).
    rewrite NE. split; [nz|].
    exists N1. intros N' HN' t nt h3 mt tail HS HS'. cbn [get_raw]. rewrite (has_field _ _ _ _ _ _ _ HS (proj1 Hi) HS'). cbn [bind].
    pose proof (get_structs_spec _ _ _ _ _ i (length (E id)) HS (proj1 Hi)) as G. rewrite HS' in G.
    destruct G as (-> & FV). cbn [bind]. rewrite RD1 by auto. reflexivity.
  - constructor; auto.
Qed.

(** ** Maps *)
Lemma Sim_GetMap n s m tail h3 f kt vt ks vs : Sim s n h3 m tail -> 0 <= f ->
  seen n m f = Some (VMap (key_ft kt) (val_ft vt) (encEntries kt vt ks vs)) ->
  Forall (key_ok kt) ks -> Forall (val_ok vt) vs -> length ks = length vs ->
  let g := ghosts kt vt (pad_len (len (encEntries kt vt ks vs))) in
  GetMap kt vt s f = Ok (Some (mkMap (ks ++ repeat (zero_key kt) g) (vs ++ repeat (zero_val vt) g) false)).
Proof.
  intros SIM Hf HS HK HV HL g.
  pose proof (Sim_seen _ _ _ _ _ f SIM Hf) as L. rewrite HS in L.
  destruct L as (p & q & EO & ED & Hp & HVV & Hf16 & HT).
  unfold GetMap. rewrite EO. cbn [bind].
  assert (LW : len (wire_value f (VMap (key_ft kt) (val_ft vt) (encEntries kt vt ks vs))) = 8 + len (padded (encEntries kt vt ks vs))).
  { rewrite wire_form, len_app. cbn [v_rest]. rewrite HeaderLemmas.len_hdr. reflexivity. }
  pose proof (len_nonneg (padded (encEntries kt vt ks vs))).
  destruct (Z.eqb_spec (len (wire_value f (VMap (key_ft kt) (val_ft vt) (encEntries kt vt ks vs)))) 0); [lia|].
  rewrite ED, slice_field. cbn [bind]. unfold ParseMapFromSegment. change HeaderSize with 8.
  destruct (Z.ltb_spec (len (wire_value f (VMap (key_ft kt) (val_ft vt) (encEntries kt vt ks vs)))) 8); [lia|].
  pose proof (pad_len_range (len (encEntries kt vt ks vs))) as PR.
  assert (LP : len (padded (encEntries kt vt ks vs)) = len (encEntries kt vt ks vs) + pad_len (len (encEntries kt vt ks vs))) by apply len_padded.
  destruct HVV as (_ & _ & _ & HSZ). pose proof (len_nonneg (encEntries kt vt ks vs)).
  rewrite wire_form in *. cbn [v_rest v_type v_f40] in *. unfold padded in *.
  set (hd := HeaderLemmas.hdr _ _ _) in *.
  assert (LH : len hd = 8) by apply HeaderLemmas.len_hdr. rewrite <- LH at 1.
  rewrite parse_enc; auto; try lia.
  clear -LH LP LW PR H1. apply Nat2Z.inj_lt. rewrite Z2Nat.id by lia.
  match goal with |- _ < Z.of_nat (length ?l) => change (Z.of_nat (length l)) with (len l) end. rewrite LW, LP. lia.
Qed.

Definition sound_map (kt : keyty) (vt : valty) (mp : mapobj) : Prop :=
  keys_ok kt (mp_keys mp) /\ Forall (val_ok vt) (mp_vals mp) /\ length (mp_keys mp) = length (mp_vals mp).
Definition ents (mp : mapobj) : list (mkey * mval) := combine (mp_keys mp) (mp_vals mp).
Lemma combine_app {A B} (a a' : list A) (b b' : list B) : length a = length b -> combine (a ++ a') (b ++ b') = combine a b ++ combine a' b'.
Proof. revert b. induction a as [|x a IH]; intros [|y b] H; try discriminate; auto. cbn. f_equal. apply IH. now injection H. Qed.
Lemma set_new kt vt mp k v : sound_map kt vt mp -> key_ok kt k -> val_ok vt v -> Forall (fun x => ~ same_key kt x k) (mp_keys mp) ->
  exists mp', mp_Set kt mp k v = Ok mp' /\ sound_map kt vt mp' /\ mp_dirty mp' = true /\ Permutation (ents mp') ((k, v) :: ents mp) /\
    (forall x, In x (mp_keys mp') -> x = k \/ In x (mp_keys mp)).
Proof.
  intros (HK & HV & HL) Hk Hv HD. destruct (place_ex kt _ k HK Hk) as (a & mid & b & P).
  destruct (find_spec kt mp k a mid b HK Hk P) as [F1 F2]. unfold mp_Set. rewrite F1, F2. cbn [bind].
  destruct mp as [ks vs d]. unfold sound_map, ents in *. cbn [mp_keys mp_vals] in *. destruct P as (EQ & Ha & Hb & Hm). subst ks.
  destruct Hm as [->|(x & -> & SK)].
  2:{ exfalso. rewrite Forall_forall in HD. apply (HD x); auto. apply in_or_app. right. left. auto. }
  cbn [app] in *. change (-1 >=? 0) with false. cbn iota.
  rewrite slices_insert_app. cbn [bind].
  assert (exists va vb, vs = va ++ vb /\ length va = length a) as (va & vb & -> & LA).
  { exists (firstn (length a) vs), (skipn (length a) vs). rewrite firstn_skipn. split; auto. apply firstn_length_le.
    rewrite <- HL, app_length. lia. }
  replace (len a) with (len va) by (unfold len; lia). rewrite slices_insert_app. cbn [bind].
  eexists. split; [reflexivity|]. cbn [mp_keys mp_vals mp_dirty].
  apply Forall_app in HV. destruct HV as [HV1 HV2]. split; [split; [|split]|].
  - apply keys_ok_app in HK. destruct HK as ((Sa & Oa) & (Sb & Ob) & Sab). split.
    + apply sorted_app. split; auto. split; [constructor; auto|].
      apply Forall_forall. intros x Hx. rewrite Forall_forall in Ha, Sab. constructor; auto.
    + apply Forall_app. split; auto.
  - apply Forall_app. auto.
  - rewrite !app_length in *. cbn. lia.
  - split; auto. split.
    + rewrite !combine_app by auto. cbn [combine]. symmetry. apply Permutation_middle.
    + intros x Hx. apply in_app_or in Hx. destruct Hx as [Hx|[Hx|Hx]]; auto using in_or_app.
Qed.

(** The entry stored for a key, and the value read of it. *)
Definition reads_entry (id : nat) (N : nat) (e : mkey * mval) (r : mkey * rawval) : Prop :=
  fst e = fst r /\
  match snd e, snd r with
  | MNum z, RawNum z' => z = z'
  | MStr b, RawStr b' => b = b'
  | MStruct d, RawMsg (Some fs') => exists f c, d = wire_struct f c /\ valid_msg c /\ fits 0 c /\
      forall N', (N <= N')%nat -> forall t h3 tail, Sim t (length (E id)) h3 c tail -> ToRaw E N' id t = Ok fs'
  | _, _ => False
  end.
Lemma reads_entry_mono id N N1 e r : (N <= N1)%nat -> reads_entry id N e r -> reads_entry id N1 e r.
Proof.
  intros HN [H1 H2]. split; auto. destruct (snd e), (snd r) as [| | |[]| | | | | |]; auto.
  destruct H2 as (f & c & -> & V & F & RD). exists f, c. repeat (split; auto). intros N' HN'. apply RD. lia.
Qed.
Definition entry_cost (ke : mkey * rawval) : Z := match ke with (k, v) => 8 + (match k with KStr b => len b | _ => 0 end) + raw_size v end.
Definition ent_len (kt : keyty) (vt : valty) (e : mkey * mval) : Z := keySize kt (fst e) + valueSize vt (snd e).
Definition simple (vt : valty) : Prop := vt <> VTStruct.
Lemma total_perm {A} (f : A -> Z) l l' : Permutation l l' -> total f l = total f l'.
Proof. induction 1; cbn [total]; lia. Qed.
Lemma dataSize_total kt vt ks : forall vs, calculateDataSize kt vt ks vs = total (ent_len kt vt) (combine ks vs).
Proof. induction ks as [|k ks IH]; intros [|v vs]; auto. cbn [calculateDataSize combine total]. unfold ent_len at 1. cbn [fst snd]. rewrite IH. lia. Qed.

Lemma entry_one kt vt id ty k v : entry_ty vt id = Some ty -> key_ok kt k -> typed E ty v -> put_ok v -> inner put_ok v -> raw_size v < 2 ^ 31 ->
  (v = RawMsg None) \/
  exists w v', val_ok vt w /\ ent_len kt vt (k, w) <= entry_cost (k, v) /\ (exists N, reads_entry id N (k, w) (k, v')) /\
    (forall es es', back_entries E id es es' -> back_entries E id ((k, v) :: es) ((k, v') :: es')) /\
    (vt <> VTStruct -> ent_len kt vt (k, w) = entry_size kt vt (k, v)) /\
    forall mp es, raw_entries kt id mp ((k, v) :: es) = (mp <- mp_Set kt mp k w ;; raw_entries kt id mp es).
Proof.
  intros ET KO HT HP HI HZ.
  assert (KS : keySize kt k <= 8 + match k with KStr b => len b | _ => 0 end /\ keySize kt k = key_size kt k).
  { destruct kt as [kk|], k as [z|b]; cbn [key_ok keySize key_size] in KO |- *; try tauto; rewrite ?item_size_eq; split; auto; [|lia]. destruct kk; cbn; lia. }
  destruct vt as [kk| | | | | |]; cbn in ET; inversion ET; subst; inversion HT; subst; auto; right.
  - exists (MNum z), (RawNum z). unfold ent_len, entry_cost. cbn [val_ok valueSize raw_size fst snd]. split; auto.
    assert (Z.of_nat (item_size kk) <= 8) by (destruct kk; cbn; lia). split; [lia|].
    split; [exists O; split; reflexivity|]. split; [intros; constructor; auto|]. split; [|reflexivity].
    intros _. unfold entry_size. cbn [fst snd]. rewrite item_size_eq. lia.
  - exists (MStr b), (RawStr b). unfold ent_len, entry_cost. cbn [val_ok valueSize raw_size fst snd]. split; auto. split; [lia|].
    split; [exists O; split; reflexivity|]. split; [intros; constructor; auto|]. split; [|reflexivity].
    intros _. unfold entry_size. cbn [fst snd]. lia.
  - cbn [inner inside] in HI. cbn [raw_size] in HZ. assert (2 ^ 31 < 2 ^ 32) by reflexivity.
    destruct (from_ok id fs HI) as (c & mc & fs' & E1 & R1 & L1 & B1 & Z1 & N1 & RD1); auto; [lia|].
    destruct (reached_good _ _ _ R1) as (g & Hg & SIM & _). pose proof (Sim_data_f _ _ _ _ SIM) as DD.
    destruct (reached_sorted _ _ _ R1) as (_ & V1 & F1 & LD).
    exists (MStruct (st_data c)), (RawMsg (Some fs')). unfold ent_len, entry_cost. cbn [val_ok valueSize raw_size fst snd].
    split; [split|]; [| |split; [lia|]].
    + rewrite DD. eapply wire_struct_bytes; eauto.
    + rewrite DD. unfold wire_struct, sized. exists g, FTStruct, (wire_msg mc). rewrite len_app. reflexivity.
    + split; [|split; [intros; constructor; auto|split; [congruence|]]].
      * exists N1. split; auto. cbn [snd]. exists g, mc. split; auto.
      * intros. cbn [raw_entries]. rewrite E1. reflexivity.
Qed.
Lemma entries_ok kt vt id ty es : entry_ty vt id = Some ty -> Forall (inside_entry put_ok) es ->
  Forall (fun ke => key_ok kt (fst ke) /\ typed E ty (snd ke)) es -> keys_differ kt es -> total entry_cost es < 2 ^ 31 ->
  forall mp, sound_map kt vt mp -> Forall (fun x => Forall (fun ke => ~ same_key kt x (fst ke)) es) (mp_keys mp) ->
  exists mp' added es', raw_entries kt id mp es = Ok mp' /\ sound_map kt vt mp' /\ Permutation (ents mp') (added ++ ents mp) /\
    back_entries E id es es' /\ (exists N, Forall2 (reads_entry id N) added es') /\
    total (ent_len kt vt) added <= total entry_cost es /\ (vt <> VTStruct -> total (ent_len kt vt) added = total (entry_size kt vt) es) /\
    (mp_dirty mp' = true \/ mp' = mp /\ added = []).
Proof.
  intros ET HI. induction HI as [|[k v] es [P1 I1] HI IH]; intros HT HD HZ mp SM HK; cbn [total] in *.
  - exists mp, [], []. cbn [raw_entries app total]. split; auto. split; auto. split; auto. split; [constructor|]. split; [exists O; constructor|].
    split; [lia|]. split; auto.
  - apply Forall_cons_iff in HT. destruct HT as [[K1 T1] T2]. cbn [fst snd] in *.
    unfold keys_differ in HD. cbn [map fst] in HD. inversion HD as [|? ? D1 D2]; subst.
    assert (C0 : forall x : mkey * rawval, 0 <= entry_cost x).
    { intros [[z|b] v0]; cbn [entry_cost]; pose proof (raw_size_nonneg v0); [lia|pose proof (len_nonneg b); lia]. }
    pose proof (total_nonneg entry_cost es C0). pose proof (C0 (k, v)) as C1.
    assert (raw_size v <= entry_cost (k, v)) by (cbn [entry_cost]; destruct k; [lia|pose proof (len_nonneg b); lia]).
    destruct (entry_one kt vt id ty k v ET K1 T1 P1 I1 ltac:(lia)) as [->|(w & v' & VO & CO & (N1 & RE) & BE & SE & EQ)].
    + destruct (IH T2 D2 ltac:(cbn [entry_cost raw_size] in *; lia) mp SM) as (mp' & added & es' & E2 & S2 & PM & B2 & N2 & L2 & SZ2 & DT).
      { eapply Forall_impl; [|exact HK]. intros x Hx. now apply Forall_inv_tail in Hx. }
      exists mp', added, es'. split; [exact E2|]. split; auto. split; auto. split; [constructor; auto|]. split; auto.
      split; [specialize (C0 (k, RawMsg None)); lia|]. split; auto. intros NS. exfalso.
      inversion T1; subst. destruct vt; cbn in ET; inversion ET. congruence.
    + destruct (set_new kt vt mp k w SM K1 VO) as (mp1 & ES & S1 & DY & PM1 & IN1).
      { eapply Forall_impl; [|exact HK]. intros x Hx. apply Forall_inv in Hx. exact Hx. }
      destruct (IH T2 D2 ltac:(lia) mp1 S1) as (mp' & added & es' & E2 & S2 & PM & B2 & (N2 & F2) & L2 & SZ2 & DT).
      { apply Forall_forall. intros x Hx. apply IN1 in Hx. destruct Hx as [->|Hx].
        - rewrite Forall_forall in *. intros ke Hke. apply D1. apply in_map. auto.
        - rewrite Forall_forall in HK. specialize (HK x Hx). now apply Forall_inv_tail in HK. }
      exists mp', ((k, w) :: added), ((k, v') :: es'). rewrite EQ, ES. cbn [bind]. split; auto. split; auto. split.
      { rewrite PM, PM1. cbn [app]. symmetry. apply Permutation_middle. }
      split; auto. split.
      { exists (Nat.max N1 N2). constructor; [eapply reads_entry_mono; [|exact RE]; lia|].
        eapply Forall2_weaken; [|exact F2]. intros; eapply reads_entry_mono; [|eauto]; lia. }
      cbn [total]. split; [lia|]. split; [intros NS; rewrite SZ2, SE by auto; reflexivity|].
      left. destruct DT as [DT|[-> _]]; auto.
Qed.

Lemma go_key_same kt a b : go_key_eq kt a b = true -> same_key kt a b.
Proof.
  assert (S0 : forall x y, cmpS x y =? 0 = true -> x = y).
  { intros x y H. apply Z.eqb_eq in H. destruct (cmpS_spec x y) as [[H1 _]|[[_ H1]|[H1 _]]]; congruence. }
  assert (F0 : forall k x y, negb (is_nan k x) && negb (is_nan k y) && (f_val k x =? f_val k y) = true -> flt_eq k x y).
  { intros k x y H. unfold flt_eq. destruct (is_nan k x), (is_nan k y); try discriminate. right. cbn in H. apply Z.eqb_eq in H. auto. }
  destruct kt as [[]|], a as [x|x], b as [y|y]; cbn [go_key_eq same_key is_float]; intros H; try discriminate; auto;
    try (apply Z.eqb_eq in H; congruence); try (apply S0 in H; congruence).
Qed.
Lemma go_set_new kt raw k v : Forall (fun ke => ~ same_key kt (fst ke) k) raw -> go_set kt raw k v = raw ++ [(k, v)].
Proof.
  induction 1 as [|[k0 v0] raw H _ IH]; auto. cbn [go_set app].
  destruct (go_key_eq kt k0 k) eqn:Q; [exfalso; apply H; now apply go_key_same|]. now rewrite IH.
Qed.
Lemma map_raw_ok kt id N es raws : Forall2 (reads_entry id N) es raws ->
  forall acc, keys_ok kt (map fst es) -> Forall (fun ke => Forall (fun e => ~ same_key kt (fst ke) (fst e)) es) acc ->
  map_raw E (ToRaw E N) kt id acc es = Ok (acc ++ raws).
Proof.
  induction 1 as [|[k w] [k' v] es raws [HK HV] HF IH]; intros acc KO HA; cbn [map_raw].
  - now rewrite app_nil_r.
  - cbn [fst snd] in *. subst k'.
    assert (G : go_set kt acc k v = acc ++ [(k, v)]).
    { apply go_set_new. eapply Forall_impl; [|exact HA]. intros ke H. now apply Forall_inv in H. }
    assert (IH' : map_raw E (ToRaw E N) kt id (acc ++ [(k, v)]) es = Ok ((acc ++ [(k, v)]) ++ raws)).
    { destruct KO as [K1 K2]. cbn [map fst] in *. inversion K1; inversion K2; subst. apply IH; [split; auto|].
      apply Forall_app. split.
      - eapply Forall_impl; [|exact HA]. intros ke Hk. now apply Forall_inv_tail in Hk.
      - constructor; [|constructor]. cbn [fst]. apply Forall_forall. intros e He. apply lt_not_same.
        rewrite Forall_forall in H2. apply H2. now apply in_map. }
    rewrite <- app_assoc in IH'. cbn [app] in IH'.
    destruct w as [z|b|d| | |], v as [z'|b'| |[fs'|]| | | | | |]; try contradiction.
    + subst z'. cbn [bind]. rewrite G. exact IH'.
    + subst b'. cbn [bind]. rewrite G. exact IH'.
    + destruct HV as (f & c & -> & V & F & RD). unfold entry_struct. rewrite parse_wire by auto. cbn [bind].
      erewrite RD; [|apply Nat.le_refl|apply Sim_child; auto]. cbn [bind]. rewrite G. exact IH'.
Qed.
Lemma map_fst_combine {A B} (a : list A) : forall (b : list B), length a = length b -> map fst (combine a b) = a.
Proof. induction a as [|x a IH]; intros [|y b] H; try discriminate; auto. cbn. f_equal. apply IH. now injection H. Qed.

Lemma put_mapping es : Forall (inside_entry put_ok) es -> put_ok (RawMap (Some es)).
Proof.
  intros PF ty n s m i HT HR Hi Hi' HN HZ. inversion HT as [| | | | | | | | | | | | | |kt vt id ety ? ET HF HD HG HS| |]; subst.
  change (raw_size (RawMap (Some es))) with (16 + total entry_cost es) in *. assert (2 ^ 24 < 2 ^ 31) by reflexivity.
  destruct (entries_ok kt vt id ety es ET PF HF HD ltac:(lia) NewMaps) as (mp & added & es' & E1 & (SK & SV & SL) & PM & B1 & (N1 & F1) & L1 & Z1 & DT).
  { split; [split; constructor|]. split; [constructor|reflexivity]. }
  { constructor. }
  change (ents NewMaps) with (@nil (mkey * mval)) in PM. rewrite app_nil_r in PM.
  destruct DT as [DY|[-> ->]].
  2:{ inversion F1; subst. apply put_nothing; auto; [lia| |].
      - rewrite put_map, E1. reflexivity.
      - cbn [absent]. change (@None (list (mkey * rawval))) with (not_empty (@nil (mkey * rawval))). econstructor; eauto. }
  destruct (Forall2_perm _ _ _ (Permutation_sym PM) _ F1) as (raws & PR & F2).
  set (e := encEntries kt vt (mp_keys mp) (mp_vals mp)).
  assert (LE : len e = total (ent_len kt vt) added).
  { unfold e. rewrite len_encEntries by (auto; apply SK). rewrite dataSize_total. fold (ents mp). now apply total_perm. }
  pose proof (len_padded_le e) as LP.
  assert (NB : nil_b e = nil_b raws).
  { unfold e, ents in *. destruct (mp_keys mp) as [|k ks], (mp_vals mp) as [|v vs]; try discriminate SL; cbn [combine] in F2; inversion F2; subst; auto.
    destruct SK as [_ SK]. destruct (len_encKey kt k (Forall_inv SK)) as [LK PK]. cbn [nil_b].
    destruct (encEntries kt vt (k :: ks) (v :: vs)) eqn:EE; auto. exfalso.
    assert (Q : len (encEntries kt vt (k :: ks) (v :: vs)) = 0) by (rewrite EE; reflexivity).
    cbn [encEntries] in Q. rewrite len_app in Q. pose proof (len_nonneg (encValue vt v ++ encEntries kt vt ks vs)). lia. }
  eapply put_op with (o := OMap i (key_ft kt) (val_ft vt) e) (b := nil_b e) (w := VMap (key_ft kt) (val_ft vt) e) (v' := RawMap (not_empty raws));
    [exact HR|exact Hi|exact Hi'| | | |reflexivity| | |].
  - exact HZ.
  - rewrite len_wire_value. cbn [v_rest]. change (raw_size (RawMap (Some es))) with (16 + total entry_cost es). lia.
  - rewrite put_map, E1. cbn [bind]. rewrite mp_Sync_dirty by (auto; apply SK). cbn [do_op]. fold e.
    destruct (sync_map s i (key_ft kt) (val_ft vt) e); reflexivity.
  - intros F. cbn [ok_op apply_op valid_value]. split; auto. split; auto. split; auto.
    split; [destruct kt as [[]|]; (split; [discriminate|reflexivity])|].
    split; [destruct vt as [[]| | | | | |]; (split; [discriminate|reflexivity])|].
    split; [apply encEntries_bytes; auto; apply SK|lia].
  - rewrite NB. destruct raws as [|r raws]; [reflexivity|]. cbn [nil_b not_empty]. split; [nz|].
    exists N1. intros N' HN' t nt h3 mt tail HSim HS'. cbn [get_raw].
    pose proof (Sim_GetMap _ _ _ _ _ i kt vt _ _ HSim (proj1 Hi) HS' (proj2 SK) SV SL) as G. cbn zeta in G. rewrite G. cbn [bind]. fold e.
    assert (G0 : ghosts kt vt (pad_len (len e)) = O).
    { destruct HG as [->|HG]; [reflexivity|].
      destruct vt; cbn in ET; try discriminate; try reflexivity; rewrite LE, Z1 by discriminate; exact HG. }
    rewrite G0. cbn [repeat]. rewrite !app_nil_r. unfold mp_Len, mp_All. cbn [mp_keys].
    assert (LK : 0 < len (mp_keys mp)).
    { unfold ents in F2. destruct (mp_keys mp); [inversion F2|rewrite len_cons; pose proof (len_nonneg l); lia]. }
    apply Z.ltb_lt in LK. rewrite LK.
    rewrite (all_from_spec [] [] (mp_keys mp) (mp_vals mp)) by (auto; lia). cbn [bind]. fold (ents mp).
    rewrite (map_raw_ok kt id N' (ents mp) (r :: raws)); [reflexivity| | |constructor].
    + eapply Forall2_weaken; [|exact F2]. intros. eapply reads_entry_mono; eauto.
    + unfold ents. rewrite map_fst_combine by auto. exact SK.
  - econstructor; eauto.
Qed.

Theorem put_raw_ok v : put_ok v.
Proof.
  induction v using raw_ind.
  - exact (put_leaf v H).
  - now apply put_struct.
  - now apply put_structs.
  - now apply put_mapping.
Qed.
End Raw.

(** ** Nothing lost *)
Lemma same_zero v v' : same_raw v v' -> zero_raw v' -> zero_raw v.
Proof.
  unfold zero_raw. intros H HZ. inversion H; subst; auto; repeat (destruct HZ as [HZ|HZ]; [discriminate HZ|]); discriminate HZ.
Qed.
Section Plain.
Variable E : nat -> list rty.
Definition keeps (v : rawval) : Prop := forall ty v', plain E ty v -> back E ty v v' -> same_raw v v'.
Lemma backs_keep fs : Forall keeps fs -> forall tys fs', Forall2 (plain E) tys fs -> backs E tys fs fs' -> Forall2 same_raw fs fs'.
Proof.
  induction 1 as [|v fs K _ IH]; intros tys fs' HP HB; inversion HP; subst; inversion HB; subst; constructor; eauto.
Qed.
Lemma items_keep id l : Forall (inside keeps) l -> forall l', Forall (fun o => exists fs, o = Some fs /\ Forall2 (plain E) (E id) fs) l ->
  back_items E id l l' -> Forall2 (fun o o' => same_raw (RawMsg o) (RawMsg o')) l l'.
Proof.
  induction 1 as [|o l K _ IH]; intros l' HP HB; inversion HP as [|? ? (fs & -> & HF) HP']; subst; inversion HB; subst; constructor; auto.
  apply sr_msg. eapply backs_keep; eauto.
Qed.
Lemma entries_keep id es : Forall (inside_entry keeps) es -> forall es', Forall (fun ke => plain_entry E id (snd ke)) es ->
  back_entries E id es es' -> Forall2 (fun a b => fst a = fst b /\ same_raw (snd a) (snd b)) es es'.
Proof.
  induction 1 as [|[k v] es [_ K] _ IH]; intros es' HP HB; inversion HP as [|? ? P1 P2]; subst; inversion HB; subst; try (constructor; auto; cbn [fst snd]; split; auto; constructor; fail).
  - inversion P1.
  - constructor; auto. cbn [fst snd]. split; auto. inversion P1; subst. cbn [snd inner inside] in K. apply sr_msg. eapply backs_keep; eauto.
Qed.
Lemma not_empty_some {A} (l : list A) : l <> [] -> not_empty l = Some l.
Proof. destruct l; cbn; congruence. Qed.
Lemma plain_keeps v : keeps v.
Proof.
  induction v using raw_ind; intros ty v' HP HB.
  - inversion HP; subst; inversion HB; subst; try destruct H; try rewrite not_empty_some by congruence; try constructor.
    rewrite H0. constructor.
  - inversion HP as [| | | |id ? HF NZ| | | | | | | | |]; subst. inversion HB; subst.
    + apply sr_msg. eapply backs_keep; eauto.
    + exfalso. apply NZ. match goal with HB' : backs _ _ _ ?f, HZ : Forall zero_raw ?f |- _ => pose proof (backs_keep fs H _ _ HF HB') as F; revert HZ; clear -F end.
      induction F as [|a b fs fs' S1 _ IH]; intros HZ; constructor; inversion HZ; subst; eauto using same_zero.
  - inversion HP as [| | | | | | | | |id ? NE HF| | | |]; subst. inversion HB as [| | | | | | | | | | | | | |? ? l' BI| | | |]; subst.
    pose proof (items_keep _ _ H _ HF BI) as F. assert (l' <> []) by (intros ->; inversion F; subst; congruence).
    rewrite not_empty_some by auto. now apply sr_msgs.
  - inversion HP as [| | | | | | | | | | |kt vt id ? NE HF| |]; subst. inversion HB as [| | | | | | | | | | | | | | | |? ? ? ? es' es'' BE PM| |]; subst.
    pose proof (entries_keep _ _ H _ HF BE) as F.
    assert (es'' <> []) by (intros ->; apply Permutation_sym, Permutation_nil in PM; subst; inversion F; subst; congruence).
    rewrite not_empty_some by auto. eapply sr_map; eauto.
Qed.
End Plain.
