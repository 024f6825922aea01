(** Ingest of any tokens comes to an end, and reading on never changes what has been read. *)
From Coq Require Import ZArith List Bool Lia ZifyBool.
Import ListNotations.
From Verif.Model Require Import Base Field MapApi Token Walk TokenStream Ingest.
From Verif.Spec Require Import Message MapSpec TokenGrammar Ingest.
From Verif.Proofs Require Import ValuesProofs.
From Verif.Proofs Require Import BaseLemmas MapLemmas IngestProofs.
Open Scope Z_scope.

Lemma index_in {A} (l : list A) i : 0 <= i < len l -> exists a, index l i = Ok a.
Proof.
  intros H. unfold index. replace ((0 <=? i) && (i <? len l)) with true by lia.
  destruct (nth_error l (Z.to_nat i)) eqn:Q; [eauto|]. apply nth_error_None in Q. unfold len in H. lia.
Qed.
Lemma bsearch_total kt x t : forall fuel i j, 0 <= i <= j -> j <= len x -> j - i <= Z.of_nat fuel ->
  exists r, bsearch fuel kt x t i j = Ok r /\ i <= r <= j.
Proof.
  induction fuel as [|fuel IH]; intros i j Hi Hj Hf; cbn [bsearch].
  - destruct (Z.ltb_spec i j); [lia|]. exists i. split; [reflexivity|lia].
  - destruct (Z.ltb_spec i j); [|exists i; split; [reflexivity|lia]].
    assert (h : i <= Z.shiftr (i + j) 1 < j). { rewrite Z.shiftr_div_pow2 by lia. change (2 ^ 1) with 2. pose proof (Z.div_mod (i + j) 2 ltac:(lia)). pose proof (Z.mod_pos_bound (i + j) 2 ltac:(lia)). lia. }
    remember (Z.shiftr (i + j) 1) as hh. destruct (index_in x hh) as [k ->]; [lia|]. cbn [bind].
    destruct (compareKeys kt k t <? 0).
    + destruct (IH (hh + 1) j) as (r & -> & B); [lia|lia|lia|]. exists r. split; [reflexivity|lia].
    + destruct (IH i hh) as (r & -> & B); [lia|lia|lia|]. exists r. split; [reflexivity|lia].
Qed.
Lemma put_entry_total kt es k e : exists es', put_entry kt es k e = Ok es'.
Proof.
  unfold put_entry, BinarySearchFunc. set (x := map fst es).
  assert (L : len x = len es) by (unfold x; apply len_map).
  destruct (bsearch_total kt x k (length x) 0 (len x)) as (r & -> & B); [pose proof (len_nonneg x); lia|lia|unfold len; lia|]. cbn [bind].
  destruct (Z.ltb_spec r (len x)).
  - destruct (index_in x r) as [k0 ->]; [lia|]. cbn [bind]. destruct (compareKeys kt k0 k =? 0).
    + destruct (index_in es r) as [[k1 e1] ->]; [lia|]. cbn. eauto.
    + unfold slices_insert. replace ((0 <=? r) && (r <=? len es)) with true by lia. eauto.
  - cbn [bind]. unfold slices_insert. replace ((0 <=? r) && (r <=? len es)) with true by lia. eauto.
Qed.

(** ** Every loop takes tokens *)
Lemma Next_left ts t ts' : Next ts = (Some t, ts') -> left ts = S (left ts').
Proof.
  destruct ts as [src [p|]]; unfold Next, pull, left; cbn; [intros H; inversion H; subst; cbn; lia|].
  destruct src; [discriminate|]. intros H. inversion H; subst; cbn. lia.
Qed.
Lemma Peek_left ts t ts' : Peek ts = (Some t, ts') -> left ts' = left ts /\ Next ts' = (Some t, snd (Next ts')).
Proof.
  destruct ts as [src [p|]]; unfold Peek, Next, pull, left; cbn; [intros H; inversion H; subst; cbn; auto|].
  destruct src; [discriminate|]. intros H. inversion H; subst; cbn. split; [lia|reflexivity].
Qed.
Definition ends (m : nat) (r : res tstream) : Prop :=
  match r with Ok ts => (left ts <= m)%nat | Err => True | _ => False end.
Definition endsp {A} (m : nat) (r : res (A * tstream)) : Prop :=
  match r with Ok (_, ts) => (left ts <= m)%nat | Err => True | _ => False end.
Ltac next Q := match goal with |- context [Next ?s] => destruct (Next s) as [[?t|] ?ts] eqn:Q; [apply Next_left in Q|exact I] end.
Lemma ends_le m m' r : (m <= m')%nat -> ends m r -> ends m' r.
Proof. destruct r; cbn; intros; auto; lia. Qed.
Lemma endsp_le {A} m m' (r : res (A * tstream)) : (m <= m')%nat -> endsp m r -> endsp m' r.
Proof. destruct r as [[]| | |]; cbn; intros; auto; lia. Qed.
Lemma ends_bind m m' r f : ends m r -> (forall ts, (left ts <= m)%nat -> ends m' (f ts)) -> ends m' (bind r f).
Proof. destruct r; cbn; auto. Qed.
Lemma endsp_bind {A} m m' r (f : tstream -> res (A * tstream)) : ends m r -> (forall ts, (left ts <= m)%nat -> endsp m' (f ts)) -> endsp m' (bind r f).
Proof. destruct r; cbn; auto. Qed.
Lemma endsp_bindp {A B} m m' r (f : A * tstream -> res (B * tstream)) : endsp m r -> (forall a ts, (left ts <= m)%nat -> endsp m' (f (a, ts))) -> endsp m' (bind r f).
Proof. destruct r as [[]| | |]; cbn; auto. Qed.

Lemma skip_depth_ends : forall n d ts, (left ts < n)%nat -> ends (left ts) (skip_depth n d ts).
Proof.
  induction n as [|n IH]; intros d ts L; [lia|]. cbn [skip_depth]. next Q.
  assert (G : forall d, ends (left ts) (skip_depth n d ts0)) by (intros d0; eapply ends_le; [|apply IH]; lia).
  destruct (t_kind t); auto. destruct d as [|[|d]]; auto; cbn; lia.
Qed.
Lemma skipStruct_ends ts : ends (left ts - 1) (skipStruct ts).
Proof. unfold skipStruct. next Q. destruct (tkind_eqb _ _); [|exact I]. eapply ends_le; [|apply skip_depth_ends]; lia. Qed.
Lemma skip_items_ends : forall n ts, (left ts < n)%nat -> ends (left ts) (skip_items n ts).
Proof.
  induction n as [|n IH]; intros ts L; [lia|]. cbn [skip_items]. next Q. destruct (tkind_eqb _ _); [cbn; lia|].
  eapply ends_le; [|apply IH]; lia.
Qed.
Lemma skipList_ends ts : ends (left ts) (skipList ts).
Proof. unfold skipList. next Q. destruct (tkind_eqb _ _); [|exact I]. eapply ends_le; [|apply skip_items_ends]; lia. Qed.
Lemma skip_structs_ends : forall n ts, (left ts < n)%nat -> ends (left ts) (skip_structs n ts).
Proof.
  induction n as [|n IH]; intros ts L; [lia|]. cbn [skip_structs]. destruct (Peek ts) as [[t|] ts1] eqn:P; [|exact I].
  apply Peek_left in P as [P1 P2]. assert (Q := Next_left _ _ _ P2). destruct (tkind_eqb _ _); [cbn; lia|].
  eapply ends_bind; [apply skipStruct_ends|]. intros ts2 L2. eapply ends_le; [|apply IH]; lia.
Qed.
Lemma skipListStructs_ends ts : ends (left ts) (skipListStructs ts).
Proof. unfold skipListStructs. next Q. destruct (tkind_eqb _ _); [|exact I]. eapply ends_le; [|apply skip_structs_ends]; lia. Qed.
(** The inner loop of skipMap on its own. *)
Section Entries.
Variable n : nat.
Variable vt : Z.
Fixpoint skip_entries (m : nat) (ts : tstream) : res tstream :=
  match m with
  | O => Hang
  | S m =>
    let '(o, ts) := Next ts in
    match o with
    | None => Err
    | Some t =>
      if tkind_eqb t.(t_kind) TMapEnd then Ok ts
      else if negb (tkind_eqb t.(t_kind) TMapEntry) then Err
      else
        ts <- (if vt =? FTStruct then skipStruct ts else Ok ts) ;;
        ts <- (if vt =? FTMap then skip_map n t.(t_valType) ts else Ok ts) ;;
        skip_entries m ts
    end
  end.
End Entries.
Lemma skip_map_eq n vt ts : skip_map (S n) vt ts =
  let '(o, ts) := Next ts in
  match o with
  | None => Err
  | Some t => if tkind_eqb t.(t_kind) TMapStart then skip_entries n vt (S (left ts)) ts else Err
  end.
Proof. reflexivity. Qed.
Lemma skip_map_ends : forall n vt ts, (left ts < n)%nat -> ends (left ts) (skip_map n vt ts).
Proof.
  induction n as [|n IH]; intros vt ts L; [lia|]. rewrite skip_map_eq. next Q. destruct (tkind_eqb _ _); [|exact I].
  assert (G : forall m ts, (left ts < m)%nat -> (left ts < n)%nat -> ends (left ts) (skip_entries n vt m ts)).
  { induction m as [|m IHm]; intros s L1 L2; [lia|]. cbn [skip_entries]. next Q1.
    destruct (tkind_eqb _ _); [cbn; lia|]. destruct (negb _); [exact I|].
    apply (ends_bind (left ts1)). { destruct (vt =? FTStruct); [eapply ends_le; [|apply skipStruct_ends]; lia|cbn; lia]. }
    intros s2 L3. apply (ends_bind (left s2)). { destruct (vt =? FTMap); [apply IH; lia|cbn; lia]. }
    intros s3 L4. eapply ends_le; [|apply IHm]; lia. }
  eapply ends_le; [|apply G]; lia.
Qed.
Lemma SkipValue_ends ts f : ends (left ts) (SkipValue ts f).
Proof.
  unfold SkipValue. repeat match goal with |- context [if ?b then _ else _] => destruct b end; try (cbn; lia).
  - eapply ends_le; [|apply skipStruct_ends]; lia.
  - apply skipListStructs_ends.
  - apply skipList_ends.
  - apply skip_map_ends. lia.
Qed.
Lemma expect_ends kd ts : ends (left ts - 1) (expect kd ts).
Proof. unfold expect. next Q. destruct (tkind_eqb _ _); cbn; [lia|exact I]. Qed.
Lemma list_items_ends : forall n ts, (left ts < n)%nat -> endsp (left ts) (list_items n ts).
Proof.
  induction n as [|n IH]; intros ts L; [lia|]. cbn [list_items]. next Q. destruct (tkind_eqb _ _); [cbn; lia|].
  apply (endsp_bindp (left ts0)); [apply IH; lia|]. intros a s L1. cbn. lia.
Qed.
Lemma list_body_ends ts : endsp (left ts) (list_body ts).
Proof. unfold list_body. eapply endsp_bind; [apply expect_ends|]. intros s L. eapply endsp_le; [|apply list_items_ends]; lia. Qed.

(** A value in a field of the type; less than [shaped]. *)
Definition oftype (ty : fty) (v : fval) : Prop :=
  match ty, v with
  | TyNum _ _, FNum _ _ _ | TyNums _ _, FNums _ _ | TyStr _, FStr _ _ | TyStrs _, FStrs _ _ => True
  | TyMsg _, FMsg _ | TyMsgs _, FMsgs _ | TyAny, FAny _ | TyAnys, FAnys _ | TyMap _ _ _, FMap _ _ _ => True
  | _, _ => False
  end.
Definition has_fields (decl : list (bytes * fty)) (x : list (bytes * fval)) : Prop :=
  Forall2 (fun nt nv => fst nt = fst nv /\ oftype (snd nt) (snd nv)) decl x.
Lemma shaped_oftype ty v : shaped ty v -> oftype ty v.
Proof. destruct ty, v; cbn; auto. Qed.
Lemma struct_of_has decl x : struct_of decl x -> has_fields decl x.
Proof. intros H. induction H as [|? ? ? ? [? ?] ? ?]; constructor; auto using shaped_oftype. Qed.
Lemma has_fields_fresh E id : has_fields (snd (E id)) (fresh E id).
Proof. rewrite ValuesProofs.fresh_blank. apply struct_of_has, struct_of_fresh. Qed.
Lemma has_assoc decl x n ty : has_fields decl x -> assoc n decl = Some ty -> exists old, assoc n x = Some old /\ oftype ty old.
Proof.
  induction 1 as [|[m t] [m' v] decl x [Q S] _ IH]; cbn; [discriminate|]. cbn in Q, S. subst m'.
  destruct (bytes_eqb n m); [|exact IH]. intros H. inversion H; subst. eauto.
Qed.
Lemma has_set decl x n ty v : has_fields decl x -> assoc n decl = Some ty -> oftype ty v -> has_fields decl (set_field n v x).
Proof.
  induction 1 as [|[m t] [m' w] decl x [Q S] F IH]; cbn; [discriminate|]. cbn in Q, S. subst m'.
  destruct (bytes_eqb n m); intros H O.
  - inversion H. subst. constructor; [split; auto|exact F].
  - constructor; [split; auto|]. apply IH; auto.
Qed.

Section Ends.
Variable E : env.
Variable ig : bool.
Definition rec_ends (n : nat) (rec : nat -> list (bytes * fval) -> tstream -> res (list (bytes * fval) * tstream)) : Prop :=
  forall id x ts, has_fields (snd (E id)) x -> (left ts < n)%nat -> endsp (left ts - 1) (rec id x ts).
Lemma struct_items_ends n rec id : rec_ends n rec -> forall k ts, (left ts < k)%nat -> (left ts < n)%nat -> endsp (left ts) (struct_items E rec k id ts).
Proof.
  intros R. induction k as [|k IH]; intros ts L1 L2; [lia|]. cbn [struct_items]. destruct (Peek ts) as [[t|] ts1] eqn:P; [|exact I].
  apply Peek_left in P as [P1 P2]. assert (Q := Next_left _ _ _ P2). destruct (tkind_eqb _ _); [cbn; lia|].
  apply (endsp_bindp (left ts1 - 1)); [apply R; [apply has_fields_fresh|lia]|]. intros fs s L.
  apply (endsp_bindp (left s)); [apply IH; lia|]. intros l s' L'. cbn. lia.
Qed.
Lemma entry_value_ends n rec vt id t ts : rec_ends n rec -> (left ts < n)%nat -> endsp (left ts) (entry_value E rec vt id t ts).
Proof.
  intros R L. destruct vt; cbn [entry_value]; try (cbn; lia).
  - apply (endsp_bindp (left ts - 1)); [apply R; [apply has_fields_fresh|lia]|]. intros fs s L1. cbn. lia.
  - apply (endsp_bindp (left ts)); [apply list_body_ends|]. intros l s L1. cbn. lia.
Qed.
Lemma map_items_ends n rec kt vt id : rec_ends n rec -> forall k es ts, (left ts < k)%nat -> (left ts < n)%nat ->
  endsp (left ts) (map_items E rec k kt vt id es ts).
Proof.
  intros R. induction k as [|k IH]; intros es ts L1 L2; [lia|]. cbn [map_items]. next Q. destruct (tkind_eqb _ _); [cbn; lia|].
  destruct (negb _); [exact I|]. apply (endsp_bindp (left ts0)); [apply (entry_value_ends n); [exact R|lia]|]. intros e s L.
  destruct (put_entry_total kt es (tok_key kt t) e) as [es' ->]. cbn [bind]. eapply endsp_le; [|apply IH]; lia.
Qed.
Definition endsv (ty : fty) (m : nat) (r : res (fval * tstream)) : Prop :=
  match r with Ok (v, ts) => oftype ty v /\ (left ts <= m)%nat | Err => True | _ => False end.
Lemma endsv_bind {A} ty m m' r (f : A * tstream -> res (fval * tstream)) : endsp m r -> (forall a ts, (left ts <= m)%nat -> endsv ty m' (f (a, ts))) -> endsv ty m' (bind r f).
Proof. destruct r as [[]| | |]; cbn; auto. Qed.
Lemma endsv_bind1 ty m m' r (f : tstream -> res (fval * tstream)) : ends m r -> (forall ts, (left ts <= m)%nat -> endsv ty m' (f ts)) -> endsv ty m' (bind r f).
Proof. destruct r; cbn; auto. Qed.
Lemma field_ends n rec ty old t ts : rec_ends n rec -> oftype ty old -> (left ts < n)%nat -> endsv ty (left ts) (ingest_field E rec ty old t ts).
Proof.
  intros R O L. destruct ty, old; cbn in O; try contradiction; cbn [ingest_field]; try (cbn; auto with arith; fail);
  (destruct (t_isNil t); [cbn; auto with arith|]).
  - apply (endsv_bind _ (left ts - 1)); [apply R; [apply has_fields_fresh|lia]|]. intros fs s L1. cbn. split; [exact I|lia].
  - apply (endsv_bind _ (left ts)); [apply list_body_ends|]. intros fs s L1. cbn. split; [exact I|lia].
  - apply (endsv_bind _ (left ts)); [apply list_body_ends|]. intros fs s L1. cbn. split; [exact I|lia].
  - apply (endsv_bind1 _ (left ts - 1)); [apply expect_ends|]. intros s L1. apply (endsv_bind _ (left s)); [apply (struct_items_ends n); [exact R|lia|lia]|].
    intros l' s' L'. cbn. split; [exact I|lia].
  - apply (endsv_bind1 _ (left ts - 1)); [apply expect_ends|]. intros s L1. apply (endsv_bind _ (left s)); [apply (map_items_ends n); [exact R|lia|lia]|].
    intros l' s' L'. cbn. split; [exact I|lia].
  - destruct (len (t_bytes t) =? 0); [cbn; auto with arith|]. destruct (negb _); [exact I|]. cbn. auto with arith.
  - apply (endsv_bind _ (left ts)); [apply list_body_ends|]. intros l' s L1. destruct (forallb _ l'); [|exact I]. cbn. split; [exact I|lia].
Qed.
Definition endsx (decl : list (bytes * fty)) (m : nat) (r : res (list (bytes * fval) * tstream)) : Prop :=
  match r with Ok (x, ts) => has_fields decl x /\ (left ts <= m)%nat | Err => True | _ => False end.
Lemma fields_ends n rec decl : rec_ends n rec -> forall k x ts, has_fields decl x -> (left ts < k)%nat -> (left ts < n)%nat ->
  endsx decl (left ts) (fields_loop E ig rec k decl x ts).
Proof.
  intros R. induction k as [|k IH]; intros x ts H L1 L2; [lia|]. cbn [fields_loop]. next Q. destruct (tkind_eqb _ _); [cbn; split; [exact H|lia]|].
  destruct (negb _); [exact I|].
  assert (G : forall x s, has_fields decl x -> (left s <= left ts0)%nat -> endsx decl (left ts) (fields_loop E ig rec k decl x s)).
  { intros x' s H' L'. specialize (IH x' s H' ltac:(lia) ltac:(lia)). destruct (fields_loop E ig rec k decl x' s) as [[]| | |]; cbn in *; auto. split; [apply IH|lia]. }
  destruct (assoc (t_name t) decl) as [ty|] eqn:A.
  - destruct (has_assoc _ _ _ _ H A) as (old & -> & O). pose proof (field_ends n rec ty old t ts0 R O ltac:(lia)) as F.
    destruct (ingest_field E rec ty old t ts0) as [[v s]| | |]; cbn in F |- *; auto. apply G; [|apply F]. eapply has_set; [exact H|exact A|apply F].
  - destruct ig; [|exact I]. pose proof (SkipValue_ends ts0 t) as F. destruct (SkipValue ts0 t) as [s| | |]; cbn in F |- *; auto.
Qed.
Lemma ingest_from_ends : forall n, rec_ends n (ingest_from E ig n).
Proof.
  induction n as [|n IH]; intros id x ts H L; [lia|]. cbn [ingest_from]. pose proof (expect_ends TStructStart ts) as F.
  unfold expect in *. destruct (Next ts) as [[t|] s] eqn:Q; [|exact I]. apply Next_left in Q. destruct (tkind_eqb _ _); [|exact I]. cbn [bind].
  pose proof (fields_ends n _ (snd (E id)) IH (S (left s)) x s H ltac:(lia) ltac:(lia)) as G.
  destruct (fields_loop E ig (ingest_from E ig n) (S (left s)) (snd (E id)) x s) as [[]| | |]; cbn in *; auto. lia.
Qed.
End Ends.
