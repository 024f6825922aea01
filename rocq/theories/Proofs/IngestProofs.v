(** Ingest of the tokens of a struct. *)
From Coq Require Import ZArith List Bool Lia ZifyBool.
Import ListNotations.
From Coq Require Import Sorting.Sorted.
From Verif.Model Require Import Base Field MapApi Token Walk TokenStream Ingest.
From Verif.Spec Require Import Message MapSpec TokenGrammar Values Ingest.
From Verif.Proofs Require Import BaseLemmas MapLemmas TokenVals WalkProofs ValuesProofs.
From Verif.Properties Require Import Tokens.
Open Scope Z_scope.

Lemma bytes_eqb_eq a : forall b, bytes_eqb a b = true <-> a = b.
Proof.
  induction a as [|x a IH]; intros [|y b]; cbn; split; try discriminate; auto.
  - intros H. apply andb_true_iff in H as [H1 H2]. apply Z.eqb_eq in H1. apply IH in H2. congruence.
  - intros H. inversion H. subst. rewrite Z.eqb_refl. apply IH. reflexivity.
Qed.
Lemma bytes_eqb_refl a : bytes_eqb a a = true.
Proof. apply bytes_eqb_eq. reflexivity. Qed.
Lemma tkind_eqb_eq a b : tkind_eqb a b = true <-> a = b.
Proof. destruct a, b; cbn; split; congruence. Qed.
Lemma tkind_eqb_neq a b : a <> b -> tkind_eqb a b = false.
Proof. intros H. destruct (tkind_eqb a b) eqn:E; [|reflexivity]. apply tkind_eqb_eq in E. contradiction. Qed.

(** ** Pieces of the stream *)
Lemma expect_ok kd ts t q : content ts = t :: q -> t_kind t = kd -> expect kd ts = Ok (mkTS q None).
Proof. intros C K. unfold expect. rewrite Next_content, C, K. replace (tkind_eqb kd kd) with true by (destruct kd; reflexivity). reflexivity. Qed.
Lemma list_items_ok l : forall n ts t rest, content ts = l ++ t :: rest -> (length (content ts) < n)%nat ->
  Forall (fun t => t_kind t <> TListEnd) l -> t_kind t = TListEnd -> list_items n ts = Ok (l, mkTS rest None).
Proof.
  induction l as [|x l IH]; intros n ts t rest C L F K; (destruct n; [lia|]); cbn [list_items]; rewrite Next_content, C; cbn [app].
  - rewrite K. reflexivity.
  - inversion F as [|? ? Fx F']; subst. rewrite (tkind_eqb_neq _ _ Fx). rewrite C in L. cbn in L.
    rewrite (IH n (mkTS (l ++ t :: rest) None) t rest); auto. cbn. lia.
Qed.
Lemma list_body_ok ts t0 l t rest : content ts = t0 :: l ++ t :: rest -> t_kind t0 = TListStart ->
  Forall (fun t => t_kind t <> TListEnd) l -> t_kind t = TListEnd -> list_body ts = Ok (l, mkTS rest None).
Proof.
  intros C K F K2. unfold list_body. rewrite (expect_ok _ _ _ _ C K). cbn [bind].
  rewrite (list_items_ok l _ _ t rest); auto. rewrite left_content. lia.
Qed.

(** ** Values of tokens *)
Lemma tok_num_item k e x : in_range k (fst x) -> tok_num k e (num_item k x) = fst x.
Proof.
  intros R. assert (B : t_bytes (num_item k x) = []) by (unfold num_item; destruct (snd x); reflexivity).
  assert (G : getValue k (num_item k x) = fst x).
  { transitivity (getData k (putData k (fst x))); [unfold num_item; destruct (snd x); reflexivity|apply get_put, R]. }
  unfold tok_num. rewrite B. destruct e; exact G.
Qed.
Lemma tok_num_field k e n z nm : in_range k z -> tok_num k e (ffield n (FNum k z nm)) = z.
Proof.
  intros R. assert (B : t_bytes (ffield n (FNum k z nm)) = []) by (destruct nm; reflexivity).
  assert (G : getValue k (ffield n (FNum k z nm)) = z).
  { transitivity (getData k (putData k z)); [destruct nm; reflexivity|apply get_put, R]. }
  unfold tok_num. rewrite B. destruct e; exact G.
Qed.
Lemma ffield_name n v : t_name (ffield n v) = n.
Proof.
  destruct v as [k z e|st b|[m|]|k [|]|st [|]|[|]|kt vt [|]|[[h d]|]|[|]]; cbn; try reflexivity. destruct e; reflexivity.
Qed.
Lemma map_hash_16 t : len (t_hash t) = 16 -> map_hash t = t_hash t.
Proof. intros H. unfold map_hash. rewrite H. reflexivity. Qed.

(** ** Maps *)
Section Entries.
Variable kt : keyty.
Lemma upsert_at es k e : keys_ok kt (map fst es) -> key_ok kt k ->
  (exists a b, es = a ++ b /\ Forall (fun x => key_lt kt (fst x) k) a /\ Forall (fun x => key_lt kt k (fst x)) b /\ upsert kt es k e = a ++ (k, e) :: b) \/
  (exists a k0 e0 b, es = a ++ (k0, e0) :: b /\ Forall (fun x => key_lt kt (fst x) k) a /\ same_key kt k0 k /\ Forall (fun x => key_lt kt k (fst x)) b /\
                     upsert kt es k e = a ++ (k0, e) :: b).
Proof.
  induction es as [|[k0 e0] es IH]; intros [S F] K.
  - left. exists [], []. repeat split; constructor.
  - inversion S as [|? ? S' SL]; subst. inversion F as [|? ? K0 F']; subst. cbn [map fst] in *. cbn [upsert].
    assert (SL' : Forall (fun x => key_lt kt k0 (fst x)) es) by (rewrite Forall_map in SL; exact SL).
    destruct (compare_spec kt k0 k K0 K) as [[-> C]|[[-> C]|[-> C]]]; cbn.
    + destruct (IH (conj S' F') K) as [(a & b & -> & A & B & U)|(a & k1 & e1 & b & -> & A & Q & B & U)]; rewrite U.
      * left. exists ((k0, e0) :: a), b. repeat split; auto.
      * right. exists ((k0, e0) :: a), k1, e1, b. repeat split; auto.
    + right. exists [], k0, e0, es. repeat split; auto.
      eapply Forall_impl; [|exact SL']. cbn. intros x H. eapply same_lt_l; [apply same_key_sym, C|exact H].
    + left. exists [], ((k0, e0) :: es). repeat split; auto. constructor; [exact C|].
      eapply Forall_impl; [|exact SL']. cbn. intros x H. eapply key_lt_trans; eauto.
Qed.
Lemma put_entry_ok es k e : keys_ok kt (map fst es) -> key_ok kt k -> put_entry kt es k e = Ok (upsert kt es k e).
Proof.
  intros H K. unfold put_entry.
  destruct (upsert_at es k e H K) as [(a & b & -> & A & B & ->)|(a & k0 & e0 & b & -> & A & Q & B & ->)].
  - rewrite (BinarySearch_spec kt _ k (map fst a) [] (map fst b) H K).
    2:{ split; [rewrite map_app; reflexivity|]. repeat split; [rewrite Forall_map; exact A|rewrite Forall_map; exact B|left; reflexivity]. }
    cbn [bind]. unfold slices_insert. rewrite !len_map, len_app. pose proof (len_nonneg a). pose proof (len_nonneg b).
    replace ((0 <=? len a) && (len a <=? len a + len b)) with true by lia.
    rewrite take_app_exact, drop_app_exact by reflexivity. reflexivity.
  - rewrite (BinarySearch_spec kt _ k (map fst a) [k0] (map fst b) H K).
    2:{ split; [rewrite map_app; reflexivity|]. repeat split; [rewrite Forall_map; exact A|rewrite Forall_map; exact B|right; exists k0; auto]. }
    cbn [bind]. rewrite len_map. rewrite (index_app a (k0, e0) b (len a) eq_refl). cbn [bind]. f_equal. apply upd_app.
Qed.
Lemma upsert_keys es k e : keys_ok kt (map fst es) -> key_ok kt k -> keys_ok kt (map fst (upsert kt es k e)).
Proof.
  intros H K.
  destruct (upsert_at es k e H K) as [(a & b & -> & A & B & ->)|(a & k0 & e0 & b & -> & A & Q & B & ->)]; rewrite !map_app in *.
  - destruct H as [S F]. apply sorted_app in S as (Sa & Sb & Sab). apply Forall_app in F as [Fa Fb]. split.
    + apply sorted_app. split; [exact Sa|]. split.
      * cbn. constructor; [exact Sb|]. rewrite Forall_map. exact B.
      * cbn. rewrite Forall_map in Sab |- *. rewrite Forall_forall in A, Sab |- *. intros x I. constructor; auto.
    + apply Forall_app. split; [exact Fa|]. constructor; assumption.
  - exact H.
Qed.
End Entries.

(** ** Structs with their declared fields *)
Lemma struct_of_assoc decl x n ty : struct_of decl x -> assoc n decl = Some ty -> exists old, assoc n x = Some old /\ shaped ty old.
Proof.
  induction 1 as [|[n1 t1] [n2 v2] decl x [Q S] _ IH]; cbn; [discriminate|]. cbn in Q, S. subst n2.
  destruct (bytes_eqb n n1); [|exact IH]. intros H. inversion H. subst. eauto.
Qed.
Lemma struct_of_set decl x n ty v : struct_of decl x -> assoc n decl = Some ty -> shaped ty v -> struct_of decl (set_field n v x).
Proof.
  induction 1 as [|[n1 t1] [n2 v2] decl x [Q S] F IH]; cbn; [discriminate|]. cbn in Q, S. subst n2.
  destruct (bytes_eqb n n1); intros H Sv.
  - inversion H. subst. constructor; [split; auto|exact F].
  - constructor; [split; auto|]. apply IH; auto.
Qed.
Lemma shaped_zero t : shaped t (zero_value t).
Proof. destruct t; cbn; auto. repeat split; constructor. Qed.
Lemma struct_of_fresh E id : struct_of (snd (E id)) (blank E id).
Proof.
  unfold blank, struct_of. induction (snd (E id)) as [|[n t] l IH]; cbn; constructor; auto. split; [reflexivity|apply shaped_zero].
Qed.

Section Main.
Variable E : env.
Variable ig : bool.
Notation known := (known E ig skippable).
Notation fits := (fits E ig skippable).
Notation merge := (merge E).
Notation absorb := (absorb E).

Definition mstep (id : nat) (x : list (bytes * fval)) (nv : bytes * fval) : list (bytes * fval) :=
  match assoc (fst nv) (snd (E id)), assoc (fst nv) x with
  | Some ty, Some old => set_field (fst nv) (absorb ty old (snd nv)) x
  | _, _ => x
  end.
Lemma merge_eq id x nm fs : merge id x (TMsg nm fs) = fold_left (mstep id) fs x.
Proof. cbn. revert x. induction fs as [|[n v] fs IH]; intros x; cbn; [reflexivity|]. rewrite <- IH. reflexivity. Qed.
Lemma absorb_map kt vt id o kt' vt' es kt0 vt0 :
  absorb (TyMap kt vt id) (FMap kt0 vt0 o) (FMap kt' vt' es) = FMap kt vt (fold_left (fun o ke => upsert kt o (fst ke) (entry E id (snd ke))) es o).
Proof. cbn. f_equal. revert o. induction es as [|[k e] es IH]; intros o; cbn; [reflexivity|]. rewrite <- IH. reflexivity. Qed.

Lemma fold_upsert_keys kt id es : forall o, keys_ok kt (map fst o) -> Forall (fun ke => key_ok kt (fst ke)) es ->
  keys_ok kt (map fst (fold_left (fun o ke => upsert kt o (fst ke) (entry E id (snd ke))) es o)).
Proof.
  induction es as [|[k e] es IH]; intros o H F; cbn; [exact H|]. inversion F as [|? ? K F']; subst. apply IH; [|exact F'].
  apply upsert_keys; assumption.
Qed.
Lemma shaped_absorb ty old v : shaped ty old -> fits ty v -> shaped ty (absorb ty old v).
Proof.
  intros S F. inversion F; subst; try exact I; try reflexivity; try (destruct old; try contradiction; exact S || exact I || reflexivity).
  - destruct old as [| | | | | |kt' vt' o| |]; try contradiction S. destruct S as (-> & -> & S). rewrite absorb_map. do 2 (split; [reflexivity|]).
    apply fold_upsert_keys; [exact S|].
    eapply Forall_impl; [|exact H]. cbn. intros ke [K _]. exact K.
  - destruct x. exact I.
  - destruct l; [exact S|exact I].
Qed.
Lemma struct_of_step id x n v : struct_of (snd (E id)) x -> known_field E ig skippable id n v -> struct_of (snd (E id)) (mstep id x (n, v)).
Proof.
  intros S K. unfold mstep. cbn [fst snd]. inversion K as [? ? ty ? A F|? ? ? A]; subst; rewrite A; [|exact S].
  destruct (struct_of_assoc _ _ _ _ S A) as (old & -> & SO). eapply struct_of_set; eauto. apply shaped_absorb; assumption.
Qed.
Lemma struct_of_merge id m x : struct_of (snd (E id)) x -> known id m -> struct_of (snd (E id)) (merge id x m).
Proof.
  intros S K. inversion K as [? nm fs F]; subst. rewrite merge_eq. clear K. revert x S.
  induction F as [|[n v] fs Hf _ IH]; intros x S; cbn [fold_left]; [exact S|]. apply IH. apply struct_of_step; assumption.
Qed.

Definition sub (m : tmsg) : Prop := forall id n x ts rest, known id m -> struct_of (snd (E id)) x ->
  content ts = mtoks m ++ rest -> (length (content ts) <= n)%nat -> ingest_from E ig n id x ts = Ok (merge id x m, mkTS rest None).

Lemma struct_items_ok n id l : Forall sub l -> Forall (known id) l -> forall k ts t rest,
  content ts = flat_map mtoks l ++ t :: rest -> t_kind t = TListEnd -> (length (content ts) < k)%nat -> (length (content ts) <= n)%nat ->
  struct_items E (ingest_from E ig n) k id ts = Ok (map (fun m => TMsg (fst (E id)) (merge id (blank E id) m)) l, mkTS rest None).
Proof.
  intros FS FK. induction FS as [|m l Hm _ IH]; intros k ts t rest C K L N; (destruct k; [lia|]); cbn [struct_items]; rewrite Peek_content.
  - cbn in C. rewrite C, K. reflexivity.
  - inversion FK as [|? ? Km FK']; subst. cbn [flat_map] in C. rewrite <- app_assoc in C.
    assert (H : exists q, content ts = tok0 TStructStart (match m with TMsg n _ => n end) 0 :: q).
    { destruct m as [nm fs]. rewrite C. eexists. reflexivity. }
    destruct H as [q H]. rewrite H. cbn [t_kind tok0 tkind_eqb].
    assert (C' : content (mkTS q (Some (tok0 TStructStart (match m with TMsg n _ => n end) 0))) = content ts) by (rewrite H; reflexivity).
    rewrite fresh_blank. rewrite (Hm id n (blank E id) _ (flat_map mtoks l ++ t :: rest) Km (struct_of_fresh E id)); [|rewrite C'; exact C|rewrite C'; exact N].
    cbn [bind].
    assert (length (content ts) = (length (mtoks m) + length (flat_map mtoks l ++ t :: rest))%nat) by (rewrite C, app_length; reflexivity).
    assert ((1 <= length (mtoks m))%nat) by (destruct m; cbn; lia).
    rewrite (IH FK' k (mkTS (flat_map mtoks l ++ t :: rest) None) t rest); auto; cbn [content ts_peeked ts_src]; lia.
Qed.

Lemma entry_value_ok n id vt e t ts rest : esub sub e -> efits E ig skippable vt id e -> content ts = ebody e ++ rest ->
  (length (content ts) <= n)%nat ->
  exists ts', entry_value E (ingest_from E ig n) vt id (eentry t vt e) ts = Ok (entry E id e, ts') /\ content ts' = rest.
Proof.
  intros S F C N. inversion F; subst; cbn [eentry entry_value ebody app] in *.
  - exists ts. split; [|exact C]. cbn [entry]. do 3 f_equal. apply get_put. assumption.
  - exists ts. split; [reflexivity|exact C].
  - exists (mkTS rest None). split; [|reflexivity]. rewrite fresh_blank. rewrite (S id n (blank E id) ts rest); auto using struct_of_fresh.
  - exists ts. destruct x as [h d]. split; [|exact C]. cbn [set_any t_bytes]. rewrite map_hash_16 by exact H. reflexivity.
  - exists (mkTS rest None). split; [|reflexivity].
    unfold any_list in C. rewrite <- app_comm_cons in C. rewrite <- app_assoc in C.
    rewrite (list_body_ok ts _ (map any_item l) _ rest C); try reflexivity.
    2:{ apply Forall_forall. intros u I. apply in_map_iff in I. destruct I as (y & <- & _). discriminate. }
    cbn [bind entry]. do 3 f_equal. rewrite map_map. rewrite <- (map_id l) at 2. apply map_ext_in. intros [h d] I.
    rewrite Forall_forall in H. rewrite map_hash_16 by (apply (H _ I)). reflexivity.
Qed.
Lemma tok_key_ok n kt vt k e : key_ok kt k -> efits E ig skippable vt 0%nat e \/ True -> tok_key kt (eentry (entry_tok n kt vt k) vt e) = k.
Proof.
  intros K _. 
  assert (Q : t_key (eentry (entry_tok n kt vt k) vt e) = t_key (entry_tok n kt vt k) /\ t_keyBytes (eentry (entry_tok n kt vt k) vt e) = t_keyBytes (entry_tok n kt vt k)).
  { destruct e as [z|b|o|[[h d]|]|l|]; cbn; try (split; reflexivity). destruct vt; split; reflexivity. }
  destruct Q as [Q1 Q2]. unfold tok_key, getKey. destruct kt as [kd|], k as [z|b]; cbn in K; try contradiction.
  - rewrite Q1. cbn. f_equal. apply get_put, K.
  - rewrite Q2. reflexivity.
Qed.
Lemma map_items_ok n nm id kt vt es : Forall (fun ke => esub sub (snd ke)) es ->
  Forall (fun ke => key_ok kt (fst ke) /\ efits E ig skippable vt id (snd ke)) es -> forall k o ts t rest,
  content ts = etoks nm kt vt es ++ t :: rest -> t_kind t = TMapEnd -> (length (content ts) < k)%nat -> (length (content ts) <= n)%nat ->
  keys_ok kt (map fst o) ->
  map_items E (ingest_from E ig n) k kt vt id o ts = Ok (fold_left (fun o ke => upsert kt o (fst ke) (entry E id (snd ke))) es o, mkTS rest None).
Proof.
  intros FS FK. induction FS as [|[key e] es Hs _ IH]; intros k o ts t rest C K L N KO; (destruct k; [lia|]); cbn [map_items]; rewrite Next_content.
  - cbn in C. rewrite C, K. reflexivity.
  - inversion FK as [|? ? [Kk Ke] FK']; subst. cbn [fst snd] in Hs, Kk, Ke. unfold etoks in C. cbn [flat_map] in C. fold (etoks nm kt vt es) in C.
    rewrite C. rewrite <- !app_comm_cons. rewrite eentry_kind, entry_tok_kind. cbn [tkind_eqb negb].
    rewrite <- app_assoc. rewrite C in L, N. cbn [length app] in L, N. rewrite <- app_assoc in L, N.
    destruct (entry_value_ok n id vt e (entry_tok nm kt vt key) (mkTS (ebody e ++ etoks nm kt vt es ++ t :: rest) None) (etoks nm kt vt es ++ t :: rest) Hs Ke eq_refl)
      as (ts' & EV & CT); [cbn [content ts_peeked ts_src]; lia|].
    rewrite EV. cbn [bind]. rewrite tok_key_ok by auto. rewrite put_entry_ok by assumption. cbn [bind fold_left fst snd].
    rewrite app_length in L, N.
    apply (IH FK' k _ ts' t rest CT K); [rewrite CT; lia|rewrite CT; lia|apply upsert_keys; assumption].
Qed.

Lemma field_ok n ty old nm v ts rest : vsub sub v -> fits ty v -> shaped ty old -> content ts = fbody nm v ++ rest ->
  (length (content ts) <= n)%nat ->
  exists ts', ingest_field E (ingest_from E ig n) ty old (ffield nm v) ts = Ok (absorb ty old v, ts') /\ content ts' = rest.
Proof.
  intros S F SO C N. inversion F; subst.
  - exists ts. split; [|exact C]. cbn [ingest_field]. rewrite tok_num_field by assumption. cbn zeta. rewrite stored_kept, named_label. reflexivity.
  - exists ts. split; [reflexivity|exact C].
  - exists ts. split; [|exact C]. cbn. reflexivity.
  - exists (mkTS rest None). split; [|reflexivity]. cbn [ingest_field ffield t_isNil tok0].
    cbn in S. rewrite fresh_blank. rewrite (S id n (blank E id) ts rest); auto using struct_of_fresh. cbn [bind]. rewrite all_zero_nothing. reflexivity.
  - destruct old as [| | |k0 o| | | | |]; try contradiction SO. cbn in SO. subst k0. destruct l as [|x l].
    + exists ts. split; [|exact C]. cbn. rewrite app_nil_r. reflexivity.
    + exists (mkTS rest None). split; [|reflexivity]. cbn [ingest_field ffield t_isNil tok0].
      cbn [fbody] in C. rewrite <- app_comm_cons in C. rewrite <- app_assoc in C.
      rewrite (list_body_ok ts _ (map (num_item k) (x :: l)) _ rest C); try reflexivity.
      2:{ apply Forall_forall. intros u I. apply in_map_iff in I. destruct I as (y & <- & _). rewrite num_item_kind. discriminate. }
      cbn [bind absorb]. do 4 f_equal. rewrite map_map. apply map_ext_in. intros y I. cbn zeta.
      rewrite Forall_forall in H. rewrite tok_num_item by (apply (H _ I)). rewrite named_label. reflexivity.
  - destruct old as [| | | |s0 o| | | |]; try contradiction SO. cbn in SO. subst s0. destruct l as [|x l].
    + exists ts. split; [|exact C]. cbn. rewrite app_nil_r. reflexivity.
    + exists (mkTS rest None). split; [|reflexivity]. cbn [ingest_field ffield t_isNil tok0].
      cbn [fbody] in C. rewrite <- app_comm_cons in C. rewrite <- app_assoc in C.
      rewrite (list_body_ok ts _ (map (str_item st) (x :: l)) _ rest C); try reflexivity.
      2:{ apply Forall_forall. intros u I. apply in_map_iff in I. destruct I as (y & <- & _). discriminate. }
      cbn [bind absorb]. do 4 f_equal. rewrite map_map. rewrite <- (map_id (x :: l)) at 2. apply map_ext_in. intros y I. reflexivity.
  - destruct old as [| | | | |o| | |]; try contradiction SO. destruct l as [|m l].
    + exists ts. split; [|exact C]. cbn. rewrite app_nil_r. reflexivity.
    + exists (mkTS rest None). split; [|reflexivity]. cbn [ingest_field ffield t_isNil tok0].
      change (fbody nm (FMsgs (m :: l))) with (set_len (len (m :: l)) (tok0 TListStart nm FTListStructs) :: flat_map mtoks (m :: l) ++ [tok0 TListEnd nm 0]) in C.
      rewrite <- app_comm_cons in C. rewrite <- app_assoc in C. change ([tok0 TListEnd nm 0] ++ rest) with (tok0 TListEnd nm 0 :: rest) in C.
      rewrite (expect_ok TListStart _ _ _ C eq_refl). cbn [bind]. rewrite C in N. cbn [length] in N.
      rewrite (struct_items_ok n id (m :: l) S H _ _ (tok0 TListEnd nm 0) rest); [reflexivity|reflexivity|reflexivity| |]; cbn [content ts_peeked ts_src]; [rewrite left_content; cbn [content ts_peeked ts_src]; lia|].
      lia.
  - destruct old as [| | | | | |kt' vt' o| |]; try contradiction SO. destruct SO as (-> & -> & SO). destruct es as [|ke es].
    + exists ts. split; [|exact C]. reflexivity.
    + exists (mkTS rest None). split; [|reflexivity]. rewrite absorb_map. cbn [ingest_field ffield t_isNil tok0 set_map].
      change (fbody nm (FMap kt vt (ke :: es))) with (set_len (len (ke :: es)) (set_map kt vt (tok0 TMapStart nm 0)) :: etoks nm kt vt (ke :: es) ++ [tok0 TMapEnd nm 0]) in C.
      rewrite <- app_comm_cons in C. rewrite <- app_assoc in C. change ([tok0 TMapEnd nm 0] ++ rest) with (tok0 TMapEnd nm 0 :: rest) in C.
      rewrite (expect_ok TMapStart _ _ _ C eq_refl). cbn [bind]. rewrite C in N. cbn [length] in N.
      rewrite (map_items_ok n nm id kt vt (ke :: es) S H _ o _ (tok0 TMapEnd nm 0) rest); [reflexivity|reflexivity|reflexivity| | |exact SO]; cbn [content ts_peeked ts_src]; [rewrite left_content; cbn [content ts_peeked ts_src]; lia|].
      lia.
  - exists ts. split; [|exact C]. reflexivity.
  - exists ts. destruct x as [h d]. split; [|exact C]. cbn. destruct (len d =? 0); [reflexivity|]. cbn in H. unfold hash16 in H. cbn in H. rewrite H. reflexivity.
  - destruct old as [| | | | | | | |o]; try contradiction SO. destruct l as [|x l].
    + exists ts. split; [|exact C]. reflexivity.
    + exists (mkTS rest None). split; [|reflexivity]. cbn [ingest_field ffield t_isNil tok0].
      cbn [fbody] in C. unfold any_list in C. rewrite <- app_comm_cons in C. rewrite <- app_assoc in C.
      rewrite (list_body_ok ts _ (map any_item (x :: l)) _ rest C); try reflexivity.
      2:{ apply Forall_forall. intros u I. apply in_map_iff in I. destruct I as (y & <- & _). discriminate. }
      cbn [bind]. match goal with |- (if ?b then _ else _) = _ => replace b with true end.
      2:{ symmetry. apply forallb_forall. intros u I. apply in_map_iff in I. destruct I as (y & <- & I). rewrite Forall_forall in H.
          apply Z.eqb_eq. exact (H _ I). }
      cbn [absorb]. do 3 f_equal. rewrite map_map. rewrite <- (map_id (x :: l)) at 2. apply map_ext_in. intros [h d] I. reflexivity.
Qed.

Lemma fields_ok n id fs : Forall (fun nv => vsub sub (snd nv)) fs -> Forall (fun nv => known_field E ig skippable id (fst nv) (snd nv)) fs ->
  forall k x ts t rest, content ts = ftoks fs ++ t :: rest -> t_kind t = TStructEnd -> (length (content ts) < k)%nat -> (length (content ts) <= n)%nat ->
  struct_of (snd (E id)) x ->
  fields_loop E ig (ingest_from E ig n) k (snd (E id)) x ts = Ok (fold_left (mstep id) fs x, mkTS rest None).
Proof.
  intros FS FK. induction FS as [|[nm v] fs Hs _ IH]; intros k x ts t rest C K L N SO; (destruct k; [lia|]); cbn [fields_loop]; rewrite Next_content.
  - cbn in C. rewrite C, K. reflexivity.
  - inversion FK as [|? ? Kf FK']; subst. cbn [fst snd] in Hs, Kf. unfold ftoks in C. cbn [flat_map] in C. fold (ftoks fs) in C.
    rewrite C. rewrite <- !app_comm_cons. rewrite ffield_kind, ffield_name. cbn [tkind_eqb negb].
    rewrite <- app_assoc. rewrite C in L, N. cbn [length app] in L, N. rewrite <- app_assoc in L, N.
    assert (SO' := struct_of_step id x nm v SO Kf). cbn [fold_left]. rewrite app_length in L, N.
    unfold mstep at 2. unfold mstep in SO'. cbn [fst snd] in SO' |- *. inversion Kf as [? ? ty ? A F|? ? ? A I O]; subst; rewrite A in SO' |- *.
    + destruct (struct_of_assoc _ _ _ _ SO A) as (old & Q & SH). rewrite Q in SO' |- *.
      destruct (field_ok n ty old nm v (mkTS (fbody nm v ++ ftoks fs ++ t :: rest) None) (ftoks fs ++ t :: rest) Hs F SH eq_refl) as (ts' & EV & CT).
      { cbn [content ts_peeked ts_src]. rewrite app_length. lia. }
      rewrite EV. cbn [bind]. apply (IH FK' k _ ts' t rest CT K); [rewrite CT; lia|rewrite CT; lia|exact SO'].
    + destruct (C37_skip_value_partial nm v (mkTS (fbody nm v ++ ftoks fs ++ t :: rest) None) (ftoks fs ++ t :: rest) O eq_refl) as (ts' & EV & CT).
      replace ig with true by congruence. rewrite EV. cbn [bind]. replace true with ig by congruence.
      apply (IH FK' k _ ts' t rest CT K); [rewrite CT; lia|rewrite CT; lia|exact SO'].
Qed.
Lemma ingest_ok m : sub m.
Proof.
  induction m as [nm fs H] using tmsg_ind'. intros id n x ts rest K S C N. inversion K as [? ? ? F]; subst.
  change (mtoks (TMsg nm fs)) with (tok0 TStructStart nm 0 :: ftoks fs ++ [tok0 TStructEnd nm 0]) in C.
  rewrite <- app_comm_cons in C. rewrite <- app_assoc in C. rewrite C in N. cbn [length app] in N.
  destruct n as [|n]; [lia|]. cbn [ingest_from]. rewrite (expect_ok TStructStart _ _ _ C eq_refl). cbn [bind].
  rewrite (fields_ok n id fs H F _ x _ (tok0 TStructEnd nm 0) rest); [rewrite merge_eq; reflexivity|reflexivity|reflexivity| | |exact S].
  - rewrite left_content. cbn [content ts_peeked ts_src]. lia.
  - cbn [content ts_peeked ts_src app]. lia.
Qed.
Lemma vsub_all (P : tmsg -> Prop) v : (forall m, P m) -> vsub P v.
Proof.
  intros H. destruct v as [| |[]| | | | | |]; cbn; auto; apply Forall_forall; intros x _; auto.
  destruct x as [k e]. destruct e as [| |[]| | |]; cbn; auto.
Qed.
(** The loop after the first fields. *)
Lemma fields_pre n id fs : Forall (fun nv => known_field E ig skippable id (fst nv) (snd nv)) fs ->
  forall k x ts rest, content ts = ftoks fs ++ rest -> (length (content ts) < k)%nat -> (length (content ts) <= n)%nat ->
  struct_of (snd (E id)) x ->
  exists k' ts', fields_loop E ig (ingest_from E ig n) k (snd (E id)) x ts = fields_loop E ig (ingest_from E ig n) k' (snd (E id)) (fold_left (mstep id) fs x) ts' /\
    content ts' = rest /\ (length rest < k')%nat /\ struct_of (snd (E id)) (fold_left (mstep id) fs x).
Proof.
  intros FK. induction FK as [|[nm v] fs Kf _ IH]; intros k x ts rest C L N SO.
  - exists k, ts. cbn in C |- *. rewrite C in L. auto.
  - destruct k as [|k]; [lia|]. cbn [fst snd] in Kf. unfold ftoks in C. cbn [flat_map] in C. fold (ftoks fs) in C.
    cbn [fields_loop]. rewrite Next_content.
    rewrite C. rewrite <- !app_comm_cons. rewrite ffield_kind, ffield_name. cbn [tkind_eqb negb].
    rewrite <- app_assoc. rewrite C in L, N. cbn [length app] in L, N. rewrite <- app_assoc in L, N.
    assert (SO' := struct_of_step id x nm v SO Kf). cbn [fold_left]. rewrite app_length in L, N.
    unfold mstep at 2 4. unfold mstep in SO'. cbn [fst snd] in SO' |- *. inversion Kf as [? ? ty ? A F|? ? ? A I O]; subst; rewrite A in SO' |- *.
    + destruct (struct_of_assoc _ _ _ _ SO A) as (old & Q & SH). rewrite Q in SO' |- *.
      destruct (field_ok n ty old nm v (mkTS (fbody nm v ++ ftoks fs ++ rest) None) (ftoks fs ++ rest) (vsub_all _ _ ingest_ok) F SH eq_refl) as (ts' & EV & CT).
      { cbn [content ts_peeked ts_src]. rewrite app_length. lia. }
      rewrite EV. cbn [bind]. apply (IH k _ ts' rest CT); [rewrite CT; lia|rewrite CT; lia|exact SO'].
    + destruct (C37_skip_value_partial nm v (mkTS (fbody nm v ++ ftoks fs ++ rest) None) (ftoks fs ++ rest) O eq_refl) as (ts' & EV & CT).
      rewrite EV. cbn [bind].
      apply (IH k _ ts' rest CT); [rewrite CT; lia|rewrite CT; lia|exact SO'].
Qed.
Lemma ingest_pre id nm fs x rest : Forall (fun nv => known_field E ig skippable id (fst nv) (snd nv)) fs -> struct_of (snd (E id)) x ->
  exists n k ts, Ingest E ig id x (tok0 TStructStart nm 0 :: ftoks fs ++ rest) =
    bind (fields_loop E ig (ingest_from E ig n) (S k) (snd (E id)) (fold_left (mstep id) fs x) ts) (fun '(x, _) => Ok x) /\
    content ts = rest /\ (length rest <= k)%nat /\ struct_of (snd (E id)) (fold_left (mstep id) fs x).
Proof.
  intros F S. unfold Ingest. cbn [ingest_from]. set (ts := NewTokenStream _). rewrite (expect_ok TStructStart ts (tok0 TStructStart nm 0) (ftoks fs ++ rest) eq_refl eq_refl). cbn [bind].
  destruct (fields_pre (left ts) id fs F (Datatypes.S (left (mkTS (ftoks fs ++ rest) None))) x (mkTS (ftoks fs ++ rest) None) rest eq_refl) as (k' & ts' & EV & C & L & SO); auto.
  - rewrite left_content. lia.
  - unfold ts, NewTokenStream, left. cbn. lia.
  - destruct k' as [|k']; [lia|]. exists (left ts), k', ts'. rewrite EV. repeat split; auto. lia.
Qed.
End Main.
