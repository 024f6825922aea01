(** The JSON reader. *)
From Coq Require Import ZArith List Bool Lia ZifyBool.
Import ListNotations.
From Verif.Model Require Import Base Field MapApi Token Walk TokenStream Ingest JsonRead.
From Verif.Spec Require Import Text Message Values Ingest JsonGrammar JsonRead.
From Verif.Proofs Require Import BaseLemmas TokenVals WalkProofs IngestProofs Rendering.
Open Scope Z_scope.

Section Reads.
Variable intOf : list Z -> Z.
Notation tokens_of := (tokens_of intOf).

Lemma jv_ind' (P : jv -> Prop) :
  P JNull -> (forall b, P (JBool b)) -> (forall l, P (JNum l)) -> (forall rs, P (JStr rs)) ->
  (forall l, Forall P l -> P (JArr l)) -> (forall l, Forall (fun kv => P (snd kv)) l -> P (JObj l)) -> forall v, P v.
Proof.
  intros H1 H2 H3 H4 H5 H6. fix IH 1. intros [| | | |l|l]; [exact H1|apply H2|apply H3|apply H4| |].
  - apply H5. induction l as [|v l IHl]; constructor; [apply IH|exact IHl].
  - apply H6. induction l as [|[k v] l IHl]; constructor; [apply IH|exact IHl].
Qed.

(** The token that announces a value with a name. *)
Definition announce (n : bytes) (ty : Z) : list token := match n with [] => [] | _ => [tok0 TField n ty] end.
Definition start_name (n : bytes) : bytes := match n with [] => root_name | _ => n end.
Fixpoint jout (n : bytes) (v : jv) : list token :=
  match v with
  | JNull => [set_nil (tok0 TField n 0)]
  | JBool b => [setValue KBool (if b then 1 else 0) (tok0 TField n FTBool)]
  | JNum lit => [setValue KI64 (intOf lit) (tok0 TField n 0)]
  | JStr rs => [set_bytes (utf8 rs) (tok0 TField n FTString)]
  | JArr l => announce n 0 ++ tok0 TListStart [] 0 :: flat_map (jout []) l ++ [tok0 TListEnd [] 0]
  | JObj l => announce n FTStruct ++ tok0 TStructStart (start_name n) 0 :: flat_map (fun kv => jout (utf8 (fst kv)) (snd kv)) l ++ [tok0 TStructEnd [] 0]
  end.

Lemma jread_value v : forall s rest, inObject s && expectKey s = false ->
  jread (tokens_of v ++ rest) s = jout (r_name s) v ++ jread rest (setExpectKey true (with_name [] s)).
Proof.
  induction v as [|b|lit|rs|l F|l F] using jv_ind'; intros s rest NK; try reflexivity.
  - cbn [tokens_of app jread jread1 jout]. rewrite NK. reflexivity.
  - cbn [tokens_of]. rewrite <- app_comm_cons, <- app_assoc. cbn [jread jread1 jout app].
    assert (L : forall kb, jread (flat_map tokens_of l ++ JCloseArr :: rest) (mkR (false :: r_ctx s) (kb :: r_key s) []) =
                  flat_map (jout []) l ++ tok0 TListEnd [] 0 :: jread rest (setExpectKey true (with_name [] s))).
    { induction F as [|v l Hv _ IH]; intros kb; [destruct s; reflexivity|]. cbn [flat_map]. rewrite <- app_assoc. rewrite Hv by reflexivity.
      cbn [r_name]. rewrite <- app_assoc. f_equal. apply IH. }
    rewrite L. unfold announce. destruct (r_name s); cbn [app]; rewrite <- app_assoc; reflexivity.
  - cbn [tokens_of]. rewrite <- app_comm_cons, <- app_assoc. cbn [jread jread1 jout app].
    assert (L : jread (flat_map (fun kv => JString (utf8 (fst kv)) :: tokens_of (snd kv)) l ++ JClose :: rest) (mkR (true :: r_ctx s) (true :: r_key s) []) =
                  flat_map (fun kv => jout (utf8 (fst kv)) (snd kv)) l ++ tok0 TStructEnd [] 0 :: jread rest (setExpectKey true (with_name [] s))).
    { induction F as [|[k v] l Hv _ IH]; [destruct s; reflexivity|]. cbn [flat_map fst snd]. rewrite <- !app_comm_cons, <- app_assoc.
      cbn [jread jread1 inObject expectKey r_ctx r_key andb app]. unfold setExpectKey, with_name. cbn [r_ctx r_key r_name].
      cbn [snd] in Hv. rewrite Hv by reflexivity. cbn [r_name]. rewrite <- app_assoc. f_equal. exact IH. }
    rewrite L. unfold announce, start_name. destruct (r_name s); cbn [app]; rewrite <- app_assoc; reflexivity.
Qed.
Lemma jsonToTokens_doc v : jsonToTokens (tokens_of v) = jout [] v.
Proof. unfold jsonToTokens. rewrite <- (app_nil_r (tokens_of v)). rewrite jread_value by reflexivity. cbn [jread r_name]. apply app_nil_r. Qed.

(** ** Passing over a member *)
Lemma sd_jout v : forall n d rest, sd (S d) (jout n v ++ rest) = sd (S d) rest.
Proof.
  induction v as [|b|lit|rs|l F|l F] using jv_ind'; intros n d rest; try reflexivity.
  - cbn [jout]. rewrite <- app_assoc. cbn [app].
    assert (A : forall q, sd (S d) (announce n 0 ++ tok0 TListStart [] 0 :: q) = sd (S d) q) by (intros q; destruct n; reflexivity).
    rewrite A. rewrite <- app_assoc. cbn [app].
    assert (L : forall q, sd (S d) (flat_map (jout []) l ++ q) = sd (S d) q).
    { induction F as [|v l Hv _ IH]; intros q; [reflexivity|]. cbn [flat_map]. rewrite <- app_assoc, Hv. apply IH. }
    rewrite L. reflexivity.
  - cbn [jout]. rewrite <- app_assoc. cbn [app].
    assert (A : forall q, sd (S d) (announce n FTStruct ++ tok0 TStructStart (start_name n) 0 :: q) = sd (S (S d)) q) by (intros q; destruct n; reflexivity).
    rewrite A. rewrite <- app_assoc. cbn [app].
    assert (L : forall q, sd (S (S d)) (flat_map (fun kv => jout (utf8 (fst kv)) (snd kv)) l ++ q) = sd (S (S d)) q).
    { induction F as [|v l Hv _ IH]; intros q; [reflexivity|]. cbn [flat_map]. rewrite <- app_assoc, Hv. apply IH. }
    rewrite L. reflexivity.
Qed.
Lemma passed_skips n v : n <> [] -> match v with JArr _ => False | _ => True end ->
  exists t b, jout n v = t :: b /\ t_kind t = TField /\ t_name t = n /\ skips t b.
Proof.
  intros NN P. destruct v as [|b|lit|rs|l|l]; try destruct P;
    try (do 2 eexists; (split; [reflexivity|]); do 2 (split; [reflexivity|]); intros ts rest C; exists ts; split; [reflexivity|exact C]).
  cbn [jout]. unfold announce. destruct n as [|c n]; [congruence|]. cbn [app]. do 2 eexists. split; [reflexivity|]. do 2 (split; [reflexivity|]).
  intros ts rest C. rewrite <- app_comm_cons, <- app_assoc in C. cbn [app] in C.
  unfold SkipValue. cbn [t_type tok0 t_isNil]. change (FTStruct =? FTStruct) with true. cbv iota. unfold skipStruct. rewrite Next_content, C. cbn [t_kind tok0 tkind_eqb].
  rewrite skip_depth_sd by (rewrite left_content; lia). cbn [content ts_peeked ts_src].
  assert (L : forall l q, sd 1 (flat_map (fun kv => jout (utf8 (fst kv)) (snd kv)) l ++ q) = sd 1 q).
  { clear. induction l as [|v l IH]; intros q; [reflexivity|]. cbn [flat_map]. rewrite <- app_assoc, sd_jout. apply IH. }
  rewrite L. exists (mkTS rest None). split; reflexivity.
Qed.

(** ** From a document that shows a struct to the struct *)
Lemma in_assoc {A} n (x : A) l : NoDup (map fst l) -> In (n, x) l -> assoc n l = Some x.
Proof.
  induction l as [|[m y] l IH]; cbn; intros N I; [tauto|]. apply NoDup_cons_iff in N as (N1 & N2). destruct I as [I|I].
  - inversion I; subst. rewrite bytes_eqb_refl. reflexivity.
  - destruct (bytes_eqb n m) eqn:Q; [|apply IH; auto]. apply bytes_eqb_eq in Q. subst. exfalso. apply N1. apply (in_map fst) in I. exact I.
Qed.
Lemma utf8_nonempty rs : rs <> [] -> utf8 rs <> [].
Proof. destruct rs as [|r rs]; [congruence|]. intros _. unfold utf8. cbn [flat_map]. unfold utf8_of. destruct (r <? 128), (r <? 2048), (r <? 65536); discriminate. Qed.

Hypothesis INT : forall lit v, int_lit lit v -> intOf lit = saturate v.
Lemma get_i64 k z : is_int k -> in_range k z -> z < 2 ^ 63 -> k <> KBool -> getData k (putData KI64 (saturate z)) = z.
Proof.
  intros (N1 & N2) R L NB.
  assert (S : saturate z = z) by (unfold saturate; destruct k; cbn [in_range] in R; lia).
  rewrite S. destruct k; try congruence; try (match goal with |- getData ?k _ = _ => change (getData k (putData k z) = z); apply get_put; exact R end).
  cbn [in_range] in R. unfold putData, getData, u64. apply Z.mod_small. lia.
Qed.
Lemma get_zero k : getData k (putData KI64 (saturate 0)) = 0.
Proof. destruct k; reflexivity. Qed.
Lemma int_stored k z : is_int k -> kept k z = z.
Proof. intros (N1 & N2). destruct k; reflexivity || congruence. Qed.
Lemma zero_stored k : kept k 0 = 0.
Proof. destruct k; reflexivity. Qed.

(** A token that shows a number. *)
Definition shows_num (n : bytes) (j : jv) (k : kind) (e : option (list (bytes * Z))) (z : Z) : Prop :=
  exists t, jout n j = [t] /\ t_kind t = TField /\ t_name t = n /\ tok_num k e t = z /\ kept k z = z.
Lemma num_shown n k e j z : reads_num k e j z -> shows_num n j k e z.
Proof.
  intros R. destruct R as [e b|k e lit z KI NB L IR LT|k e lit L|k e|k tbl rs z ST NN I D|k e]; eexists; (split; [reflexivity|]); do 2 (split; [reflexivity|]).
  - split; [destruct e, b; reflexivity|reflexivity].
  - split; [|apply int_stored; exact KI]. unfold tok_num. cbn [t_bytes setValue tok0]. rewrite (INT lit z L).
    destruct e; apply get_i64; assumption.
  - split; [|apply zero_stored]. unfold tok_num. cbn [t_bytes setValue tok0]. rewrite (INT lit 0 L). destruct e; apply get_zero.
  - split; [|apply zero_stored]. destruct e, k; reflexivity.
  - split; [|exact ST]. unfold tok_num. cbn [t_bytes set_bytes tok0].
    replace (0 <? len (utf8 rs)) with true by (symmetry; apply Z.ltb_lt; pose proof (utf8_nonempty rs NN); destruct (utf8 rs); [congruence|rewrite len_cons; pose proof (len_nonneg l); lia]).
    unfold by_name. rewrite (in_assoc _ _ _ D I). reflexivity.
  - split; [|apply zero_stored]. destruct e, k; reflexivity.
Qed.
Lemma str_shown n st j b : reads_str st j b -> exists t, jout n j = [t] /\ t_kind t = TField /\ t_name t = n /\ t_bytes t = b.
Proof. intros [rs| |st']; eexists; (split; [reflexivity|]); auto. Qed.

(** The fields of a struct when the members [l] are still to come. *)
Definition to_come (l : list (list Z * jv)) (n : bytes) : bool := existsb (fun kv => bytes_eqb n (utf8 (fst kv))) l.
Fixpoint pending (l : list (list Z * jv)) (decl : list (bytes * fty)) (fs : list (bytes * fval)) : list (bytes * fval) :=
  match decl, fs with
  | (n, ty) :: decl, (_, v) :: fs => (n, if to_come l n then zero_value ty else v) :: pending l decl fs
  | _, _ => []
  end.
Lemma to_come_in l n : to_come l n = true <-> In n (map (fun kv => utf8 (fst kv)) l).
Proof.
  unfold to_come. rewrite existsb_exists, in_map_iff. split; intros ([rs j] & A & B).
  - apply bytes_eqb_eq in B. eauto.
  - exists (rs, j). split; [exact B|]. rewrite <- A. apply bytes_eqb_refl.
Qed.
Lemma pending_nil decl fs : Forall2 (fun nt nv => fst nt = fst nv) decl fs -> pending [] decl fs = fs.
Proof. induction 1 as [|[n ty] [n' v] decl fs H _ IH]; [reflexivity|]. cbn in *. subst. rewrite IH. reflexivity. Qed.
Lemma pending_assoc l decl fs n ty : Forall2 (fun nt nv => fst nt = fst nv) decl fs -> to_come l n = true -> assoc n decl = Some ty ->
  assoc n (pending l decl fs) = Some (zero_value ty).
Proof.
  intros F T. induction F as [|[m t] [m' v] decl fs H _ IH]; cbn; [discriminate|]. intros A. destruct (bytes_eqb n m) eqn:Q; [|exact (IH A)].
  apply bytes_eqb_eq in Q. subst m. rewrite T. inversion A. reflexivity.
Qed.
Lemma pending_set l rs j decl fs v : Forall2 (fun nt nv => fst nt = fst nv) decl fs -> NoDup (map fst decl) -> In (utf8 rs, v) fs -> to_come l (utf8 rs) = false ->
  set_field (utf8 rs) v (pending ((rs, j) :: l) decl fs) = pending l decl fs.
Proof.
  intros F. induction F as [|[m t] [m' w] decl fs H F IH]; intros ND I T; [destruct I|]. cbn [fst] in H. subst m'. cbn [map fst] in ND. apply NoDup_cons_iff in ND as (N1 & N2).
  cbn [pending set_field]. destruct (bytes_eqb (utf8 rs) m) eqn:Q.
  - apply bytes_eqb_eq in Q. subst m. rewrite T. f_equal.
    + destruct I as [I|I]; [inversion I; reflexivity|]. exfalso. apply N1. clear -I F. induction F as [|[a b] [a' c] ? ? H ? IH]; [destruct I|]. cbn in *. subst.
      destruct I as [I|I]; [inversion I; auto|right; auto].
    + clear -F N1. induction F as [|[a b] [a' c] decl fs H F IH]; [reflexivity|]. cbn [pending map fst] in *. cbn [to_come existsb fst].
      destruct (bytes_eqb a (utf8 rs)) eqn:Q; [apply bytes_eqb_eq in Q; subst; exfalso; apply N1; left; reflexivity|]. cbn [orb]. unfold to_come in IH. rewrite IH by (intros X; apply N1; right; exact X). reflexivity.
  - destruct I as [I|I]; [inversion I; subst; rewrite bytes_eqb_refl in Q; discriminate|]. rewrite IH by assumption. f_equal. f_equal.
    cbn [to_come existsb fst]. replace (bytes_eqb m (utf8 rs)) with false; [reflexivity|]. symmetry. apply not_true_is_false. intros X. apply bytes_eqb_eq in X. subst. rewrite bytes_eqb_refl in Q. discriminate.
Qed.
Lemma pending_same l rs j decl fs : ~ In (utf8 rs) (map fst decl) -> pending ((rs, j) :: l) decl fs = pending l decl fs.
Proof.
  revert fs. induction decl as [|[m t] decl IH]; intros fs N; [reflexivity|]. destruct fs as [|[m' w] fs]; [reflexivity|]. cbn [pending map fst] in *. cbn [to_come existsb fst].
  destruct (bytes_eqb m (utf8 rs)) eqn:Q; [apply bytes_eqb_eq in Q; subst; exfalso; apply N; left; reflexivity|]. cbn [orb]. rewrite IH by (intros X; apply N; right; exact X). reflexivity.
Qed.
Lemma assoc_in {A} n (l : list (bytes * A)) : In n (map fst l) -> exists x, assoc n l = Some x /\ In (n, x) l.
Proof.
  induction l as [|[m y] l IH]; cbn; [tauto|]. intros I. destruct (bytes_eqb n m) eqn:Q; [apply bytes_eqb_eq in Q; subst; eauto|].
  destruct I as [->|I]; [rewrite bytes_eqb_refl in Q; discriminate|]. destruct (IH I) as (x & A1 & A2). eauto.
Qed.
Lemma assoc_none {A} n (l : list (bytes * A)) : ~ In n (map fst l) -> assoc n l = None.
Proof.
  induction l as [|[m y] l IH]; cbn; [reflexivity|]. intros I. destruct (bytes_eqb n m) eqn:Q; [apply bytes_eqb_eq in Q; subst; exfalso; apply I; auto|]. apply IH. tauto.
Qed.

Variable E : env.
Variable ig : bool.
Hypothesis ND : names_differ E.
Hypothesis NE : forall id, ~ In [] (map fst (snd (E id))).
(** The names of the members are different as strings of bytes. *)
Inductive udistinct : jv -> Prop :=
| ud_null : udistinct JNull
| ud_bool b : udistinct (JBool b)
| ud_num lit : udistinct (JNum lit)
| ud_str rs : udistinct (JStr rs)
| ud_arr l : Forall udistinct l -> udistinct (JArr l)
| ud_obj l : NoDup (map (fun kv => utf8 (fst kv)) l) -> Forall (fun kv => udistinct (snd kv)) l -> udistinct (JObj l).

Definition shown (j : jv) : Prop := udistinct j ->
  (forall ty v n, n <> [] -> reads E ig ty j v -> exists t b, jout n j = t :: b /\ t_kind t = TField /\ t_name t = n /\ rval E ig ty v t b) /\
  (forall id fs, reads_msg E ig id j fs -> exists l, j = JObj l /\ forall s e, t_kind s = TStructStart -> t_kind e = TStructEnd ->
     rmsg E ig id fs (s :: flat_map (fun kv => jout (utf8 (fst kv)) (snd kv)) l ++ [e])).
Lemma num_val n k e j z : reads_num k e j z -> exists t b, jout n j = t :: b /\ t_kind t = TField /\ t_name t = n /\ rval E ig (TyNum k e) (FNum k z (enum_label e z)) t b.
Proof.
  intros R. destruct (num_shown n k e j z R) as (t & J & K & N & T & S). exists t, []. do 3 (split; [assumption|]). constructor. rewrite T. exact S.
Qed.
Lemma str_val n st j b : reads_str st j b -> exists t q, jout n j = t :: q /\ t_kind t = TField /\ t_name t = n /\ rval E ig (TyStr st) (FStr st b) t q.
Proof. intros R. destruct (str_shown n st j b R) as (t & J & K & N & T). exists t, []. do 3 (split; [assumption|]). constructor. exact T. Qed.
Lemma null_val n ty : exists t b, jout n JNull = t :: b /\ t_kind t = TField /\ t_name t = n /\ rval E ig ty (zero_value ty) t b.
Proof.
  destruct ty; try (do 2 eexists; (split; [reflexivity|]); do 2 (split; [reflexivity|]); constructor; reflexivity).
  destruct (num_val n k e JNull 0 (rn_null k e)) as (t & b & X). exists t, b. exact X.
Qed.
Lemma all_shown j : shown j.
Proof.
  induction j as [|b|lit|rs|l F|l F] using jv_ind'; intros U.
  1-4: split; [|intros id fs R; inversion R]; intros ty v n NN R; inversion R; subst; try apply null_val; try (apply num_val; assumption); try (apply str_val; assumption);
    match goal with H : reads_msg _ _ _ _ _ |- _ => inversion H end.
  - inversion U as [| | | |? UF|]; subst. split; [|intros id fs R; inversion R]. intros ty v n NN R. inversion R; subst; try (match goal with H : reads_msg _ _ _ _ _ |- _ => inversion H end; fail);
      try (match goal with H : reads_num _ _ _ _ |- _ => inversion H end; fail); try (match goal with H : reads_str _ _ _ |- _ => inversion H end; fail).
    + cbn [jout]. unfold announce. destruct n as [|c n]; [congruence|]. cbn [app]. do 2 eexists. split; [reflexivity|]. do 2 (split; [reflexivity|]). constructor; auto.
      match goal with H : Forall2 _ l _ |- _ => rename H into G end. clear -G INT. induction G as [|j [z nm] js l (H & N) _ IH]; [constructor|]. cbn [fst snd flat_map] in *. subst nm.
      destruct (num_shown [] k e j z H) as (t & J & K & N & T & _). rewrite J. constructor; [split; [exact K|split; [exact T|reflexivity]]|exact IH].
    + cbn [jout]. unfold announce. destruct n as [|c n]; [congruence|]. cbn [app]. do 2 eexists. split; [reflexivity|]. do 2 (split; [reflexivity|]). constructor; auto.
      match goal with H : Forall2 _ l _ |- _ => rename H into G end. clear -G. induction G as [|j b js l H _ IH]; [constructor|]. cbn [flat_map].
      destruct (str_shown [] st j b H) as (t & J & K & N & T). rewrite J. constructor; [split; [exact K|exact T]|exact IH].
    + cbn [jout]. unfold announce. destruct n as [|c n]; [congruence|]. cbn [app]. do 2 eexists. split; [reflexivity|]. do 2 (split; [reflexivity|]). constructor; auto.
      match goal with H : Forall2 _ l _ |- _ => rename H into G end. clear -G F UF. induction G as [|j m js l (fs & -> & H) _ IH]; [constructor|]. cbn [flat_map].
      inversion F as [|? ? Fj F']; subst. inversion UF as [|? ? Uj U']; subst. destruct (proj2 (Fj Uj) id fs H) as (ms & -> & X).
      constructor; [|apply IH; assumption]. apply (X (tok0 TStructStart root_name 0) (tok0 TStructEnd [] 0)); reflexivity.
  - inversion U as [| | | | |? UN UF]; subst.
    assert (M : forall id fs, reads_msg E ig id (JObj l) fs -> forall s e, t_kind s = TStructStart -> t_kind e = TStructEnd ->
                 rmsg E ig id fs (s :: flat_map (fun kv => jout (utf8 (fst kv)) (snd kv)) l ++ [e])).
    { intros id fs R s e Ks Ke. inversion R as [? ? ? G D]; subst. constructor; auto.
      assert (FS : Forall2 (fun nt nv => fst nt = fst nv) (snd (E id)) fs) by (clear -G; induction G as [|? ? ? ? (H & _)]; constructor; auto).
      assert (FR : blank E id = pending l (snd (E id)) fs).
      { unfold blank. clear -G. induction G as [|[n ty] [n' v] decl fs (H & C) _ IH]; [reflexivity|]. cbn [map pending fst snd] in *. rewrite IH. f_equal. f_equal.
        destruct (to_come l n) eqn:T; [reflexivity|]. destruct C as [(rs & j & I & EQ & _)|(_ & ->)]; [|reflexivity].
        exfalso. assert (to_come l n = true) by (apply to_come_in, in_map_iff; exists (rs, j); auto). congruence. }
      rewrite FR. 
      assert (X : forall pre post, l = pre ++ post -> rfields E ig id (pending post (snd (E id)) fs) (flat_map (fun kv => jout (utf8 (fst kv)) (snd kv)) post) fs).
      { intros pre post. revert pre. induction post as [|[rs j] post IH]; intros pre EQ; [rewrite pending_nil by exact FS; constructor|].
        cbn [flat_map fst snd]. assert (I : In (rs, j) l) by (rewrite EQ; apply in_elt).
        assert (NI : ~ In (utf8 rs) (map (fun kv => utf8 (fst kv)) post)).
        { rewrite EQ, map_app in UN. cbn [map fst] in UN. apply NoDup_remove_2 in UN. intros X. apply UN. apply in_or_app. right. exact X. }
        assert (UJ : udistinct j) by (rewrite Forall_forall in UF; apply (UF _ I)). rewrite Forall_forall in F. pose proof (F _ I UJ) as (SH & _). cbn [snd] in SH.
        rewrite Forall_forall in D. specialize (D _ I). cbn [fst] in D.
        assert (IH' : rfields E ig id (pending post (snd (E id)) fs) (flat_map (fun kv => jout (utf8 (fst kv)) (snd kv)) post) fs) by (apply (IH (pre ++ [(rs, j)])); rewrite <- app_assoc; exact EQ).
        destruct (in_dec (list_eq_dec Z.eq_dec) (utf8 rs) (map fst (snd (E id)))) as [DI|DN].
        - destruct (assoc_in _ _ DI) as (ty & A & IN).
          assert (V : exists v, In (utf8 rs, v) fs /\ reads E ig ty j v).
          { pose proof (ND id) as ND'. clear -G IN UN I ND'. induction G as [|[n t] [n' v] decl fs (H & C) _ IHG]; [destruct IN|]. cbn [fst snd] in *. subst n'.
            cbn [map fst] in ND'. inversion ND'; subst. destruct IN as [IN|IN].
            - inversion IN; subst. destruct C as [(rs' & j' & I' & EQ' & R)|(NI & _)].
              + exists v. split; [left; reflexivity|]. assert (j' = j) as ->; [|exact R].
                clear -UN I I' EQ'. induction l as [|[a b] l IH]; [destruct I|]. cbn [map fst] in UN. inversion UN as [|? ? U1 U2]; subst.
                destruct I as [I|I], I' as [I'|I'].
                * congruence.
                * exfalso. apply U1. apply in_map_iff. exists (rs', j'). split; [injection I as -> ->; symmetry; exact EQ'|exact I'].
                * exfalso. apply U1. apply in_map_iff. exists (rs, j). split; [injection I' as -> ->; exact EQ'|exact I].
                * apply IH; assumption.
              + exfalso. apply NI. apply in_map_iff. exists (rs, j). auto.
            - destruct IHG as (v' & A1 & A2); auto. exists v'. split; [right; exact A1|exact A2]. }
          destruct V as (v & VI & VR).
          assert (NN : utf8 rs <> []) by (intros Q; apply (NE id); rewrite <- Q; exact DI).
          destruct (SH ty v (utf8 rs) NN VR) as (t & b & J & K & N & RV). rewrite J. rewrite <- app_comm_cons.
          apply rf_cons with (ty := ty) (v := v); auto; rewrite ?N; auto.
          + apply pending_assoc; auto. apply to_come_in. left. reflexivity.
          + rewrite pending_set; auto. apply not_true_is_false. intros X. apply NI. apply to_come_in. exact X.
        - destruct D as [D|(IG & P)]; [tauto|]. destruct P as (P1 & P2). cbn [fst snd] in *.
          destruct (passed_skips (utf8 rs) j (utf8_nonempty rs P1) P2) as (t & b & J & K & N & SK). rewrite J. rewrite <- app_comm_cons.
          rewrite pending_same by exact DN. apply rf_skip; auto. rewrite N. apply assoc_none. exact DN. }
      apply (X [] l eq_refl). }
    split; [|intros id fs R; exists l; split; [reflexivity|]; apply M; exact R].
    intros ty v n NN R. inversion R; subst;
      try (match goal with H : reads_num _ _ _ _ |- _ => inversion H end; fail); try (match goal with H : reads_str _ _ _ |- _ => inversion H end; fail).
    + cbn [jout]. unfold announce. destruct n as [|c n]; [congruence|]. cbn [app]. do 2 eexists. split; [reflexivity|]. do 2 (split; [reflexivity|]). constructor; auto.
    + cbn [jout]. unfold announce. destruct n as [|c n]; [congruence|]. cbn [app]. do 2 eexists. split; [reflexivity|]. do 2 (split; [reflexivity|]). apply rv_zero with (fs := fs); auto.
Qed.
Theorem reads_ingest id j fs : udistinct j -> reads_msg E ig id j fs -> Ingest E ig id (blank E id) (jsonToTokens (tokens_of j)) = Ok fs.
Proof.
  intros U R. rewrite jsonToTokens_doc. destruct (proj2 (all_shown j U) id fs R) as (l & -> & X).
  rewrite <- (app_nil_r (jout [] (JObj l))). apply render_ingest. cbn [jout announce app]. apply X; reflexivity.
Qed.
End Reads.
