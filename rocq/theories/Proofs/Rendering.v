(** Token sequences that show a struct of a declared type, and that Ingest reads them as that struct.
    They need not be what Walk emits: the readers of JSON and of clawtext leave out most of the
    parts of a token. *)
From Coq Require Import ZArith List Bool Lia.
Import ListNotations.
From Verif.Model Require Import Base Field MapApi Token Walk TokenStream Ingest.
From Verif.Spec Require Import Message MapSpec Values Ingest.
From Verif.Proofs Require Import BaseLemmas WalkProofs ValuesProofs IngestProofs IngestWhole.
From Verif.Properties Require Import Tokens.
Open Scope Z_scope.

Section Render.
Variable E : env.
Variable ig : bool.
(** The types whose values a nil token leaves alone. *)
Definition nillable (ty : fty) : bool :=
  match ty with TyNum _ _ | TyStr _ => false | _ => true end.
Definition num_tok (k : kind) (e : option (list (bytes * Z))) (z : Z * option bytes) (t : token) : Prop :=
  t_kind t = TField /\ tok_num k e t = fst z /\ snd z = enum_label e (fst z).
(** The tokens [b] after the unknown field [t] are those SkipValue takes. *)
Definition skips (t : token) (b : list token) : Prop :=
  forall ts rest, content ts = b ++ rest -> exists ts', SkipValue ts t = Ok ts' /\ content ts' = rest.
(** [rfields id x l y]: the tokens [l] make of the fields [x] the fields [y]; each sets a field that is
    still zero. *)
Inductive rmsg : nat -> list (bytes * fval) -> list token -> Prop :=
| rm_ id fs s body e : t_kind s = TStructStart -> t_kind e = TStructEnd -> rfields id (blank E id) body fs -> rmsg id fs (s :: body ++ [e])
with rfields : nat -> list (bytes * fval) -> list token -> list (bytes * fval) -> Prop :=
| rf_nil id x : rfields id x [] x
| rf_cons id x ty v t b q y : t_kind t = TField -> assoc (t_name t) (snd (E id)) = Some ty -> assoc (t_name t) x = Some (zero_value ty) ->
    rval ty v t b -> rfields id (set_field (t_name t) v x) q y -> rfields id x (t :: b ++ q) y
| rf_skip id x t b q y : t_kind t = TField -> ig = true -> assoc (t_name t) (snd (E id)) = None -> skips t b -> rfields id x q y -> rfields id x (t :: b ++ q) y
with rval : fty -> fval -> token -> list token -> Prop :=
| rv_num k e z t : kept k (tok_num k e t) = z -> rval (TyNum k e) (FNum k z (enum_label e z)) t []
| rv_str st b t : t_bytes t = b -> rval (TyStr st) (FStr st b) t []
| rv_nil ty t : nillable ty = true -> t_isNil t = true -> rval ty (zero_value ty) t []
| rv_msg id fs t b : t_isNil t = false -> rmsg id fs b -> nothing_set fs = false ->
    rval (TyMsg id) (FMsg (Some (TMsg (fst (E id)) fs))) t b
| rv_zero id fs t b : t_isNil t = false -> rmsg id fs b -> nothing_set fs = true -> rval (TyMsg id) (FMsg None) t b
| rv_nums k e l t s items z : t_isNil t = false -> t_kind s = TListStart -> t_kind z = TListEnd -> Forall2 (num_tok k e) l items ->
    rval (TyNums k e) (FNums k l) t (s :: items ++ [z])
| rv_strs st l t s items z : t_isNil t = false -> t_kind s = TListStart -> t_kind z = TListEnd ->
    Forall2 (fun b u => t_kind u = TField /\ t_bytes u = b) l items ->
    rval (TyStrs st) (FStrs st l) t (s :: items ++ [z])
| rv_msgs id l t s b z : t_isNil t = false -> t_kind s = TListStart -> t_kind z = TListEnd -> rmsgs id l b ->
    rval (TyMsgs id) (FMsgs l) t (s :: b ++ [z])
| rv_map kt vt id es t s b z : t_isNil t = false -> t_kind s = TMapStart -> t_kind z = TMapEnd -> rentries kt vt id [] b es ->
    rval (TyMap kt vt id) (FMap kt vt es) t (s :: b ++ [z])
with rmsgs : nat -> list tmsg -> list token -> Prop :=
| rs_nil id : rmsgs id [] []
| rs_cons id fs l b q : rmsg id fs b -> rmsgs id l q -> rmsgs id (TMsg (fst (E id)) fs :: l) (b ++ q)
(** The tokens make of the entries [es] the entries [es']. *)
with rentries : keyty -> valty -> nat -> list (mkey * mentry) -> list token -> list (mkey * mentry) -> Prop :=
| re_nil kt vt id es : rentries kt vt id es [] es
| re_cons kt vt id es t b q e es1 es' : t_kind t = TMapEntry -> rentry vt id e t b -> put_entry kt es (tok_key kt t) e = Ok es1 ->
    rentries kt vt id es1 q es' -> rentries kt vt id es (t :: b ++ q) es'
with rentry : valty -> nat -> mentry -> token -> list token -> Prop :=
| ry_num k id t : rentry (VTNum k) id (ENum (getValue k t)) t []
| ry_str id t : rentry VTStr id (EStr (t_bytes t)) t []
| ry_msg id fs t b : rmsg id fs b -> rentry VTStruct id (EMsg (Some (TMsg (fst (E id)) fs))) t b.
Scheme rmsg_ind' := Minimality for rmsg Sort Prop
  with rfields_ind' := Minimality for rfields Sort Prop
  with rval_ind' := Minimality for rval Sort Prop
  with rmsgs_ind' := Minimality for rmsgs Sort Prop
  with rentries_ind' := Minimality for rentries Sort Prop
  with rentry_ind' := Minimality for rentry Sort Prop.
Combined Scheme r_ind from rmsg_ind', rfields_ind', rval_ind', rmsgs_ind', rentries_ind', rentry_ind'.

Lemma rmsg_start id fs ts : rmsg id fs ts -> exists s q, ts = s :: q /\ t_kind s = TStructStart.
Proof. intros H. inversion H; subst. eauto. Qed.

Theorem render_all :
  (forall id fs l, rmsg id fs l -> forall n ts rest, content ts = l ++ rest -> (length (content ts) <= n)%nat ->
     ingest_from E ig n id (blank E id) ts = Ok (fs, mkTS rest None)) /\
  (forall id x l y, rfields id x l y -> forall n k ts t rest, content ts = l ++ t :: rest -> t_kind t = TStructEnd ->
     (length (content ts) < k)%nat -> (length (content ts) <= n)%nat ->
     fields_loop E ig (ingest_from E ig n) k (snd (E id)) x ts = Ok (y, mkTS rest None)) /\
  (forall ty v t l, rval ty v t l -> forall n ts rest, content ts = l ++ rest -> (length (content ts) <= n)%nat ->
     exists ts', ingest_field E (ingest_from E ig n) ty (zero_value ty) t ts = Ok (v, ts') /\ content ts' = rest) /\
  (forall id ms l, rmsgs id ms l -> forall n k ts t rest, content ts = l ++ t :: rest -> t_kind t = TListEnd ->
     (length (content ts) < k)%nat -> (length (content ts) <= n)%nat ->
     struct_items E (ingest_from E ig n) k id ts = Ok (ms, mkTS rest None)) /\
  (forall kt vt id es l es', rentries kt vt id es l es' -> forall n k ts t rest, content ts = l ++ t :: rest -> t_kind t = TMapEnd ->
     (length (content ts) < k)%nat -> (length (content ts) <= n)%nat ->
     map_items E (ingest_from E ig n) k kt vt id es ts = Ok (es', mkTS rest None)) /\
  (forall vt id e t l, rentry vt id e t l -> forall n ts rest, content ts = l ++ rest -> (length (content ts) <= n)%nat ->
     exists ts', entry_value E (ingest_from E ig n) vt id t ts = Ok (e, ts') /\ content ts' = rest).
Proof.
  apply r_ind.
  - (* struct *)
    intros id fs s body e Ks Ke _ IH n ts rest C N. rewrite <- app_comm_cons, <- app_assoc in C. cbn [app] in C. rewrite C in N. cbn [length] in N.
    destruct n as [|n]; [lia|]. cbn [ingest_from]. rewrite (expect_ok TStructStart _ _ _ C Ks). cbn [bind].
    apply (IH n _ (mkTS (body ++ e :: rest) None) e rest eq_refl Ke).
    + rewrite left_content. cbn [content ts_peeked ts_src]. lia.
    + cbn [content ts_peeked ts_src]. lia.
  - (* no fields *)
    intros id x n k ts t rest C K L N. destruct k; [lia|]. cbn [fields_loop]. rewrite Next_content. cbn in C. rewrite C, K. reflexivity.
  - (* a field *)
    intros id x ty v t0 b q y Kt At Ax _ IHv _ IHf n k ts t rest C K L N. destruct k; [lia|].
    cbn [fields_loop]. rewrite Next_content, C. rewrite <- !app_comm_cons. rewrite Kt. cbn [tkind_eqb negb]. rewrite At, Ax.
    rewrite C in L, N. rewrite <- app_comm_cons in L, N. cbn [length] in L, N. rewrite <- app_assoc in L, N |- *.
    destruct (IHv n (mkTS (b ++ q ++ t :: rest) None) (q ++ t :: rest) eq_refl) as (ts' & -> & C'); [cbn [content ts_peeked ts_src]; lia|]. cbn [bind].
    rewrite app_length in L, N. apply (IHf n k ts' t rest); auto; rewrite C'; lia.
  - (* an unknown field *)
    intros id x t0 b q y Kt IG At SK _ IHf n k ts t rest C K L N. destruct k; [lia|].
    cbn [fields_loop]. rewrite Next_content, C. rewrite <- !app_comm_cons. rewrite Kt. cbn [tkind_eqb negb]. rewrite At, IG. rewrite IG in IHf.
    rewrite C in L, N. rewrite <- app_comm_cons in L, N. cbn [length] in L, N. rewrite <- app_assoc in L, N |- *.
    destruct (SK (mkTS (b ++ q ++ t :: rest) None) (q ++ t :: rest) eq_refl) as (ts' & -> & C'). cbn [bind].
    rewrite app_length in L, N. apply (IHf n k ts' t rest); auto; rewrite C'; lia.
  - intros k e z t Z n ts rest C N. exists ts. split; [|exact C]. cbn [ingest_field zero_value]. rewrite stored_kept, named_label, Z. reflexivity.
  - intros st b t B n ts rest C N. exists ts. split; [|exact C]. cbn [ingest_field zero_value]. rewrite B. reflexivity.
  - intros ty t NI I n ts rest C N. exists ts. split; [|exact C]. destruct ty; try discriminate NI; cbn [ingest_field zero_value]; rewrite I; reflexivity.
  - intros id fs t b I _ IH Z n ts rest C N. exists (mkTS rest None). split; [|reflexivity]. cbn [ingest_field zero_value]. rewrite I.
    rewrite fresh_blank, (IH n ts rest C N). cbn [bind]. rewrite all_zero_nothing, Z. reflexivity.
  - intros id fs t b I _ IH Z n ts rest C N. exists (mkTS rest None). split; [|reflexivity]. cbn [ingest_field zero_value]. rewrite I.
    rewrite fresh_blank, (IH n ts rest C N). cbn [bind]. rewrite all_zero_nothing, Z. reflexivity.
  - intros k e l t s items z I Ks Kz F n ts rest C N. exists (mkTS rest None). split; [|reflexivity]. cbn [ingest_field zero_value]. rewrite I.
    rewrite <- app_comm_cons, <- app_assoc in C.
    rewrite (list_body_ok ts s items z rest C Ks); [|clear -F; induction F as [|? ? ? ? [H _]]; constructor; auto; congruence|exact Kz].
    cbn [bind app]. do 3 f_equal. clear -F. induction F as [|[y nm] u l items (_ & H & Hn) _ IH]; cbn; [reflexivity|]. cbn in H, Hn. rewrite H, IH, named_label, <- Hn. reflexivity.
  - intros st l t s items z I Ks Kz F n ts rest C N. exists (mkTS rest None). split; [|reflexivity]. cbn [ingest_field zero_value]. rewrite I.
    rewrite <- app_comm_cons, <- app_assoc in C.
    rewrite (list_body_ok ts s items z rest C Ks); [|clear -F; induction F as [|? ? ? ? [H _]]; constructor; auto; congruence|exact Kz].
    cbn [bind app]. do 3 f_equal. clear -F. induction F as [|b u l items (_ & H) _ IH]; cbn; [reflexivity|]. rewrite H, IH. reflexivity.
  - intros id l t s b z I Ks Kz _ IH n ts rest C N. exists (mkTS rest None). split; [|reflexivity]. cbn [ingest_field zero_value]. rewrite I.
    rewrite <- app_comm_cons, <- app_assoc in C. cbn [app] in C. rewrite C in N. cbn [length] in N.
    rewrite (expect_ok TListStart _ _ _ C Ks). cbn [bind].
    rewrite (IH n _ (mkTS (b ++ z :: rest) None) z rest eq_refl Kz); [reflexivity| |cbn [content ts_peeked ts_src]; lia].
    rewrite left_content. lia.
  - intros kt vt id es t s b z I Ks Kz _ IH n ts rest C N. exists (mkTS rest None). split; [|reflexivity]. cbn [ingest_field zero_value]. rewrite I.
    rewrite <- app_comm_cons, <- app_assoc in C. cbn [app] in C. rewrite C in N. cbn [length] in N.
    rewrite (expect_ok TMapStart _ _ _ C Ks). cbn [bind].
    rewrite (IH n _ (mkTS (b ++ z :: rest) None) z rest eq_refl Kz); [reflexivity| |cbn [content ts_peeked ts_src]; lia].
    rewrite left_content. lia.
  - intros id n k ts t rest C K L N. destruct k; [lia|]. cbn [struct_items]. rewrite Peek_content. cbn in C. rewrite C, K. reflexivity.
  - intros id fs l b q R IH _ IHs n k ts t rest C K L N. destruct k; [lia|]. cbn [struct_items]. rewrite Peek_content.
    destruct (rmsg_start id fs b R) as (s & b' & -> & Ks). rewrite <- app_assoc in C.
    rewrite C. rewrite <- app_comm_cons. rewrite Ks. cbn [tkind_eqb].
    rewrite C in L, N. cbn [app length] in L, N. rewrite app_length in L, N.
    rewrite fresh_blank, (IH n (mkTS (b' ++ q ++ t :: rest) (Some s)) (q ++ t :: rest)); [|reflexivity|cbn [content ts_peeked ts_src length]; rewrite app_length; lia].
    cbn [bind]. rewrite (IHs n k (mkTS (q ++ t :: rest) None) t rest); auto; cbn [content ts_peeked ts_src]; lia.
  - intros kt vt id es n k ts t rest C K L N. destruct k; [lia|]. cbn [map_items]. rewrite Next_content. cbn in C. rewrite C, K. reflexivity.
  - intros kt vt id es t0 b q e es1 es' Kt _ IHe P _ IHs n k ts t rest C K L N. destruct k; [lia|]. cbn [map_items]. rewrite Next_content.
    rewrite C. rewrite <- !app_comm_cons, Kt. cbn [tkind_eqb negb].
    rewrite C in L, N. rewrite <- app_comm_cons in L, N. cbn [length] in L, N. rewrite <- app_assoc in L, N |- *.
    destruct (IHe n (mkTS (b ++ q ++ t :: rest) None) (q ++ t :: rest) eq_refl) as (ts' & -> & C'); [cbn [content ts_peeked ts_src]; lia|]. cbn [bind].
    rewrite P. cbn [bind]. rewrite app_length in L, N. apply (IHs n k ts' t rest); auto; rewrite C'; lia.
  - intros k id t n ts rest C N. exists ts. split; [reflexivity|exact C].
  - intros id t n ts rest C N. exists ts. split; [reflexivity|exact C].
  - intros id fs t b _ IH n ts rest C N. exists (mkTS rest None). split; [|reflexivity]. cbn [entry_value]. rewrite fresh_blank, (IH n ts rest C N). reflexivity.
Qed.
Theorem render_ingest id fs l q : rmsg id fs l -> Ingest E ig id (blank E id) (l ++ q) = Ok fs.
Proof.
  intros R. unfold Ingest. rewrite (proj1 render_all id fs l R _ (NewTokenStream (l ++ q)) q eq_refl); [reflexivity|].
  unfold NewTokenStream, left. cbn. lia.
Qed.
End Render.
