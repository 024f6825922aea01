(** The JSON writer writes a document for every struct it handles. *)
From Coq Require Import ZArith List Bool Lia ZifyBool.
Import ListNotations.
From Verif.Model Require Import Base Field MapApi Token Walk Utf8 Escape Json.
From Verif.Spec Require Import Text Message TokenGrammar JsonGrammar.
From Verif.Proofs Require Import WalkProofs WalkRun TokenVals Utf8Proofs JsonLits.
Open Scope Z_scope.

Lemma commas_flat x l : commas (x :: l) = x ++ flat_map (fun y => 44 :: y) l.
Proof.
  revert x. induction l as [|y l IH]; intros x; [cbn; rewrite app_nil_r; reflexivity|].
  change (commas (x :: y :: l)) with (x ++ 44 :: commas (y :: l)). rewrite IH. reflexivity.
Qed.
Lemma Forall2_ex {A B C} (P : B -> C -> Prop) (W : A -> C -> Prop) bs (l : list A) :
  Forall2 (fun b x => exists c, True /\ P b c /\ W x c) bs l -> exists cs, Forall2 P bs cs /\ Forall2 W l cs.
Proof.
  induction 1 as [|b x bs l (c & _ & Hp & Hw) _ (cs & Hps & Hws)]; [exists []; auto|]. exists (c :: cs). auto.
Qed.

Section Writer.
Variable appendFloat : kind -> Z -> bytes.
Variable lookup : bytes -> option (bytes * (bytes -> option tmsg)).
Variable useEnumNumbers : bool.
Variable Q : keyty -> mkey -> Prop.
Variable K : keyty -> mkey -> list Z -> Prop.
Hypothesis HF : forall k v, k = KF32 \/ k = KF64 -> in_range k v -> ~ float_special k v -> jnumber (appendFloat k v).
Hypothesis HN : forall h name dec, lookup h = Some (name, dec) -> Forall plain name.
Hypothesis HK : forall kt k, Q kt k -> match kt, k with KTStr, KStr b => forall rs, text_of b rs -> K kt k rs | _, _ => K kt k [] end.

Definition float_lit (k : kind) (v : Z) (lit : bytes) : Prop := lit = appendFloat k v.
Definition registered (h d n : bytes) (m : tmsg) : Prop := exists dec, lookup (hash16 h) = Some (n, dec) /\ dec d = Some m.
Definition unregistered (h d : bytes) : Prop := match lookup (hash16 h) with None => True | Some (_, dec) => dec d = None end.
Notation MM := (msg_means float_lit registered unregistered useEnumNumbers K).
Notation FM := (field_means float_lit registered unregistered useEnumNumbers K).
Notation VM := (val_means float_lit registered unregistered useEnumNumbers K).
Notation EM := (entry_means float_lit registered unregistered useEnumNumbers K).
Notation ENM := (ent_means float_lit registered unregistered useEnumNumbers K).
Notation AM := (any_means float_lit registered unregistered useEnumNumbers K).
Notation NM := (num_means float_lit useEnumNumbers).

Variable nested : tmsg -> res bytes.
Variable n : Z.
Hypothesis HNest : forall h name dec d m, lookup h = Some (name, dec) -> dec d = Some m -> isB d -> len d < n ->
  exists b l, nested m = Ok b /\ jtext b (JObj l) /\ MM m (JObj l).
Notation WV := (writeValue appendFloat lookup useEnumNumbers nested).
Notation JY := (jyield appendFloat lookup useEnumNumbers nested).
Notation RUN := (run jst JY).

(** *** Values *)
Lemma wv_num t k v e :
  t.(t_type) = num_ft k -> t.(t_isNil) = false -> t.(t_data) = putData k v ->
  t.(t_isEnum) = (match e with Some _ => true | None => false end) -> t.(t_enumName) = (match e with Some s => s | None => [] end) ->
  in_range k v -> fit_enum e -> exists b j, WV t = Ok b /\ jtext b j /\ NM k v e j.
Proof.
  intros T N D E EN R FE. unfold writeValue. cbn zeta. rewrite N, T.
  assert (G : getValue k t = v) by (unfold getValue; rewrite D; apply get_put, R).
  assert (A : announced (num_ft k) = false) by (destruct k; reflexivity). rewrite A.
  assert (A2 : (num_ft k =? FTAny) = false) by (destruct k; reflexivity). rewrite A2. clear A A2.
  destruct e as [s|].
  - rewrite E. cbn [fit_enum] in FE.
    destruct (jsonEscape_ok s FE) as (rs & J & TX).
    assert (NameCase : ~ (useEnumNumbers = true /\ (k = KU8 \/ k = KU16)) ->
      exists b j, Ok (jsonEscape (t_enumName t)) = Ok b /\ jtext b j /\ NM k v (Some s) j).
    { intros H. rewrite EN. exists (jsonEscape s), (JStr rs). split; [reflexivity|]. split; [constructor; exact J|]. apply nm_name; assumption. }
    destruct useEnumNumbers eqn:U; cbn [andb]; [|apply NameCase; intros [X _]; discriminate].
    destruct k; cbn in T; try (apply NameCase; intros [_ [X|X]]; discriminate).
    + change (num_ft KU8 =? FTUint8) with true. cbv iota. rewrite G. destruct (appendUint_num v ltac:(cbn in R; lia)) as [J1 J2].
      eexists _, (JNum _). split; [reflexivity|]. split; [constructor; exact J1|]. apply nm_enum; auto.
    + change (num_ft KU16 =? FTUint8) with false. change (num_ft KU16 =? FTUint16) with true. cbv iota. rewrite G. destruct (appendUint_num v ltac:(cbn in R; lia)) as [J1 J2].
      eexists _, (JNum _). split; [reflexivity|]. split; [constructor; exact J1|]. apply nm_enum; auto.
  - rewrite E. 
    assert (I : forall f, (f = appendInt \/ (f = appendUint /\ 0 <= v)) -> k <> KBool -> k <> KF32 -> k <> KF64 ->
      exists b j, Ok (f (getValue k t)) = Ok b /\ jtext b j /\ NM k v None j).
    { intros f Hf K1 K2 K3. rewrite G. assert (X : jnumber (f v) /\ int_lit (f v) v).
      { destruct Hf as [->|[-> P]]; [apply appendInt_ok|apply appendUint_num, P]. }
      exists (f v), (JNum (f v)). split; [reflexivity|]. split; [constructor; apply X|]. apply nm_int; auto. apply X. }
    destruct k; cbn [num_ft]; cbn [Z.eqb Pos.eqb FTBool FTInt8 FTInt16 FTInt32 FTInt64 FTUint8 FTUint16 FTUint32 FTUint64 FTFloat32 FTFloat64];
      try (apply I; [left; reflexivity|discriminate|discriminate|discriminate]); try (apply I; [right; split; [reflexivity|cbn in R; lia]|discriminate|discriminate|discriminate]).
    + rewrite G. cbn in R. exists (if v =? 0 then j_false else j_true), (JBool (negb (v =? 0))). split; [reflexivity|].
      split; [destruct (v =? 0); constructor|]. apply nm_bool. reflexivity.
    + rewrite G. unfold special32. destruct (Z.eqb_spec ((v / 2 ^ 23) mod 256) 255).
      * exists j_null, JNull. split; [reflexivity|]. split; [constructor|]. apply nm_special; auto.
      * eexists _, (JNum _). split; [reflexivity|]. split; [constructor; apply HF; auto|]. apply nm_float; auto. reflexivity.
    + rewrite G. unfold special64. destruct (Z.eqb_spec ((v / 2 ^ 52) mod 2048) 2047).
      * exists j_null, JNull. split; [reflexivity|]. split; [constructor|]. apply nm_special; auto.
      * eexists _, (JNum _). split; [reflexivity|]. split; [constructor; apply HF; auto|]. apply nm_float; auto. reflexivity.
Qed.
Lemma wv_str t st b :
  t.(t_type) = str_ft st -> t.(t_isNil) = false -> t.(t_bytes) = b -> t.(t_isEnum) = false -> isB b ->
  exists x j, WV t = Ok x /\ jtext x j /\ str_means st b j.
Proof.
  intros T N B E F. unfold writeValue. cbn zeta. rewrite N, T, E, B. destruct st; cbn.
  - destruct (jsonEscape_ok b F) as (rs & J & TX). exists (jsonEscape b), (JStr rs). split; [reflexivity|]. split; constructor; assumption.
  - destruct (base64_ok (length b) b (le_n _) F) as [X P]. exists (34 :: base64 b ++ [34]), (JStr (base64 b)).
    split; [reflexivity|]. split; [constructor; apply jstring_plain, P|constructor; exact X].
Qed.
Lemma wv_nil t : t.(t_isNil) = true -> WV t = Ok j_null.
Proof. intros N. unfold writeValue. cbn zeta. rewrite N. reflexivity. Qed.
Lemma wv_announced t : t.(t_isNil) = false -> announced t.(t_type) = true -> WV t = Ok [].
Proof. intros N A. unfold writeValue. cbn zeta. rewrite N, A. reflexivity. Qed.

Lemma at_plain : Forall plain at_type /\ Forall plain at_value /\ Forall plain at_fieldType.
Proof. unfold at_type, at_value, at_fieldType. repeat split; repeat constructor; unfold plain; try lia. Qed.
Lemma member_plain k t : Forall plain k -> Forall plain t -> jmember ((34 :: k ++ [34]) ++ 58 :: (34 :: t ++ [34])) (k, JStr t).
Proof. intros A B. constructor; [apply jstring_plain, A|constructor; apply jstring_plain, B]. Qed.
Lemma wv_any t h d :
  t.(t_type) = FTAny -> t.(t_isNil) = false -> t.(t_hash) = h -> t.(t_bytes) = d -> fit_any n (h, d) ->
  exists b j, WV t = Ok b /\ jtext b j /\ AM (h, d) j.
Proof.
  intros T N H D (FH & FD & FL). cbn [fst snd] in *. unfold writeValue. cbn zeta. rewrite N, T, H, D.
  change (announced FTAny) with false. change (FTAny =? FTAny) with true. cbv iota.
  destruct (appendHex_ok h FH) as [HX HP]. destruct (base64_ok (length d) d (le_n _) FD) as [BX BP].
  destruct at_plain as (P1 & P2 & P3).
  assert (Raw : unregistered h d -> exists b j, Ok (rawAny h d) = Ok b /\ jtext b j /\ AM (h, d) j).
  { intros U. exists (rawAny h d), (JObj [(at_type, JStr (appendHex h)); (at_value, JStr (base64 d))]). split; [reflexivity|].
    split; [|apply am_raw; assumption].
    assert (E : rawAny h d = 123 :: commas [((34 :: at_type ++ [34]) ++ 58 :: (34 :: appendHex h ++ [34])); ((34 :: at_value ++ [34]) ++ 58 :: (34 :: base64 d ++ [34]))] ++ [125]).
    { unfold rawAny, j_type, j_value, at_type, at_value. cbn [commas app]. repeat (rewrite <- app_assoc; cbn [app]). reflexivity. }
    rewrite E. apply jt_obj. repeat constructor; apply member_plain || idtac; auto using jstring_plain.
    - change (34 :: at_type ++ [34]) with (34 :: at_type ++ [34]). apply jchars_plain, P1.
    - apply jchars_plain, HP.
    - apply jchars_plain, P2.
    - apply jchars_plain, BP. }
  unfold unregistered in Raw. destruct (lookup (hash16 h)) as [[name dec]|] eqn:L; [|apply Raw; exact I].
  destruct (dec d) as [m|] eqn:De; [|apply Raw; reflexivity].
  destruct (HNest _ _ _ _ _ L De FD FL) as (b & l & NB & JT & ME). rewrite NB. cbn [bind].
  specialize (HN _ _ _ L).
  inversion JT as [| | | | |? ? ?|bs l' FB E1 E2]; subst.
  assert (TN : text_of name name).
  { split; [eapply Forall_impl; [|exact HN]; unfold plain, scalar; intros; lia|]. intros rs' F' E.
    assert (A : Forall (fun b => 0 <= b < 0x80) name) by (eapply Forall_impl; [|exact HN]; unfold plain; intros; lia).
    destruct (runes_ascii name A) as [R1 _]. rewrite <- R1, E. apply runes_utf8, F'. }
  exists (123 :: commas (((34 :: at_type ++ [34]) ++ 58 :: (34 :: appendHex (t_hash t) ++ [34])) :: ((34 :: at_fieldType ++ [34]) ++ 58 :: (34 :: name ++ [34])) :: bs) ++ [125]),
    (JObj ((at_type, JStr (appendHex (t_hash t))) :: (at_fieldType, JStr name) :: l)).
  split; [|split].
  - assert (X : forall tail, tail = (match bs with [] => [] | _ => 44 :: commas bs end) ++ [125] ->
      Ok (j_type ++ appendHex (t_hash t) ++ j_fieldType ++ name ++ [34] ++ tail) =
      Ok (123 :: commas (((34 :: at_type ++ [34]) ++ 58 :: (34 :: appendHex (t_hash t) ++ [34])) :: ((34 :: at_fieldType ++ [34]) ++ 58 :: (34 :: name ++ [34])) :: bs) ++ [125])).
    { intros tail ->. f_equal. rewrite !commas_flat. cbn [flat_map]. unfold j_type, j_fieldType, at_type, at_fieldType. cbn [app].
      repeat (rewrite <- app_assoc; cbn [app]). 
      assert (FL2 : forall r, (match bs with [] => [] | _ => 44 :: commas bs end) ++ r = flat_map (fun y => 44 :: y) bs ++ r).
      { intros r. destruct bs; [reflexivity|]. rewrite commas_flat. reflexivity. }
      rewrite <- FL2. reflexivity. }
    destruct bs as [|x bs].
    + cbn [commas app]. apply X. reflexivity.
    + assert (HX1 : exists q, x = 34 :: q).
      { inversion FB as [|? ? ? ? J _]; subst. inversion J as [k b' rs v JS _ E1 E2]; subst. destruct JS. eexists. reflexivity. }
      destruct HX1 as (q & ->). rewrite commas_flat. cbn [app].
      assert (LL : (1 <? len (34 :: (q ++ flat_map (fun y => 44 :: y) bs) ++ [125])) = true).
      { unfold len. cbn [length]. rewrite app_length. cbn [length]. lia. }
      rewrite LL. cbn [skipSpace Z.eqb Pos.eqb orb]. apply X. rewrite commas_flat. cbn [app]. reflexivity.
  - apply jt_obj. constructor; [apply member_plain; assumption|]. constructor; [apply member_plain; assumption|]. exact FB.
  - eapply am_known; [exists dec; split; eassumption|exact HX|exact TN|exact ME].
Qed.
(** *** The callback *)
Definition sepd (b : bytes) (s : jst) : jst := put b (comma s).
Definition seps (bs : list bytes) (s : jst) : jst := fold_left (fun s b => sepd b s) bs s.
Lemma put_put a b s : put b (put a s) = put (a ++ b) s.
Proof. unfold put. cbn. rewrite app_assoc. reflexivity. Qed.
Lemma put_nil s : put [] s = s.
Proof. unfold put. destruct s as [o f e]. cbn. rewrite app_nil_r. reflexivity. Qed.
Lemma seps_false bs : forall o q e, seps bs (mkJ o (false :: q) e) = mkJ (o ++ flat_map (fun y => 44 :: y) bs) (false :: q) e.
Proof.
  induction bs as [|b bs IH]; intros o q e; [cbn; rewrite app_nil_r; reflexivity|]. cbn [seps fold_left].
  change (sepd b (mkJ o (false :: q) e)) with (mkJ ((o ++ [44]) ++ b) (false :: q) e). fold (seps bs).
  change (fold_left (fun s b => sepd b s) bs (mkJ ((o ++ [44]) ++ b) (false :: q) e)) with (seps bs (mkJ ((o ++ [44]) ++ b) (false :: q) e)).
  rewrite IH. cbn [flat_map]. f_equal. repeat (rewrite <- app_assoc; cbn [app]). reflexivity.
Qed.
Lemma seps_true bs o q e : seps bs (mkJ o (true :: q) e) = mkJ (o ++ commas bs) ((match bs with [] => true | _ => false end) :: q) e.
Proof.
  destruct bs as [|b bs]; [cbn; rewrite app_nil_r; reflexivity|].
  change (seps (b :: bs) (mkJ o (true :: q) e)) with (seps bs (mkJ ((o ++ []) ++ b) (false :: q) e)).
  rewrite seps_false, commas_flat, app_nil_r, app_assoc. reflexivity.
Qed.
(** A bracketed list of values. *)
Lemma run_list {A} (f : A -> list token) (R : bytes -> A -> Prop) l :
  (forall x s, In x l -> s.(j_first) <> [] -> exists b, R b x /\ RUN (f x) s (sepd b s)) ->
  forall s, s.(j_first) <> [] -> exists bs, Forall2 R bs l /\ RUN (flat_map f l) s (seps bs s).
Proof.
  induction l as [|x l IH]; intros H s NE; [exists []; split; [constructor|apply run_nil]|].
  destruct (H x s (or_introl eq_refl) NE) as (b & Rb & Rn).
  destruct (IH (fun y s' I => H y s' (or_intror I)) (sepd b s)) as (bs & F & Rs).
  { unfold sepd, put, comma. destruct s as [o [|a q] e]; cbn in *; [congruence|discriminate]. }
  exists (b :: bs). split; [constructor; assumption|]. cbn [flat_map]. apply run_app. eexists. split; [exact Rn|exact Rs].
Qed.
Definition opens (t : token) (c : Z) : Prop :=
  (c = 123 /\ (t.(t_kind) = TStructStart \/ t.(t_kind) = TMapStart)) \/ (c = 91 /\ t.(t_kind) = TListStart).
Definition closes (t : token) (c : Z) : Prop :=
  (c = 125 /\ (t.(t_kind) = TStructEnd \/ t.(t_kind) = TMapEnd)) \/ (c = 93 /\ t.(t_kind) = TListEnd).
Lemma yield_open t c s : opens t c -> JY t s = (push (put [c] s), true).
Proof. intros [[-> [E|E]]|[-> E]]; unfold jyield; rewrite E; reflexivity. Qed.
Lemma yield_close t c s : closes t c -> JY t s = (pop (put [c] s), true).
Proof. intros [[-> [E|E]]|[-> E]]; unfold jyield; rewrite E; reflexivity. Qed.
Lemma run_bracket {A} (f : A -> list token) (R : bytes -> A -> Prop) l t1 t2 c1 c2 :
  opens t1 c1 -> closes t2 c2 ->
  (forall x s, In x l -> s.(j_first) <> [] -> exists b, R b x /\ RUN (f x) s (sepd b s)) ->
  forall s, exists bs, Forall2 R bs l /\ RUN (t1 :: flat_map f l ++ [t2]) s (put (c1 :: commas bs ++ [c2]) s).
Proof.
  intros O C H s. destruct (run_list f R l H (push (put [c1] s)) ltac:(discriminate)) as (bs & F & Rn).
  exists bs. split; [exact F|]. apply run_cons. eexists. split; [apply yield_open, O|]. apply run_app. eexists. split; [exact Rn|].
  apply run_cons. eexists. split; [apply yield_close, C|].
  unfold push, put. cbn [j_out j_first j_err]. rewrite seps_true. unfold pop. cbn [j_out j_first j_err tl].
  destruct s as [o q e]. cbn [j_out j_first j_err]. repeat (rewrite <- app_assoc; cbn [app]). reflexivity.
Qed.
(** Field tokens. *)
Lemma yield_item t s b : t.(t_kind) = TField -> t.(t_name) = [] -> WV t = Ok b -> JY t s = (sepd b s, true).
Proof. intros T N W. unfold jyield. rewrite T, N. cbn zeta. rewrite W. reflexivity. Qed.
Lemma yield_field t s b : t.(t_kind) = TField -> t.(t_name) <> [] -> WV t = Ok b -> JY t s = (sepd (jsonEscape t.(t_name) ++ 58 :: b) s, true).
Proof.
  intros T N W. unfold jyield. rewrite T. cbn zeta. rewrite W. destruct (t_name t) as [|c q] eqn:E; [congruence|].
  cbn [putRes]. unfold sepd. rewrite put_put. repeat (rewrite <- app_assoc; cbn [app]). reflexivity.
Qed.
Lemma yield_entry t s b : t.(t_kind) = TMapEntry -> WV (set_type t.(t_valType) t) = Ok b -> JY t s = (sepd (jsonEscape t.(t_keyBytes) ++ 58 :: b) s, true).
Proof. intros T W. unfold jyield. rewrite T, W. cbn [putRes]. unfold sepd. rewrite put_put. repeat (rewrite <- app_assoc; cbn [app]). reflexivity. Qed.
Lemma put_sepd a b s : put b (sepd a s) = sepd (a ++ b) s.
Proof. apply put_put. Qed.

(** A list of scalars. *)
Lemma items_ok {A} (item : A -> token) (W : A -> jv -> Prop) l t1 t2 :
  opens t1 91 -> closes t2 93 ->
  (forall x, In x l -> (item x).(t_kind) = TField /\ (item x).(t_name) = [] /\ exists b j, WV (item x) = Ok b /\ jtext b j /\ W x j) ->
  forall s, exists b js, RUN (t1 :: map item l ++ [t2]) s (put b s) /\ jtext b (JArr js) /\ Forall2 W l js.
Proof.
  intros O C H s.
  destruct (run_bracket (fun x => [item x]) (fun b x => exists j, True /\ jtext b j /\ W x j) l t1 t2 91 93 O C) with (s := s) as (bs & F & Rn).
  { intros x s' I NE. destruct (H x I) as (T & N & b & j & Wv & JT & Wx). exists b. split; [eauto|].
    apply run_cons. eexists. split; [apply yield_item; eassumption|apply run_nil]. }
  destruct (Forall2_ex jtext W bs l) as (js & F1 & F2).
  { exact F. }
  exists (91 :: commas bs ++ [93]), js. split; [|split; [apply jt_arr; exact F1|exact F2]].
  replace (map item l) with (flat_map (fun x => [item x]) l); [exact Rn|]. clear. induction l; cbn; congruence.
Qed.
Lemma any_list_ok nm l : Forall (fit_any n) l -> forall s, exists b js, RUN (any_list nm l) s (put b s) /\ jtext b (JArr js) /\ Forall2 AM l js.
Proof.
  intros F s. unfold any_list. apply items_ok.
  - right. split; reflexivity.
  - right. split; reflexivity.
  - intros [h d] I. rewrite Forall_forall in F. specialize (F _ I). split; [reflexivity|]. split; [reflexivity|].
    apply wv_any; try reflexivity. exact F.
Qed.

(** *** Structs *)
Definition msg_ok (m : tmsg) : Prop :=
  fit_msg n Q m -> forall s, exists b l, RUN (mtoks m) s (put b s) /\ jtext b (JObj l) /\ MM m (JObj l).

Lemma field_ok nm v s : vsub msg_ok v -> nm <> [] -> isB nm -> fit_val n Q v -> s.(j_first) <> [] ->
  exists b j, RUN (ffield nm v :: fbody nm v) s (sepd b s) /\ jmember b j /\ FM (nm, v) j.
Proof.
  intros IH NE NB FV SF. destruct (jsonEscape_ok nm NB) as (rs & JS & TX).
  (* a field whose value is one token *)
  assert (One : forall t b j, ffield nm v :: fbody nm v = [t] -> t.(t_kind) = TField -> t.(t_name) = nm -> WV t = Ok b -> jtext b j -> VM v j ->
    exists b j, RUN (ffield nm v :: fbody nm v) s (sepd b s) /\ jmember b j /\ FM (nm, v) j).
  { intros t b j E TK TN W JT Vm. exists (jsonEscape nm ++ 58 :: b), (rs, j). split; [|split; [constructor; assumption|constructor; assumption]].
    rewrite E. apply run_cons. eexists. split; [apply yield_field; [exact TK|congruence|exact W]|]. rewrite TN. apply run_nil. }
  (* an announcement and the value after it *)
  assert (Two : forall t b j, ffield nm v = t -> t.(t_kind) = TField -> t.(t_name) = nm -> t.(t_isNil) = false -> announced t.(t_type) = true ->
    RUN (fbody nm v) (sepd (jsonEscape nm ++ [58]) s) (put b (sepd (jsonEscape nm ++ [58]) s)) -> jtext b j -> VM v j ->
    exists b j, RUN (ffield nm v :: fbody nm v) s (sepd b s) /\ jmember b j /\ FM (nm, v) j).
  { intros t b j E TK TN TNil A R JT Vm. exists (jsonEscape nm ++ 58 :: b), (rs, j). split; [|split; [constructor; assumption|constructor; assumption]].
    apply run_cons. rewrite E. eexists. split; [apply yield_field; [exact TK|congruence|apply wv_announced; assumption]|].
    rewrite TN. rewrite put_sepd in R. rewrite <- app_assoc in R. exact R. }
  destruct FV as [k v e R FE|st b F| |m Fm|k l F|st l F| |m Fm|kt vt es F| |[h d] F|l F].
  - destruct (wv_num (ffield nm (FNum k v e)) k v e) as (b & j & W & JT & NMm); try assumption; try (destruct e; reflexivity).
    eapply One; [reflexivity|destruct e; reflexivity|destruct e; reflexivity|exact W|exact JT|]. constructor. exact NMm.
  - destruct (wv_str (ffield nm (FStr st b)) st b) as (x & j & W & JT & SM); try reflexivity; [exact F|].
    eapply One; [reflexivity|reflexivity|reflexivity|exact W|exact JT|]. constructor. exact SM.
  - eapply One; [reflexivity|reflexivity|reflexivity|apply wv_nil; reflexivity|constructor|constructor].
  - cbn [vsub] in IH. destruct (IH Fm (sepd (jsonEscape nm ++ [58]) s)) as (b & l & Rn & JT & ME).
    eapply Two; [reflexivity|reflexivity|reflexivity|reflexivity|reflexivity|exact Rn|exact JT|constructor; exact ME].
  - destruct l as [|x l].
    { eapply One; [reflexivity|destruct k; reflexivity|destruct k; reflexivity|apply wv_nil; destruct k; reflexivity|constructor|constructor]. }
    destruct (items_ok (num_item k) (fun x j => NM k (fst x) (snd x) j) (x :: l) (set_len (len (x :: l)) (tok0 TListStart nm (list_ft k))) (tok0 TListEnd nm 0)) with (s := sepd (jsonEscape nm ++ [58]) s) as (b & js & Rn & JT & F2).
    + right; split; reflexivity.
    + right; split; reflexivity.
    + intros [z e] I. rewrite Forall_forall in F. destruct (F _ I) as [F1 F2]. cbn [fst snd] in *.
      split; [destruct e; reflexivity|]. split; [destruct e; reflexivity|]. apply wv_num; try (destruct e; reflexivity); assumption.
    + eapply Two; [reflexivity|reflexivity|reflexivity|reflexivity|destruct k; reflexivity|exact Rn|exact JT|]. constructor; [discriminate|exact F2].
  - destruct l as [|x l].
    { eapply One; [reflexivity|destruct st; reflexivity|destruct st; reflexivity|apply wv_nil; destruct st; reflexivity|constructor|constructor]. }
    destruct (items_ok (str_item st) (str_means st) (x :: l) (set_len (len (x :: l)) (tok0 TListStart nm (strs_ft st))) (tok0 TListEnd nm 0)) with (s := sepd (jsonEscape nm ++ [58]) s) as (b & js & Rn & JT & F2).
    + right; split; reflexivity.
    + right; split; reflexivity.
    + intros y I. rewrite Forall_forall in F. specialize (F _ I).
      split; [reflexivity|]. split; [reflexivity|]. apply wv_str; try reflexivity; assumption.
    + eapply Two; [reflexivity|reflexivity|reflexivity|reflexivity|destruct st; reflexivity|exact Rn|exact JT|]. constructor; [discriminate|exact F2].
  - eapply One; [reflexivity|reflexivity|reflexivity|apply wv_nil; reflexivity|constructor|constructor].
  - cbn [vsub] in IH. inversion IH as [|? ? IHm _]; subst.
    set (s1 := sepd (jsonEscape nm ++ [58]) s).
    destruct (IHm Fm (push (put [91] s1))) as (b & l & Rn & JT & ME).
    eapply (Two _ (91 :: commas [b] ++ [93])); [reflexivity|reflexivity|reflexivity|reflexivity|reflexivity| | |].
    + fold s1. change (fbody nm (FMsgs [m])) with (set_len 1 (tok0 TListStart nm FTListStructs) :: (mtoks m ++ []) ++ [tok0 TListEnd nm 0]). rewrite app_nil_r.
      apply run_cons. eexists. split; [apply (yield_open _ 91); right; split; reflexivity|]. apply run_app. eexists. split; [exact Rn|].
      apply run_cons. eexists. split; [apply (yield_close _ 93); right; split; reflexivity|].
      unfold pop, push, put. cbn [j_out j_first j_err tl commas]. repeat (rewrite <- app_assoc; cbn [app]). reflexivity.
    + apply jt_arr. constructor; [exact JT|constructor].
    + apply vm_msgs; [discriminate|]. constructor; [exact ME|constructor].
  - destruct es as [|ke es].
    { eapply One; [reflexivity|reflexivity|reflexivity|apply wv_nil; reflexivity|constructor|constructor]. }
    cbn [vsub] in IH. remember (ke :: es) as ES eqn:EE.
    destruct (run_bracket (fun ke => eentry (entry_tok nm kt vt (fst ke)) vt (snd ke) :: ebody (snd ke))
      (fun b ke => exists j, True /\ jmember b j /\ EM kt vt ke j) ES (set_len (len ES) (set_map kt vt (tok0 TMapStart nm 0))) (tok0 TMapEnd nm 0) 123 125)
      with (s := sepd (jsonEscape nm ++ [58]) s) as (bs & FB & Rn).
    + left; split; [reflexivity|right; reflexivity].
    + left; split; [reflexivity|right; reflexivity].
    + intros [k e] s1 I NE1. cbn [fst snd]. rewrite Forall_forall in F, IH. specialize (F _ I). specialize (IH _ I). cbn [fst snd] in F, IH. destruct F as [[FQ FK] FE].
      set (t0 := entry_tok nm kt vt k).
      assert (KB : exists krs, jstring (jsonEscape (t_keyBytes t0)) krs /\ K kt k krs).
      { specialize (HK kt k FQ). unfold t0, entry_tok. destruct kt as [kd|], k as [z|kb]; cbn [t_keyBytes setKey set_keyBytes set_map tok0].
        - exists []. split; [apply (jstring_plain []); constructor|exact HK].
        - exists []. split; [apply (jstring_plain []); constructor|exact HK].
        - exists []. split; [apply (jstring_plain []); constructor|exact HK].
        - destruct (jsonEscape_ok kb FK) as (krs & J & T). exists krs. split; [exact J|apply HK, T]. }
      destruct KB as (krs & KJ & KR).
      assert (Base : t_kind t0 = TMapEntry /\ t_valType t0 = val_ft vt /\ t_isNil t0 = false /\ t_isEnum t0 = false /\ t_enumName t0 = [] /\ t_hash t0 = [] /\ t_bytes t0 = []).
      { unfold t0, entry_tok. destruct kt, k; repeat split. }
      destruct Base as (B1 & B2 & B3 & B4 & B5 & B6 & B7).
      assert (EOne : forall t b j, eentry t0 vt e :: ebody e = [t] -> t.(t_kind) = TMapEntry -> t.(t_keyBytes) = t_keyBytes t0 -> WV (set_type t.(t_valType) t) = Ok b -> jtext b j -> ENM vt e j ->
        exists b, (exists j, True /\ jmember b j /\ EM kt vt (k, e) j) /\ RUN (eentry t0 vt e :: ebody e) s1 (sepd b s1)).
      { intros t b j E TK TN W JT Vm. exists (jsonEscape (t_keyBytes t0) ++ 58 :: b). split; [exists (krs, j); split; [trivial|split; constructor; assumption]|].
        rewrite E. apply run_cons. eexists. split; [apply yield_entry; [exact TK|exact W]|]. rewrite TN. apply run_nil. }
      assert (ETwo : forall b j, eentry t0 vt e = t0 -> announced (val_ft vt) = true ->
        RUN (ebody e) (sepd (jsonEscape (t_keyBytes t0) ++ [58]) s1) (put b (sepd (jsonEscape (t_keyBytes t0) ++ [58]) s1)) -> jtext b j -> ENM vt e j ->
        exists b, (exists j, True /\ jmember b j /\ EM kt vt (k, e) j) /\ RUN (eentry t0 vt e :: ebody e) s1 (sepd b s1)).
      { intros b j E A R JT Vm. exists (jsonEscape (t_keyBytes t0) ++ 58 :: b). split; [exists (krs, j); split; [trivial|split; constructor; assumption]|].
        apply run_cons. rewrite E. eexists. split; [apply yield_entry; [exact B1|apply wv_announced; [exact B3|cbn [t_type set_type]; rewrite B2; exact A]]|].
        rewrite put_sepd in R. rewrite <- app_assoc in R. exact R. }
      clearbody t0.
      destruct FE as [kd v R|b Fb|m Fm|Fa|[h d] Fa|l Fl].
      * destruct (wv_num (set_type (t_valType (setValue kd v t0)) (setValue kd v t0)) kd v None) as (b & j & W & JT & NMm); try assumption; try reflexivity; try exact I.
        eapply EOne; [reflexivity|exact B1|reflexivity|exact W|exact JT|constructor; exact NMm].
      * destruct (wv_str (set_type (t_valType (set_bytes b t0)) (set_bytes b t0)) true b) as (x & j & W & JT & SM); try assumption; try reflexivity.
        eapply EOne; [reflexivity|exact B1|reflexivity|exact W|exact JT|constructor; exact SM].
      * cbn [esub] in IH. destruct (IH Fm (sepd (jsonEscape (t_keyBytes t0) ++ [58]) s1)) as (b & l & Rn & JT & ME).
        eapply ETwo; [reflexivity|reflexivity|exact Rn|exact JT|constructor; exact ME].
      * destruct (wv_any (set_type (t_valType t0) t0) [] []) as (b & j & W & JT & AMm); try assumption; try reflexivity.
        eapply EOne; [reflexivity|exact B1|reflexivity|exact W|exact JT|constructor; exact AMm].
      * destruct (wv_any (set_type (t_valType (set_any h d t0)) (set_any h d t0)) h d) as (b & j & W & JT & AMm); try assumption; try reflexivity.
        eapply EOne; [reflexivity|exact B1|reflexivity|exact W|exact JT|constructor; exact AMm].
      * destruct (any_list_ok [] l Fl (sepd (jsonEscape (t_keyBytes t0) ++ [58]) s1)) as (b & js & Rn & JT & F2).
        eapply ETwo; [reflexivity|reflexivity|exact Rn|exact JT|constructor; exact F2].
    + destruct (Forall2_ex jmember (EM kt vt) bs ES) as (js & F1 & F2).
      { exact FB. }
      eapply (Two (set_map kt vt (tok0 TField nm FTMap)) (123 :: commas bs ++ [125])); [subst ES; reflexivity|reflexivity|reflexivity|reflexivity|reflexivity| | |].
      * assert (X : fbody nm (FMap kt vt ES) = set_len (len ES) (set_map kt vt (tok0 TMapStart nm 0)) :: flat_map (fun ke => eentry (entry_tok nm kt vt (fst ke)) vt (snd ke) :: ebody (snd ke)) ES ++ [tok0 TMapEnd nm 0]).
        { subst ES. cbn [fbody]. f_equal. f_equal. apply flat_map_ext. intros [? ?]. reflexivity. }
        rewrite X. exact Rn.
      * apply jt_obj. exact F1.
      * apply vm_map; [subst ES; discriminate|exact F2].
  - eapply One; [reflexivity|reflexivity|reflexivity|apply wv_nil; reflexivity|constructor|constructor].
  - destruct (wv_any (ffield nm (FAny (Some (h, d)))) h d) as (b & j & W & JT & AMm); try reflexivity; [exact F|].
    eapply One; [reflexivity|reflexivity|reflexivity|exact W|exact JT|]. constructor. exact AMm.
  - destruct l as [|x l].
    { eapply One; [reflexivity|reflexivity|reflexivity|apply wv_nil; reflexivity|constructor|constructor]. }
    destruct (any_list_ok nm (x :: l) F (sepd (jsonEscape nm ++ [58]) s)) as (b & js & Rn & JT & F2).
    eapply Two; [reflexivity|reflexivity|reflexivity|reflexivity|reflexivity|exact Rn|exact JT|]. constructor; [discriminate|exact F2].
Qed.
Lemma msg_all m : msg_ok m.
Proof.
  induction m as [name fs H] using tmsg_ind'. intros FM0 s. inversion FM0 as [? ? F]; subst.
  destruct (run_bracket (fun nv => ffield (fst nv) (snd nv) :: fbody (fst nv) (snd nv)) (fun b nv => exists j, True /\ jmember b j /\ FM nv j)
    fs (tok0 TStructStart name 0) (tok0 TStructEnd name 0) 123 125) with (s := s) as (bs & FB & Rn).
  - left; split; [reflexivity|left; reflexivity].
  - left; split; [reflexivity|left; reflexivity].
  - intros [nm v] s1 I NE. cbn [fst snd]. rewrite Forall_forall in F, H. destruct (F _ I) as (F1 & F2 & F3). specialize (H _ I). cbn [fst snd] in *.
    destruct (field_ok nm v s1 H F1 F2 F3 NE) as (b & j & R & JM & Fm). exists b. split; [eauto|exact R].
  - destruct (Forall2_ex jmember FM bs fs) as (js & F1 & F2).
    { exact FB. }
    exists (123 :: commas bs ++ [125]), js. split; [|split; [apply jt_obj; exact F1|constructor; exact F2]].
    change (mtoks (TMsg name fs)) with (tok0 TStructStart name 0 :: flat_map (fun '(n, v) => ffield n v :: fbody n v) fs ++ [tok0 TStructEnd name 0]).
    replace (flat_map (fun '(n, v) => ffield n v :: fbody n v) fs) with (flat_map (fun nv => ffield (fst nv) (snd nv) :: fbody (fst nv) (snd nv)) fs); [exact Rn|].
    apply flat_map_ext. intros [? ?]. reflexivity.
Qed.
Lemma writeWith_ok m : fit_msg n Q m -> exists b l, writeWith appendFloat lookup useEnumNumbers nested m = Ok b /\ jtext b (JObj l) /\ MM m (JObj l).
Proof.
  intros F. destruct (msg_all m F (mkJ [] [] (Ok tt))) as (b & l & R & JT & ME). exists b, l. split; [|auto].
  unfold writeWith. cbn zeta. rewrite (walk_run jst JY m _ _ R). reflexivity.
Qed.
End Writer.

Lemma writeJSON_ok appendFloat lookup useEnumNumbers (Q : keyty -> mkey -> Prop) (K : keyty -> mkey -> list Z -> Prop) :
  (forall k v, k = KF32 \/ k = KF64 -> in_range k v -> ~ float_special k v -> jnumber (appendFloat k v)) ->
  (forall h name dec, lookup h = Some (name, dec) -> Forall plain name) ->
  (forall kt k, Q kt k -> match kt, k with KTStr, KStr b => forall rs, text_of b rs -> K kt k rs | _, _ => K kt k [] end) ->
  (forall h name dec d m, lookup h = Some (name, dec) -> dec d = Some m -> fit_msg (len d) Q m) ->
  forall fuel n m, n <= Z.of_nat fuel -> fit_msg n Q m ->
  exists b l, writeJSON appendFloat lookup useEnumNumbers (S fuel) m = Ok b /\ jtext b (JObj l) /\
    msg_means (float_lit appendFloat) (registered lookup) (unregistered lookup) useEnumNumbers K m (JObj l).
Proof.
  intros HF HN HK HD. induction fuel as [|f IH]; intros n m L F.
  - apply (writeWith_ok appendFloat lookup useEnumNumbers Q K HF HN HK _ n); [|exact F].
    intros h name dec d m' E1 E2 B Ld. unfold len in Ld. lia.
  - change (writeJSON appendFloat lookup useEnumNumbers (S (S f)) m) with (writeWith appendFloat lookup useEnumNumbers (writeJSON appendFloat lookup useEnumNumbers (S f)) m).
    apply (writeWith_ok appendFloat lookup useEnumNumbers Q K HF HN HK _ n); [|exact F].
    intros h name dec d m' E1 E2 B Ld. apply (IH (len d)); [lia|]. eapply HD; eassumption.
Qed.
