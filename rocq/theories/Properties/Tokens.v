(** C36, C37, C72: tokens, the token stream and the walk. *)
From Coq Require Import ZArith List Bool Lia ZifyBool.
Import ListNotations.
From Verif.Model Require Import Base Field MapApi Token Walk TokenStream.
From Verif.Spec Require Import TokenGrammar Message.
From Verif.Proofs Require Import WalkProofs TokenVals.
Open Scope Z_scope.

(** ** C36 *)
(** Storing any value of any kind and reading it back, as a value and as a map key; neither touches
    the other. *)
Theorem C36_value k v t : in_range k v ->
  getValue k (setValue k v t) = v /\ (forall k', getKey k' (setValue k v t) = getKey k' t).
Proof. intros R. split; [apply get_put, R|reflexivity]. Qed.
Theorem C36_key k v t : in_range k v ->
  getKey k (setKey k v t) = v /\ (forall k', getValue k' (setKey k v t) = getValue k' t).
Proof. intros R. split; [apply get_put, R|reflexivity]. Qed.
Example C36_case :
  getValue KI8 (setValue KI8 (-128) (tok0 TField [] FTInt8)) = -128 /\
  t_data (setValue KI8 (-128) (tok0 TField [] FTInt8)) = 2 ^ 64 - 128 /\
  getKey KI64 (setKey KI64 (- 2 ^ 63) (tok0 TField [] FTInt8)) = - 2 ^ 63.
Proof. repeat split. Qed.

(** ** C37: the stream *)
Inductive sop := ONext | OPeek.
Fixpoint run_ops (ops : list sop) (ts : tstream) : list (option token) :=
  match ops with
  | [] => []
  | ONext :: q => let '(o, ts) := Next ts in o :: run_ops q ts
  | OPeek :: q => let '(o, ts) := Peek ts in o :: run_ops q ts
  end.
(** The same on the sequence itself: Next takes the head, Peek only shows it. *)
Fixpoint queue_ops (ops : list sop) (q : list token) : list (option token) :=
  match ops with
  | [] => []
  | ONext :: r => hd_error q :: queue_ops r (tl q)
  | OPeek :: r => hd_error q :: queue_ops r q
  end.
Theorem C37_queue ops seq : run_ops ops (NewTokenStream seq) = queue_ops ops seq.
Proof.
  assert (G : forall ops ts, run_ops ops ts = queue_ops ops (content ts)).
  { clear. induction ops as [|[|] ops IH]; intros ts; cbn [run_ops queue_ops]; [reflexivity|..].
    - rewrite Next_content. destruct (content ts) as [|t q]; rewrite IH; reflexivity.
    - rewrite Peek_content. destruct (content ts) as [|t q]; rewrite IH; reflexivity. }
  apply (G ops (NewTokenStream seq)).
Qed.
(** Pulling without end gives the tokens of the source in order, whatever was peeked between. *)
Corollary C37_all_tokens seq : run_ops (repeat ONext (length seq)) (NewTokenStream seq) = map Some seq.
Proof. rewrite C37_queue. induction seq as [|t q IH]; cbn; [reflexivity|]. f_equal. exact IH. Qed.

(** What a walked field looks like on the stream is what the documentation says. *)
Theorem C37_walk_stream m : toks m = mtoks m.
Proof. apply toks_mtoks. Qed.

(** ** C37: SkipValue *)
(** The fields whose value SkipValue knows: not a list of Any, and not a map whose entries are
    followed by a list of Any, or whose struct values may be nil. *)
Definition skippable (v : fval) : Prop :=
  match v with
  | FAnys l => l = []
  | FMap kt vt es =>
    Forall (fun ke => match vt, snd ke with
                      | VTStruct, EMsg (Some _) | VTNum _, ENum _ | VTStr, EStr _ | VTAny, EAny _ => True
                      | _, _ => False
                      end) es
  | _ => True
  end.

Lemma skip_map_entries n kt vt es fuel ts rest :
  es <> [] ->
  Forall (fun ke => match vt, snd ke with
                    | VTStruct, EMsg (Some _) | VTNum _, ENum _ | VTStr, EStr _ | VTAny, EAny _ => True
                    | _, _ => False
                    end) es ->
  content ts = fbody n (FMap kt vt es) ++ rest ->
  skip_map (S fuel) (val_ft vt) ts = Ok (mkTS rest None).
Proof.
  intros NE F C. destruct es as [|ke es]; [congruence|].
  change (fbody n (FMap kt vt (ke :: es))) with (set_len (len (ke :: es)) (set_map kt vt (tok0 TMapStart n 0)) :: etoks n kt vt (ke :: es) ++ [tok0 TMapEnd n 0]) in C.
  cbn [skip_map]. rewrite Next_content, C. rewrite <- app_comm_cons. cbn [t_kind tok0 set_len set_map tkind_eqb].
  rewrite left_content. cbn [content ts_peeked ts_src].
  generalize (ke :: es) F. clear. intros l F.
  assert (G : forall m l ts, (length (content ts) < m)%nat -> content ts = (etoks n kt vt l ++ [tok0 TMapEnd n 0]) ++ rest ->
    Forall (fun ke => match vt, snd ke with
                    | VTStruct, EMsg (Some _) | VTNum _, ENum _ | VTStr, EStr _ | VTAny, EAny _ => True
                    | _, _ => False
                    end) l ->
    (fix entries (m : nat) (ts : tstream) {struct m} : res tstream :=
       match m with
       | O => Hang
       | S m =>
         let '(o, ts) := Next ts in
         match o with
         | None => Err
         | Some t =>
           if tkind_eqb t.(t_kind) TMapEnd then Ok ts
           else if negb (tkind_eqb t.(t_kind) TMapEntry) then Err
           else
             ts <- (if val_ft vt =? FTStruct then skipStruct ts else Ok ts) ;;
             ts <- (if val_ft vt =? FTMap then skip_map fuel t.(t_valType) ts else Ok ts) ;;
             entries m ts
         end
       end) m ts = Ok (mkTS rest None)).
  { clear l F. induction m as [|m IH]; intros l ts L C F; [lia|].
    rewrite Next_content. rewrite C in L |- *. destruct l as [|[k e] l].
    - cbn [etoks flat_map app]. reflexivity.
    - inversion F as [|? ? Fe F']; subst. cbn [snd] in Fe. unfold etoks in L, C |- *. cbn [flat_map app] in L, C |- *.
      fold (etoks n kt vt l) in L, C |- *. rewrite eentry_kind, entry_tok_kind. cbn [tkind_eqb negb].
      assert (K : (if val_ft vt =? FTStruct then skipStruct (mkTS (((ebody e ++ etoks n kt vt l) ++ [tok0 TMapEnd n 0]) ++ rest) None)
                   else Ok (mkTS (((ebody e ++ etoks n kt vt l) ++ [tok0 TMapEnd n 0]) ++ rest) None))
                  = Ok (mkTS ((etoks n kt vt l ++ [tok0 TMapEnd n 0]) ++ rest) None)).
      { destruct vt as [kk| | | | | |]; destruct e as [z|b|[mm|]|o|ll|]; try (exfalso; exact Fe); try reflexivity.
        - destruct kk; reflexivity.
        - cbn [val_ft]. change (FTStruct =? FTStruct) with true. cbn iota.
          rewrite (skipStruct_mtoks mm _ ((etoks n kt VTStruct l ++ [tok0 TMapEnd n 0]) ++ rest)); [reflexivity|].
          cbn [content ts_peeked ts_src ebody]. rewrite !app_assoc. reflexivity. }
      rewrite K. cbn [bind].
      assert (K2 : (val_ft vt =? FTMap) = false).
      { destruct vt as [kk| | | | | |]; destruct e as [z|b|[mm|]|o|ll|]; try (exfalso; exact Fe); try reflexivity. destruct kk; reflexivity. }
      match goal with |- bind (if ?b then ?x else Ok ?y) _ = _ => replace (if b then x else Ok y) with (Ok y) by (rewrite K2; reflexivity) end.
      cbn [bind]. apply (IH l); auto.
      cbn [content ts_peeked ts_src]. cbn [length] in L. repeat rewrite app_length in L. repeat rewrite app_length. lia. }
  exact (G (S (length ((etoks n kt vt l ++ [tok0 TMapEnd n 0]) ++ rest))) l (mkTS ((etoks n kt vt l ++ [tok0 TMapEnd n 0]) ++ rest) None) (Nat.lt_succ_diag_r _) eq_refl F).
Qed.

(** From any state of the stream that stands behind the token of a field, SkipValue takes exactly the
    tokens of its value. *)
Theorem C37_skip_value_partial n v ts rest :
  skippable v -> content ts = fbody n v ++ rest ->
  exists ts', SkipValue ts (ffield n v) = Ok ts' /\ content ts' = rest.
Proof.
  intros Sk C. 
  destruct v as [k z e|st b|[m|]|k [|x l]|st [|x l]|[|m l]|kt vt [|ke es]|[[h dd]|]|[|x l]]; cbn [ffield fbody app] in C |- *.
  - exists ts. split; [|exact C]. unfold SkipValue.
    assert (T : t_type (set_enum e (setValue k z (tok0 TField n (num_ft k)))) = num_ft k) by (destruct e; reflexivity).
    rewrite T. destruct k; reflexivity.
  - exists ts. split; [|exact C]. destruct st; reflexivity.
  - exists (mkTS rest None). split; [|reflexivity]. unfold SkipValue. cbn [t_type t_isNil tok0]. change (FTStruct =? FTStruct) with true. cbn iota.
    apply (skipStruct_mtoks m), C.
  - exists ts. split; [reflexivity|exact C].
  - exists ts. split; [|exact C]. destruct k; reflexivity.
  - exists (mkTS rest None). split; [|reflexivity]. unfold SkipValue. cbn [t_type t_isNil tok0].
    replace (list_ft k =? FTStruct) with false by (destruct k; reflexivity).
    replace (list_ft k =? FTListStructs) with false by (destruct k; reflexivity).
    replace ((FTListBools <=? list_ft k) && (list_ft k <=? FTListStrings)) with true by (destruct k; reflexivity).
    unfold skipList. rewrite Next_content, C. cbn [t_kind set_len tok0 tkind_eqb]. rewrite left_content. cbn [content ts_peeked ts_src].
    eapply (skip_items_list _ _ (map (num_item k) (x :: l)) (tok0 TListEnd n 0)); [|cbn [content ts_peeked ts_src]; lia| |reflexivity].
    + cbn [content ts_peeked ts_src]. cbn [map]. cbn [app]. rewrite <- app_assoc. reflexivity.
    + apply Forall_forall. intros t I. apply in_map_iff in I. destruct I as (y & <- & _). rewrite num_item_kind. discriminate.
  - exists ts. split; [|exact C]. destruct st; reflexivity.
  - exists (mkTS rest None). split; [|reflexivity]. unfold SkipValue. cbn [t_type t_isNil tok0].
    replace (strs_ft st =? FTStruct) with false by (destruct st; reflexivity).
    replace (strs_ft st =? FTListStructs) with false by (destruct st; reflexivity).
    replace ((FTListBools <=? strs_ft st) && (strs_ft st <=? FTListStrings)) with true by (destruct st; reflexivity).
    unfold skipList. rewrite Next_content, C. cbn [t_kind set_len tok0 tkind_eqb]. rewrite left_content. cbn [content ts_peeked ts_src].
    eapply (skip_items_list _ _ (map (str_item st) (x :: l)) (tok0 TListEnd n 0)); [|cbn [content ts_peeked ts_src]; lia| |reflexivity].
    + cbn [content ts_peeked ts_src]. cbn [map]. cbn [app]. rewrite <- app_assoc. reflexivity.
    + apply Forall_forall. intros t I. apply in_map_iff in I. destruct I as (y & <- & _). discriminate.
  - exists ts. split; [reflexivity|exact C].
  - exists (mkTS rest None). split; [|reflexivity]. unfold SkipValue. cbn [t_type t_isNil tok0].
    change (FTListStructs =? FTStruct) with false. change (FTListStructs =? FTListStructs) with true. cbn iota.
    unfold skipListStructs. rewrite Next_content, C. cbn [t_kind set_len tok0 tkind_eqb]. rewrite left_content. cbn [content ts_peeked ts_src].
    eapply (skip_structs_list (m :: l) _ _ (tok0 TListEnd n 0)); [|cbn [content ts_peeked ts_src]; lia|reflexivity].
    cbn [content ts_peeked ts_src]. cbn [flat_map]. rewrite <- !app_assoc. reflexivity.
  - exists ts. split; [reflexivity|exact C].
  - exists (mkTS rest None). split; [|reflexivity]. unfold SkipValue. cbn [t_type t_isNil tok0 set_map t_valType].
    change (FTMap =? FTStruct) with false. change (FTMap =? FTListStructs) with false. change ((FTListBools <=? FTMap) && (FTMap <=? FTListStrings)) with false.
    change (FTMap =? FTMap) with true. cbn iota. eapply (skip_map_entries n kt vt (ke :: es)); [discriminate|exact Sk|exact C].
  - exists ts. split; [reflexivity|exact C].
  - exists ts. split; [reflexivity|exact C].
  - exists ts. split; [reflexivity|exact C].
  - discriminate Sk.
Qed.

(** A field of type list of Any is not skipped at all: its list stays on the stream, where the next
    field token is expected. *)
Theorem C37_skip_anys_refuted n x l ts rest :
  content ts = fbody n (FAnys (x :: l)) ++ rest -> SkipValue ts (ffield n (FAnys (x :: l))) = Ok ts /\ content ts <> rest.
Proof.
  intros C. split; [reflexivity|]. rewrite C. intros E. apply (f_equal (@length token)) in E. cbn in E. rewrite app_length in E. lia.
Qed.
(** A map of structs with a nil value, or of lists of Any, cannot be skipped. *)
Theorem C37_skip_map_refuted :
  SkipValue (NewTokenStream (fbody [109] (FMap KTStr VTStruct [(KStr [97], EMsg None)]))) (ffield [109] (FMap KTStr VTStruct [(KStr [97], EMsg None)])) = Err /\
  SkipValue (NewTokenStream (fbody [109] (FMap KTStr VTAnys [(KStr [97], EAnys [])]))) (ffield [109] (FMap KTStr VTAnys [(KStr [97], EAnys [])])) = Err.
Proof. split; vm_compute; reflexivity. Qed.

(** A struct inside a map inside a list of structs, with an empty list and a nil struct: skipped. *)
Definition demo_msg : tmsg :=
  TMsg [65] [([97], FNum KI32 (-5) None); ([98], FMsg (Some (TMsg [66] [([99], FStr true [104; 105])])));
             ([100], FMsgs [TMsg [66] [([99], FStr true [])]; TMsg [66] [([101], FMap KTStr VTStruct [(KStr [120], EMsg (Some (TMsg [67] [])))])]]);
             ([102], FNums KU8 []); ([103], FMsg None)].
Example C37_case :
  skippable (FMsgs [demo_msg; demo_msg]) /\
  exists rest, toks (TMsg [90] [([109], FMsgs [demo_msg; demo_msg]); ([110], FNum KBool 1 None)]) = tok0 TStructStart [90] 0 :: ffield [109] (FMsgs [demo_msg; demo_msg]) :: fbody [109] (FMsgs [demo_msg; demo_msg]) ++ rest
    /\ SkipValue (NewTokenStream (fbody [109] (FMsgs [demo_msg; demo_msg]) ++ rest)) (ffield [109] (FMsgs [demo_msg; demo_msg])) = Ok (NewTokenStream rest).
Proof.
  split; [exact I|]. exists [ffield [110] (FNum KBool 1 None); tok0 TStructEnd [90] 0].
  split; vm_compute; reflexivity.
Qed.

(** ** C72: a walk stops when the callback says so *)

(** [watch] notes whether the callback is called again after it has answered false. *)
Definition watch {S} (yield : token -> S -> S * bool) (t : token) (s : S * bool * bool) : S * bool * bool * bool :=
  let '(s, stopped, again) := s in
  let '(s', ok) := yield t s in
  ((s', stopped || negb ok, again || stopped), ok).
Definition called_again {S} (yield : token -> S -> S * bool) (m : tmsg) (s : S) : bool :=
  snd (walk _ (watch yield) m (s, false, false)).

(** A callback that stops inside a nested struct is called again for the next field of the outer
    one. *)
Theorem C72_stop_refuted : exists (yield : token -> nat -> nat * bool) m s, called_again yield m s = true.
Proof.
  exists (fun _ n => match n with O => (O, false) | S n => (n, true) end), demo_msg, 4%nat. vm_compute. reflexivity.
Qed.

(** A struct with no struct inside is walked as documented. *)
Definition no_struct (v : fval) : Prop :=
  match v with
  | FMsg (Some _) | FMsgs (_ :: _) => False
  | FMap _ _ es => Forall (fun ke => match snd ke with EMsg (Some _) => False | _ => True end) es
  | _ => True
  end.
Section Stop.
Variable S : Type.
Variable yield : token -> S -> S * bool.
(** Not called again, and the flag "stopped" is the answer the walk acts on. *)
Definition wok (r : S * bool * bool * bool) : Prop := snd (fst r) = false /\ snd (fst (fst r)) = negb (snd r).
Lemma wok_yield t s : wok (watch yield t (s, false, false)).
Proof. unfold wok, watch. destruct (yield t s) as [s' ok]. destruct ok; auto. Qed.
Lemma wok_true st (s : S) : wok (st, true) -> exists s', st = (s', false, false).
Proof. destruct st as [[s' a] b]. unfold wok. cbn. intros [-> ->]. eauto. Qed.
Lemma wok_emits ts : forall s, wok (emits _ (watch yield) ts (s, false, false)).
Proof.
  induction ts as [|t ts IH]; intros s; cbn [emits]; [split; reflexivity|].
  pose proof (wok_yield t s) as W. destruct (watch yield t (s, false, false)) as [st ok]. destruct ok; [|exact W].
  destruct (wok_true _ s W) as [s' ->]. apply IH.
Qed.
Lemma wok_entry t vt e s : match e with EMsg (Some _) => False | _ => True end -> wok (walk_entry _ (watch yield) t vt e (s, false, false)).
Proof. destruct e as [z|b|[m|]|[[h d]|]|l|]; cbn [walk_entry]; intros H; try apply wok_emits. contradiction. Qed.
Lemma wok_field n v s : no_struct v -> wok (walk_field _ (watch yield) n v (s, false, false)).
Proof.
  destruct v as [k z e|st b|[m|]|k [|x l]|st [|x l]|[|m l]|kt vt [|ke es]|[[h dd]|]|[|x l]]; cbn [walk_field no_struct]; intros H; try contradiction; try apply wok_emits.
  match goal with |- context [emits ?S ?y ?ts ?s0] => pose proof (wok_emits ts s) as W; destruct (emits S y ts s0) as [st ok] end.
  destruct ok; [|exact W]. destruct (wok_true _ s W) as [s' ->]. clear W.
  match goal with |- wok (let '(_, _) := ?X in _) => assert (W : wok X); [|destruct X as [st ok]] end.
  - destruct ke as [k0 e0]. inversion H as [|? ? H1 H2]; subst. cbn [snd] in H1.
    match goal with |- wok (let '(_, _) := ?X in _) => assert (W : wok X) by (apply (wok_entry (entry_tok n kt vt k0) vt e0 s' H1)); destruct X as [st ok] end.
    destruct ok; [|exact W].
    destruct (wok_true _ s W) as [s2 ->]. clear W H H1. revert s2. induction H2 as [|[k e] es He _ IH]; intros s2; [split; reflexivity|].
    cbn [snd] in He.
    match goal with |- wok (let '(_, _) := ?X in _) => assert (W : wok X) by (apply (wok_entry (entry_tok n kt vt k) vt e s2 He)); destruct X as [st ok] end.
    destruct ok; [|exact W].
    destruct (wok_true _ s W) as [s3 ->]. apply IH.
  - destruct ok; [|exact W]. destruct (wok_true _ s W) as [s2 ->]. apply wok_emits.
Qed.
End Stop.
Theorem C72_stop_partial S (yield : token -> S -> S * bool) n fs s :
  Forall (fun nv => no_struct (snd nv)) fs -> called_again yield (TMsg n fs) s = false.
Proof.
  intros F. unfold called_again. cbn [walk].
  pose proof (wok_yield S yield (tok0 TStructStart n 0) s) as W. destruct (watch yield (tok0 TStructStart n 0) (s, false, false)) as [st ok].
  destruct ok; [|apply W]. destruct (wok_true _ _ s W) as [s' ->]. clear W.
  match goal with |- snd (let '(_, _) := ?X in _) = _ => assert (W : wok _ X); [|destruct X as [st ok]] end.
  - revert s'. induction F as [|[f v] fs H _ IH]; intros s'; [split; reflexivity|]. cbn [snd] in H.
    match goal with |- wok _ (let '(_, _) := ?X in _) => assert (W : wok _ X) by (apply (wok_field S yield f v s' H)); destruct X as [st ok] end.
    destruct ok; [|exact W]. destruct (wok_true _ _ s' W) as [s2 ->]. apply IH.
  - destruct ok; [|apply W]. destruct (wok_true _ _ s' W) as [s2 ->].
    pose proof (wok_yield S yield (tok0 TStructEnd n 0) s2) as W'. destruct (watch yield (tok0 TStructEnd n 0) (s2, false, false)) as [st ok]. apply W'.
Qed.
Example C72_case :
  called_again (fun _ n => match n with O => (O, false) | S n => (n, true) end)
    (TMsg [65] [([97], FNums KU8 [(1, None); (2, None)]); ([98], FStr true [104])]) 3%nat = false.
Proof. vm_compute. reflexivity. Qed.

Print Assumptions C36_value.
Print Assumptions C36_key.
Print Assumptions C37_queue.
Print Assumptions C37_walk_stream.
Print Assumptions C37_skip_value_partial.
Print Assumptions C37_skip_anys_refuted.
Print Assumptions C37_skip_map_refuted.
Print Assumptions C72_stop_refuted.
Print Assumptions C72_stop_partial.
Print Assumptions C37_all_tokens.
