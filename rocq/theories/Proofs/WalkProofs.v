(** Walk produces the documented stream; the stream can be skipped. *)
From Coq Require Import ZArith List Bool Lia ZifyBool.
Import ListNotations.
From Verif.Model Require Import Base Field MapApi Token Walk TokenStream.
From Verif.Spec Require Import TokenGrammar.
Open Scope Z_scope.

(** ** Induction over the tree *)
Definition esub (P : tmsg -> Prop) (e : mentry) : Prop := match e with EMsg (Some m) => P m | _ => True end.
Definition vsub (P : tmsg -> Prop) (v : fval) : Prop :=
  match v with
  | FMsg (Some m) => P m
  | FMsgs l => Forall P l
  | FMap _ _ es => Forall (fun ke => esub P (snd ke)) es
  | _ => True
  end.
Lemma tmsg_ind' (P : tmsg -> Prop) :
  (forall n fs, Forall (fun nv => vsub P (snd nv)) fs -> P (TMsg n fs)) -> forall m, P m.
Proof.
  intros H. fix IH 1. intros [n fs]. apply H. induction fs as [|[f v] fs IHfs]; constructor; [|exact IHfs].
  cbn. destruct v as [| |o| | |l|kt vt es| |]; cbn; auto.
  - destruct o; [apply IH|exact I].
  - induction l; constructor; [apply IH|assumption].
  - induction es as [|[k e] es IHes]; constructor; [|assumption]. destruct e as [| |o| | |]; cbn; auto. destruct o; [apply IH|exact I].
Qed.

(** ** An unstopped walk *)
Section Total.
Variable S : Type.
Variable yield : token -> S -> S.
Definition yt : token -> S -> S * bool := fun t s => (yield t s, true).
Definition feed (ts : list token) (s : S) : S := fold_left (fun s t => yield t s) ts s.
Lemma feed_app a b s : feed (a ++ b) s = feed b (feed a s).
Proof. apply fold_left_app. Qed.
Lemma emits_total ts s : emits S yt ts s = (feed ts s, true).
Proof. revert s. induction ts as [|t ts IH]; intros s; cbn; [reflexivity|apply IH]. Qed.
Lemma entry_total t vt e s : esub (fun m => forall s, walk S yt m s = feed (mtoks m) s) e ->
  walk_entry S yt t vt e s = (feed (eentry t vt e :: ebody e) s, true).
Proof.
  intros H. destruct e as [z|b|o|o|l|]; cbn [walk_entry].
  - rewrite emits_total. destruct vt; reflexivity.
  - rewrite emits_total. reflexivity.
  - destruct o as [m|]; cbn in H |- *; [rewrite H; reflexivity|reflexivity].
  - destruct o as [[h d]|]; rewrite emits_total; reflexivity.
  - rewrite emits_total. reflexivity.
  - rewrite emits_total. reflexivity.
Qed.
Lemma field_total n v s : vsub (fun m => forall s, walk S yt m s = feed (mtoks m) s) v ->
  walk_field S yt n v s = (feed (ffield n v :: fbody n v) s, true).
Proof.
  intros H. destruct v as [k z e|st b|o|k l|st l|l|kt vt es|o|l]; cbn [walk_field].
  - rewrite emits_total. reflexivity.
  - rewrite emits_total. reflexivity.
  - destruct o as [m|]; [|rewrite emits_total; reflexivity]. rewrite emits_total. cbn in H. rewrite H. reflexivity.
  - destruct l; rewrite emits_total; reflexivity.
  - destruct l; rewrite emits_total; reflexivity.
  - destruct l as [|m l]; [rewrite emits_total; reflexivity|]. rewrite emits_total. cbn [vsub] in H.
    set (s0 := feed _ s).
    assert (E : forall l s, Forall (fun m => forall s, walk S yt m s = feed (mtoks m) s) l ->
      (fix items (l : list tmsg) (s : S) : S := match l with [] => s | m :: q => items q (walk S yt m s) end) l s = feed (flat_map mtoks l) s).
    { clear. induction l as [|m l IH]; intros s F; [reflexivity|]. inversion F as [|? ? H F']; subst. cbn [flat_map]. rewrite feed_app, <- H. apply IH, F'. }
    inversion H as [|? ? Hm Hl]; subst. rewrite E by exact Hl. rewrite Hm. rewrite emits_total. f_equal.
    change (fbody n (FMsgs (m :: l))) with (set_len (len (m :: l)) (tok0 TListStart n FTListStructs) :: flat_map mtoks (m :: l) ++ [tok0 TListEnd n 0]).
    change (ffield n (FMsgs (m :: l))) with (tok0 TField n FTListStructs). unfold s0. cbn [flat_map].
    change (tok0 TField n FTListStructs :: ?x :: ?y) with ([tok0 TField n FTListStructs; x] ++ y).
    rewrite !feed_app. reflexivity.
  - destruct es as [|ke es]; [rewrite emits_total; reflexivity|]. rewrite emits_total. cbn [vsub] in H.
    set (s0 := feed _ s).
    assert (E : forall es s, Forall (fun ke => esub (fun m => forall s, walk S yt m s = feed (mtoks m) s) (snd ke)) es ->
      (fix entries (es : list (mkey * mentry)) (s : S) : S * bool :=
         match es with
         | [] => (s, true)
         | (k, e) :: q => let '(s, ok) := walk_entry S yt (entry_tok n kt vt k) vt e s in if ok then entries q s else (s, false)
         end) es s = (feed (etoks n kt vt es) s, true)).
    { clear. induction es as [|[k e] es IH]; intros s F; [reflexivity|]. inversion F as [|? ? H F']; subst. cbn [snd] in H.
      rewrite entry_total by exact H. rewrite IH by exact F'. unfold etoks. cbn [flat_map]. rewrite feed_app. reflexivity. }
    destruct ke as [k e]. inversion H as [|? ? Hm Hl]; subst. cbn [snd] in Hm. rewrite entry_total by exact Hm.
    rewrite E by exact Hl. rewrite emits_total. f_equal.
    change (fbody n (FMap kt vt ((k, e) :: es))) with (set_len (len ((k, e) :: es)) (set_map kt vt (tok0 TMapStart n 0)) :: etoks n kt vt ((k, e) :: es) ++ [tok0 TMapEnd n 0]).
    change (ffield n (FMap kt vt ((k, e) :: es))) with (set_map kt vt (tok0 TField n FTMap)). unfold s0.
    change (etoks n kt vt ((k, e) :: es)) with ((eentry (entry_tok n kt vt k) vt e :: ebody e) ++ etoks n kt vt es).
    change (set_map kt vt (tok0 TField n FTMap) :: ?x :: ?y) with ([set_map kt vt (tok0 TField n FTMap); x] ++ y).
    rewrite !feed_app. reflexivity.
  - destruct o as [[h d]|]; rewrite emits_total; reflexivity.
  - destruct l; rewrite emits_total; reflexivity.
Qed.
Lemma walk_total m : forall s, walk S yt m s = feed (mtoks m) s.
Proof.
  induction m as [n fs H] using tmsg_ind'. intros s. cbn [walk].
  change (yt (tok0 TStructStart n 0) s) with (yield (tok0 TStructStart n 0) s, true). cbv iota beta.
  set (s0 := yield (tok0 TStructStart n 0) s).
  assert (E : forall fs s, Forall (fun nv => vsub (fun m => forall s, walk S yt m s = feed (mtoks m) s) (snd nv)) fs ->
     (fix fields (fs : list (bytes * fval)) (s : S) : S * bool :=
           match fs with
           | [] => (s, true)
           | (n, v) :: q => let '(s, ok) := walk_field S yt n v s in if ok then fields q s else (s, false)
           end) fs s = (feed (ftoks fs) s, true)).
  { clear. induction fs as [|[n v] fs IH]; intros s F; [reflexivity|]. inversion F as [|? ? H F']; subst. cbn [snd] in H.
    rewrite field_total by exact H. rewrite IH by exact F'. unfold ftoks. cbn [flat_map]. rewrite feed_app. reflexivity. }
  rewrite E by exact H. cbn [fst yt]. 
  change (mtoks (TMsg n fs)) with (tok0 TStructStart n 0 :: ftoks fs ++ [tok0 TStructEnd n 0]).
  change (feed (tok0 TStructStart n 0 :: ftoks fs ++ [tok0 TStructEnd n 0]) s) with (feed (ftoks fs ++ [tok0 TStructEnd n 0]) s0).
  rewrite feed_app. reflexivity.
Qed.
End Total.

Lemma toks_mtoks m : toks m = mtoks m.
Proof.
  unfold toks. change (fun (t : token) (s : list token) => (t :: s, true)) with (yt (list token) (fun t s => t :: s)).
  rewrite walk_total. unfold feed.
  assert (E : forall l s, fold_left (fun (s : list token) t => t :: s) l s = rev l ++ s).
  { induction l as [|t l IH]; intros s; cbn; [reflexivity|]. rewrite IH, <- app_assoc. reflexivity. }
  rewrite E, app_nil_r, rev_involutive. reflexivity.
Qed.

(** ** The stream as a queue *)
Definition content (ts : tstream) : list token :=
  match ts.(ts_peeked) with Some t => t :: ts.(ts_src) | None => ts.(ts_src) end.
Lemma Next_content ts :
  Next ts = match content ts with [] => (None, mkTS [] None) | t :: q => (Some t, mkTS q None) end.
Proof. destruct ts as [src [t|]]; cbn; [reflexivity|]. destruct src; reflexivity. Qed.
Lemma Peek_content ts :
  Peek ts = match content ts with [] => (None, mkTS [] None) | t :: q => (Some t, mkTS q (Some t)) end.
Proof. destruct ts as [src [t|]]; cbn; [reflexivity|]. destruct src; reflexivity. Qed.
Lemma left_content ts : left ts = length (content ts).
Proof. destruct ts as [src [t|]]; unfold left; cbn; lia. Qed.

(** ** Skipping *)
Fixpoint sd (d : nat) (l : list token) : option (list token) :=
  match l with
  | [] => None
  | t :: q =>
    match t.(t_kind) with
    | TStructStart => sd (S d) q
    | TStructEnd => match d with S (S d) => sd (S d) q | _ => Some q end
    | _ => sd d q
    end
  end.
Definition of_opt (o : option (list token)) : res tstream := match o with Some q => Ok (mkTS q None) | None => Err end.
Lemma skip_depth_sd n : forall d ts, (length (content ts) < n)%nat -> skip_depth n d ts = of_opt (sd d (content ts)).
Proof.
  induction n; intros d ts L; [lia|]. cbn [skip_depth]. rewrite Next_content.
  destruct (content ts) as [|t q]; [reflexivity|]. cbn in L |- *. 
  assert (C : content (mkTS q None) = q) by reflexivity.
  destruct (t_kind t); try (rewrite IHn by (rewrite C; lia); rewrite C; reflexivity).
  destruct d as [|[|d]]; try reflexivity. rewrite IHn by (rewrite C; lia). rewrite C. reflexivity.
Qed.

Definition flat_tok (t : token) : Prop := t.(t_kind) <> TStructStart /\ t.(t_kind) <> TStructEnd.
Lemma sd_flat d l rest : Forall flat_tok l -> sd d (l ++ rest) = sd d rest.
Proof. induction 1 as [|t l [A B] _ IH]; cbn; [reflexivity|]. destruct (t_kind t); auto; congruence. Qed.

Lemma set_enum_kind e t : t_kind (set_enum e t) = t_kind t.
Proof. destruct e; reflexivity. Qed.
Lemma ffield_kind n v : t_kind (ffield n v) = TField.
Proof. destruct v as [k z e|st b|[m|]|k [|]|st [|]|[|]|kt vt [|]|[[h d]|]|[|]]; cbn; try reflexivity. apply set_enum_kind. Qed.
Lemma entry_tok_kind n kt vt k : t_kind (entry_tok n kt vt k) = TMapEntry.
Proof. destruct kt, k; reflexivity. Qed.
Lemma eentry_kind t vt e : t_kind (eentry t vt e) = t_kind t.
Proof. destruct e as [z|b|o|[[h d]|]|l|]; cbn; try reflexivity. destruct vt; reflexivity. Qed.
Lemma num_item_kind k x : t_kind (num_item k x) = TField.
Proof. unfold num_item. rewrite set_enum_kind. reflexivity. Qed.
Lemma flat_nums k l : Forall flat_tok (map (num_item k) l).
Proof. apply Forall_forall. intros t I. apply in_map_iff in I. destruct I as (x & <- & _). unfold flat_tok. rewrite num_item_kind. split; discriminate. Qed.
Lemma flat_strs st l : Forall flat_tok (map (str_item st) l).
Proof. apply Forall_forall. intros t I. apply in_map_iff in I. destruct I as (x & <- & _). split; discriminate. Qed.
Lemma flat_anys l : Forall flat_tok (map any_item l).
Proof. apply Forall_forall. intros t I. apply in_map_iff in I. destruct I as (x & <- & _). split; discriminate. Qed.

Lemma sd_cons d t rest : flat_tok t -> sd d (t :: rest) = sd d rest.
Proof. intros F. apply (sd_flat d [t] rest). auto. Qed.
Lemma flat_field n v : flat_tok (ffield n v).
Proof. unfold flat_tok. rewrite ffield_kind. split; discriminate. Qed.
Lemma flat_entry n kt vt k e : flat_tok (eentry (entry_tok n kt vt k) vt e).
Proof. unfold flat_tok. rewrite eentry_kind, entry_tok_kind. split; discriminate. Qed.
Lemma sd_anys d n l rest : sd d (any_list n l ++ rest) = sd d rest.
Proof.
  unfold any_list. cbn [app]. rewrite sd_cons by (split; discriminate). rewrite <- app_assoc.
  rewrite sd_flat by apply flat_anys. cbn [app]. apply sd_cons. split; discriminate.
Qed.
Definition sdP (m : tmsg) : Prop := forall d rest, sd (S d) (mtoks m ++ rest) = sd (S d) rest.
Lemma sd_fbody n v d rest : vsub sdP v -> sd (S d) (fbody n v ++ rest) = sd (S d) rest.
Proof.
  intros H. destruct v as [k z e|st b|[m|]|k [|x l]|st [|x l]|[|m l]|kt vt [|ke es]|[[h dd]|]|[|x l]]; try reflexivity.
  - apply H.
  - cbn [fbody]. cbn [app]. rewrite sd_cons by (split; discriminate). rewrite <- app_assoc.
    rewrite sd_flat by apply flat_nums. apply sd_cons. split; discriminate.
  - cbn [fbody]. cbn [app]. rewrite sd_cons by (split; discriminate). rewrite <- app_assoc.
    rewrite sd_flat by apply flat_strs. apply sd_cons. split; discriminate.
  - change (fbody n (FMsgs (m :: l))) with (set_len (len (m :: l)) (tok0 TListStart n FTListStructs) :: flat_map mtoks (m :: l) ++ [tok0 TListEnd n 0]).
    rewrite <- app_comm_cons. rewrite sd_cons by (split; discriminate). rewrite <- app_assoc.
    cbn [vsub] in H. remember (m :: l) as l' eqn:E. clear E.
    induction H as [|x l' Hx _ IH]; cbn [flat_map]; [apply sd_cons; split; discriminate|].
    rewrite <- app_assoc, Hx. exact IH.
  - change (fbody n (FMap kt vt (ke :: es))) with (set_len (len (ke :: es)) (set_map kt vt (tok0 TMapStart n 0)) :: etoks n kt vt (ke :: es) ++ [tok0 TMapEnd n 0]).
    rewrite <- app_comm_cons. rewrite sd_cons by (split; discriminate). rewrite <- app_assoc.
    cbn [vsub] in H. remember (ke :: es) as l' eqn:E. clear E.
    induction H as [|[k e] l' Hx _ IH]; [apply sd_cons; split; discriminate|].
    unfold etoks in *. cbn [flat_map]. rewrite <- app_comm_cons. cbn [app]. rewrite sd_cons by apply flat_entry.
    rewrite <- app_assoc. cbn [snd] in Hx.
    destruct e as [z|b|[m|]|o|l|]; cbn [ebody app]; try exact IH.
    + cbn in Hx. rewrite Hx. exact IH.
    + rewrite sd_anys. exact IH.
  - cbn [fbody]. apply sd_anys.
Qed.
Lemma sd_fields fs d rest : Forall (fun nv => vsub sdP (snd nv)) fs -> sd (S d) (ftoks fs ++ rest) = sd (S d) rest.
Proof.
  induction 1 as [|[n v] fs H _ IH]; [reflexivity|]. unfold ftoks in *. cbn [flat_map]. rewrite <- app_comm_cons. cbn [app].
  rewrite sd_cons by apply flat_field. rewrite <- app_assoc. rewrite sd_fbody by exact H. exact IH.
Qed.
Lemma sd_mtoks m : sdP m.
Proof.
  induction m as [n fs H] using tmsg_ind'. intros d rest.
  change (mtoks (TMsg n fs)) with (tok0 TStructStart n 0 :: ftoks fs ++ [tok0 TStructEnd n 0]).
  rewrite <- app_comm_cons. change (sd (S d) (tok0 TStructStart n 0 :: (ftoks fs ++ [tok0 TStructEnd n 0]) ++ rest)) with (sd (S (S d)) ((ftoks fs ++ [tok0 TStructEnd n 0]) ++ rest)).
  rewrite <- app_assoc. rewrite sd_fields by exact H. reflexivity.
Qed.

Lemma skipStruct_mtoks m ts rest : content ts = mtoks m ++ rest -> skipStruct ts = Ok (mkTS rest None).
Proof.
  intros C. destruct m as [n fs]. unfold skipStruct. rewrite Next_content, C.
  change (mtoks (TMsg n fs)) with (tok0 TStructStart n 0 :: ftoks fs ++ [tok0 TStructEnd n 0]).
  rewrite <- app_comm_cons. cbn [t_kind tok0 tkind_eqb].
  rewrite skip_depth_sd by (rewrite left_content; lia). cbn [content ts_peeked ts_src].
  rewrite <- app_assoc. rewrite sd_fields; [reflexivity|].
  apply Forall_forall. intros [n' v] _. cbn. destruct v as [k z e|st b|[m|]|k l|st l|l|kt vt es|o|l]; cbn; auto.
  - apply sd_mtoks.
  - apply Forall_forall. intros m _. apply sd_mtoks.
  - apply Forall_forall. intros [k e] _. cbn. destruct e as [z|b|[m|]|o|l|]; cbn; auto. apply sd_mtoks.
Qed.

Lemma skip_items_list n ts l t rest : content ts = l ++ t :: rest -> (length (content ts) < n)%nat ->
  Forall (fun t => t_kind t <> TListEnd) l -> t_kind t = TListEnd -> skip_items n ts = Ok (mkTS rest None).
Proof.
  revert ts n. induction l as [|x l IH]; intros ts n C L F E; (destruct n; [lia|]); cbn [skip_items]; rewrite Next_content, C; cbn [app].
  - rewrite E. reflexivity.
  - inversion F as [|? ? Fx F']; subst. rewrite C in L. cbn in L.
    destruct (tkind_eqb (t_kind x) TListEnd) eqn:Q; [destruct (t_kind x); try discriminate; congruence|].
    apply IH; auto. cbn. lia.
Qed.
Lemma skip_structs_list l : forall n ts t rest, content ts = flat_map mtoks l ++ t :: rest -> (length (content ts) < n)%nat ->
  t_kind t = TListEnd -> skip_structs n ts = Ok (mkTS rest None).
Proof.
  induction l as [|m l IH]; intros n ts t rest C L E; (destruct n; [lia|]); cbn [skip_structs]; rewrite Peek_content.
  - cbn in C. rewrite C, E. cbn. reflexivity.
  - cbn [flat_map] in C. rewrite <- app_assoc in C. 
    assert (H : exists q, content ts = tok0 TStructStart (match m with TMsg n _ => n end) 0 :: q).
    { destruct m as [nm fs]. rewrite C. eexists. reflexivity. }
    destruct H as [q H]. rewrite H. cbn [t_kind tok0 tkind_eqb].
    rewrite (skipStruct_mtoks m _ (flat_map mtoks l ++ t :: rest)).
    2:{ cbn [content ts_peeked ts_src]. rewrite <- C, H. reflexivity. }
    cbn [bind]. apply (IH _ _ t); auto. cbn [content ts_peeked ts_src].
    assert (length (content ts) = (length (mtoks m) + length (flat_map mtoks l ++ t :: rest))%nat) by (rewrite C, app_length; reflexivity).
    assert ((1 <= length (mtoks m))%nat) by (destruct m; cbn; lia). lia.
Qed.
