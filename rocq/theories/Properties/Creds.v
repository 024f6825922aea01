(** C48: credentials that require a secure transport. *)
From Coq Require Import String.
From Verif.Model Require Import Base Any Registry Metadata ErrText Target Creds.
From Verif.Proofs Require Import BaseLemmas.
From Verif.Properties Require Import Registry.
From Coq Require Import Lia List.
Open Scope list_scope.
Open Scope Z_scope.

(** The providers a credential is made of. *)
Inductive part_of : creds -> Z -> bool -> (bytes -> res (list (bytes * bytes))) -> Prop :=
| PartHere n r g : part_of (Provider n r g) n r g
| PartIn l c n r g : In c l -> part_of c n r g -> part_of (Composite l) n r g.

Section S.
Variable ToLower : bytes -> bytes.

(** A composite requires security as soon as one of its parts does, however deep. *)
Fixpoint csize (c : creds) : nat := match c with Provider _ _ _ => 0%nat | Composite l => S (fold_right (fun c n => (csize c + n)%nat) 0%nat l) end.
Lemma csize_in l c : In c l -> (csize c < csize (Composite l))%nat.
Proof. intros H. cbn. induction l as [|x l IH]; cbn in *; [contradiction|]. destruct H as [->|H]; [lia|]. specialize (IH H). lia. Qed.
Lemma requires_parts : forall c, requires c = true <-> exists n g, part_of c n true g.
Proof.
  intros c. remember (csize c) as k eqn:E. assert (L : (csize c <= k)%nat) by lia. clear E. revert c L.
  induction k as [k IH] using (well_founded_induction lt_wf). intros c L. destruct c as [n r g|l].
  - cbn. split; [intros ->; exists n, g; constructor|]. intros (n' & g' & H). inversion H; subst; reflexivity.
  - cbn [requires]. rewrite existsb_exists. split.
    + intros (c & HI & HR). pose proof (csize_in _ _ HI). apply (IH (csize c)) in HR; [|lia|lia].
      destruct HR as (n & g & HR). exists n, g. econstructor; eauto.
    + intros (n & g & H). inversion H as [|l' c n' r' g' HI HP]; subst. exists c. split; auto. pose proof (csize_in _ _ HI).
      apply (IH (csize c)); [lia|lia|]. eauto.
Qed.

(** On a connection that is not secure, with credentials any part of which requires
    security: no provider is asked, nothing is written, the caller's maps are as they were,
    and the call fails. *)
Theorem C48_not_requested : forall h c cr n g,
  ca_secure c = false -> ca_creds c = Some cr -> part_of cr n true g ->
  do_call ToLower h c = (h, [], false).
Proof.
  intros h c cr n g HS HC HP. unfold do_call. destruct (ca_ready c); [|reflexivity]. cbn [negb].
  unfold applyCredentials. rewrite HC. assert (requires cr = true) as -> by (apply requires_parts; eauto).
  rewrite HS. reflexivity.
Qed.

(** So in any history the providers asked on insecure connections do not require security. *)
Definition asks (ev : list cevent) (n : Z) : Prop := In (Asked n) ev.
Lemma asked_parts : forall c uri n, In (Asked n) (fst (GetRequestMetadata c uri)) -> exists r g, part_of c n r g.
Proof.
  intros c. remember (csize c) as k eqn:E. assert (L : (csize c <= k)%nat) by lia. clear E. revert c L.
  induction k as [k IH] using (well_founded_induction lt_wf). intros c L uri n. destruct c as [n' r g|l].
  - cbn. intros [[= <-]|[]]. exists r, g. constructor.
  - cbn [GetRequestMetadata]. intros H.
    enough (X : exists c, In c l /\ In (Asked n) (fst (GetRequestMetadata c uri))).
    { destruct X as (c & HI & HA). pose proof (csize_in _ _ HI). eapply (IH (csize c)) in HA; [|lia|lia].
      destruct HA as (r & g & HA). exists r, g. econstructor; eauto. }
    clear IH L. revert H. generalize (@nil (bytes * bytes)). induction l as [|c l IHl]; intros acc H; [destruct H|].
    destruct (GetRequestMetadata c uri) as [ev [md| | |]] eqn:EG.
    + match type of H with In _ (fst (let '(_, _) := ?X in _)) => destruct X as [ev' r'] eqn:EX end.
      cbn [fst] in H. apply in_app_iff in H. destruct H as [H|H].
      * exists c. split; [now left|]. rewrite EG. exact H.
      * destruct (IHl (fold_left (fun a kv => md_put a (fst kv) (snd kv)) md acc)) as (c' & HI & HA).
        { rewrite EX. exact H. }
        exists c'. split; [now right|exact HA].
    + exists c. split; [now left|]. rewrite EG. exact H.
    + exists c. split; [now left|]. rewrite EG. exact H.
    + exists c. split; [now left|]. rewrite EG. exact H.
Qed.
Theorem C48_asked_insecurely : forall h c h' ev ok n,
  do_call ToLower h c = (h', ev, ok) -> ca_secure c = false -> In (Asked n) ev ->
  exists cr, ca_creds c = Some cr /\ (exists r g, part_of cr n r g) /\ forall n' g, ~ part_of cr n' true g.
Proof.
  intros h c h' ev ok n H HS HA. unfold do_call in H. destruct (ca_ready c); [|injection H as <- <- <-; destruct HA]. cbn [negb] in H.
  destruct (applyCredentials ToLower h c) as [[h1 ev1] r] eqn:EA.
  assert (HA1 : In (Asked n) ev1).
  { destruct r; [|injection H as <- <- <-; exact HA..]. destruct (ca_open c); cbn [negb] in H; injection H as <- <- <-; [|exact HA].
    apply in_app_iff in HA. destruct HA as [HA|[HA|[]]]; [exact HA|discriminate]. }
  unfold applyCredentials in EA. destruct (ca_creds c) as [cr|]; [|injection EA as <- <- <-; destruct HA1].
  exists cr. split; [reflexivity|]. rewrite HS in EA. cbn [negb] in EA. rewrite andb_true_r in EA.
  destruct (requires cr) eqn:ER; [injection EA as <- <- <-; destruct HA1|].
  split.
  - apply (asked_parts cr (ca_uri c)). destruct (GetRequestMetadata cr (ca_uri c)) as [e rr]. cbn [fst].
    assert (ev1 = e); [|congruence].
    destruct rr as [[|kv md]| | |]; [injection EA; auto| |injection EA; auto..].
    destruct (match match ca_md c with Some a => Some a | None => ca_ctx c end with Some a => (h, a) | None => (h ++ [[]], length h) end). injection EA; auto.
  - intros n' g HP. assert (requires cr = true) by (apply requires_parts; eauto). congruence.
Qed.

(** ** What is written on an insecure connection *)
Definition has_value (md : list (bytes * bytes)) (v : bytes) : Prop := exists k, In (k, v) md.
(** The references a call can write to or read from. *)
Definition uses (c : call) (a : nat) : Prop :=
  match ca_md c with Some b => a = b | None => ca_ctx c = Some a end.

Section Secret.
Variable secret : bytes -> Prop.
(** Only providers that require security know secrets. *)
Definition keeps_secrets (c : creds) : Prop :=
  forall n r g, part_of c n r g -> r = false -> forall uri md v, g uri = Ok md -> has_value md v -> ~ secret v.
Definition clean (md : MD) : Prop := forall v, has_value md v -> ~ secret v.

Lemma clean_nil : clean []. Proof. intros v [k []]. Qed.
Lemma clean_del md k : clean md -> clean (md_del md k).
Proof.
  intros H v [k' HI]. apply H. exists k'. induction md as [|[k0 v0] md IH]; [exact HI|]. cbn in HI |- *.
  destruct (bytes_eqb k k0); [right; apply IH; auto; intros x [y Hy]; apply H; exists y; now right|].
  destruct HI as [HI|HI]; [now left|right; apply IH; auto]. intros x [y Hy]; apply H; exists y; now right.
Qed.
Lemma clean_put md k v : clean md -> ~ secret v -> clean (md_put md k v).
Proof.
  intros H N v' [k' [E|HI]]; [injection E as <- <-; exact N|]. apply (clean_del md k H). now exists k'.
Qed.
Lemma clean_puts f l : forall md, clean md -> (forall v, has_value l v -> ~ secret v) ->
  clean (fold_left (fun a kv => md_put a (f (fst kv)) (snd kv)) l md).
Proof.
  induction l as [|[k v] l IH]; intros md H N; [exact H|]. cbn. apply IH.
  - apply clean_put; auto. apply N. exists k. now left.
  - intros x [y Hy]. apply N. exists y. now right.
Qed.
Lemma keeps_get : forall c uri md, requires c = false -> keeps_secrets c -> snd (GetRequestMetadata c uri) = Ok md -> forall v, has_value md v -> ~ secret v.
Proof.
  intros c. remember (csize c) as k eqn:E. assert (L : (csize c <= k)%nat) by lia. clear E. revert c L.
  induction k as [k IH] using (well_founded_induction lt_wf). intros c L uri md HR HK HG. destruct c as [n' r g|l].
  - cbn in *. intros v HV. eapply (HK _ _ _ (PartHere n' r g)); eauto.
  - cbn [requires] in HR.
    assert (HL : forall c, In c l -> forall md, snd (GetRequestMetadata c uri) = Ok md -> forall v, has_value md v -> ~ secret v).
    { intros c HI md' HG' v HV. pose proof (csize_in _ _ HI). apply (IH (csize c) ltac:(lia) c (le_n _) uri md'); [| |exact HG'|exact HV].
      - destruct (requires c) eqn:ER; auto. exfalso. assert (existsb requires l = true) by (apply existsb_exists; eauto). congruence.
      - intros n r g HP. apply HK with n. econstructor; eauto. }
    cbn [GetRequestMetadata] in HG. clear IH L HK HR. revert HG.
    assert (HC : clean []) by apply clean_nil. revert HC. generalize (@nil (bytes * bytes)).
    induction l as [|c l IHl]; intros acc HC HG; [cbn in HG; injection HG as <-; exact HC|].
    pose proof (HL c (or_introl eq_refl)) as HLc.
    destruct (GetRequestMetadata c uri) as [ev [md1| | |]] eqn:EG; [|discriminate HG..].
    match type of HG with snd (let '(_, _) := ?X in _) = _ => destruct X as [ev' r'] eqn:EX end. cbn [snd] in HG. subst r'.
    apply (IHl (fun c0 HI => HL c0 (or_intror HI)) (fold_left (fun a kv => md_put a (fst kv) (snd kv)) md1 acc)).
    + apply (clean_puts (fun x => x)); auto. apply HLc. reflexivity.
    + rewrite EX. reflexivity.
Qed.

Lemma deref_write h : forall a b md, deref (write h a md) b = if ((a =? b)%nat && (a <? length h)%nat)%bool then md else deref h b.
Proof.
  unfold deref. induction h as [|x h IH]; intros a b md.
  - cbn. destruct a, b; cbn; rewrite ?andb_false_r; reflexivity.
  - destruct a as [|a], b as [|b]; cbn; auto. rewrite IH. reflexivity.
Qed.
Lemma write_length h : forall a md, length (write h a md) = length h.
Proof. induction h as [|x h IH]; intros [|a] md; cbn; auto. Qed.

(** The discipline under which the statement is true: the metadata maps used by calls on
    insecure connections are never used by a call whose credentials require security. *)
Definition apart (cs : list call) : Prop :=
  forall c c' a, In c cs -> In c' cs -> uses c a -> uses c' a -> ca_secure c = false ->
  forall cr, ca_creds c' = Some cr -> requires cr = false.

Lemma no_opened : forall c uri s md, ~ In (Opened s md) (fst (GetRequestMetadata c uri)).
Proof.
  intros c. remember (csize c) as k eqn:E. assert (L : (csize c <= k)%nat) by lia. clear E. revert c L.
  induction k as [k IH] using (well_founded_induction lt_wf). intros c L uri s md H. destruct c as [n' r g|l].
  - destruct H as [H|[]]. discriminate.
  - cbn [GetRequestMetadata] in H. revert H. generalize (@nil (bytes * bytes)).
    assert (HL : forall c, In c l -> ~ In (Opened s md) (fst (GetRequestMetadata c uri))).
    { intros c HI X. pose proof (csize_in _ _ HI). apply (IH (csize c) ltac:(lia) c (le_n _) uri s md X). }
    clear IH L. induction l as [|c l IHl]; intros acc H; [destruct H|].
    pose proof (HL c (or_introl eq_refl)) as HLc.
    destruct (GetRequestMetadata c uri) as [ev [md1| | |]] eqn:EG; [|apply HLc; exact H..].
    match type of H with In _ (fst (let '(_, _) := ?X in _)) => destruct X as [ev' r'] eqn:EX end.
    cbn [fst] in H. apply in_app_iff in H. destruct H as [H|H]; [apply HLc; exact H|].
    apply (IHl (fun c0 HI => HL c0 (or_intror HI)) (fold_left (fun a kv => md_put a (fst kv) (snd kv)) md1 acc)). rewrite EX. exact H.
Qed.
Lemma do_call_clean (pub : nat -> Prop) h c h' ev ok :
  (forall a, uses c a -> (a < length h)%nat) ->
  (forall a, pub a -> (a < length h)%nat) ->
  (forall a, pub a -> clean (deref h a)) ->
  (ca_secure c = false -> forall a, uses c a -> pub a) ->
  (forall a, uses c a -> pub a -> forall cr, ca_creds c = Some cr -> requires cr = false) ->
  (forall cr, ca_creds c = Some cr -> keeps_secrets cr) ->
  do_call ToLower h c = (h', ev, ok) ->
  (length h <= length h')%nat /\ (forall a, pub a -> clean (deref h' a)) /\
  forall md, In (Opened false md) ev -> clean md.
Proof.
  intros HD HPD HP HU HR HK H. unfold do_call in H. destruct (ca_ready c); [|injection H as <- <- <-; split; [lia|split; [exact HP|intros md []]]]. cbn [negb] in H.
  destruct (applyCredentials ToLower h c) as [[h1 ev1] r] eqn:EA.
  assert (X : (length h <= length h1)%nat /\ (forall a, pub a -> clean (deref h1 a)) /\ (forall md, ~ In (Opened false md) ev1) /\
    (ca_secure c = false -> forall md, r = Ok md -> clean match md with Some a => deref h1 a | None => [] end)).
  { unfold applyCredentials in EA. destruct (ca_creds c) as [cr|] eqn:EC.
    2:{ injection EA as <- <- <-. split; [lia|]. split; [auto|]. split; [intros md []|]. intros HS md [= <-].
        unfold uses in HU. destruct (ca_md c); [apply HP, HU; auto|]. destruct (ca_ctx c); [apply HP, HU; auto|apply clean_nil]. }
    destruct (requires cr && negb (ca_secure c)) eqn:ERS; [injection EA as <- <- <-; repeat split; auto; try (intros; discriminate); intros md []|].
    pose proof (keeps_get cr (ca_uri c)) as KG.
    destruct (GetRequestMetadata cr (ca_uri c)) as [e rr] eqn:EG. cbn [snd] in KG.
    assert (NE : forall s md, ~ In (Opened s md) e).
    { intros s md HI. apply (no_opened cr (ca_uri c) s md). now rewrite EG. }
    destruct rr as [[|kv credMD]| | |]; try (injection EA as <- <- <-; repeat split; auto; intros; discriminate).
    - injection EA as <- <- <-. split; [lia|]. split; [auto|]. split; [auto|]. intros HS md [= <-].
        unfold uses in HU. destruct (ca_md c); [apply HP, HU; auto|]. destruct (ca_ctx c); [apply HP, HU; auto|apply clean_nil].
    - assert (UM : forall a, match ca_md c with Some a => Some a | None => ca_ctx c end = Some a -> uses c a).
      { intros a E. unfold uses. destruct (ca_md c); congruence. }
      destruct (match ca_md c with Some a => Some a | None => ca_ctx c end) as [a|] eqn:EM.
      + injection EA as <- <- <-. rewrite write_length. split; [lia|].
        pose proof (UM a eq_refl) as UA.
        assert (CL : pub a -> clean (fold_left (fun (m : MD) (kv0 : bytes * bytes) => Set_ ToLower m (fst kv0) (snd kv0)) (kv :: credMD) (deref h a))).
        { intros PA. apply (clean_puts ToLower); [auto|]. apply (KG (kv :: credMD)); auto. eapply HR; eauto. }
        split; [|split; [auto|]].
        * intros b PB. rewrite deref_write. destruct (Nat.eqb_spec a b) as [<-|]; cbn [andb]; auto.
          destruct (Nat.ltb_spec a (length h)); auto.
        * intros HS m [= <-]. rewrite deref_write, Nat.eqb_refl. cbn [andb]. destruct (Nat.ltb_spec a (length h)); auto.
      + injection EA as <- <- <-. rewrite write_length, app_length. split; [lia|].
        split; [|split; [auto|]].
        * intros b PB. rewrite deref_write. rewrite app_length. cbn. pose proof (HPD b PB).
          destruct (Nat.eqb_spec (length h) b); [lia|]. cbn [andb]. unfold deref. rewrite app_nth1 by auto. apply HP. exact PB.
        * intros HS m [= <-]. rewrite deref_write, Nat.eqb_refl, app_length. cbn [andb length].
          destruct (Nat.ltb_spec (length h) (length h + 1)); [|lia].
          apply (clean_puts ToLower (kv :: credMD) (deref (h ++ [[]]) (length h))).
          -- unfold deref. rewrite app_nth2, Nat.sub_diag by lia. apply clean_nil.
          -- apply (KG (kv :: credMD)); auto. rewrite HS in ERS. cbn in ERS. now rewrite andb_true_r in ERS. }
  destruct X as (X1 & X2 & X3 & X4).
  destruct r as [md| | |].
  2,3,4: injection H as <- <- <-; split; [auto|split; [auto|]]; intros m HI; exfalso; exact (X3 _ HI).
  destruct (ca_open c); cbn [negb] in H; injection H as <- <- <-; (split; [auto|split; [auto|]]); intros m HI.
  - apply in_app_iff in HI. destruct HI as [HI|[HI|[]]]; [exfalso; eapply X3; eauto|]. injection HI as HS <-. apply X4; auto.
  - exfalso. eapply X3; eauto.
Qed.

Lemma do_calls_clean (pub : nat -> Prop) cs : forall h h' ev,
  (forall c a, In c cs -> uses c a -> (a < length h)%nat) ->
  (forall a, pub a -> (a < length h)%nat) ->
  (forall a, pub a -> clean (deref h a)) ->
  (forall c, In c cs -> ca_secure c = false -> forall a, uses c a -> pub a) ->
  (forall c, In c cs -> forall a, uses c a -> pub a -> forall cr, ca_creds c = Some cr -> requires cr = false) ->
  (forall c, In c cs -> forall cr, ca_creds c = Some cr -> keeps_secrets cr) ->
  do_calls ToLower h cs = (h', ev) -> forall md, In (Opened false md) ev -> clean md.
Proof.
  induction cs as [|c cs IH]; intros h h' ev HD HPD HP HU HR HK H md HI; cbn in H; [injection H as <- <-; destruct HI|].
  destruct (do_call ToLower h c) as [[h1 ev1] ok] eqn:EC. destruct (do_calls ToLower h1 cs) as [h2 ev2] eqn:ED.
  injection H as <- <-.
  destruct (do_call_clean pub h c h1 ev1 ok) as (C1 & C2 & C3); auto; try (intros; eapply HU || eapply HR || eapply HK || eapply HD; eauto; now left).
  apply in_app_iff in HI. destruct HI as [HI|HI]; [auto|].
  eapply (IH h1); [ | |exact C2|..|exact ED|exact HI].
  - intros c' a HC HA. specialize (HD c' a (or_intror HC) HA). lia.
  - intros a PA. specialize (HPD a PA). lia.
  - intros; eapply HU; eauto. now right.
  - intros; eapply HR; eauto. now right.
  - intros; eapply HK; eauto. now right.
Qed.
(** In every history of calls that keeps the maps apart, nothing a provider that requires
    security returned is ever written to a connection that is not secure.  Missing: histories
    that share a map, for which it is false (C48_never_sent_refuted). *)
Theorem C48_never_sent_partial : forall h cs h' ev,
  (forall c a, In c cs -> uses c a -> (a < length h)%nat) ->
  (forall a, clean (deref h a)) ->
  (forall c cr, In c cs -> ca_creds c = Some cr -> keeps_secrets cr) ->
  apart cs ->
  do_calls ToLower h cs = (h', ev) ->
  forall md k v, In (Opened false md) ev -> In (k, v) md -> ~ secret v.
Proof.
  intros h cs h' ev HD HC HK HA H md k v HI HV.
  refine (do_calls_clean (fun a => exists c, In c cs /\ ca_secure c = false /\ uses c a) cs h h' ev _ _ _ _ _ _ H md HI v _).
  - exact HD.
  - intros a (c & I & _ & U). eauto.
  - auto.
  - intros c I S a U. exists c. auto.
  - intros c' I' a U' (c & I & S & U) cr EC. exact (HA c c' a I I' U U' S cr EC).
  - intros; eapply HK; eauto.
  - now exists k.
Qed.
End Secret.
End S.

(** Two calls with the same context: the first on a secure connection with a token that
    requires security, the second on an insecure connection with no credentials at all.  The
    token was merged into the context's own map, so the second call sends it in the clear. *)
Definition token_creds : creds := Provider 1 true (fun _ => Ok [(text "authorization"%string, text "Bearer s3cret"%string)]).
Definition two_calls : list call :=
  [ mkCall true None (Some 0%nat) (Some token_creds) [] true true;
    mkCall false None (Some 0%nat) None [] true true ].
Theorem C48_never_sent_refuted : exists h cs h' ev md,
  (forall c a, In c cs -> uses c a -> (a < length h)%nat) /\
  (forall c cr, In c cs -> ca_creds c = Some cr -> ca_secure c = false -> requires cr = false) /\
  (forall a k v, In (k, v) (deref h a) -> v <> text "Bearer s3cret"%string) /\
  do_calls ascii_lower h cs = (h', ev) /\ In (Opened false md) ev /\ In (text "authorization"%string, text "Bearer s3cret"%string) md.
Proof.
  exists [[(text "trace"%string, text "1"%string)]], two_calls.
  eexists. eexists. exists [(text "authorization"%string, text "Bearer s3cret"%string); (text "trace"%string, text "1"%string)].
  split; [|split; [|split; [|split; [reflexivity|]]]].
  - intros c a [<-|[<-|[]]] U; cbn in U; injection U as <-; cbn; lia.
  - intros c cr [<-|[<-|[]]] E S; cbn in *; discriminate.
  - intros a k v. unfold deref. destruct a as [|[|a]]; cbn; [|intros []..]. intros [[= <- <-]|[]]. intros X. vm_compute in X. discriminate X.
  - vm_compute. split; [right; right; left; reflexivity|left; reflexivity].
Qed.
Print Assumptions C48_not_requested.
Print Assumptions C48_asked_insecurely.
Print Assumptions C48_never_sent_partial.
Print Assumptions C48_never_sent_refuted.

(** Non-vacuity: the same two calls with maps of their own. *)
Example demo_creds :
  let cs := [ mkCall true None (Some 0%nat) (Some token_creds) [] true true;
              mkCall false None (Some 1%nat) None [] true true;
              mkCall false None (Some 1%nat) (Some (Composite [Provider 2 false (fun _ => Ok []); token_creds])) [] true true ] in
  snd (do_calls ascii_lower [[]; [(text "a"%string, text "b"%string)]] cs) =
    [Asked 1; Opened true [(text "authorization"%string, text "Bearer s3cret"%string)]; Opened false [(text "a"%string, text "b"%string)]].
Proof. vm_compute. reflexivity. Qed.
