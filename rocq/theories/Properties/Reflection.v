(** C89: the reflection service. *)
From Coq Require Import ZArith List Bool Permutation Sorted Lia.
Import ListNotations.
From Verif.Model Require Import Base Registry Reflection.
From Verif.Spec Require Import Message MapSpec Reflection.
From Verif.Proofs Require Import BaseLemmas ReflectionProofs.
From Verif.Properties Require Import Registry.
From Verif.Model Require Import Reflection.
From Verif.Spec Require Import Reflection.
Open Scope Z_scope.

(** ** C89: reflection tells what is registered, to those who may know *)
(** [infos] is what Registry.Handlers yields after the registrations [l], in any order. *)
Definition handlers_after (l : list registration) (infos : list info) : Prop := Permutation infos (Handlers (fst (reg_run Z [] l))).

Lemma handlers_known l infos : Forall usable l -> handlers_after l infos ->
  NoDup (map fst infos) /\ Forall info_ok infos /\ weight infos <= weight l /\
  forall p s c t, In (p, s, c, t) infos <-> in_force l p s c = Some t.
Proof.
  intros HU HP. pose proof (usable_plain l HU) as PL. unfold handlers_after in HP.
  destruct (C61_handlers_lists_all Z l PL) as [ND HL]. pose proof (C61_registry_partial Z l PL) as RP.
  destruct (run_handlers usable l PL HU [] (Forall_nil _)) as [UH WH].
  destruct (reg_run Z [] l) as [r oks]. cbn [fst] in *. destruct RP as [_ RP].
  split; [|split; [|split]].
  - eapply Permutation_NoDup; [|exact ND]. apply Permutation_map. now symmetry.
  - eapply Permutation_Forall; [symmetry; exact HP|]. eapply Forall_impl; [|exact UH]. intros [[[p s] c] t] (H1 & H2 & H3 & H4 & _). repeat split; auto; apply H4.
  - rewrite (weight_perm _ _ HP). cbn [Handlers flat_map weight] in WH. lia.
  - intros p s c t. split.
    + intros I. apply (Permutation_in _ HP) in I. rewrite in_force_first.
      assert (PT : Registry.plain (p, s, c)).
      { rewrite Forall_forall in UH. destruct (UH _ I) as (_ & _ & _ & _ & X & Y). split; assumption. }
      rewrite <- RP by exact PT. apply HL; auto.
    + intros E. assert (PT : Registry.plain (p, s, c)).
      { clear -E PL. induction l as [|[[[p' s'] c'] t'] l IH]; [discriminate|]. apply Forall_cons_iff in PL. destruct PL as [P1 P2]. cbn [in_force] in E.
        destruct (list_eq_dec Z.eq_dec p' p) as [->|]; [|auto]. destruct (list_eq_dec Z.eq_dec s' s) as [->|]; [|auto]. destruct (list_eq_dec Z.eq_dec c' c) as [->|]; auto. }
      apply (Permutation_in _ (Permutation_sym HP)), HL; auto. rewrite RP by exact PT. now rewrite <- in_force_first.
Qed.

(** ListServices gives the listing of the handlers in force. *)
Theorem C89_list l infos : Forall usable l -> 100 + weight l < 2 ^ 32 -> handlers_after l infos ->
  exists out, list_services true infos = Ok out /\ listing (in_force l) out.
Proof.
  intros HU HZ HP. destruct (handlers_known l infos HU HP) as (ND & OK & W & IFF).
  exists (in_order (collect infos)). split; [apply list_services_ok; auto; lia|].
  destruct (listing_collect infos ND) as (A & B & C). split; [exact A|]. split; [exact B|]. intros p s c t. rewrite <- IFF. apply C.
Qed.
(** There is only one such listing: the answer does not depend on the order of the Go map. *)
Lemma lt_irrefl a : ~ str_lt a a.
Proof. induction a as [|x a IH]; intros H; [now apply MapLemmas.str_lt_nil_r in H|]. apply MapLemmas.str_lt_inv in H. destruct H as [H|[_ H]]; [lia|auto]. Qed.
Lemma ascending_ext {A} (l : list (bytes * A)) : forall l', ascending l -> ascending l' -> (forall x, In x l <-> In x l') -> l = l'.
Proof.
  unfold ascending. induction l as [|x l IH]; intros [|y l'] S1 S2 E.
  - reflexivity.
  - destruct (proj2 (E y) (or_introl eq_refl)).
  - destruct (proj1 (E x) (or_introl eq_refl)).
  - inversion S1 as [|? ? T1 F1]; inversion S2 as [|? ? T2 F2]; subst. rewrite Forall_forall in F1, F2.
    assert (X : x = y).
    { destruct (proj1 (E x) (or_introl eq_refl)) as [|I1]; [congruence|]. destruct (proj2 (E y) (or_introl eq_refl)) as [|I2]; [congruence|].
      destruct (lt_irrefl (fst x)). eapply lt_trans; [apply F1; exact I2|apply F2; exact I1]. }
    subst y. f_equal. apply IH; auto. intros z. split; intros I.
    + destruct (proj1 (E z) (or_intror I)) as [<-|]; [|auto]. destruct (lt_irrefl _ (F1 _ I)).
    + destruct (proj2 (E z) (or_intror I)) as [<-|]; [|auto]. destruct (lt_irrefl _ (F2 _ I)).
Qed.
Lemma ascending_key {A} (l : list (bytes * A)) k v w : ascending l -> In (k, v) l -> In (k, w) l -> v = w.
Proof.
  unfold ascending. induction 1 as [|x l S IH F]; [intros []|]. rewrite Forall_forall in F. intros [->|I1] [E|I2]; auto.
  - congruence.
  - destruct (lt_irrefl _ (F _ I2)).
  - subst x. destruct (lt_irrefl _ (F _ I1)).
Qed.
Theorem C89_list_unique h a b : listing h a -> listing h b -> a = b.
Proof.
  intros (A1 & A2 & A3) (B1 & B2 & B3). rewrite Forall_forall in A2, B2.
  assert (K : forall a b, ascending a -> ascending b ->
    (forall p, In p a -> snd p <> [] /\ ascending (snd p) /\ Forall (fun s => snd s <> [] /\ ascending (snd s)) (snd p)) ->
    (forall p, In p b -> snd p <> [] /\ ascending (snd p) /\ Forall (fun s => snd s <> [] /\ ascending (snd s)) (snd p)) ->
    (forall p s c t, shows a p s c t -> shows b p s c t) -> (forall p s c t, shows b p s c t -> shows a p s c t) -> forall x, In x a -> In x b).
  { clear. intros a b A1 B1 A2 B2 AB BA [p ss] I. destruct (A2 _ I) as (N1 & S1 & F1). cbn [snd] in *. rewrite Forall_forall in F1.
    assert (exists tt, In (p, tt) b) as (tt & J).
    { destruct ss as [|[s ms] ss]; [congruence|]. destruct (F1 _ (or_introl eq_refl)) as (N2 & _). cbn [snd] in N2. destruct ms as [|[c t] ms]; [congruence|].
      destruct (AB p s c t) as (tt & ms' & J & _); [|eauto]. exists ((s, (c, t) :: ms) :: ss), ((c, t) :: ms). split; [exact I|]. split; left; reflexivity. }
    destruct (B2 _ J) as (M1 & T1 & G1). cbn [snd] in *. rewrite Forall_forall in G1.
    replace ss with tt; [exact J|]. symmetry. apply ascending_ext; auto.
    assert (L : forall a b ss tt, ascending a -> ascending b -> In (p, ss) a -> In (p, tt) b -> ascending ss -> ascending tt ->
      (forall x, In x ss -> snd x <> [] /\ ascending (snd x)) -> (forall x, In x tt -> snd x <> [] /\ ascending (snd x)) ->
      (forall p s c t, shows a p s c t -> shows b p s c t) -> (forall p s c t, shows b p s c t -> shows a p s c t) -> forall x, In x ss -> In x tt).
    { clear. intros a b ss tt A1 B1 I J S1 T1 F1 G1 AB BA [s ms] K. destruct (F1 _ K) as (N & SM). cbn [snd] in *.
      assert (Q : forall c t, In (c, t) ms -> exists ns, In (s, ns) tt /\ In (c, t) ns).
      { intros c t M. destruct (AB p s c t) as (tt' & ns & X & Y & W); [exists ss, ms; auto|]. rewrite (ascending_key b p tt tt' B1 J X). eauto. }
      assert (exists ns, In (s, ns) tt) as (ns & U).
      { destruct ms as [|[c t] ms]; [congruence|]. destruct (Q c t (or_introl eq_refl)) as (ns & X & _). eauto. }
      destruct (G1 _ U) as (_ & SN). cbn [snd] in *. replace ms with ns; [exact U|]. symmetry. apply ascending_ext; auto. intros [c t]. split; intros M.
      - destruct (Q c t M) as (ns' & X & Y). rewrite (ascending_key tt s ns ns' T1 U X). exact Y.
      - destruct (BA p s c t) as (ss' & ms' & X & Y & W); [exists tt, ns; auto|]. rewrite (ascending_key a p ss ss' A1 I X) in *.
        rewrite (ascending_key ss' s ms ms' S1 K Y). exact W. }
    intros x. split; [apply (L a b ss tt)|apply (L b a tt ss)]; auto. }
  apply ascending_ext; auto. intros x. split; [apply (K a b)|apply (K b a)]; auto; intros p s c t H; [apply B3, A3|apply A3, B3|apply A3, B3|apply B3, A3]; exact H.
Qed.

(** GetServiceInfo: found if and only if the service has a handler, and then exactly its methods, in order. *)
Theorem C89_service_info l infos p s : Forall usable l -> handlers_after l infos -> byte_list p -> byte_list s -> 100 + len p + len s + weight l < 2 ^ 32 ->
  exists r, get_service_info true infos p s = Ok r /\
    match r with
    | (None, found) => found = false /\ forall c, in_force l p s c = None
    | (Some (name, ms), found) => found = true /\ name = s /\ ms <> [] /\ ascending ms /\ forall c t, In (c, t) ms <-> in_force l p s c = Some t
    end.
Proof.
  intros HU HP BP BS HZ. destruct (handlers_known l infos HU HP) as (ND & OK & W & IFF).
  eexists. split; [apply service_info_ok; auto; lia|].
  pose proof (methods_In infos p s) as MI. pose proof (methods_nodup infos p s ND) as MN. destruct (methods_of infos p s) as [|m0 ms] eqn:EM.
  - split; auto. intros c. destruct (in_force l p s c) as [t|] eqn:E; auto. apply IFF, MI in E. destruct E.
  - rewrite <- EM in *. split; auto. split; auto. split; [apply sorted_nonempty; rewrite EM; discriminate|]. split; [now apply sorted_ok|].
    intros c t. rewrite sorted_In, MI. apply IFF.
Qed.
(** GetMethodInfo: found, with the type, if and only if the call has a handler. *)
Theorem C89_method_info l infos p s c : Forall usable l -> handlers_after l infos -> byte_list p -> byte_list s -> byte_list c ->
  100 + len p + len s + len c < 2 ^ 32 ->
  get_method_info true infos p s c = Ok (match in_force l p s c with Some t => (Some (c, t), true) | None => (None, false) end).
Proof.
  intros HU HP BP BS BC HZ. destruct (handlers_known l infos HU HP) as (ND & OK & W & IFF).
  destruct (method_info_ok infos p s c ND OK BP BS BC HZ) as ([[[c' t]|] found] & -> & H).
  - destruct H as (-> & -> & I). apply IFF in I. rewrite I. reflexivity.
  - destruct H as (-> & N). destruct (in_force l p s c) as [t|] eqn:E; [|reflexivity]. apply IFF in E. destruct (N _ E).
Qed.

(** ** Who may know *)
Section Access.
Variable IP : Type.
Variable ParseIP : bytes -> option IP.
Variable SplitHostPort : bytes -> option bytes.
Variable ParseCIDR : bytes -> option (IP -> bool).
Variable ToLower : bytes -> bytes.
(** The address behind a net.Addr. *)
Inductive has_ip : addr IP -> IP -> Prop :=
| hi_tcp ip : has_ip (TCPAddr (Some ip)) ip
| hi_udp ip : has_ip (UDPAddr (Some ip)) ip
| hi_ip ip : has_ip (IPAddr (Some ip)) ip
| hi_host_port text host ip : SplitHostPort text = Some host -> ParseIP host = Some ip -> has_ip (OtherAddr text) ip
| hi_text text ip : SplitHostPort text = None -> ParseIP text = Some ip -> has_ip (OtherAddr text) ip.

Lemma extract_has a ip : extractIP ParseIP SplitHostPort a = Some ip <-> has_ip a ip.
Proof.
  destruct a as [o|o|o|text]; cbn [extractIP].
  1-3: split; [intros ->; constructor|intros H; inversion H; reflexivity].
  destruct (SplitHostPort text) eqn:E; split; intros H.
  - eapply hi_host_port; eauto.
  - inversion H; congruence.
  - eapply hi_text; eauto.
  - inversion H; congruence.
Qed.
Lemma parse_all_ok l : forall nets, parse_all IP ParseCIDR l = Ok nets <-> Forall2 (fun c n => ParseCIDR c = Some n) l nets.
Proof.
  induction l as [|c l IH]; intros nets; cbn [parse_all].
  - split; [intros E; injection E as <-; constructor|intros H; inversion H; reflexivity].
  - destruct (ParseCIDR c) as [n|] eqn:E.
    + split.
      * intros H. apply bind_Ok_inv in H. destruct H as (q & E2 & H). injection H as <-. constructor; [exact E|]. now apply IH.
      * intros H. inversion H as [|? n' ? q H1 H2]; subst. apply IH in H2. rewrite H2. cbn [bind]. congruence.
    + split; [discriminate|]. intros H. inversion H. congruence.
Qed.
Lemma find_sent md header : sent ToLower md header (findMetadataValue ToLower md header).
Proof.
  unfold findMetadataValue. induction md as [|[k v] md IH]; cbn [find fst snd].
  - right. split; auto.
  - destruct (beq_case (ToLower k) (ToLower header)) as [[E ->]|[N ->]].
    + left. exists [], k, md. cbn [snd]. auto.
    + destruct IH as [(a & k' & b & E1 & E2 & E3)|[E1 E2]].
      * left. exists ((k, v) :: a), k', b. rewrite E1 at 1. split; [reflexivity|]. split; auto.
      * right. split; [exact E1|]. constructor; auto.
Qed.
Lemma sent_one md header a b : sent ToLower md header a -> sent ToLower md header b -> a = b.
Proof.
  revert a b. induction md as [|[k v] md IH]; intros a b HA HB.
  - destruct HA as [(x & k & y & E & _)|[-> _]]; [destruct x; discriminate|]. destruct HB as [(x & k & y & E & _)|[-> _]]; [destruct x; discriminate|reflexivity].
  - destruct (list_eq_dec Z.eq_dec (ToLower k) (ToLower header)) as [E|N].
    + assert (X : forall a, sent ToLower ((k, v) :: md) header a -> a = v).
      { clear HA HB a b. intros a [(x & k' & y & E1 & E2 & E3)|[_ F]].
        - destruct x as [|z x]; [cbn in E1; congruence|]. injection E1 as <- _. apply Forall_inv in E3. cbn in E3. congruence.
        - apply Forall_inv in F. cbn in F. congruence. }
      rewrite (X a HA), (X b HB). reflexivity.
    + assert (X : forall a, sent ToLower ((k, v) :: md) header a -> sent ToLower md header a).
      { clear HA HB a b. intros a [(x & k' & y & E1 & E2 & E3)|[-> F]].
        - destruct x as [|z x]; [cbn in E1; congruence|]. injection E1 as <- E1. left. exists x, k', y. apply Forall_inv_tail in E3. auto.
        - right. apply Forall_inv_tail in F. auto. }
      apply IH; auto.
Qed.
(** A server is made if and only if every network can be parsed. *)
Theorem C89_config c : (exists k, Validate ParseCIDR c = Ok k) <-> Forall (fun x => ParseCIDR x <> None) (AllowedCIDRs c).
Proof.
  unfold Validate. induction (AllowedCIDRs c) as [|x l IH]; cbn [parse_all]; [cbn [bind]; split; [constructor|eauto]|].
  destruct (ParseCIDR x) as [n|] eqn:E.
  - rewrite Forall_cons_iff, <- IH. split.
    + intros (k & H). split; [congruence|]. destruct (parse_all IP ParseCIDR l) as [q| | |]; cbn [bind] in *; try discriminate. eauto.
    + intros (_ & k & H). destruct (parse_all IP ParseCIDR l) as [q| | |]; cbn [bind] in *; try discriminate. eauto.
  - split; [intros (k & H); discriminate|]. intros H. apply Forall_inv in H. congruence.
Qed.
(** A request passes if and only if its address, if it has one, is allowed and the validator, if there is one, accepts its token. *)
Theorem C89_access c k a md : Validate ParseCIDR c = Ok k ->
  checkAccess ParseIP SplitHostPort ToLower k a md = true <->
  (forall x ip, a = Some x -> has_ip x ip -> allowed IP ParseCIDR (AllowedCIDRs c) ip) /\
  authorized ToLower (AuthHeader c) (TokenValidator c) md.
Proof.
  intros V. unfold Validate in V. apply bind_Ok_inv in V. destruct V as (nets & P & V). injection V as <-. apply parse_all_ok in P.
  unfold checkAccess. cbn [parsedCIDRs authHeader tokenValidator]. rewrite andb_true_iff.
  assert (IA : forall ip, IsIPAllowed IP (mkChecked nets (match AuthHeader c with [] => default_header | h => h end) (TokenValidator c)) ip = true <-> allowed IP ParseCIDR (AllowedCIDRs c) ip).
  { intros ip. unfold IsIPAllowed, allowed. cbn [parsedCIDRs]. destruct nets as [|n nets].
    - inversion P. tauto.
    - rewrite existsb_exists. split.
      + intros (net & I & E). right. clear -P I E. induction P as [|x y l l' H P IH]; [destruct I|]. destruct I as [<-|I]; [exists x, y; split; [left; auto|auto]|].
        destruct (IH I) as (c' & net' & X & Y). exists c', net'. split; [right; auto|auto].
      + intros [E|(c' & net & I & E1 & E2)]; [rewrite E in P; inversion P|]. exists net. split; [|exact E2].
        clear -P I E1. induction P as [|x y l l' H P IH]; [destruct I|]. destruct I as [->|I]; [left; congruence|right; auto]. }
  assert (A1 : (match a with None => true | Some a => match extractIP ParseIP SplitHostPort a with None => true | Some ip => IsIPAllowed IP (mkChecked nets (match AuthHeader c with [] => default_header | h => h end) (TokenValidator c)) ip end end) = true <->
    (forall x ip, a = Some x -> has_ip x ip -> allowed IP ParseCIDR (AllowedCIDRs c) ip)).
  { destruct a as [a|]; [|split; [discriminate|reflexivity]]. destruct (extractIP ParseIP SplitHostPort a) as [ip|] eqn:E.
    - rewrite IA. split; [|intros H; apply (H a); [reflexivity|now apply extract_has]].
      intros H x ip' EX HX. injection EX as <-. apply extract_has in HX. congruence.
    - split; [|reflexivity]. intros _ x ip' EX HX. injection EX as <-. apply extract_has in HX. congruence. }
  assert (A2 : (match TokenValidator c with None => true | Some v => v (findMetadataValue ToLower md (match AuthHeader c with [] => default_header | h => h end)) end) = true <->
    authorized ToLower (AuthHeader c) (TokenValidator c) md).
  { unfold authorized. destruct (TokenValidator c) as [v|]; [|split; [discriminate|reflexivity]].
    assert (S : sent ToLower md (match AuthHeader c with [] => default_header | h => h end) (findMetadataValue ToLower md (match AuthHeader c with [] => default_header | h => h end))) by apply find_sent.
    split.
    - intros H v' E. injection E as <-. eexists. split; [exact H|]. destruct (AuthHeader c); exact S.
    - intros H. destruct (H v eq_refl) as (token & H1 & H2). replace (findMetadataValue _ _ _) with token; [exact H1|]. symmetry. eapply sent_one; [exact S|]. destruct (AuthHeader c); exact H2. }
  rewrite A1, A2. reflexivity.
Qed.
(** A request that does not pass is told nothing: the answer is an error, whatever is registered. *)
Theorem C89_denied infos : list_services false infos = Err /\ (forall p s, byte_list p -> byte_list s -> 64 + len p + len s < 2 ^ 32 -> get_service_info false infos p s = Err) /\
  forall p s c, byte_list p -> byte_list s -> byte_list c -> 64 + len p + len s + len c < 2 ^ 32 -> get_method_info false infos p s c = Err.
Proof.
  split; [|split].
  - assert (A : exists q, list_request = Ok q) by (eexists; vm_compute; reflexivity). destruct A as (q & A). unfold list_services. rewrite A. reflexivity.
  - intros p s HP HS HZ. unfold get_service_info. destruct (service_asked p s HP HS HZ) as (q & -> & _). reflexivity.
  - intros p s c HP HS HC HZ. unfold get_method_info. destruct (method_asked p s c HP HS HC HZ) as (q & -> & _). reflexivity.
Qed.

(** "Only requests from an allowed address are answered" is false.  Without a validator, whoever sends a header
    X-Forwarded-For with a text that is no address (such as "a, b") passes, from any peer and with any list, *)
Theorem C89_access_refuted_no_address c k text remote md : Validate ParseCIDR c = Ok k -> TokenValidator c = None ->
  text <> [] -> SplitHostPort text = None -> ParseIP text = None ->
  checkAccess ParseIP SplitHostPort ToLower k (Some (remoteAddr SplitHostPort text remote)) md = true.
Proof.
  intros V T N S P. apply (C89_access _ _ _ _ V). split.
  - intros x ip E H. injection E as <-. unfold remoteAddr in H. destruct text; [congruence|]. inversion H; congruence.
  - intros v E. congruence.
Qed.
(** and so does whoever writes an allowed address there, although the peer itself is refused. *)
Theorem C89_access_refuted_forwarded c k peer text remote ip md : Validate ParseCIDR c = Ok k -> TokenValidator c = None ->
  SplitHostPort remote = Some peer -> SplitHostPort peer = None -> ParseIP peer = Some ip -> ~ allowed IP ParseCIDR (AllowedCIDRs c) ip ->
  text <> [] -> (forall ip', has_ip (OtherAddr text) ip' -> allowed IP ParseCIDR (AllowedCIDRs c) ip') ->
  checkAccess ParseIP SplitHostPort ToLower k (Some (remoteAddr SplitHostPort [] remote)) md = false /\
  checkAccess ParseIP SplitHostPort ToLower k (Some (remoteAddr SplitHostPort text remote)) md = true.
Proof.
  intros V T S S2 P NA N A. split.
  - apply not_true_is_false. intros H. apply (C89_access _ _ _ _ V) in H. destruct H as [H _]. apply NA. apply (H (OtherAddr peer)).
    + unfold remoteAddr. rewrite S. reflexivity.
    + now apply hi_text.
  - apply (C89_access _ _ _ _ V). split.
    + intros x ip' E H. injection E as <-. unfold remoteAddr in H. destruct text; [congruence|]. auto.
    + intros v E. congruence.
Qed.
End Access.

(** With a slash in a package name the listing is wrong: the call "d" of the service "c" of the package "a/b" is shown as "c/d" of the service "b" of "a". *)
Theorem C89_list_refuted_slash : exists l out, Forall (fun e : registration => let '(p, s, c, t) := e in byte_list p /\ byte_list s /\ byte_list c /\ 1 <= t < 256) l /\
  list_services true (Handlers (fst (reg_run Z [] l))) = Ok out /\ ~ listing (in_force l) out.
Proof.
  exists [([97; 47; 98], [99], [100], 1)], [([97], [([98], [([99; 47; 100], 1)])])]. split; [|split].
  - repeat constructor; lia.
  - vm_compute. reflexivity.
  - intros (_ & _ & H). specialize (H [97] [98] [99; 47; 100] 1). cbn [in_force] in H. 
    destruct (list_eq_dec Z.eq_dec [97; 47; 98] [97]) as [C|_]; [discriminate C|].
    assert (X : None = Some 1) by (apply H; exists [([98], [([99; 47; 100], 1)])], [([99; 47; 100], 1)]; repeat split; left; reflexivity). discriminate X.
Qed.

(** Two packages, registered in no particular order; one registration comes too late. *)
Definition some_calls : list registration :=
  [([112; 50], [115], [99; 98], 4); ([112], [116], [97], 1); ([112; 50], [115], [99; 97], 1); ([112], [115], [97], 2); ([112], [115], [97], 3)].
Example list_case : Forall usable some_calls /\ 100 + weight some_calls < 2 ^ 32 /\
  list_services true (rev (Handlers (fst (reg_run Z [] some_calls)))) =
    Ok [([112], [([115], [([97], 2)]); ([116], [([97], 1)])]); ([112; 50], [([115], [([99; 97], 1); ([99; 98], 4)])])] /\
  get_service_info true (Handlers (fst (reg_run Z [] some_calls))) [112; 50] [115] = Ok (Some ([115], [([99; 97], 1); ([99; 98], 4)]), true) /\
  get_service_info true (Handlers (fst (reg_run Z [] some_calls))) [112; 50] [116] = Ok (None, false) /\
  get_method_info true (Handlers (fst (reg_run Z [] some_calls))) [112] [115] [97] = Ok (Some ([97], 2), true).
Proof.
  split; [|split; [|repeat split; vm_compute; reflexivity]].
  - unfold some_calls, usable. repeat (apply Forall_cons; [repeat split; try (repeat constructor; lia); try lia; intros C; repeat destruct C as [C|C]; try discriminate C; exact C|]). apply Forall_nil.
  - cbn. lia.
Qed.
(** A small world of addresses: one byte each, and a port behind a colon. *)
Definition tiny_ip (t : bytes) : option Z := match t with [b] => Some b | _ => None end.
Definition tiny_split (t : bytes) : option bytes := match t with [b; 58; _] => Some [b] | _ => None end.
Definition tiny_net (t : bytes) : option (Z -> bool) := match t with [a; 45; b] => Some (fun ip => (a <=? ip) && (ip <=? b)) | _ => None end.
Definition tiny_conf : config := mkConfig [[50; 45; 55]; [57; 45; 57]] [] None.
Example access_case : exists k, Validate tiny_net tiny_conf = Ok k /\
  checkAccess tiny_ip tiny_split (fun b => b) k (Some (TCPAddr (Some 53))) [] = true /\
  checkAccess tiny_ip tiny_split (fun b => b) k (Some (TCPAddr (Some 56))) [] = false /\
  (* the peer 56 is refused, and passes with the header "z, " or "53" *)
  checkAccess tiny_ip tiny_split (fun b => b) k (Some (remoteAddr tiny_split [] [56; 58; 48])) [] = false /\
  checkAccess tiny_ip tiny_split (fun b => b) k (Some (remoteAddr tiny_split [122; 44; 32] [56; 58; 48])) [] = true /\
  checkAccess tiny_ip tiny_split (fun b => b) k (Some (remoteAddr tiny_split [53] [56; 58; 48])) [] = true.
Proof. eexists. split; [reflexivity|]. repeat split; reflexivity. Qed.
(** The second header "authorization" does not count. *)
Definition guarded : config := mkConfig [] [] (Some (fun t => match t with [115] => true | _ => false end)).
Example token_case : exists k, Validate tiny_net guarded = Ok k /\
  checkAccess tiny_ip tiny_split (fun b => b) k None [([120], [115]); (default_header, [115])] = true /\
  checkAccess tiny_ip tiny_split (fun b => b) k None [(default_header, [116]); (default_header, [115])] = false /\
  checkAccess tiny_ip tiny_split (fun b => b) k None [] = false.
Proof. eexists. split; [reflexivity|]. repeat split; reflexivity. Qed.

Print Assumptions C89_list.
Print Assumptions C89_list_unique.
Print Assumptions C89_service_info.
Print Assumptions C89_method_info.
Print Assumptions C89_config.
Print Assumptions C89_access.
Print Assumptions C89_denied.
Print Assumptions C89_access_refuted_no_address.
Print Assumptions C89_access_refuted_forwarded.
Print Assumptions C89_list_refuted_slash.
