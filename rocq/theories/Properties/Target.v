(** C58: target strings. *)
From Coq Require Import String.
From Verif.Model Require Import Base ErrText Any Target.
From Verif.Proofs Require Import BaseLemmas.
From Coq Require Import Lia List.
Open Scope list_scope. Open Scope Z_scope.

Section C58.
Variable ToLower : bytes -> bytes.
(** What is used of strings.ToLower: it is idempotent, keeps strings (non-)empty and
    neither removes nor makes a "://". *)
Hypothesis L_idem : forall s, ToLower (ToLower s) = ToLower s.
Hypothesis L_empty : forall s, ToLower s = [] <-> s = [].
Hypothesis L_sep : forall s, contains (ToLower s) [58; 47; 47] = contains s [58; 47; 47].
Notation Parse := (Parse ToLower).

(** Targets as Parse gives them: a lower-case scheme without "://", an authority without
    slash, an endpoint that is not empty. *)
Record proper (t : target) : Prop := {
  pr_scheme : t_scheme t <> [];
  pr_lower : ToLower (t_scheme t) = t_scheme t;
  pr_sep : contains (t_scheme t) [58; 47; 47] = false;
  pr_auth : ~ In 47 (t_authority t);
  pr_end : t_endpoint t <> [] }.

Lemma Index_sep a b : contains a sep = false -> Index (a ++ sep ++ b) sep = Some (length a).
Proof.
  induction a as [|x a IH]; intros H; [reflexivity|]. cbn [contains] in H. apply orb_false_elim in H. destruct H as [H1 H2].
  cbn [app Index length]. rewrite (IH H2).
  replace (has_prefix sep (x :: a ++ sep ++ b)) with false; [reflexivity|]. symmetry.
  unfold sep in *. cbn [has_prefix] in *. destruct (58 =? x) eqn:E; [|reflexivity]. cbn [andb] in *.
  destruct a as [|y a]; cbn [app has_prefix] in *; [reflexivity|].
  destruct (47 =? y) eqn:E2; [|reflexivity]. cbn [andb] in *.
  destruct a as [|z a]; cbn [app has_prefix] in *; [reflexivity|]. destruct (47 =? z); [discriminate|reflexivity].
Qed.
Lemma Index_slash a b : ~ In 47 a -> Index (a ++ 47 :: b) [47] = Some (length a).
Proof.
  induction a as [|x a IH]; intros H; [reflexivity|]. cbn [app Index length has_prefix].
  destruct (Z.eqb_spec 47 x) as [<-|]; [exfalso; apply H; left; auto|]. cbn [andb].
  rewrite IH by (intros C; apply H; right; auto). reflexivity.
Qed.
Lemma Index_contains s p : contains s p = match Index s p with Some _ => true | None => false end.
Proof.
  induction s as [|x s IH]; cbn.
  - destruct (has_prefix p []); reflexivity.
  - destruct (has_prefix p (x :: s)); [reflexivity|]. cbn. rewrite IH. destruct (Index s p); reflexivity.
Qed.
Lemma firstn_len {A} (a b : list A) : firstn (length a) (a ++ b) = a.
Proof. rewrite firstn_app, firstn_all, Nat.sub_diag. cbn. apply app_nil_r. Qed.
Lemma skipn_len {A} (a b : list A) : skipn (length a) (a ++ b) = b.
Proof. rewrite skipn_app, skipn_all, Nat.sub_diag. reflexivity. Qed.
Lemma skipn_len' {A} (a b : list A) k : skipn (length a + k) (a ++ b) = skipn k b.
Proof. rewrite skipn_app, skipn_all2 by lia. cbn. f_equal. lia. Qed.

(** Parsing the printed form gives the target back. *)
Theorem C58_parse_printed : forall t, proper t -> Parse (Target_String t) = Ok t.
Proof.
  intros [sc au en] [H1 H2 H3 H4 H5]. cbn [t_scheme t_authority t_endpoint] in *. unfold Target_String. cbn [t_scheme t_authority t_endpoint].
  set (tail := match au with [] => 47 :: en | _ => au ++ 47 :: en end).
  assert (E : match au with [] => sc ++ [58; 47; 47; 47] ++ en | _ :: _ => sc ++ [58; 47; 47] ++ au ++ [47] ++ en end = sc ++ sep ++ tail)
    by (unfold tail; destruct au; reflexivity).
  rewrite E. clear E. unfold Parse.
  destruct (sc ++ sep ++ tail) eqn:EE; [destruct sc; discriminate|]. rewrite <- EE. clear EE.
  rewrite Index_contains, Index_sep by auto. cbn [negb].
  rewrite firstn_len, H2. replace (skipn (length sc + 3) (sc ++ sep ++ tail)) with tail by (now rewrite skipn_len').
  destruct sc as [|c0 sc]; [congruence|]. unfold tail. destruct au as [|a au].
  - cbn [has_prefix Z.eqb andb]. cbn. destruct en; [congruence|reflexivity].
  - assert (P : has_prefix [47] ((a :: au) ++ 47 :: en) = false).
    { cbn [app has_prefix]. destruct (Z.eqb_spec 47 a) as [EA|EA]; [exfalso; apply H4; left; auto|reflexivity]. }
    pose proof (Index_slash (a :: au) en H4) as IS.
    rewrite P. match goal with |- context [Index ?x [47]] => change (Index x [47]) with (Index ((a :: au) ++ 47 :: en) [47]) end.
    rewrite IS. cbn [bind fst snd]. rewrite firstn_len, skipn_len'. cbn [skipn]. destruct en; [congruence|reflexivity].
Qed.

(** Whatever is parsed is proper (so printing and parsing again changes nothing), and
    was written the documented way. *)
Theorem C58_parsed_proper : forall s t, ToLower passthrough = passthrough -> Parse s = Ok t ->
  proper t /\ Parse (Target_String t) = Ok t.
Proof.
  intros s t HP H. assert (proper t); [|split; auto using C58_parse_printed].
  unfold Parse in H. destruct s as [|x s]; [discriminate|]. set (s0 := x :: s) in *.
  rewrite Index_contains in H. destruct (Index s0 sep) as [idx|] eqn:EI; cbn [negb] in H.
  2: { injection H as <-. constructor; cbn [t_scheme t_authority t_endpoint]; auto; try discriminate. }
  assert (NS : contains (firstn idx s0) sep = false).
  { clear H. clearbody s0. revert idx EI. induction s0 as [|y s1 IH]; intros idx EI; [destruct idx; reflexivity|].
    cbn [Index] in EI. destruct (has_prefix sep (y :: s1)) eqn:HX.
    - injection EI as <-. reflexivity.
    - destruct (Index s1 sep) as [i|] eqn:E1; [|discriminate]. injection EI as <-. cbn [firstn contains].
      rewrite IH by auto. rewrite orb_false_r. unfold sep in *. cbn [has_prefix] in *.
      destruct (58 =? y); [|reflexivity]. cbn [andb] in *.
      destruct i as [|i]; [reflexivity|]. destruct s1 as [|y1 s1]; [reflexivity|]. cbn [firstn has_prefix] in *.
      destruct (47 =? y1); [|reflexivity]. cbn [andb] in *.
      destruct i as [|i]; [reflexivity|]. destruct s1 as [|y2 s1]; [reflexivity|]. cbn [firstn has_prefix] in *. rewrite HX. reflexivity. }
  destruct (ToLower (firstn idx s0)) as [|c0 sc] eqn:ET; [discriminate|].
  set (rest := skipn (idx + 3) s0) in *.
  assert (G : forall au en, ~ In 47 au -> match en with [] => Err | _ => Ok (mkTarget (c0 :: sc) au en) end = Ok t -> proper t).
  { intros au en HA E. destruct en as [|e en]; [discriminate|]. injection E as <-.
    constructor; cbn [t_scheme t_authority t_endpoint]; auto; try discriminate.
    - rewrite <- ET. apply L_idem.
    - rewrite <- ET. change [58; 47; 47] with sep in *. rewrite L_sep. exact NS. }
  destruct (has_prefix [47] rest) eqn:EP; cbn [bind fst snd] in H; [apply (G [] _ (fun C => C) H)|].
  destruct (Index rest [47]) as [i|] eqn:EX; cbn [bind fst snd] in H; [|discriminate].
  refine (G _ _ _ H). clear -EX. clearbody rest. revert i EX. induction rest as [|y r IH]; intros i EX; [destruct i; auto|].
  cbn [Index has_prefix andb] in EX. destruct (Z.eqb_spec 47 y) as [<-|].
  - injection EX as <-. auto.
  - cbn in EX. destruct (Index r [47]) as [j|]; [|discriminate]. injection EX as <-. cbn. intros [C|C]; [congruence|]. eapply IH; eauto.
Qed.
(** Without "://" the string is the endpoint, as it stands. *)
Theorem C58_bare : forall s, s <> [] -> contains s [58; 47; 47] = false ->
  Parse s = Ok (mkTarget passthrough [] s).
Proof. intros [|x s] HN H; [congruence|]. unfold Parse. change sep with [58; 47; 47]. rewrite H. reflexivity. Qed.
(** Parse never fails to return, and the error cases are exactly the documented ones. *)
Theorem C58_total : forall s, Parse s = Err \/ exists t, Parse s = Ok t.
Proof.
  intros [|x s]; [left; reflexivity|]. unfold Parse. rewrite Index_contains. destruct (Index (x :: s) sep); cbn [negb]; [|right; eauto].
  destruct (ToLower _); [left; reflexivity|]. destruct (has_prefix _ _); cbn [bind fst snd].
  - destruct (skipn 1 _); eauto.
  - destruct (Index _ [47]); cbn [bind fst snd]; auto. destruct (skipn _ _); eauto.
Qed.
End C58.

(** The ASCII case mapping has these properties. *)
Lemma ascii_lower_ok :
  (forall s, ascii_lower (ascii_lower s) = ascii_lower s) /\ (forall s, ascii_lower s = [] <-> s = []) /\
  (forall s, contains (ascii_lower s) [58; 47; 47] = contains s [58; 47; 47]) /\ ascii_lower passthrough = passthrough.
Proof.
  set (f := fun c : Z => if (65 <=? c) && (c <=? 90) then c + 32 else c).
  assert (F : forall c k, k < 65 -> (k =? f c) = (k =? c)).
  { intros c k HK. unfold f. destruct (Z.leb_spec 65 c), (Z.leb_spec c 90); cbn [andb]; auto.
    destruct (Z.eqb_spec k (c + 32)), (Z.eqb_spec k c); auto; lia. }
  repeat split.
  - intros s. unfold ascii_lower. rewrite map_map. apply map_ext. intros c.
    destruct (Z.leb_spec 65 c), (Z.leb_spec c 90); cbn [andb];
      repeat match goal with |- context [?a <=? ?b] => destruct (Z.leb_spec a b) end; cbn [andb]; lia.
  - destruct s; [auto|discriminate].
  - intros ->. reflexivity.
  - assert (P : forall p s, Forall (fun k => k < 65) p -> has_prefix p (ascii_lower s) = has_prefix p s).
    { induction p as [|k p IH]; intros s HF; [reflexivity|]. pose proof (Forall_inv HF). apply Forall_inv_tail in HF.
      destruct s as [|c s]; [reflexivity|]. cbn [ascii_lower map has_prefix]. fold (f c). rewrite F by auto. f_equal. apply IH; auto. }
    induction s as [|c s IH]; [reflexivity|]. change (ascii_lower (c :: s)) with (f c :: ascii_lower s).
    cbn [contains]. rewrite IH. f_equal. apply (P [58; 47; 47] (c :: s)). repeat constructor.
Qed.
Theorem C58_ascii : forall t, proper ascii_lower t -> Parse ascii_lower (Target_String t) = Ok t.
Proof. apply C58_parse_printed. Qed.
Theorem C58_ascii_again : forall s t, Parse ascii_lower s = Ok t -> Parse ascii_lower (Target_String t) = Ok t.
Proof.
  destruct ascii_lower_ok as (A & B & C & D). intros s t H. eapply C58_parsed_proper; eauto.
Qed.
Print Assumptions C58_parse_printed.
Print Assumptions C58_parsed_proper.
Print Assumptions C58_bare.
Print Assumptions C58_total.
Print Assumptions C58_ascii.
Print Assumptions C58_ascii_again.

(** The documented examples. *)
Example demo_target :
  Parse ascii_lower (text "DNS://dns-server:53/myservice:8080"%string) =
    Ok (mkTarget (text "dns"%string) (text "dns-server:53"%string) (text "myservice:8080"%string)) /\
  Parse ascii_lower (text "passthrough:///localhost:8080"%string) = Ok (mkTarget (text "passthrough"%string) [] (text "localhost:8080"%string)) /\
  Parse ascii_lower (text "/var/run/app.sock"%string) = Ok (mkTarget (text "passthrough"%string) [] (text "/var/run/app.sock"%string)) /\
  Parse ascii_lower (text "dns://server"%string) = Err /\
  proper ascii_lower (mkTarget (text "dns"%string) (text "dns-server:53"%string) (text "myservice:8080"%string)).
Proof.
  repeat split; try reflexivity; try discriminate. vm_compute. intuition discriminate.
Qed.
