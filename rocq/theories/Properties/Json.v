(** C35, C73: the JSON writer. *)
From Coq Require Import ZArith List Bool Lia ZifyBool.
Import ListNotations.
From Verif.Model Require Import Base Field MapApi Token Walk Escape Json.
From Verif.Spec Require Import Text Message JsonGrammar.
From Verif.Proofs Require Import JsonLits JsonProofs.
Open Scope Z_scope.

(** The printer of floats writes JSON numbers (strconv.AppendFloat is not part of the repository). *)
Definition prints_floats (appendFloat : kind -> Z -> bytes) : Prop :=
  forall k v, k = KF32 \/ k = KF64 -> in_range k v -> ~ float_special k v -> jnumber (appendFloat k v).
(** The names of registered types are identifiers; what a registered type reads from an Any is a
    struct the writer handles, and the Anys in it are shorter than what it was read from. *)
Definition identifier (s : bytes) : Prop := Forall (fun c => 48 <= c <= 57 \/ 65 <= c <= 90 \/ c = 95 \/ 97 <= c <= 122 \/ c = 46) s.
Definition registry_ok (Q : keyty -> mkey -> Prop) (lookup : bytes -> option (bytes * (bytes -> option tmsg))) : Prop :=
  (forall h name dec, lookup h = Some (name, dec) -> identifier name) /\
  (forall h name dec d m, lookup h = Some (name, dec) -> dec d = Some m -> fit_msg (len d) Q m).
Lemma identifier_plain s : identifier s -> Forall plain s.
Proof. apply Forall_impl. unfold plain. intros; lia. Qed.

(** ** C35 *)
Definition any_key (kt : keyty) (k : mkey) : Prop := True.
Definition written_key (kt : keyty) (k : mkey) (rs : list Z) : Prop :=
  match kt, k with KTStr, KStr b => text_of b rs | _, _ => rs = [] end.

(** For every struct without a list of two or more structs and without a map to an unset struct: the
    writer succeeds and writes one JSON document. *)
Theorem C35_valid_document_partial appendFloat lookup useEnumNumbers m n :
  prints_floats appendFloat -> registry_ok any_key lookup -> fit_msg (Z.of_nat n) any_key m ->
  exists b j, writeJSON appendFloat lookup useEnumNumbers (S n) m = Ok b /\ jtext b j.
Proof.
  intros HF (HN & HD) F.
  destruct (writeJSON_ok appendFloat lookup useEnumNumbers any_key written_key HF (fun h nm dec E => identifier_plain _ (HN h nm dec E))) with (fuel := n) (n := Z.of_nat n) (m := m) as (b & l & W & JT & _); try assumption.
  - intros kt k _. destruct kt, k; cbn; auto.
  - lia.
  - eauto.
Qed.

(** Bytes without a comma hold one value. *)
Lemma commas_one bs : ~ In 44 (commas bs) -> bs = [] \/ exists x, bs = [x].
Proof.
  destruct bs as [|x [|y l]]; eauto. intros N. exfalso. apply N. change (commas (x :: y :: l)) with (x ++ 44 :: commas (y :: l)).
  apply in_or_app. right. left. reflexivity.
Qed.
Lemma jtext_head b j : jtext b j ->
  match b with
  | 123 :: q => exists bs l, q = commas bs ++ [125] /\ Forall2 jmember bs l
  | 91 :: q => exists bs l, q = commas bs ++ [93] /\ Forall2 jtext bs l
  | [] => False
  | _ => True
  end.
Proof.
  intros H. destruct H as [| | |b H|b rs H|bs l H|bs l H]; try exact I.
  - assert (X : match b with c :: _ => c = 45 \/ 48 <= c <= 57 | [] => False end).
    { destruct H as [i f e I|i f e I]; [|auto]. destruct I; cbn; lia. }
    destruct b as [|c q]; [exact X|]. destruct (Z.eq_dec c 123) as [->|N1]; [lia|]. destruct (Z.eq_dec c 91) as [->|N2]; [lia|].
    repeat (match goal with |- match ?c with _ => _ end => destruct c; try exact I end); congruence.
  - destruct H; exact I.
  - eauto.
  - eauto.
Qed.
Lemma jtext_first b j : jtext b j -> exists c q, b = c :: q /\ c <> 125.
Proof.
  intros H. destruct H as [| | |b H|b rs H|bs l H|bs l H]; try (do 2 eexists; split; [reflexivity|lia]).
  - destruct H as [i f e I|i f e I]; [destruct I|]; cbn [app]; do 2 eexists; (split; [reflexivity|lia]).
  - destruct H. do 2 eexists. split; [reflexivity|lia].
Qed.
Lemma snoc_inj {A} (a b : list A) x y : a ++ [x] = b ++ [y] -> a = b.
Proof. intros H. apply app_inj_tail in H. tauto. Qed.
Lemma no_member k b : ~ In 58 (k ++ 58 :: b) -> False.
Proof. intros H. apply H. apply in_or_app. right. left. reflexivity. Qed.

(** Two empty structs in a list: {"a":[{}{}]}, which is not JSON. *)
Definition two_structs : tmsg := TMsg [84] [([97], FMsgs [TMsg [85] []; TMsg [85] []])].
Theorem C35_list_of_structs_refuted appendFloat lookup useEnumNumbers n :
  exists b, writeJSON appendFloat lookup useEnumNumbers (S n) two_structs = Ok b /\ forall j, ~ jtext b j.
Proof.
  exists [123; 34; 97; 34; 58; 91; 123; 125; 123; 125; 93; 125]. split; [reflexivity|].
  intros j H. apply jtext_head in H as (bs & l & E & F).
  change ([34; 97; 34; 58; 91; 123; 125; 123; 125; 93; 125]) with ([34; 97; 34; 58; 91; 123; 125; 123; 125; 93] ++ [125]) in E. apply snoc_inj in E.
  destruct (commas_one bs) as [->|(x & ->)]; [rewrite <- E; cbn; lia|discriminate|]. cbn [commas] in E. subst x.
  inversion F as [|? ? ? ? M _]; subst. inversion M as [k b rs v JK JB E]. subst.
  assert (B : b = [91; 123; 125; 123; 125; 93]).
  { do 4 (destruct k as [|? k]; cbn [app] in E; [inversion E; reflexivity || discriminate|inversion E; clear E; subst; rename H1 into E]).
    exfalso. apply (no_member k b). rewrite E. cbn. lia. }
  subst b. apply jtext_head in JB as (bs & l2 & E2 & F2).
  change [123; 125; 123; 125; 93] with ([123; 125; 123; 125] ++ [93]) in E2. apply snoc_inj in E2.
  destruct (commas_one bs) as [->|(x & ->)]; [rewrite <- E2; cbn; lia|discriminate|]. cbn [commas] in E2. subst x.
  inversion F2 as [|? ? ? ? M2 _]; subst. apply jtext_head in M2 as (bs & l3 & E3 & F3).
  change [125; 123; 125] with ([125; 123] ++ [125]) in E3. apply snoc_inj in E3.
  destruct (commas_one bs) as [->|(x & ->)]; [rewrite <- E3; cbn; lia|discriminate|]. cbn [commas] in E3. subst x.
  inversion F3 as [|? ? ? ? M3 _]; subst. inversion M3 as [k3 b3 rs3 v3 JK3 JB3 E4]. subst.
  apply (no_member k3 b3). rewrite E4. cbn. lia.
Qed.
(** A map to an unset struct: {"a":{"k":}}. *)
Definition unset_entry : tmsg := TMsg [84] [([97], FMap KTStr VTStruct [(KStr [107], EMsg None)])].
Theorem C35_map_of_structs_refuted appendFloat lookup useEnumNumbers n :
  exists b, writeJSON appendFloat lookup useEnumNumbers (S n) unset_entry = Ok b /\ forall j, ~ jtext b j.
Proof.
  exists [123; 34; 97; 34; 58; 123; 34; 107; 34; 58; 125; 125]. split; [reflexivity|].
  intros j H. apply jtext_head in H as (bs & l & E & F).
  change [34; 97; 34; 58; 123; 34; 107; 34; 58; 125; 125] with ([34; 97; 34; 58; 123; 34; 107; 34; 58; 125] ++ [125]) in E. apply snoc_inj in E.
  destruct (commas_one bs) as [->|(x & ->)]; [rewrite <- E; cbn; lia|discriminate|]. cbn [commas] in E. subst x.
  inversion F as [|? ? ? ? M _]; subst. inversion M as [k b rs v JK JB E]. subst.
  assert (B : b = [123; 34; 107; 34; 58; 125] \/ b = [125]).
  { do 4 (destruct k as [|? k]; cbn [app] in E; [inversion E; left; reflexivity || discriminate|inversion E; clear E; subst; rename H1 into E]).
    do 6 (destruct k as [|? k]; cbn [app] in E; [inversion E; right; reflexivity || discriminate|inversion E; clear E; subst; rename H1 into E]).
    destruct k; discriminate. }
  destruct B as [->| ->].
  - apply jtext_head in JB as (bs & l2 & E2 & F2).
    change [34; 107; 34; 58; 125] with ([34; 107; 34; 58] ++ [125]) in E2. apply snoc_inj in E2.
    destruct (commas_one bs) as [->|(x & ->)]; [rewrite <- E2; cbn; lia|discriminate|]. cbn [commas] in E2. subst x.
    inversion F2 as [|? ? ? ? M2 _]; subst. inversion M2 as [k2 b2 rs2 v2 JK2 JB2 E3]. subst.
    do 4 (destruct k2 as [|? k2]; cbn [app] in E3; [inversion E3; subst; destruct (jtext_first _ _ JB2) as (c & q & E1 & N); discriminate|inversion E3; clear E3; subst; rename H1 into E3]).
    destruct k2; discriminate.
  - destruct (jtext_first _ _ JB) as (c & q & E1 & N). inversion E1. lia.
Qed.

(** Array: any number of Writes and a Close make one JSON array of the documents written. *)
Theorem C35_array_partial appendFloat lookup useEnumNumbers ms n :
  prints_floats appendFloat -> registry_ok any_key lookup -> Forall (fit_msg (Z.of_nat n) any_key) ms ->
  exists a js, arrayWrites appendFloat lookup useEnumNumbers (S n) ms (mkA [] false) = Ok a /\
    jtext (arrayClose a) (JArr js) /\ length js = length ms.
Proof.
  intros HF HR F.
  assert (G : forall ms a, Forall (fit_msg (Z.of_nat n) any_key) ms -> a.(a_written) = true ->
    exists bs js, arrayWrites appendFloat lookup useEnumNumbers (S n) ms a = Ok (mkA (a.(a_out) ++ flat_map (fun y => 44 :: y) bs) true) /\
      Forall2 jtext bs js /\ length js = length ms).
  { clear F ms. induction ms as [|m ms IH]; intros a F W.
    - exists [], []. cbn. rewrite app_nil_r. destruct a; cbn in *; subst. auto.
    - inversion F as [|? ? F1 F2]; subst. destruct (C35_valid_document_partial appendFloat lookup useEnumNumbers m n HF HR F1) as (b & j & WJ & JT).
      cbn [arrayWrites]. unfold arrayWrite. rewrite WJ, W. cbn [bind].
      destruct (IH (mkA ((a_out a ++ [44]) ++ b) true) F2 eq_refl) as (bs & js & A & B & C). rewrite A. cbn [a_out].
      exists (b :: bs), (j :: js). split; [|split; [constructor; assumption|cbn; congruence]].
      cbn [flat_map]. repeat (rewrite <- app_assoc; cbn [app]). reflexivity. }
  destruct ms as [|m ms].
  - exists (mkA [] false), []. split; [reflexivity|]. split; [|reflexivity]. apply (jt_arr [] []). constructor.
  - inversion F as [|? ? F1 F2]; subst. destruct (C35_valid_document_partial appendFloat lookup useEnumNumbers m n HF HR F1) as (b & j & WJ & JT).
    cbn [arrayWrites]. unfold arrayWrite. rewrite WJ. cbn [bind a_out a_written app].
    destruct (G ms (mkA (91 :: b) true) F2 eq_refl) as (bs & js & A & B & C). rewrite A. cbn [a_out].
    eexists _, (j :: js). split; [reflexivity|]. split; [|cbn; congruence].
    unfold arrayClose. cbn [a_out a_written].
    replace (((91 :: b) ++ flat_map (fun y => 44 :: y) bs) ++ [93]) with (91 :: commas (b :: bs) ++ [93]) by (rewrite commas_flat; reflexivity).
    apply jt_arr. constructor; assumption.
Qed.

(** ** C73: the document represents the struct *)
Definition string_key (kt : keyty) (k : mkey) : Prop := kt = KTStr /\ exists b, k = KStr b.
Definition key_text (kt : keyty) (k : mkey) (rs : list Z) : Prop := match k with KStr b => text_of b rs | KNum _ => False end.
(** If moreover the keys of all maps are strings, the document has the members of the struct, in
    their order, and every value in it is the value of its field ([msg_means]). *)
Theorem C73_represents_partial appendFloat lookup useEnumNumbers m n :
  prints_floats appendFloat -> registry_ok string_key lookup -> fit_msg (Z.of_nat n) string_key m ->
  exists b j, writeJSON appendFloat lookup useEnumNumbers (S n) m = Ok b /\ jtext b j /\
    msg_means (fun k v lit => lit = appendFloat k v)
      (fun h d name m => exists dec, lookup (firstn 16 (h ++ repeat 0 16)) = Some (name, dec) /\ dec d = Some m)
      (fun h d => match lookup (firstn 16 (h ++ repeat 0 16)) with None => True | Some (_, dec) => dec d = None end)
      useEnumNumbers key_text m j.
Proof.
  intros HF (HN & HD) F.
  destruct (writeJSON_ok appendFloat lookup useEnumNumbers string_key key_text HF (fun h nm dec E => identifier_plain _ (HN h nm dec E))) with (fuel := n) (n := Z.of_nat n) (m := m) as (b & l & W & JT & ME); try assumption.
  - intros kt k (-> & kb & ->). cbn. auto.
  - lia.
  - exists b, (JObj l). split; [exact W|]. split; [exact JT|]. exact ME.
Qed.
(** The keys of any other map are lost: different maps get the same document. *)
Theorem C73_map_keys_refuted appendFloat lookup useEnumNumbers n :
  let m z := TMsg [84] [([97], FMap (KTNum KI32) (VTNum KI32) [(KNum z, ENum 5)])] in
  writeJSON appendFloat lookup useEnumNumbers (S n) (m 1) = writeJSON appendFloat lookup useEnumNumbers (S n) (m 2) /\
  writeJSON appendFloat lookup useEnumNumbers (S n) (m 1) = Ok [123; 34; 97; 34; 58; 123; 34; 34; 58; 53; 125; 125].
Proof. split; reflexivity. Qed.

(** A struct with a nested struct, an enum, a list, a map and an Any that holds such a struct. *)
Definition inner : tmsg := TMsg [73] [([120], FNum KI16 (-3) None); ([121], FStr true [104; 34; 105])].
Definition demo_lookup (h : bytes) : option (bytes * (bytes -> option tmsg)) :=
  if list_eq_dec Z.eq_dec h (repeat 7 16) then Some ([73], fun d => if list_eq_dec Z.eq_dec d [1; 2] then Some inner else None) else None.
Definition demo : tmsg :=
  TMsg [68] [([97], FMsg (Some inner)); ([98], FNum KU8 2 (Some [82; 101; 100])); ([99], FNums KU32 [(7, None); (4294967295, None)]);
             ([100], FMap KTStr VTStr [(KStr [107], EStr [118]); (KStr [108], EStr [])]); ([101], FAny (Some (repeat 7 16, [1; 2])));
             ([102], FMsgs [inner]); ([103], FAnys [(repeat 7 16, [9])]); ([104], FMsg None)].
Lemma demo_inner n : fit_msg n string_key inner.
Proof. constructor. repeat constructor; cbn; try lia; discriminate. Qed.
Example C73_case :
  prints_floats (fun _ _ => [48]) /\ registry_ok string_key demo_lookup /\ fit_msg 3 string_key demo /\
  exists b, writeJSON (fun _ _ => [48]) demo_lookup false 4 demo = Ok b /\ len b = 261.
Proof.
  split; [intros k v _ _ _; apply (jn_pos [48] [] []); constructor|]. split; [|split].
  - split.
    + intros h name dec E. unfold demo_lookup in E. destruct (list_eq_dec Z.eq_dec h (repeat 7 16)); [|discriminate]. inversion E. constructor; [lia|constructor].
    + intros h name dec d m E D. unfold demo_lookup in E. destruct (list_eq_dec Z.eq_dec h (repeat 7 16)); [|discriminate]. inversion E; subst.
      destruct (list_eq_dec Z.eq_dec d [1; 2]); [|discriminate]. inversion D. apply demo_inner.
  - constructor.
    repeat (apply Forall_cons; [split; [discriminate|split; [repeat constructor; lia|]]|]); [..|apply Forall_nil]; cbn [snd].
    + constructor. apply demo_inner.
    + constructor; [cbn; lia|]. cbn. repeat constructor; lia.
    + constructor. unfold fit_any, is_bytes. repeat constructor; cbn; try lia; repeat constructor; lia.
    + constructor. repeat constructor; cbn; try lia; try (eexists; reflexivity); repeat constructor; lia.
    + constructor. unfold fit_any, is_bytes. repeat constructor; cbn; try lia; repeat constructor; lia.
    + constructor. apply demo_inner.
    + constructor. unfold fit_any, is_bytes. repeat constructor; cbn; try lia; repeat constructor; lia.
    + constructor.
  - eexists. split; [vm_compute; reflexivity|vm_compute; reflexivity].
Qed.

Print Assumptions C35_valid_document_partial.
Print Assumptions C35_list_of_structs_refuted.
Print Assumptions C35_map_of_structs_refuted.
Print Assumptions C35_array_partial.
Print Assumptions C73_represents_partial.
Print Assumptions C73_map_keys_refuted.
