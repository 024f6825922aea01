(** A decoder that meets what is asked of one ([decodes]): the conditions of the theorems on the JSON
    reader can be met. *)
From Coq Require Import ZArith List Bool Lia ZifyBool.
Import ListNotations.
From Verif.Model Require Import Base Field Token Walk TokenStream Ingest JsonRead.
From Verif.Spec Require Import Text JsonGrammar JsonRead.
From Verif.Proofs Require Import BaseLemmas JsonProofs JsonReadProofs.
Open Scope Z_scope.

Definition hexv (c : Z) : Z := if c <=? 57 then c - 48 else if 97 <=? c then c - 87 else c - 55.
Definition hex4v (a b c d : Z) : Z := ((hexv a * 16 + hexv b) * 16 + hexv c) * 16 + hexv d.
Definition unescaped (e : Z) : Z := match find (fun p => fst p =? e) simple_escapes with Some (_, r) => r | None => 0 end.
(** A string up to its quote, and what is left. *)
Fixpoint lexstr (s : list Z) : list Z * list Z :=
  match s with
  | [] => ([], [])
  | c :: q =>
    if c =? 34 then ([], q)
    else if c =? 92 then
      match q with
      | [] => ([], [])
      | e :: q =>
        if e =? 117 then
          match q with
          | a1 :: b1 :: c1 :: d1 :: q =>
            let r := hex4v a1 b1 c1 d1 in
            if (0xD800 <=? r) && (r <=? 0xDBFF) then
              match q with
              | _ :: _ :: a2 :: b2 :: c2 :: d2 :: q =>
                let '(x, y) := lexstr q in (utf8_of (0x10000 + (r - 0xD800) * 1024 + (hex4v a2 b2 c2 d2 - 0xDC00)) ++ x, y)
              | _ => ([], [])
              end
            else let '(x, y) := lexstr q in (utf8_of r ++ x, y)
          | _ => ([], [])
          end
        else let '(x, y) := lexstr q in (utf8_of (unescaped e) ++ x, y)
      end
    else let '(x, y) := lexstr q in (c :: x, y)
  end.
Definition numchar (c : Z) : bool := (48 <=? c) && (c <=? 57) || (c =? 43) || (c =? 45) || (c =? 46) || (c =? 69) || (c =? 101).
Fixpoint span (s : list Z) : list Z * list Z :=
  match s with
  | [] => ([], [])
  | c :: q => if numchar c then let '(x, y) := span q in (c :: x, y) else ([], s)
  end.
Definition intv (lit : list Z) : Z :=
  saturate (match lit with [] => 0 | c :: q => if c =? 45 then - numval q else numval lit end).
Fixpoint lex (n : nat) (s : list Z) : list jtok :=
  match n with
  | O => []
  | S n =>
    match s with
    | [] => []
    | c :: q =>
      if c =? 123 then JOpen :: lex n q
      else if c =? 125 then JClose :: lex n q
      else if c =? 91 then JOpenArr :: lex n q
      else if c =? 93 then JCloseArr :: lex n q
      else if (c =? 44) || (c =? 58) then lex n q
      else if c =? 34 then let '(x, y) := lexstr q in JString x :: lex n y
      else if c =? 116 then JLit true :: lex n (skipn 3 q)
      else if c =? 102 then JLit false :: lex n (skipn 4 q)
      else if c =? 110 then JNullTok :: lex n (skipn 3 q)
      else let '(x, y) := span s in JNumber (intv x) :: lex n y
    end
  end.
Definition lexer (s : bytes) : list jtok := lex (S (length s)) s.

Lemma hexv_ok c v : hexdigit c v -> hexv c = v.
Proof. intros [x ?|x ?|x ?]; unfold hexv; destruct (Z.leb_spec x 57), (Z.leb_spec 97 x); lia. Qed.
Lemma hex4_ok h r : hex4 h r -> exists a b c d, h = [a; b; c; d] /\ hex4v a b c d = r.
Proof. intros [a b c d va vb vc vd A B C D]. exists a, b, c, d. split; [reflexivity|]. unfold hex4v. rewrite (hexv_ok _ _ A), (hexv_ok _ _ B), (hexv_ok _ _ C), (hexv_ok _ _ D). reflexivity. Qed.

Lemma lexstr_copy u s : Forall (fun c => c <> 34 /\ c <> 92) u -> lexstr (u ++ s) = (u ++ fst (lexstr s), snd (lexstr s)).
Proof.
  induction u as [|c u IH]; intros F; cbn [app]; [destruct (lexstr s); reflexivity|]. inversion F as [|? ? (A & B) F']; subst.
  cbn [lexstr]. destruct (Z.eqb_spec c 34); [congruence|]. destruct (Z.eqb_spec c 92); [congruence|]. rewrite IH by exact F'. reflexivity.
Qed.
Lemma utf8_copy r : scalar r -> r <> 34 -> r <> 92 -> Forall (fun c => c <> 34 /\ c <> 92) (utf8_of r).
Proof.
  intros (R & _) A B. unfold utf8_of.
  destruct (Z.ltb_spec r 128); [repeat constructor; assumption|].
  pose proof (Z.mod_pos_bound r 64 eq_refl). pose proof (Z.mod_pos_bound (r / 64) 64 eq_refl). pose proof (Z.mod_pos_bound (r / 4096) 64 eq_refl).
  assert (0 <= r / 64) by (apply Z.div_pos; lia). assert (0 <= r / 4096) by (apply Z.div_pos; lia). assert (0 <= r / 262144) by (apply Z.div_pos; lia).
  destruct (r <? 2048); [repeat constructor; lia|]. destruct (r <? 65536); repeat constructor; lia.
Qed.
Lemma lexstr_ok b rs : jchars b rs -> forall rest, lexstr (b ++ 34 :: rest) = (utf8 rs, rest).
Proof.
  induction 1 as [|r b rs SC R20 N1 N2 _ IH|e r b rs I _ IH|h r b rs H4 SC _ IH|h1 h2 r1 r2 b rs H1 H2 R1 R2 _ IH]; intros rest.
  - reflexivity.
  - rewrite <- app_assoc. rewrite lexstr_copy by (apply utf8_copy; assumption). rewrite IH. reflexivity.
  - rewrite <- !app_comm_cons. cbn [lexstr].
    assert (e <> 117 /\ unescaped e = r) as (NE & UE) by (cbn in I; repeat (destruct I as [I|I]; [inversion I; subst; split; [lia|reflexivity]|]); destruct I).
    change (92 =? 34) with false. change (92 =? 92) with true. cbv iota. destruct (Z.eqb_spec e 117); [congruence|]. rewrite IH, UE. reflexivity.
  - destruct (hex4_ok h r H4) as (a & b1 & c & d & -> & V). rewrite <- !app_comm_cons. cbn [app lexstr].
    change (92 =? 34) with false. change (92 =? 92) with true. change (117 =? 117) with true. cbv iota zeta. rewrite V.
    destruct SC as (SC1 & SC2). destruct ((55296 <=? r) && (r <=? 56319)) eqn:Q; [lia|]. rewrite IH. reflexivity.
  - destruct (hex4_ok h1 r1 H1) as (a & b1 & c & d & -> & V1). destruct (hex4_ok h2 r2 H2) as (a' & b1' & c' & d' & -> & V2). rewrite <- !app_comm_cons. cbn [app lexstr].
    change (92 =? 34) with false. change (92 =? 92) with true. change (117 =? 117) with true. cbv iota zeta. rewrite V1.
    replace ((55296 <=? r1) && (r1 <=? 56319)) with true by lia. rewrite IH, V2. reflexivity.
Qed.

Definition stops (s : list Z) : Prop := match s with [] => True | c :: _ => numchar c = false end.
Lemma span_ok u s : Forall (fun c => numchar c = true) u -> stops s -> span (u ++ s) = (u, s).
Proof.
  intros F N. induction F as [|c u H _ IH]; cbn [app].
  - destruct s; [reflexivity|]. cbn [span]. cbn in N. rewrite N. reflexivity.
  - cbn [span]. rewrite H, IH. reflexivity.
Qed.
Lemma digit_nc c : digit c -> numchar c = true.
Proof. unfold digit, numchar. lia. Qed.
Lemma jnumber_nc b : jnumber b -> Forall (fun c => numchar c = true) b /\ exists c q, b = c :: q /\ (c = 45 \/ digit c).
Proof.
  assert (D : forall l, Forall digit l -> Forall (fun c => numchar c = true) l) by (intros l; apply Forall_impl; exact digit_nc).
  assert (X : forall i f e, int_part i -> frac_part f -> exp_part e -> Forall (fun c => numchar c = true) (i ++ f ++ e)).
  { intros i f e I F X. apply Forall_app. split; [|apply Forall_app; split].
    - destruct I; constructor; auto; apply digit_nc; unfold digit; lia.
    - destruct F as [|l (_ & L)]; constructor; auto.
    - destruct X as [|c l C (_ & L)|c s l C S (_ & L)]; repeat constructor; auto; [destruct C; subst; reflexivity|destruct C; subst; reflexivity|destruct S; subst; reflexivity]. }
  intros [i f e I F E|i f e I F E].
  - split; [apply X; assumption|]. destruct I; cbn [app]; do 2 eexists; (split; [reflexivity|]); right; unfold digit; lia.
  - split; [constructor; [reflexivity|apply X; assumption]|]. do 2 eexists. split; [reflexivity|]. left. reflexivity.
Qed.

Notation tk := (tokens_of intv).
Definition lexes (b : list Z) (out : list jtok) : Prop :=
  forall rest n, stops rest -> (length (b ++ rest) < n)%nat -> exists n', (length rest < n')%nat /\ lex n (b ++ rest) = out ++ lex n' rest.

Lemma lexes_sep c b out : c = 44 \/ c = 58 -> lexes b out -> lexes (c :: b) out.
Proof.
  intros C L rest n ST N. destruct n as [|n]; [lia|]. cbn [app length] in N. destruct (L rest n ST) as (n' & N' & E); [lia|].
  exists n'. split; [exact N'|]. rewrite <- E. destruct C; subst; reflexivity.
Qed.
Lemma lexes_app a b x y : lexes a x -> lexes b y -> (forall rest, stops rest -> stops (b ++ rest)) -> lexes (a ++ b) (x ++ y).
Proof.
  intros A B ST rest n S N. rewrite <- app_assoc in *. destruct (A (b ++ rest) n (ST rest S) N) as (n1 & N1 & E1).
  destruct (B rest n1 S N1) as (n2 & N2 & E2). exists n2. split; [exact N2|]. rewrite E1, E2, app_assoc. reflexivity.
Qed.
Lemma lexes_str k rs : jstring k rs -> lexes k [JString (utf8 rs)].
Proof.
  intros [b rs' H] rest n S N. destruct n as [|n]; [lia|]. cbn [app]. rewrite <- app_assoc. cbn [app lex].
  change (34 =? 123) with false. change (34 =? 125) with false. change (34 =? 91) with false. change (34 =? 93) with false. change (34 =? 44) with false. change (34 =? 58) with false. change (34 =? 34) with true. cbn [orb].
  rewrite (lexstr_ok b rs' H rest). exists n. split; [|reflexivity]. cbn [app length] in N. rewrite !app_length in N. lia.
Qed.
Lemma lexes_commas bs outs : Forall2 lexes bs outs -> lexes (commas bs) (concat outs).
Proof.
  intros F. destruct F as [|b o bs outs L F]; [intros rest n S N; exists n; split; [exact N|reflexivity]|].
  rewrite commas_flat. cbn [concat]. 
  assert (X : lexes (flat_map (fun y => 44 :: y) bs) (concat outs)).
  { induction F as [|b1 o1 bs outs L1 F IH]; [intros rest n S N; exists n; split; [exact N|reflexivity]|].
    cbn [flat_map concat]. rewrite <- app_comm_cons. apply lexes_sep; [auto|]. apply lexes_app; auto. intros rest S. destruct bs; [exact S|reflexivity]. }
  apply lexes_app; auto. intros rest S. destruct bs; [exact S|reflexivity].
Qed.
Lemma lexes_wrap o c b out to tc : (o = 123 /\ c = 125 /\ to = JOpen /\ tc = JClose) \/ (o = 91 /\ c = 93 /\ to = JOpenArr /\ tc = JCloseArr) ->
  lexes b out -> lexes (o :: b ++ [c]) (to :: out ++ [tc]).
Proof.
  intros H L rest n S N. destruct n as [|n]; [lia|]. rewrite <- app_comm_cons, <- app_assoc in *. cbn [app length] in N.
  destruct (L (c :: rest) n) as (n' & N' & E); [destruct H as [(_ & -> & _)|(_ & -> & _)]; reflexivity|cbn [app] in *; lia|].
  destruct n' as [|n']; [cbn in N'; lia|]. exists n'. cbn [length] in N'. split; [lia|].
  cbn [app]. rewrite <- ?app_assoc. cbn [app].
  destruct H as [(-> & -> & -> & ->)|(-> & -> & -> & ->)]; cbn [lex Z.eqb Pos.eqb]; cbn [app] in E; rewrite E; reflexivity.
Qed.
Lemma lex_ok v : forall b, jtext b v -> lexes b (tk v).
Proof.
  induction v as [|b|lit|rs|l F|l F] using jv_ind'; intros bs J; inversion J as [| | |? H|? ? H|bs' ? H|bs' ? H]; subst.
  - intros rest n S N. destruct n; [lia|]. exists n. cbn [app length] in *. split; [lia|]. reflexivity.
  - intros rest n S N. destruct n; [lia|]. exists n. cbn [app length] in *. split; [lia|]. reflexivity.
  - intros rest n S N. destruct n; [lia|]. exists n. cbn [app length] in *. split; [lia|]. reflexivity.
  - intros rest n S N. destruct n; [lia|]. destruct (jnumber_nc _ H) as (NC & c & q & -> & C). exists n.
    rewrite app_length in N. cbn [length] in N. split; [lia|]. cbn [app lex].
    assert (numchar c = true) by (inversion NC; assumption).
    destruct (Z.eqb_spec c 123); [subst; discriminate|]. destruct (Z.eqb_spec c 125); [subst; discriminate|]. destruct (Z.eqb_spec c 91); [subst; discriminate|]. destruct (Z.eqb_spec c 93); [subst; discriminate|].
    destruct (Z.eqb_spec c 44); [subst; discriminate|]. destruct (Z.eqb_spec c 58); [subst; discriminate|]. cbn [orb]. destruct (Z.eqb_spec c 34); [subst; discriminate|].
    destruct (Z.eqb_spec c 116); [subst; discriminate|]. destruct (Z.eqb_spec c 102); [subst; discriminate|]. destruct (Z.eqb_spec c 110); [subst; discriminate|].
    change (c :: q ++ rest) with ((c :: q) ++ rest). rewrite span_ok by assumption. reflexivity.
  - apply lexes_str. exact H.
  - apply lexes_wrap; [auto|]. rewrite flat_map_concat_map. apply lexes_commas. clear J. revert bs' H. induction F as [|v l Hv _ IH]; intros bs H; inversion H; subst; constructor; auto.
  - apply lexes_wrap; [auto|]. rewrite flat_map_concat_map. apply lexes_commas. clear J. revert bs' H. induction F as [|[k v] l Hv _ IH]; intros bs H; inversion H as [|? ? ? ? M H']; subst; constructor; auto.
    inversion M as [kb b rs w JK JT]; subst. cbn [fst snd] in *. 
    change (lexes (kb ++ 58 :: b) ([JString (utf8 k)] ++ tk v)). apply lexes_app; [apply lexes_str; exact JK|apply lexes_sep; auto|intros; reflexivity].
Qed.
Theorem lexer_decodes : decodes lexer intv.
Proof.
  split.
  - intros b v J _. unfold lexer. destruct (lex_ok v b J [] (S (length b)) I) as (n' & N' & E); [rewrite app_nil_r; lia|].
    rewrite app_nil_r in E. rewrite E. destruct n'; [apply app_nil_r|]. apply app_nil_r.
  - intros lit v [ds (N & D)|ds (N & D)]; unfold intv; [|reflexivity]. destruct ds as [|c ds]; [congruence|]. inversion D as [|? ? DC _]; subst.
    unfold digit in DC. destruct (Z.eqb_spec c 45); [lia|]. reflexivity.
Qed.
