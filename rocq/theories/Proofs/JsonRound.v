(** The document of a struct shows the struct. *)
From Coq Require Import ZArith List Bool Lia ZifyBool.
Import ListNotations.
From Verif.Model Require Import Base Field MapApi Token Walk TokenStream Utf8 Ingest JsonRead.
From Verif.Spec Require Import Text Message Values Ingest JsonGrammar JsonRead.
From Verif.Proofs Require Import BaseLemmas Utf8Proofs WalkProofs IngestProofs JsonReadProofs.
From Verif.Spec Require Import Message JsonGrammar.
From Verif.Model Require Import Ingest.
Open Scope Z_scope.

(** ** Names *)
Lemma jchars_scalar b rs : jchars b rs -> Forall scalar rs.
Proof.
  induction 1 as [|r b rs SC _ _ _ _ IH|e r b rs I _ IH|h r b rs H4 SC _ IH|h1 h2 r1 r2 b rs H1 H2 R1 R2 _ IH]; constructor; auto.
  - cbn in I. repeat (destruct I as [I|I]; [inversion I; unfold scalar; lia|]). destruct I.
  - unfold scalar. lia.
Qed.
Lemma utf8_inj a b : Forall scalar a -> Forall scalar b -> utf8 a = utf8 b -> a = b.
Proof. intros A B H. rewrite <- (runes_utf8 a A), <- (runes_utf8 b B), H. reflexivity. Qed.
Lemma nodup_utf8 {A} (l : list (list Z * A)) : Forall (fun kv => Forall scalar (fst kv)) l -> NoDup (map fst l) -> NoDup (map (fun kv => utf8 (fst kv)) l).
Proof.
  induction 1 as [|[a x] l S F IH]; cbn [map fst]; intros N; constructor; inversion N as [|? ? N1 N2]; subst; auto.
  intros I. apply N1. apply in_map_iff in I as ([b y] & EQ & I). cbn [fst] in *. rewrite Forall_forall in F. pose proof (F _ I) as SB. cbn [fst] in SB.
  rewrite <- (utf8_inj b a SB S EQ). apply (in_map fst) in I. exact I.
Qed.
Lemma distinct_udistinct j : forall b, jtext b j -> distinct j -> udistinct j.
Proof.
  induction j as [|x|lit|rs|l F|l F] using jv_ind'; intros b J D; try constructor.
  - inversion D as [| | | |? DF|]; subst. inversion J as [| | | | |bs ? H|]; subst. clear D J. revert bs H. induction F as [|v l Hv _ IH]; intros bs H; inversion H; subst; constructor; inversion DF; subst; eauto.
  - inversion D as [| | | | |? N DF]; subst. inversion J as [| | | | | |bs ? H]; subst. apply nodup_utf8; [|exact N]. clear -H.
    induction H as [|? ? ? ? M _ IH]; constructor; auto. inversion M as [? ? ? ? JS _]; subst. inversion JS as [? ? JC]; subst. apply jchars_scalar in JC. exact JC.
  - inversion D as [| | | | |? N DF]; subst. inversion J as [| | | | | |bs ? H]; subst. clear D J N. revert bs H. induction F as [|v l Hv _ IH]; intros bs H; inversion H as [|? ? ? ? M H']; subst; constructor; inversion DF; subst; eauto.
    inversion M; subst. cbn [snd] in *. eauto.
Qed.

(** ** Values *)
Lemma text_of_utf8 rs rs' : Forall scalar rs' -> text_of (utf8 rs') rs -> rs = rs'.
Proof. intros S (_ & H). apply H; auto. Qed.
Lemma in_by_value (n : bytes) z tbl : NoDup (map snd tbl) -> In (n, z) tbl -> match find (fun nw => z =? snd nw) tbl with Some (n, _) => n | None => [] end = n :> bytes.
Proof.
  induction tbl as [|[m y] l IH]; cbn; intros N I; [tauto|]. apply NoDup_cons_iff in N as (N1 & N2). destruct I as [I|I].
  - inversion I; subst. rewrite Z.eqb_refl. reflexivity.
  - destruct (Z.eqb_spec z y) as [->|]; [|apply IH; auto]. exfalso. apply N1. apply (in_map snd) in I. exact I.
Qed.
Lemma no_by_value z (tbl : list (bytes * Z)) : ~ In z (map snd tbl) -> match find (fun nw => z =? snd nw) tbl with Some (n, _) => n | None => [] end = [] :> bytes.
Proof.
  induction tbl as [|[m y] l IH]; cbn; intros N; [reflexivity|]. destruct (Z.eqb_spec z y) as [->|]; [tauto|]. apply IH. tauto.
Qed.

Section Round.
Variable appendFloat : kind -> Z -> bytes.
Hypothesis ZERO : forall k, k = KF32 \/ k = KF64 -> appendFloat k 0 = [48].
Variable enumNumbers : bool.
Notation fl := (fun k v lit => lit = appendFloat k v).

Lemma num_reads k e z j : readable_num enumNumbers k e z -> num_means fl enumNumbers k z (enum_label e z) j -> distinct j /\ reads_num k e j z.
Proof.
  intros R M. inversion M as [n' rs NE T E1|n' lit EN K L E1|K E1|lit K1 K2 K3 L E1|lit K SP FL E1|K SP E1]; subst.
  - split; [constructor|]. destruct e as [tbl|]; [|discriminate]. cbn in E1. injection E1 as E1. subst n'.
    inversion R as [| |tbl0 rs0 z0 KI IR SC NN I D1 D2 E2|tbl0 KI NI E2|tbl0 z0 EN K IR TB E2]; subst.
    + rewrite (in_by_value _ _ _ D2 I) in T. apply text_of_utf8 in T; [|exact SC]. subst rs. apply rn_name; try assumption. apply int_stored. exact KI.
    + rewrite (no_by_value _ _ NI) in T. apply (text_of_utf8 rs []) in T; [|constructor]. subst rs. apply rn_noname.
    + tauto.
  - split; [constructor|]. destruct e as [tbl|]; [|discriminate].
    assert (KI : is_int k) by (split; destruct K; subst; discriminate). assert (NB : k <> KBool) by (destruct K; subst; discriminate).
    inversion R as [| |tbl0 rs0 z0 KI' IR SC NN I D1 D2 E2|tbl0 KI' NI E2|tbl0 z0 EN' K' IR TB E2]; subst; try (apply rn_zero; exact L);
      constructor; auto; destruct K; subst; cbn [in_range] in IR; lia.
  - destruct e as [|]; [discriminate|]. split; [constructor|].
    assert (B : z = 0 \/ z = 1) by (inversion R as [z0 _ IR _ E2| | | |]; subst; auto; cbn [in_range] in IR; lia). destruct B; subst; [apply (rn_bool None false)|apply (rn_bool None true)].
  - destruct e as [|]; [discriminate|]. split; [constructor|]. inversion R; subst; [constructor; auto|apply rn_zero; exact L].
  - destruct e as [|]; [discriminate|]. split; [constructor|]. inversion R as [z0 (KI1 & KI2) IR _ E2| | | |]; subst; [destruct K; congruence|].
    rewrite ZERO by exact K. apply rn_zero. apply (il_pos [48]). split; [discriminate|repeat constructor; unfold digit; lia].
  - destruct e as [|]; [discriminate|]. inversion R as [z0 (KI1 & KI2) IR _ E2| | | |]; subst; [destruct K; congruence|].
    exfalso. destruct K; subst; cbn in SP; discriminate.
Qed.
Lemma str_reads st b j : readable_str st b -> str_means st b j -> distinct j /\ reads_str st j b.
Proof.
  intros R M. inversion R as [rs SC|]; subst; inversion M as [b' rs' T|b' t T]; subst; (split; [constructor|]).
  - apply text_of_utf8 in T; [|exact SC]. subst. constructor.
  - inversion T; subst. constructor.
Qed.

Variables (registered : bytes -> bytes -> bytes -> tmsg -> Prop) (unregistered : bytes -> bytes -> Prop).
Variable keyrel : keyty -> mkey -> list Z -> Prop.
Variable E : env.
Variable ig : bool.
Hypothesis ND : names_differ E.
Hypothesis NT : names_text E.
Definition read_msg (m : tmsg) : Prop := forall id j, readable E enumNumbers id m -> msg_means fl registered unregistered enumNumbers keyrel m j ->
  distinct j /\ exists fs, m = TMsg (fst (E id)) fs /\ reads_msg E ig id j fs.
Lemma val_reads ty v j : vsub read_msg v -> readable_val E enumNumbers ty v -> val_means fl registered unregistered enumNumbers keyrel v j ->
  distinct j /\ reads E ig ty j v.
Proof.
  intros IH R M.
  assert (NUL : zero_value ty = v -> j = JNull -> distinct j /\ reads E ig ty j v) by (intros <- ->; split; constructor).
  inversion R; subst.
  - inversion M; subst. destruct (num_reads k e z j) as (D & X); auto. split; [exact D|]. constructor. exact X.
  - inversion M; subst. destruct (str_reads st b j) as (D & X); auto. split; [exact D|]. constructor. exact X.
  - inversion M; subst. apply NUL; auto.
  - inversion M as [| | |m j' MM| | | | | | | | | | | |]; subst. cbn in IH. destruct (IH id j H MM) as (D & fs' & EQ & X). injection EQ as -> ->.
    split; [exact D|]. constructor; auto.
  - inversion M as [| | | |k' E1|k' l' js NE F| | | | | | | | | |]; subst; [apply NUL; auto|].
    assert (X : Forall distinct js /\ Forall2 (fun j z => reads_num k e j (fst z) /\ snd z = enum_label e (fst z)) js l).
    { clear -H F ZERO. induction F as [|[z nm] j l js HM _ IHF]; [split; constructor|]. inversion H as [|? ? (RN & EN) H']; subst. cbn [fst snd] in *. subst nm.
      destruct (IHF H') as (D' & F'). destruct (num_reads k e z j RN HM) as (D & X). split; constructor; auto. }
    destruct X as (D & X). split; constructor; assumption.
  - inversion M as [| | | | | |st' E1|st' l' js NE F| | | | | | | |]; subst; [apply NUL; auto|].
    assert (X : Forall distinct js /\ Forall2 (reads_str st) js l).
    { clear -H F. induction F as [|b j l js HM _ IHF]; [split; constructor|]. inversion H as [|? ? RN H']; subst.
      destruct (IHF H') as (D' & F'). destruct (str_reads st b j RN HM) as (D & X). split; constructor; auto. }
    destruct X as (D & X). split; constructor; assumption.
  - inversion M as [| | | | | | | | |l' js NE F| | | | | |]; subst; [apply NUL; auto|congruence].
  - inversion M as [| | | | | | | | |l' js NE F| | | | | |]; subst. inversion F as [|? j' ? js' MM F']; subst. inversion F'; subst.
    cbn in IH. inversion IH as [|? ? IHm _]; subst. destruct (IHm id j' H MM) as (D & fs & -> & X).
    split; [constructor; constructor; [exact D|constructor]|]. constructor. constructor; [|constructor]. exists fs. auto.
  - inversion M; subst; [apply NUL; auto|congruence].
  - inversion M; subst; apply NUL; auto.
  - inversion M; subst; [apply NUL; auto|congruence].
Qed.
Lemma msg_reads m : read_msg m.
Proof.
  induction m as [n0 fs IH] using tmsg_ind'. intros id j R M. inversion R as [id' fs' F E1]; subst. inversion M as [n' fs' l FM]; subst.
  assert (X : map fst (snd (E id)) = map (fun kv => utf8 (fst kv)) l /\ Forall (fun kv => distinct (snd kv)) l /\
              Forall2 (fun nt nv => fst nt = fst nv /\ exists rs j, In (rs, j) l /\ fst nt = utf8 rs /\ reads E ig (snd nt) j (snd nv)) (snd (E id)) fs).
  { pose proof (NT id) as T. clear R M. revert T. generalize dependent l.
    induction F as [|[n ty] [n' v] decl fs (EQ & RV) F IHF]; intros l FM T; inversion FM as [|? [rs j] ? ? HM FM']; subst.
    - split; [reflexivity|]. split; constructor.
    - inversion HM as [? ? ? ? TX VM]; subst. cbn [fst snd] in *. subst n'. inversion IH as [|? ? IHv IH']; subst. inversion T as [|? ? (rs' & NE & SC & EQ) T']; subst. cbn [fst] in EQ. subst n.
      destruct (IHF IH' _ FM' T') as (D1 & D2 & RF).
      apply text_of_utf8 in TX; [|exact SC]. subst rs'. cbn [snd] in IHv.
      destruct (val_reads ty v j IHv RV VM) as (DJ & RVAL).
      split; [cbn [map fst]; rewrite D1; reflexivity|]. split; [constructor; assumption|].
      constructor; [split; [reflexivity|]; exists rs, j; cbn; auto|]. clear -RF. induction RF as [|? ? ? ? (A & rs1 & j1 & I & B) _ IH]; constructor; auto.
      split; [exact A|]. exists rs1, j1. split; [right; exact I|exact B]. }
  destruct X as (D1 & D2 & RF). split.
  - constructor; [|exact D2]. apply (NoDup_map_inv utf8). rewrite map_map. rewrite <- D1. apply ND.
  - exists fs. split; [reflexivity|]. constructor.
    + clear -RF. induction RF as [|? ? ? ? (A & B) _ IH]; constructor; auto.
    + rewrite D1. apply Forall_forall. intros kv I. left. apply in_map_iff. exists kv. auto.
Qed.

(** Such structs are ones the writer handles. *)
Lemma utf8_bytes rs : Forall scalar rs -> is_bytes (utf8 rs).
Proof.
  induction 1 as [|r rs (R & _) _ IH]; [constructor|]. unfold utf8. cbn [flat_map]. apply Forall_app. split; [|exact IH]. unfold utf8_of.
  pose proof (Z.mod_pos_bound r 64 eq_refl). pose proof (Z.mod_pos_bound (r / 64) 64 eq_refl). pose proof (Z.mod_pos_bound (r / 4096) 64 eq_refl).
  destruct (Z.ltb_spec r 128); [repeat constructor; lia|].
  assert (0 <= r / 64) by (apply Z.div_pos; lia). assert (0 <= r / 4096) by (apply Z.div_pos; lia). assert (0 <= r / 262144) by (apply Z.div_pos; lia).
  destruct (Z.ltb_spec r 2048); [assert (r / 64 < 32) by (apply Z.div_lt_upper_bound; lia); repeat constructor; lia|].
  destruct (Z.ltb_spec r 65536); [assert (r / 4096 < 16) by (apply Z.div_lt_upper_bound; lia); repeat constructor; lia|].
  assert (r / 262144 < 5) by (apply Z.div_lt_upper_bound; lia). repeat constructor; lia.
Qed.
Lemma num_fit k e z : readable_num enumNumbers k e z -> in_range k z /\ fit_enum (enum_label e z).
Proof.
  assert (Z0 : in_range k 0) by (destruct k; cbn; lia).
  intros [z0 KI IR LT| |tbl rs z0 KI IR SC NN I D1 D2|tbl KI NI|tbl z0 EN K IR TB]; cbn [enum_label fit_enum]; auto.
  - rewrite (in_by_value _ _ _ D2 I). split; [exact IR|apply utf8_bytes; exact SC].
  - rewrite (no_by_value _ _ NI). split; [exact Z0|constructor].
  - split; [exact IR|]. clear -TB. induction TB as [|[n w] tbl H _ IH]; cbn; [constructor|]. destruct (z0 =? w); auto.
Qed.
Lemma str_fit st b : readable_str st b -> is_bytes b.
Proof. intros [rs SC|]; [apply utf8_bytes; exact SC|constructor]. Qed.
Variable nn : Z.
Variable Q : keyty -> mkey -> Prop.
Definition fits_msg (m : tmsg) : Prop := forall id, readable E enumNumbers id m -> fit_msg nn Q m.
Lemma msg_fit m : fits_msg m.
Proof.
  induction m as [n0 fs IH] using tmsg_ind'. intros id R. inversion R as [id' fs' F E1]; subst. constructor.
  pose proof (NT id) as T. clear R. induction F as [|[n ty] [n' v] decl fs (EQ & RV) F IHF]; [constructor|].
  cbn [fst snd] in *. subst n'. inversion IH as [|? ? IHv IH']; subst. inversion T as [|? ? (rs' & NE & SC & EQ) T']; subst. cbn [fst snd] in *. subst n.
  constructor; [|apply IHF; assumption]. cbn [fst snd]. split; [apply utf8_nonempty; exact NE|]. split; [apply utf8_bytes; exact SC|].
  inversion RV; subst; cbn in IHv.
  - destruct (num_fit k e z H). constructor; assumption.
  - constructor. apply str_fit in H. exact H.
  - constructor.
  - constructor. apply (IHv id0). assumption.
  - constructor. eapply Forall_impl; [|exact H]. intros [z nm] (A & B). cbn [fst snd] in *. subst nm. apply num_fit. exact A.
  - constructor. eapply Forall_impl; [|exact H]. intros b A. apply str_fit in A. exact A.
  - constructor.
  - constructor. inversion IHv; subst. eauto.
  - constructor. constructor.
  - constructor.
  - constructor. constructor.
Qed.
End Round.
