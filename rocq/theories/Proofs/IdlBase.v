(** Lemmas on the pieces of the schema parser. *)
From Coq Require Import ZArith List Bool String Lia Permutation Sorted.
Import ListNotations.
From Verif.Model Require Import Base Utf8 Field Any ClawText Idl.
From Verif.Spec Require Import Idl.
From Verif.Proofs Require Import BaseLemmas IngestProofs.
Local Open Scope Z_scope.

Lemma ok_if_inv b : ok_if b = Ok tt -> b = true.
Proof. destruct b; cbn; congruence. Qed.
Lemma ok_if_inv' b u : ok_if b = Ok u -> b = true.
Proof. destruct b; cbn; congruence. Qed.
Ltac step H :=
  match type of H with
  | bind ?e _ = Ok _ =>
    let a := fresh "a" in let E := fresh "E" in
    apply bind_Ok_inv in H; destruct H as (a & E & H);
    first [ apply ok_if_inv' in E; clear a
          | match type of a with
            | unit => idtac
            | prod (prod _ _) _ => let x := fresh "x" in let y := fresh "y" in let z := fresh "z" in destruct a as [[x y] z]
            | prod _ _ => let x := fresh "x" in let y := fresh "y" in destruct a as [x y]
            | _ => idtac
            end ]
  end.

Lemma lookup_In {A} (l : list (bytes * A)) w a : lookup l w = Some a -> In (w, a) l.
Proof.
  induction l as [|[n b] q IH]; cbn; [congruence|]. destruct (bytes_eqb n w) eqn:E; [|auto].
  intros H. inversion H; subst. apply bytes_eqb_eq in E. subst. auto.
Qed.

(** ** Splitting at a character *)
Lemma splitAt_ne c s : splitAt c s <> [].
Proof. destruct s as [|d q]; cbn; [congruence|]. destruct (d =? c); [congruence|]. destruct (splitAt c q); congruence. Qed.
Lemma splitAt_whole c s : ~ In c s -> splitAt c s = [s].
Proof.
  induction s as [|d q IH]; cbn; intros H; [reflexivity|]. destruct (Z.eqb_spec d c); [subst; tauto|].
  rewrite IH by tauto. reflexivity.
Qed.
Lemma splitAt_app c p q : ~ In c p -> splitAt c (p ++ c :: q) = p :: splitAt c q.
Proof.
  induction p as [|d p IH]; cbn; intros H; [rewrite Z.eqb_refl; reflexivity|].
  destruct (Z.eqb_spec d c); [subst; tauto|]. rewrite IH by tauto. reflexivity.
Qed.
Lemma splitAt_inv c s : forall w ws, splitAt c s = w :: ws ->
  ~ In c w /\ ((ws = [] /\ s = w) \/ (exists q, s = w ++ c :: q /\ splitAt c q = ws)).
Proof.
  induction s as [|d q IH]; cbn; intros w ws H.
  - inversion H; subst. cbn. auto.
  - destruct (Z.eqb_spec d c) as [->|N].
    + inversion H; subst. cbn. split; [tauto|]. right. exists q. auto.
    + destruct (splitAt c q) as [|v vs] eqn:E; [exfalso; eapply splitAt_ne; eauto|]. inversion H; subst.
      destruct (IH _ _ eq_refl) as (NI & [[-> ->]|(r & -> & R)]); cbn; (split; [tauto|]); [auto|right; exists r; auto].
Qed.
Lemma splitAt_two c s p n : splitAt c s = [p; n] -> s = p ++ c :: n /\ ~ In c p /\ ~ In c n.
Proof.
  intros H. apply splitAt_inv in H. destruct H as (NP & [[X _]|(q & -> & Q)]); [congruence|].
  apply splitAt_inv in Q. destruct Q as (NN & [[_ ->]|(r & _ & R)]); [auto|]. exfalso. eapply splitAt_ne; eauto.
Qed.
Lemma splitAt_head c s : In c s -> exists q, s = hd [] (splitAt c s) ++ c :: q.
Proof.
  intros I. destruct (splitAt c s) as [|w ws] eqn:E; [exfalso; eapply splitAt_ne; eauto|]. cbn.
  apply splitAt_inv in E. destruct E as (N & [[_ ->]|(q & -> & _)]); [tauto|eauto].
Qed.
Lemma dotted_split w p n : dotted w p n <-> splitAt 46 w = [p; n].
Proof.
  split.
  - intros (-> & P & N). rewrite splitAt_app by exact P. rewrite splitAt_whole by exact N. reflexivity.
  - intros H. apply splitAt_two in H. exact H.
Qed.

Lemma trimLeft_In c s x : In x (trimLeft c s) -> In x s.
Proof. induction s as [|d q IH]; cbn; [auto|]. destruct (d =? c); cbn; auto. Qed.
Lemma trim_In c s x : In x (trim c s) -> In x s.
Proof. unfold trim. intros H. apply in_rev in H. apply trimLeft_In in H. apply in_rev in H. apply trimLeft_In in H. exact H. Qed.
Lemma trimLeft_keep c d s : d <> c -> trimLeft c (d :: s) = d :: s.
Proof. intros H. cbn. destruct (Z.eqb_spec d c); congruence. Qed.
Lemma trim_keep c d s e : d <> c -> e <> c -> trim c (d :: s ++ [e]) = d :: s ++ [e].
Proof.
  intros D E. unfold trim. rewrite trimLeft_keep by exact D. cbn [rev]. rewrite rev_app_distr. cbn [rev app].
  rewrite trimLeft_keep by exact E. cbn [rev]. rewrite rev_app_distr, rev_involutive. reflexivity.
Qed.
Lemma count_app c a b : count c (a ++ b) = count c a + count c b.
Proof. unfold count, len. rewrite filter_app, app_length. lia. Qed.
Lemma count_none c s : ~ In c s -> count c s = 0.
Proof.
  unfold count, len. induction s as [|d q IH]; cbn; intros H; [reflexivity|]. destruct (Z.eqb_spec d c); [subst; tauto|]. apply IH. tauto.
Qed.
Lemma count_pos c s : 1 <= count c s -> In c s.
Proof. intros H. destruct (in_dec Z.eq_dec c s); auto. rewrite count_none in H by assumption. lia. Qed.
Lemma dotted_counts w p n : dotted w p n -> p <> [] -> n <> [] -> count 46 (trim 46 w) = 1.
Proof.
  intros (-> & P & N) HP HN. destruct p as [|d p]; [congruence|]. destruct (exists_last HN) as (n' & e & ->).
  assert (T : trim 46 ((d :: p) ++ 46 :: n' ++ [e]) = (d :: p) ++ 46 :: n' ++ [e]).
  { replace ((d :: p) ++ 46 :: n' ++ [e]) with (d :: (p ++ 46 :: n') ++ [e]) by (cbn; rewrite <- app_assoc; reflexivity).
    apply trim_keep; intros ->; [apply P; cbn; auto|apply N; apply in_or_app; cbn; auto]. }
  rewrite T. rewrite count_app. rewrite count_none by exact P. change (46 :: n' ++ [e]) with ([46] ++ n' ++ [e]). rewrite count_app, count_none with (s := n' ++ [e]) by exact N.
  reflexivity.
Qed.

(** ** Sorting by a number *)
Section Sort.
Context {A : Type} (key : A -> Z).
Lemma insertBy_perm x l : Permutation (insertBy key x l) (x :: l).
Proof.
  induction l as [|y q IH]; cbn; [auto|]. destruct (key x <=? key y); [auto|].
  transitivity (y :: x :: q); [constructor; exact IH|constructor].
Qed.
Lemma sortBy_perm l : Permutation (sortBy key l) l.
Proof. induction l as [|x q IH]; cbn; [auto|]. rewrite insertBy_perm. auto. Qed.
Definition by_key (a b : A) : Prop := key a <= key b.
Lemma insertBy_sorted x l : StronglySorted by_key l -> StronglySorted by_key (insertBy key x l).
Proof.
  induction 1 as [|y q S IH F]; cbn; [repeat constructor|]. destruct (Z.leb_spec (key x) (key y)) as [L|L].
  - constructor; [constructor; auto|]. constructor; [exact L|]. eapply Forall_impl; [|exact F]. unfold by_key. intros; lia.
  - constructor; [exact IH|]. apply Forall_forall. intros z I. apply (Permutation_in _ (insertBy_perm x q)) in I.
    destruct I as [<-|I]; [unfold by_key; lia|]. rewrite Forall_forall in F. auto.
Qed.
Lemma sortBy_sorted l : StronglySorted by_key (sortBy key l).
Proof. induction l as [|x q IH]; cbn; [constructor|]. apply insertBy_sorted. exact IH. Qed.
End Sort.
Lemma sorted_map {A} (key : A -> Z) l : StronglySorted (by_key key) l -> StronglySorted Z.le (map key l).
Proof. induction 1 as [|x q S IH F]; cbn; constructor; auto. apply Forall_map. exact F. Qed.
Lemma sorted_unique (a : list Z) : forall b, StronglySorted Z.le a -> StronglySorted Z.le b -> Permutation a b -> a = b.
Proof.
  induction a as [|x a IH]; intros b SA SB P.
  - apply Permutation_nil in P. auto.
  - destruct b as [|y b]; [apply Permutation_sym, Permutation_nil in P; congruence|].
    inversion SA as [|? ? SA' FA]; inversion SB as [|? ? SB' FB]; subst. rewrite Forall_forall in FA, FB.
    assert (x = y).
    { assert (I : In x (y :: b)) by (eapply Permutation_in; [exact P|cbn; auto]).
      assert (J : In y (x :: a)) by (eapply Permutation_in; [apply Permutation_sym; exact P|cbn; auto]).
      cbn in I, J. destruct I as [I|I]; [auto|]. destruct J as [J|J]; [auto|].
      specialize (FA _ J). specialize (FB _ I). lia. }
    subst y. apply Permutation_cons_inv in P. f_equal. apply IH; auto.
Qed.
Lemma seq_sorted n : forall k, StronglySorted Z.le (map Z.of_nat (seq k n)).
Proof.
  induction n as [|n IH]; intros k; cbn; constructor; [apply IH|]. apply Forall_map. apply Forall_forall. intros x I. apply in_seq in I. lia.
Qed.

(** ** Field numbers *)
Lemma nth_error_set {A} (l : list A) i j x : nth_error (set_nth i x l) j = if Nat.eqb i j then (match nth_error l j with Some _ => Some x | None => None end) else nth_error l j.
Proof.
  revert i j. induction l as [|y l IH]; intros i j; cbn.
  - destruct i, j; cbn; try reflexivity; destruct (Nat.eqb _ _); reflexivity.
  - destruct i as [|i], j as [|j]; cbn; try reflexivity. apply IH.
Qed.
Lemma checkIds_ok fs : forall ids, Forall (fun fd => 0 <= fd.(fd_index)) fs -> checkIds ids fs = Ok tt ->
  NoDup (map fd_index fs) /\ Forall (fun fd => nth_error ids (Z.to_nat fd.(fd_index)) = Some false) fs.
Proof.
  induction fs as [|fd q IH]; intros ids P H; [split; constructor|]. cbn in H. inversion P as [|? ? P1 P2]; subst.
  destruct (nth_error ids (Z.to_nat (fd_index fd))) as [[|]|] eqn:E; try discriminate.
  destruct (IH _ P2 H) as (N & F). cbn. split.
  - constructor; [|exact N]. intros I. apply in_map_iff in I. destruct I as (g & G & I).
    rewrite Forall_forall in F. specialize (F _ I). rewrite nth_error_set in F. rewrite G, Nat.eqb_refl, E in F. discriminate.
  - constructor; [exact E|]. rewrite Forall_forall in *. intros g I. specialize (F _ I). rewrite nth_error_set in F.
    destruct (Nat.eqb_spec (Z.to_nat (fd_index fd)) (Z.to_nat (fd_index g))) as [Q|]; [|exact F].
    rewrite <- Q, E in F. discriminate.
Qed.
Lemma sorted_ids fs : Forall (fun fd => 0 <= fd.(fd_index)) fs -> checkIds (repeat false (length fs)) fs = Ok tt ->
  map fd_index (sortBy fd_index fs) = map Z.of_nat (seq 0 (length fs)).
Proof.
  intros P H. destruct (checkIds_ok _ _ P H) as (N & F).
  apply sorted_unique; [apply sorted_map, sortBy_sorted|apply seq_sorted|].
  transitivity (map fd_index fs); [apply Permutation_map, sortBy_perm|].
  apply NoDup_Permutation_bis; [exact N|rewrite !map_length, seq_length; lia|].
  intros i I. apply in_map_iff in I. destruct I as (fd & <- & I). rewrite Forall_forall in F, P. specialize (F _ I). specialize (P _ I). cbn in P.
  assert (L : (Z.to_nat (fd_index fd) < length fs)%nat).
  { rewrite <- (repeat_length false (length fs)). apply nth_error_Some. rewrite F. congruence. }
  apply in_map_iff. exists (Z.to_nat (fd_index fd)). rewrite in_seq. split; lia.
Qed.
