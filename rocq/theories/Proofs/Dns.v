(** Splitting and joining of hosts and ports. *)
From Coq Require Import ZArith List Bool Lia.
Import ListNotations.
From Verif.Model Require Import Base.
From Verif.Spec Require Import Dns.
Local Open Scope Z_scope.

Lemma indexByte_none c s : ~ In c s -> indexByte c s = None.
Proof.
  induction s as [|x q IH]; intros H; [reflexivity|]. cbn. destruct (Z.eqb_spec x c) as [->|]; [exfalso; apply H; left; reflexivity|].
  rewrite IH; [reflexivity|]. intros C. apply H. right. exact C.
Qed.
Lemma indexByte_at c a b : ~ In c a -> indexByte c (a ++ c :: b) = Some (length a).
Proof.
  induction a as [|x q IH]; intros H; cbn; [now rewrite Z.eqb_refl|]. destruct (Z.eqb_spec x c) as [->|]; [exfalso; apply H; left; reflexivity|].
  rewrite IH; [reflexivity|]. intros C. apply H. right. exact C.
Qed.
Lemma indexByte_inv c s i : indexByte c s = Some i -> exists a b, s = a ++ c :: b /\ ~ In c a /\ i = length a.
Proof.
  revert i. induction s as [|x q IH]; intros i H; [discriminate|]. cbn in H. destruct (Z.eqb_spec x c) as [->|N].
  - injection H as <-. exists [], q. repeat split; auto.
  - destruct (indexByte c q) as [j|]; [|discriminate]. injection H as <-. destruct (IH j eq_refl) as (a & b & -> & A & ->).
    exists (x :: a), b. repeat split; auto. intros [E|I]; [congruence|exact (A I)].
Qed.
Lemma has_spec c s : has c s = true <-> In c s.
Proof.
  unfold has. split.
  - destruct (indexByte c s) as [i|] eqn:E; [|discriminate]. intros _. apply indexByte_inv in E as (a & b & -> & _). apply in_elt.
  - intros H. destruct (indexByte c s) eqn:E; [reflexivity|]. apply in_split in H as (a & b & ->). exfalso. revert E. clear.
    induction a as [|x a IH]; cbn; [rewrite Z.eqb_refl; discriminate|]. destruct (x =? c); [discriminate|]. destruct (indexByte c (a ++ c :: b)); [discriminate|]. intros _. apply IH. reflexivity.
Qed.
Lemma has_false c s : has c s = false <-> ~ In c s.
Proof. rewrite <- has_spec. destruct (has c s); split; congruence. Qed.
Lemma last_none c s : ~ In c s -> lastIndexByte c s = None.
Proof.
  induction s as [|x q IH]; intros H; [reflexivity|]. cbn. rewrite IH by (intros C; apply H; right; exact C).
  destruct (Z.eqb_spec x c) as [->|]; [exfalso; apply H; left; reflexivity|reflexivity].
Qed.
Lemma last_at c a b : ~ In c b -> lastIndexByte c (a ++ c :: b) = Some (length a).
Proof.
  intros H. induction a as [|x q IH]; cbn; [rewrite (last_none c b H), Z.eqb_refl; reflexivity|]. rewrite IH. reflexivity.
Qed.
Lemma last_inv c s i : lastIndexByte c s = Some i -> exists a b, s = a ++ c :: b /\ ~ In c b /\ i = length a.
Proof.
  revert i. induction s as [|x q IH]; intros i H; [discriminate|]. cbn in H. destruct (lastIndexByte c q) as [j|] eqn:E.
  - injection H as <-. destruct (IH j eq_refl) as (a & b & -> & A & ->). exists (x :: a), b. repeat split; auto.
  - destruct (Z.eqb_spec x c) as [->|N]; [|discriminate]. injection H as <-. exists [], q. repeat split; auto.
    intros I. apply in_split in I as (a & b & ->). clear -E. revert E. induction a as [|y a IH]; cbn.
    + destruct (lastIndexByte c b); [discriminate|]. rewrite Z.eqb_refl. discriminate.
    + destruct (lastIndexByte c (a ++ c :: b)); [discriminate|]. intros _. apply IH. reflexivity.
Qed.
Lemma skipn_at {A} (a b : list A) x : skipn (S (length a)) (a ++ x :: b) = b.
Proof. induction a as [|y a IH]; [reflexivity|exact IH]. Qed.
Lemma firstn_at {A} (a b : list A) : firstn (length a) (a ++ b) = a.
Proof. rewrite firstn_app, firstn_all, Nat.sub_diag. cbn. apply app_nil_r. Qed.

Lemma not_bracket s : hd 0 s <> 91 -> forall {X} (f g : X), match s with 91 :: _ => f | _ => g end = g.
Proof. intros H X f g. destruct s as [|z q]; [reflexivity|]. cbn in H. repeat first [reflexivity | congruence | (destruct z; try reflexivity) | (destruct p; try reflexivity)]. Qed.

Lemma split_plain host port : plain host -> plain port -> SplitHostPort (host ++ 58 :: port) = Ok (host, port).
Proof.
  intros (H1 & H2 & H3) (P1 & P2 & P3). unfold SplitHostPort. rewrite (last_at 58 host port P1).
  rewrite not_bracket.
  - cbn zeta. rewrite firstn_at, skipn_at. rewrite (proj2 (has_false 58 host) H1). cbn [skipn].
    rewrite (proj2 (has_false 91 _)), (proj2 (has_false 93 _)); [reflexivity| |]; rewrite in_app_iff; intros [I|[I|I]]; try contradiction; discriminate.
  - destruct host as [|x q]; cbn; [discriminate|]. intros ->. apply H2. left. reflexivity.
Qed.
Lemma split_bracket host port : unbracketed host -> plain port -> SplitHostPort (91 :: host ++ 93 :: 58 :: port) = Ok (host, port).
Proof.
  intros (H2 & H3) (P1 & P2 & P3). unfold SplitHostPort.
  replace (91 :: host ++ 93 :: 58 :: port) with ((91 :: host ++ [93]) ++ 58 :: port) by (cbn; rewrite <- app_assoc; reflexivity).
  rewrite (last_at 58 _ port P1). cbn [app]. rewrite <- app_assoc. cbn [app].
  assert (E : indexByte 93 (91 :: host ++ 93 :: 58 :: port) = Some (S (length host))).
  { change (91 :: host ++ 93 :: 58 :: port) with ((91 :: host) ++ 93 :: 58 :: port). rewrite indexByte_at; [reflexivity|].
    intros [I|I]; [discriminate|contradiction]. }
  rewrite E. cbn [length]. rewrite !app_length. cbn [length].
  destruct (Nat.eqb_spec (S (S (length host))) (S (length host + S (S (length port))))) as [C|_]; [lia|].
  destruct (Nat.eqb_spec (S (S (length host))) (S (length host + 1))) as [_|C]; [|lia].
  cbn zeta. replace (S (length host) - 1)%nat with (length host) by lia. 
  assert (A : forall k, skipn (S (length host + k)) (91 :: host ++ 93 :: 58 :: port) = skipn k (93 :: 58 :: port)).
  { intros k. change (skipn (length host + k) (host ++ 93 :: 58 :: port) = skipn k (93 :: 58 :: port)).
    rewrite skipn_app, skipn_all2 by lia. cbn [app]. f_equal. lia. }
  replace (S (S (length host))) with (S (length host + 1)) by lia. rewrite A.
  replace (S (S (length host + 1))) with (S (length host + 2)) by lia. rewrite A.
  change (skipn 1 (91 :: host ++ 93 :: 58 :: port)) with (host ++ 93 :: 58 :: port). rewrite firstn_at. cbn [skipn].
  rewrite (proj2 (has_false 91 _)), (proj2 (has_false 93 _)); [reflexivity| |].
  - intros [I|I]; [discriminate|contradiction].
  - rewrite in_app_iff. intros [I|[I|[I|I]]]; try contradiction; discriminate.
Qed.
(** What SplitHostPort gives: the port is plain, and the host is without brackets. *)
Lemma split_inv s host port : SplitHostPort s = Ok (host, port) -> plain port /\ unbracketed host /\
  (~ In 58 host /\ s = host ++ 58 :: port \/ s = 91 :: host ++ 93 :: 58 :: port).
Proof.
  unfold SplitHostPort. destruct (lastIndexByte 58 s) as [i|] eqn:L; [|discriminate]. apply last_inv in L as (a & b & -> & NB & ->).
  destruct (Z.eq_dec (hd 0 (a ++ 58 :: b)) 91) as [HB|HB].
  - destruct a as [|x a]; [discriminate HB|]. cbn in HB. subst x. cbn [app].
    destruct (indexByte 93 (91 :: a ++ 58 :: b)) as [e|] eqn:X; [|discriminate].
    apply indexByte_inv in X as (p & q & EQ & NP & ->).
    destruct (Nat.eqb_spec (S (length p)) (length (91 :: a ++ 58 :: b))); [discriminate|].
    destruct (Nat.eqb_spec (S (length p)) (length (91 :: a))) as [LE|]; [|discriminate]. cbn zeta.
    destruct p as [|y p]; [discriminate EQ|]. cbn [app] in EQ. injection EQ as <- EQ.
    assert (PQ : a = p ++ [93] /\ q = 58 :: b).
    { assert (FA : firstn (length a) (a ++ 58 :: b) = firstn (length a) (p ++ 93 :: q)) by now rewrite EQ.
      rewrite firstn_at in FA. cbn [length] in LE. assert (LA : length a = S (length p)) by lia. rewrite LA in FA.
      replace (p ++ 93 :: q) with ((p ++ [93]) ++ q) in FA by (rewrite <- app_assoc; reflexivity).
      replace (S (length p)) with (length (p ++ [93])) in FA by (rewrite app_length; cbn; lia). rewrite firstn_at in FA.
      split; [exact FA|]. rewrite FA, <- app_assoc in EQ. apply app_inv_head in EQ. injection EQ as ->. reflexivity. }
    destruct PQ as [-> ->]. clear EQ. rewrite <- app_assoc. cbn [app length].
    replace (S (length p) - 1)%nat with (length p) by lia.
    assert (A : forall k, skipn (S (length p + k)) (91 :: p ++ 93 :: 58 :: b) = skipn k (93 :: 58 :: b)).
    { intros k. change (skipn (length p + k) (p ++ 93 :: 58 :: b) = skipn k (93 :: 58 :: b)).
      rewrite skipn_app, skipn_all2 by lia. cbn [app]. f_equal. lia. }
    replace (S (S (length p))) with (S (length p + 1)) by lia. rewrite A.
    replace (S (S (length (p ++ [93])))) with (S (length p + 2)) by (rewrite app_length; cbn; lia). rewrite A.
    change (skipn 1 (91 :: p ++ 93 :: 58 :: b)) with (p ++ 93 :: 58 :: b). rewrite firstn_at. cbn [skipn].
    destruct (has 91 (p ++ 93 :: 58 :: b)) eqn:B1; [discriminate|]. destruct (has 93 (58 :: b)) eqn:B2; [discriminate|].
    intros H. injection H as <- <-. apply has_false in B1, B2.
    split; [|split].
    + split; [exact NB|]. split; intros I; [apply B1; rewrite in_app_iff; right; right; right; exact I|apply B2; right; exact I].
    + split; intros I; [apply B1; rewrite in_app_iff; left; exact I|apply NP; right; exact I].
    + right. reflexivity.
  - rewrite (not_bracket _ HB). cbn zeta. rewrite firstn_at, skipn_at. destruct (has 58 a) eqn:C; [discriminate|]. cbn [skipn].
    destruct (has 91 (a ++ 58 :: b)) eqn:B1; [discriminate|]. destruct (has 93 (a ++ 58 :: b)) eqn:B2; [discriminate|].
    intros H. injection H as <- <-. apply has_false in B1, B2, C. rewrite in_app_iff in B1, B2.
    split; [|split].
    + split; [exact NB|]. split; intros I; [apply B1|apply B2]; right; right; exact I.
    + split; intros I; [apply B1|apply B2]; left; exact I.
    + left. split; [exact C|reflexivity].
Qed.
Lemma join_addressed host port : addressed host port (JoinHostPort host port).
Proof. unfold JoinHostPort. destruct (has 58 host) eqn:H; [apply ad_v6, has_spec, H|apply ad_v4, has_false, H]. Qed.
Lemma addressed_split host port a : unbracketed host -> plain port -> addressed host port a -> SplitHostPort a = Ok (host, port).
Proof.
  intros H P A. destruct A as [N|I]; [apply split_plain; [destruct H; split; auto|exact P]|]. exact (split_bracket host port H P).
Qed.
Lemma addressed_fun host port a b : addressed host port a -> addressed host port b -> a = b.
Proof. intros A B. destruct A, B; try reflexivity; contradiction. Qed.
