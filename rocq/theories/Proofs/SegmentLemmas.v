From Verif.Model Require Export Segment.
From Verif.Proofs Require Export BaseLemmas.

Lemma InsertAt_spec p q data off :
  off = len p -> InsertAt (p ++ q) off data = Ok (p ++ data ++ q).
Proof.
  intros ->. unfold InsertAt.
  pose proof (len_nonneg p). pose proof (len_nonneg q). pose proof (len_nonneg data).
  rewrite len_app. replace (_ || _) with false by lia.
  destruct (Z.eqb_spec (len data) 0) as [E|E].
  { apply len_0_nil in E. subst. reflexivity. }
  destruct (Z.ltb_spec (len p) (len p + len q)).
  - rewrite <- (app_nil_r (p ++ q)) at 1. rewrite <- app_assoc.
    rewrite (slice_app p q []) by lia. rewrite bind_Ok.
    rewrite <- app_assoc.
    (* p ++ q ++ zeros n : write q at len p + n *)
    replace (p ++ q ++ zeros (len data))
      with ((p ++ take (len data) (q ++ zeros (len data))) ++
            drop (len data) (q ++ zeros (len data)) ++ [])
      by (rewrite app_nil_r, <- app_assoc, take_drop; reflexivity).
    rewrite copy_at_split; cycle 1.
    { rewrite len_app, len_take; try lia. rewrite len_app, len_zeros by lia. lia. }
    { rewrite len_drop; rewrite len_app, len_zeros by lia; lia. }
    rewrite bind_Ok. rewrite <- app_assoc.
    rewrite copy_at_split; auto.
    + now rewrite app_nil_r.
    + rewrite len_take; try lia. rewrite len_app, len_zeros by lia. lia.
  - assert (q = []) by (apply len_0_nil; lia). subst q. rewrite !app_nil_r, bind_Ok.
    rewrite <- (app_nil_r (zeros (len data))). rewrite copy_at_split; auto.
    + now rewrite app_nil_r.
    + now rewrite len_zeros by lia.
Qed.

Lemma RemoveAt_spec p m q off n :
  off = len p -> n = len m -> RemoveAt (p ++ m ++ q) off n = Ok (p ++ q).
Proof.
  intros -> ->. unfold RemoveAt.
  pose proof (len_nonneg p). pose proof (len_nonneg q). pose proof (len_nonneg m).
  rewrite !len_app. replace (_ || _) with false by lia.
  destruct (Z.eqb_spec (len m) 0) as [E|E].
  { apply len_0_nil in E. subst. reflexivity. }
  assert (S : slice (p ++ m ++ q) (len p + len m) (len p + (len m + len q)) = Ok q).
  { replace (p ++ m ++ q) with ((p ++ m) ++ q ++ []) by (rewrite app_nil_r, app_assoc; reflexivity).
    apply slice_app; rewrite len_app; lia. }
  rewrite S, bind_Ok.
  rewrite <- (take_drop (len q) (m ++ q)).
  rewrite copy_at_split; auto; cycle 1.
  { rewrite len_take; auto. rewrite len_app. lia. }
  rewrite bind_Ok, app_assoc. apply slice_prefix. rewrite len_app. lia.
Qed.

Lemma ReplaceAt_spec p m q new off n :
  off = len p -> n = len m -> ReplaceAt (p ++ m ++ q) off n new = Ok (p ++ new ++ q).
Proof.
  intros -> ->. unfold ReplaceAt.
  pose proof (len_nonneg p). pose proof (len_nonneg q). pose proof (len_nonneg m).
  pose proof (len_nonneg new).
  rewrite !len_app. replace (_ || _) with false by lia.
  destruct (Z.eqb_spec (len new - len m) 0) as [E|E].
  { apply copy_at_split; auto. lia. }
  assert (S : slice (p ++ m ++ q) (len p + len m) (len p + (len m + len q)) = Ok q).
  { replace (p ++ m ++ q) with ((p ++ m) ++ q ++ []) by (rewrite app_nil_r, app_assoc; reflexivity).
    apply slice_app; rewrite len_app; lia. }
  rewrite S, bind_Ok.
  destruct (len new - len m >? 0) eqn:G.
  - set (d := len new - len m).
    replace ((p ++ m ++ q) ++ zeros d)
      with ((p ++ take (len new) (m ++ q ++ zeros d)) ++
            drop (len new) (m ++ q ++ zeros d) ++ [])
      by (rewrite app_nil_r, <- !app_assoc, take_drop; reflexivity).
    assert (len (m ++ q ++ zeros d) = len new + len q) as L
      by (rewrite !len_app, len_zeros; unfold d; lia).
    rewrite copy_at_split; cycle 1.
    { rewrite len_app, len_take by lia. reflexivity. }
    { rewrite len_drop by lia. lia. }
    rewrite bind_Ok, <- app_assoc. rewrite copy_at_split; auto.
    + now rewrite app_nil_r.
    + rewrite len_take by lia. reflexivity.
  - set (d := len new - len m) in *.
    replace (p ++ m ++ q)
      with ((p ++ take (len new) (m ++ q)) ++
            take (len q) (drop (len new) (m ++ q)) ++
            drop (len q) (drop (len new) (m ++ q)))
      by (rewrite take_drop, <- !app_assoc, take_drop; reflexivity).
    assert (len (m ++ q) = len m + len q) as L by (rewrite !len_app; lia).
    rewrite copy_at_split; cycle 1.
    { rewrite len_app, len_take by lia. reflexivity. }
    { rewrite len_take; auto. rewrite len_drop by lia. lia. }
    rewrite bind_Ok.
    rewrite app_assoc. rewrite slice_prefix.
    2:{ rewrite !len_app, len_take by lia. unfold d. lia. }
    rewrite bind_Ok, <- app_assoc. apply copy_at_split; auto.
    rewrite len_take by lia. reflexivity.
Qed.
