(** Lemmas about the association lists of Spec/FMap.v. *)
From Verif.Proofs Require Export BaseLemmas.
From Verif.Spec Require Export FMap.

Section Lemmas.
Context {A : Type}.
Implicit Types (fs l r : list (Z * A)) (c : A).

Definition allfst (P : Z -> Prop) (fs : list (Z * A)) : Prop := Forall (fun p => P (fst p)) fs.

Lemma fsorted_app_inv (a b : list (Z * A)) :
  fsorted (a ++ b) -> fsorted a /\ fsorted b /\ (forall x y, In x a -> In y b -> fst x < fst y).
Proof.
  unfold fsorted. induction a as [|x a IH]; cbn; intros H.
  - split; [constructor|]. split; auto. tauto.
  - inv H. destruct IH as (Ha & Hb & Hab); auto.
    apply Forall_app in H3. destruct H3 as [F1 F2]. repeat split; auto.
    + constructor; auto.
    + intros u v [<-|Hu] Hv; auto. rewrite Forall_forall in F2. auto.
Qed.
Lemma fsorted_app (a b : list (Z * A)) :
  fsorted a -> fsorted b -> (forall x y, In x a -> In y b -> fst x < fst y) -> fsorted (a ++ b).
Proof.
  unfold fsorted. induction a as [|x a IH]; cbn; intros Ha Hb Hab; auto.
  inv Ha. constructor.
  - apply IH; auto.
  - apply Forall_app. split; auto. apply Forall_forall. intros y Hy. apply Hab; auto.
Qed.

Lemma flook_split f fs c :
  fsorted fs -> flook f fs = Some c ->
  exists l r, fs = l ++ (f, c) :: r /\ allfst (fun g => g < f) l /\ allfst (fun g => f < g) r.
Proof.
  unfold fsorted, allfst. induction fs as [|[g d] fs IH]; cbn; intros S H; [discriminate|].
  inv S. destruct (Z.eqb_spec f g) as [->|].
  - inv H. exists [], fs. cbn. repeat split; auto.
  - destruct IH as (l & r & -> & Hl & Hr); auto.
    exists ((g, d) :: l), r. cbn. repeat split; auto. constructor; auto. cbn.
    apply Forall_app in H3. destruct H3 as [_ F]. inv F. cbn in *. lia.
Qed.
Lemma flook_none_split f fs :
  fsorted fs -> flook f fs = None ->
  exists l r, fs = l ++ r /\ allfst (fun g => g < f) l /\ allfst (fun g => f < g) r.
Proof.
  unfold fsorted, allfst. induction fs as [|[g d] fs IH]; cbn; intros S H.
  - exists [], []. cbn; auto.
  - inv S. destruct (Z.eqb_spec f g) as [->|]; [discriminate|].
    destruct (Z.ltb_spec f g).
    + exists [], ((g, d) :: fs). cbn. repeat split; auto. constructor; auto.
      eapply Forall_impl; [|exact H3]. cbn. intros. lia.
    + destruct IH as (l & r & -> & Hl & Hr); auto.
      exists ((g, d) :: l), r. cbn. repeat split; auto. constructor; auto. cbn. lia.
Qed.
Lemma flook_app_l f l r : allfst (fun g => f < g) r -> flook f (l ++ r) = flook f l.
Proof.
  intros Hr. induction l as [|[g c] l IH]; cbn.
  - induction Hr as [|[g c] r Hg Hr IH]; cbn in *; auto. replace (f =? g) with false by lia. auto.
  - now rewrite IH.
Qed.
Lemma flook_app_r f l r : allfst (fun g => g <> f) l -> flook f (l ++ r) = flook f r.
Proof.
  induction 1 as [|[g c] l Hg Hl IH]; cbn in *; auto. replace (f =? g) with false by lia. auto.
Qed.
Lemma allfst_impl (P Q : Z -> Prop) (l : list (Z * A)) : (forall z, P z -> Q z) -> allfst P l -> allfst Q l.
Proof. unfold allfst. intros H. apply Forall_impl. auto. Qed.

Lemma flook_mid f c l r : allfst (fun g => g < f) l -> flook f (l ++ (f, c) :: r) = Some c.
Proof.
  intros. rewrite flook_app_r; [cbn; now rewrite Z.eqb_refl|].
  eapply allfst_impl; [|eassumption]; cbn; intros; lia.
Qed.
Lemma flook_mid_none f l r :
  allfst (fun g => g < f) l -> allfst (fun g => f < g) r -> flook f (l ++ r) = None.
Proof.
  intros. rewrite flook_app_r; [|eapply allfst_impl; [|eassumption]; cbn; intros; lia].
  rewrite <- (app_nil_l r). rewrite flook_app_l; auto.
Qed.
Lemma flook_mid_other f g c c' l r :
  f <> g -> flook f (l ++ (g, c) :: r) = flook f (l ++ (g, c') :: r).
Proof.
  intros. induction l as [|[h d] l IH]; cbn; [replace (f =? g) with false by lia; auto|].
  now rewrite IH.
Qed.
Lemma flook_mid_del f g c l r : f <> g -> flook f (l ++ (g, c) :: r) = flook f (l ++ r).
Proof.
  intros. induction l as [|[h d] l IH]; cbn; [replace (f =? g) with false by lia; auto|].
  now rewrite IH.
Qed.

Lemma fput_mid f b c l r :
  allfst (fun g => g < f) l -> fput f b (l ++ (f, c) :: r) = l ++ (f, b) :: r.
Proof.
  induction 1 as [|[g d] l Hg Hl IH]; cbn in *.
  - rewrite Z.ltb_irrefl, Z.eqb_refl. reflexivity.
  - replace (f <? g) with false by lia. replace (f =? g) with false by lia. now rewrite IH.
Qed.
Lemma fput_new f b l r :
  allfst (fun g => g < f) l -> allfst (fun g => f < g) r -> fput f b (l ++ r) = l ++ (f, b) :: r.
Proof.
  intros Hl Hr. induction Hl as [|[g d] l Hg Hl IH]; cbn in *.
  - destruct r as [|[g d] r]; cbn; auto. inv Hr. cbn in *. replace (f <? g) with true by lia. auto.
  - replace (f <? g) with false by lia. replace (f =? g) with false by lia. now rewrite IH.
Qed.
Lemma fdel_mid f c l r : allfst (fun g => g < f) l -> fdel f (l ++ (f, c) :: r) = l ++ r.
Proof.
  induction 1 as [|[g d] l Hg Hl IH]; cbn in *.
  - now rewrite Z.eqb_refl.
  - replace (f =? g) with false by lia. now rewrite IH.
Qed.
Lemma fdel_none f fs : flook f fs = None -> fdel f fs = fs.
Proof.
  induction fs as [|[g c] fs IH]; cbn; auto. destruct (f =? g); [discriminate|].
  intros. now rewrite IH.
Qed.

Lemma fput_form f b fs :
  fsorted fs -> exists l r old,
    fs = l ++ old ++ r /\ fput f b fs = l ++ (f, b) :: r /\
    allfst (fun g => g < f) l /\ allfst (fun g => f < g) r /\
    (old = [] /\ flook f fs = None \/ exists c, old = [(f, c)] /\ flook f fs = Some c).
Proof.
  intros S. destruct (flook f fs) as [c|] eqn:E.
  - destruct (flook_split f fs c S E) as (l & r & -> & Hl & Hr).
    exists l, r, [(f, c)]. repeat split; auto. { now apply fput_mid. } right. eauto.
  - destruct (flook_none_split f fs S E) as (l & r & -> & Hl & Hr).
    exists l, r, []. repeat split; auto. now apply fput_new.
Qed.

Lemma flook_fput f g b fs :
  fsorted fs -> flook g (fput f b fs) = if g =? f then Some b else flook g fs.
Proof.
  intros S. destruct (fput_form f b fs S) as (l & r & old & Efs & E & Hl & Hr & Ho).
  rewrite E. destruct (Z.eqb_spec g f) as [->|N].
  - now apply flook_mid.
  - rewrite flook_mid_del by auto. rewrite Efs.
    destruct Ho as [[-> _]|(c & -> & _)]; auto. cbn. now rewrite flook_mid_del.
Qed.
Lemma flook_fdel f g fs :
  fsorted fs -> flook g (fdel f fs) = if g =? f then None else flook g fs.
Proof.
  intros S. destruct (flook f fs) as [c|] eqn:E.
  - destruct (flook_split f fs c S E) as (l & r & -> & Hl & Hr). rewrite fdel_mid by auto.
    destruct (Z.eqb_spec g f) as [->|N].
    + now apply flook_mid_none.
    + now rewrite flook_mid_del.
  - rewrite fdel_none by auto. destruct (Z.eqb_spec g f) as [->|]; auto.
Qed.
Lemma allfst_In P fs x : allfst P fs -> In x fs -> P (fst x).
Proof. unfold allfst. rewrite Forall_forall. auto. Qed.

Lemma fput_sorted f b fs : fsorted fs -> fsorted (fput f b fs).
Proof.
  intros S. destruct (fput_form f b fs S) as (l & r & old & Efs & E & Hl & Hr & Ho).
  rewrite E. subst fs. apply fsorted_app_inv in S. destruct S as (Sl & Sr & _).
  apply fsorted_app_inv in Sr. destruct Sr as (_ & Sr & _).
  apply fsorted_app; auto.
  - constructor; auto.
  - intros x y Hx [<-|Hy]; cbn.
    + now apply (allfst_In _ _ _ Hl).
    + pose proof (allfst_In _ _ _ Hl Hx). pose proof (allfst_In _ _ _ Hr Hy). cbn in *. lia.
Qed.
Lemma fdel_sorted f fs : fsorted fs -> fsorted (fdel f fs).
Proof.
  intros S. destruct (flook f fs) as [c|] eqn:E.
  - destruct (flook_split f fs c S E) as (l & r & -> & Hl & Hr). rewrite fdel_mid by auto.
    apply fsorted_app_inv in S. destruct S as (Sl & Sr & Slr). inv Sr.
    apply fsorted_app; auto. intros. apply Slr; cbn; auto.
  - now rewrite fdel_none.
Qed.

(** Two sorted lists with the same lookups are equal. *)
Lemma flook_In f c fs : flook f fs = Some c -> In (f, c) fs.
Proof.
  induction fs as [|[g d] fs IH]; cbn; [discriminate|].
  destruct (Z.eqb_spec f g) as [->|]; intros H; [inv H|]; auto.
Qed.
Lemma fsorted_ext (a b : list (Z * A)) :
  fsorted a -> fsorted b -> (forall f, flook f a = flook f b) -> a = b.
Proof.
  unfold fsorted. revert b. induction a as [|[f c] a IH]; intros [|[g d] b] Sa Sb H; auto.
  - specialize (H g). cbn in H. rewrite Z.eqb_refl in H. discriminate.
  - specialize (H f). cbn in H. rewrite Z.eqb_refl in H. discriminate.
  - inv Sa. inv Sb.
    assert (f = g).
    { pose proof (H f) as Hf. pose proof (H g) as Hg. cbn in Hf, Hg.
      rewrite Z.eqb_refl in Hf, Hg.
      destruct (Z.eqb_spec f g); auto. replace (g =? f) with false in Hg by lia.
      symmetry in Hf. apply flook_In in Hf. apply flook_In in Hg.
      rewrite Forall_forall in H3, H5. specialize (H3 _ Hg). specialize (H5 _ Hf).
      cbn in *. lia. }
    subst g. pose proof (H f) as Hf. cbn in Hf. rewrite Z.eqb_refl in Hf. inv Hf.
    f_equal. apply IH; auto. intros h. specialize (H h). cbn in H.
    destruct (Z.eqb_spec h f) as [Eh|]; [subst h; clear H|auto].
    destruct (flook f a) eqn:Ea, (flook f b) eqn:Eb; auto; exfalso.
    + apply flook_In in Ea. rewrite Forall_forall in H3. specialize (H3 _ Ea). cbn in *. lia.
    + apply flook_In in Ea. rewrite Forall_forall in H3. specialize (H3 _ Ea). cbn in *. lia.
    + apply flook_In in Eb. rewrite Forall_forall in H5. specialize (H5 _ Eb). cbn in *. lia.
Qed.

End Lemmas.

(** Mapping the values. *)
Section MapVal.
Context {A B : Type} (e : Z -> A -> B).
Definition fmap_val (fs : list (Z * A)) : list (Z * B) := map (fun p => (fst p, e (fst p) (snd p))) fs.
Lemma flook_map f fs : flook f (fmap_val fs) = option_map (e f) (flook f fs).
Proof.
  induction fs as [|[g c] fs IH]; cbn; auto.
  destruct (Z.eqb_spec f g); subst; auto.
Qed.
Lemma fput_map f c fs : fmap_val (fput f c fs) = fput f (e f c) (fmap_val fs).
Proof.
  induction fs as [|[g d] fs IH]; cbn; auto.
  destruct (f <? g); auto. destruct (Z.eqb_spec f g); subst; cbn; auto. f_equal. auto.
Qed.
Lemma fdel_map f fs : fmap_val (fdel f fs) = fdel f (fmap_val fs).
Proof.
  induction fs as [|[g d] fs IH]; cbn; auto.
  destruct (f =? g); cbn; auto. f_equal. auto.
Qed.
Lemma fsorted_map fs : fsorted fs -> fsorted (fmap_val fs).
Proof.
  induction 1 as [|p l Hs IH Hp]; cbn; constructor; auto.
  apply Forall_map. cbn. exact Hp.
Qed.
Lemma allfst_map P fs : allfst P fs -> allfst P (fmap_val fs).
Proof. unfold allfst. intros. apply Forall_map. cbn. auto. Qed.
End MapVal.
