(** What a list field shows and what Marshal would write for it; steps that touch other
    fields change neither. *)
From Coq Require Import List ZArith Lia.
From Verif.Proofs Require Export PatchListDiff.

Definition shows (h : hstruct) (m : msg) (f : Z) (t : lty) (v : value) : Prop :=
  match GetList f (h_lists h) with
  | Some i => exists o, nth_error (h_objs h) i = Some o /\ cval (lo_c o) v
  | None => v = match flook f m with Some w => as_read w | None => empty_list t end
  end.
Definition wr (h : hstruct) (m : msg) (f : Z) : option value := flook f (flush (h_objs h) (h_dirty h) m).

Lemma cval_ok c v : cval c v -> list_ok v.
Proof.
  destruct c; cbn; intros H; [subst; exact I| |].
  - destruct H as (l & -> & _ & HK & HF). cbn. auto.
  - destruct H as [-> HB]. exact HB.
Qed.
Lemma shown_shows sch n h m f t v : schema_ok n sch -> hinv sch n h m -> sch f = Some t ->
  shown h f t v <-> shows h m f t v.
Proof.
  intros HS HI Hf. destruct (h_list_ok sch n h m f t HS HI Hf) as (h' & i & o & E & HI' & HG & EO & HT & _ & _ & HX & HM).
  unfold shown, shows. destruct (hi_objs _ _ _ _ HI' _ _ EO) as (_ & w & HW).
  assert (Q : (exists h0 j, h_list h f t = Ok (h0, j) /\ h_read h0 j = Ok v) <-> w = v).
  { split.
    - intros (h0 & j & E1 & E2). rewrite E in E1. inv E1. unfold h_read in E2. rewrite EO, (read_cval _ _ HW) in E2. now inv E2.
    - intros <-. exists h', i. split; auto. unfold h_read. rewrite EO. now apply read_cval. }
  rewrite Q. destruct (GetList f (h_lists h)) as [j|].
  - destruct HM as [-> ->]. split.
    + intros <-. eauto.
    + intros (x & X1 & X2). assert (x = o) by congruence. subst. eapply cval_fun; eauto.
  - destruct HM as (_ & _ & _ & HM). destruct (flook f m); destruct HM as [_ HM].
    + split; [intros <-|intros ->]; eapply cval_fun; eauto.
    + split; [intros <-|intros ->]; eapply cval_fun; eauto.
Qed.
Lemma shows_ex sch n h m f t : schema_ok n sch -> hinv sch n h m -> sch f = Some t -> exists v, shows h m f t v.
Proof.
  intros HS HI Hf. unfold shows. destruct (GetList f (h_lists h)) as [i|] eqn:E; [|eauto].
  destruct (hi_lists _ _ _ _ HI _ _ E) as (o & EO & _). destruct (hi_objs _ _ _ _ HI _ _ EO) as (_ & v & HV). eauto.
Qed.
Lemma shows_fun h m f t v w : shows h m f t v -> shows h m f t w -> v = w.
Proof.
  unfold shows. destruct (GetList f (h_lists h)).
  - intros (o & E & H) (o' & E' & H'). assert (o' = o) by congruence. subst. eapply cval_fun; eauto.
  - congruence.
Qed.
Lemma shows_typed sch n h m f t v : schema_ok n sch -> hinv sch n h m -> sch f = Some t -> shows h m f t v ->
  list_ok v /\ lty_of v = Some t.
Proof.
  intros HS HI Hf HV. destruct (h_list_ok sch n h m f t HS HI Hf) as (h' & i & o & E & HI' & HG & EO & HT & _).
  pose proof (proj2 (shown_shows sch n h m f t v HS HI Hf) HV) as (h0 & j & E1 & E2). rewrite E in E1. inv E1.
  destruct (hi_objs _ _ _ _ HI' _ _ EO) as (_ & w & HW). unfold h_read in E2. rewrite EO, (read_cval _ _ HW) in E2. inv E2.
  split; [eapply cval_ok; eauto|eapply cval_type; eauto].
Qed.

(** ** Frames *)
Definition on (g : Z) (l : list (Z * nat)) : list (Z * nat) := filter (fun p => fst p =? g) l.
Record frame (P : Z -> Prop) (h : hstruct) (m : msg) (h' : hstruct) (m' : msg) : Prop := mkFrame {
  fr_lists : forall g, ~ P g -> GetList g (h_lists h') = GetList g (h_lists h);
  fr_msg : forall g, ~ P g -> flook g m' = flook g m;
  fr_dirty : forall g, ~ P g -> on g (h_dirty h') = on g (h_dirty h);
  fr_objs : forall i o, nth_error (h_objs h) i = Some o -> ~ P (lo_f o) -> nth_error (h_objs h') i = Some o }.
Lemma frame_refl P h m : frame P h m h m.
Proof. constructor; auto. Qed.
Lemma frame_trans (P Q R : Z -> Prop) h m h1 m1 h2 m2 :
  frame P h m h1 m1 -> frame Q h1 m1 h2 m2 -> (forall g, P g -> R g) -> (forall g, Q g -> R g) -> frame R h m h2 m2.
Proof.
  intros F G HP HQ. constructor.
  - intros g N. rewrite (fr_lists _ _ _ _ _ G), (fr_lists _ _ _ _ _ F); auto.
  - intros g N. rewrite (fr_msg _ _ _ _ _ G), (fr_msg _ _ _ _ _ F); auto.
  - intros g N. rewrite (fr_dirty _ _ _ _ _ G), (fr_dirty _ _ _ _ _ F); auto.
  - intros i o E N. apply (fr_objs _ _ _ _ _ G); auto. apply (fr_objs _ _ _ _ _ F); auto.
Qed.
Lemma frame_shows sch n P h m h' m' g u v :
  hinv sch n h m -> frame P h m h' m' -> ~ P g -> shows h m g u v -> shows h' m' g u v.
Proof.
  intros HI F N. unfold shows. rewrite (fr_lists _ _ _ _ _ F), (fr_msg _ _ _ _ _ F) by auto.
  destruct (GetList g (h_lists h)) as [i|] eqn:E; auto. intros (o & EO & HV). exists o. split; auto.
  apply (fr_objs _ _ _ _ _ F); auto. destruct (hi_lists _ _ _ _ HI _ _ E) as (x & X & <-). congruence.
Qed.

Lemma flush_same g l : forall objs objs' m m', fsorted m -> fsorted m' -> knows objs l ->
  (forall f i, In (f, i) l -> f = g) -> (forall i, In (g, i) l -> nth_error objs' i = nth_error objs i) ->
  flook g m' = flook g m -> flook g (flush objs' l m') = flook g (flush objs l m).
Proof.
  induction l as [|[f i] l IH]; intros objs objs' m m' S S' K HG HO HM; auto. cbn [flush].
  assert (f = g) by (eapply HG; now left). subst f. rewrite HO by now left.
  destruct (K g i) as (o & v & E1 & E2 & E3); [now left|]. rewrite E1, (read_cval _ _ E3).
  assert (K' : knows objs l) by (intros a b Hb; apply K; now right).
  assert (HO' : forall j, In (g, j) l -> nth_error objs' j = nth_error objs j) by (intros; apply HO; now right).
  assert (HG' : forall a j, In (a, j) l -> a = g) by (intros; eapply HG; right; eauto).
  destruct (is_dirty (lo_c o)); [|apply IH; auto].
  apply IH; auto using mset_sorted.
  - now apply knows_set.
  - intros j Hj. destruct (Nat.eq_dec j i) as [->|N].
    + assert (nth_error objs' i = Some o) by (rewrite HO; auto; now left).
      rewrite !nth_error_set_nth_eq by (apply nth_error_Some; congruence). reflexivity.
    + rewrite !nth_error_set_nth_neq by auto. auto.
  - rewrite E2, !flook_mset_eq by auto. reflexivity.
Qed.
Lemma flush_on g l : forall objs m, fsorted m -> knows objs l -> flook g (flush objs l m) = flook g (flush objs (on g l) m).
Proof.
  induction l as [|[f i] l IH]; intros objs m S K; auto. cbn [on filter fst].
  assert (K' : knows objs l) by (intros a b Hb; apply K; now right).
  destruct (K f i) as (o & v & E1 & E2 & E3); [now left|].
  destruct (Z.eqb_spec f g) as [->|N].
  - cbn [flush]. rewrite E1, (read_cval _ _ E3). destruct (is_dirty (lo_c o)); [|now apply IH].
    apply IH; auto using mset_sorted. now apply knows_set.
  - cbn [flush]. rewrite E1, (read_cval _ _ E3). destruct (is_dirty (lo_c o)); [|now apply IH].
    rewrite IH; auto using mset_sorted; [|now apply knows_set].
    apply flush_same; auto using mset_sorted.
    + intros a j Hj. apply filter_In in Hj. apply K', Hj.
    + intros a j Hj. apply filter_In in Hj. cbn in Hj. lia.
    + intros j Hj. apply filter_In in Hj. destruct Hj as [Hj _]. destruct (K' g j Hj) as (x & _ & X1 & X2 & _).
      apply nth_error_set_nth_neq. intros ->. congruence.
    + rewrite flook_mset_ne; auto. congruence.
Qed.
Lemma frame_wr sch n P h m h' m' g :
  hinv sch n h m -> hinv sch n h' m' -> frame P h m h' m' -> ~ P g -> wr h' m' g = wr h m g.
Proof.
  intros HI HI' F N. unfold wr. destruct (reached_sorted _ _ _ (hi_reached _ _ _ _ HI)) as (S & _).
  destruct (reached_sorted _ _ _ (hi_reached _ _ _ _ HI')) as (S' & _).
  pose proof (hinv_knows_all _ _ _ _ HI) as K. pose proof (hinv_knows_all _ _ _ _ HI') as K'.
  rewrite (flush_on g (h_dirty h')), (flush_on g (h_dirty h)), (fr_dirty _ _ _ _ _ F) by auto.
  apply flush_same; auto.
  - intros a j Hj. apply filter_In in Hj. apply K, Hj.
  - intros a j Hj. apply filter_In in Hj. cbn in Hj. lia.
  - intros j Hj. apply filter_In in Hj. destruct Hj as [Hj _]. destruct (K g j Hj) as (x & _ & X1 & X2 & _).
    rewrite X1. apply (fr_objs _ _ _ _ _ F); auto. congruence.
  - apply (fr_msg _ _ _ _ _ F); auto.
Qed.

(** ** No dirty object is registered for the field *)
Definition synced (h : hstruct) (f : Z) : Prop :=
  forall i o, In (f, i) (h_dirty h) -> nth_error (h_objs h) i = Some o -> is_dirty (lo_c o) = false.
Lemma in_on g i l : In (g, i) l <-> In (g, i) (on g l).
Proof. unfold on. rewrite filter_In. cbn. rewrite Z.eqb_refl. tauto. Qed.
Lemma frame_synced sch n P h m h' m' g :
  hinv sch n h m -> frame P h m h' m' -> ~ P g -> synced h g -> synced h' g.
Proof.
  intros HI F N HS i o Hi EO. apply in_on in Hi. rewrite (fr_dirty _ _ _ _ _ F) in Hi by auto. apply in_on in Hi.
  destruct (hi_dirty _ _ _ _ HI _ _ Hi) as (x & X1 & X2). assert (X : nth_error (h_objs h') i = Some x).
  { apply (fr_objs _ _ _ _ _ F); auto. congruence. }
  assert (x = o) by congruence. subst. eauto.
Qed.
Lemma synced_wr sch n h m f : hinv sch n h m -> synced h f -> wr h m f = flook f m.
Proof.
  intros HI HS. unfold wr. destruct (reached_sorted _ _ _ (hi_reached _ _ _ _ HI)) as (S & _).
  pose proof (hinv_knows_all _ _ _ _ HI) as K. rewrite (flush_on f) by auto.
  assert (G : forall i, In (f, i) (on f (h_dirty h)) -> forall o, nth_error (h_objs h) i = Some o -> is_dirty (lo_c o) = false).
  { intros i Hi o EO. apply in_on in Hi. eauto. }
  assert (A : forall a i, In (a, i) (on f (h_dirty h)) -> a = f) by (intros a i Hi; apply filter_In in Hi; cbn in Hi; lia).
  revert G A. generalize (on f (h_dirty h)). intros l. induction l as [|[a i] l IH]; intros G A; auto. cbn [flush].
  destruct (nth_error (h_objs h) i) as [o|] eqn:EO.
  - assert (a = f) by (apply (A a i); now left). subst a.
    rewrite (G i (or_introl eq_refl) o EO). apply IH; [intros j Hj; apply G; now right|intros b j Hj; apply (A b j); now right].
  - apply IH; [intros j Hj; apply G; now right|intros b j Hj; apply (A b j); now right].
Qed.

(** ** The cached object is registered last, and dirty *)
Definition reg (h : hstruct) (f : Z) : Prop :=
  exists i d1 d2, GetList f (h_lists h) = Some i /\ on f (h_dirty h) = d1 ++ d2 /\ In (f, i) d2 /\
    (forall j, In (f, j) d2 -> j = i) /\ ~ In (f, i) d1.
Definition live (h : hstruct) (f : Z) : Prop :=
  reg h f /\ forall i o, GetList f (h_lists h) = Some i -> nth_error (h_objs h) i = Some o -> is_dirty (lo_c o) = true.
Lemma flush_app a : forall b objs m, exists objs' m', flush objs (a ++ b) m = flush objs' b m' /\
  (knows objs (a ++ b) -> knows objs' b) /\ (fsorted m -> fsorted m') /\
  (forall i, (forall g, ~ In (g, i) a) -> nth_error objs' i = nth_error objs i).
Proof.
  induction a as [|[f i] a IH]; intros b objs m; [exists objs, m; auto|]. cbn [app flush].
  assert (D : forall objs1 m1, (knows objs ((f, i) :: a ++ b) -> knows objs1 (a ++ b)) -> (fsorted m -> fsorted m1) ->
     (forall j, (forall g, ~ In (g, j) ((f, i) :: a)) -> nth_error objs1 j = nth_error objs j) ->
     exists objs' m', flush objs1 (a ++ b) m1 = flush objs' b m' /\ (knows objs ((f, i) :: a ++ b) -> knows objs' b) /\
       (fsorted m -> fsorted m') /\ (forall j, (forall g, ~ In (g, j) ((f, i) :: a)) -> nth_error objs' j = nth_error objs j)).
  { intros objs1 m1 HK HS HN. destruct (IH b objs1 m1) as (o' & m' & E1 & E2 & E3 & E4). exists o', m'. repeat split; auto.
    intros j Hj. rewrite E4, HN; auto. intros g X. apply (Hj g). now right. }
  assert (K0 : knows objs ((f, i) :: a ++ b) -> knows objs (a ++ b)) by (intros K x y Hy; apply K; now right).
  destruct (nth_error objs i) as [o|] eqn:EO; [|apply D; auto].
  destruct (is_dirty (lo_c o)), (read_content (lo_c o)); try (apply D; auto; fail).
  apply D; auto using mset_sorted.
  - intros K. apply knows_set; auto.
  - intros j Hj. apply nth_error_set_nth_neq. intros ->. apply (Hj f). now left.
Qed.
Lemma live_wr sch n h m f t v : hinv sch n h m -> live h f -> shows h m f t v -> wr h m f = written v.
Proof.
  intros HI [(i & d1 & d2 & EG & ED & IN & N2 & N1) HD] HV. unfold shows in HV. rewrite EG in HV. destruct HV as (o & EO & HV).
  specialize (HD i o EG EO). unfold wr. pose proof (hinv_knows_all _ _ _ _ HI) as K.
  destruct (reached_sorted _ _ _ (hi_reached _ _ _ _ HI)) as (S & _).
  assert (K1 : knows (h_objs h) (on f (h_dirty h))) by (intros a j Hj; apply filter_In in Hj; apply K, Hj).
  rewrite flush_on, ED by auto. rewrite ED in K1.
  destruct (flush_app d1 d2 (h_objs h) m) as (objs & m1 & E1 & E2 & E3 & E4). rewrite E1.
  rewrite (flush_field d2 objs m1 f i o v); auto.
  - now rewrite HD.
  - rewrite E4; auto. intros g X. assert (Y : In (g, i) (on f (h_dirty h))) by (rewrite ED; apply in_or_app; now left).
    apply filter_In in Y. cbn in Y. assert (g = f) by lia. subst. auto.
Qed.
Lemma waiting_live h f : single h -> waiting h f -> live h f.
Proof.
  intros HU (i & o & EG & HIn & EO & HD). split.
  - exists i, [], (on f (h_dirty h)). split; auto. split; auto. split; [now apply in_on in HIn|]. split; auto.
    intros j Hj. apply in_on in Hj. apply HU in Hj. congruence.
  - intros j x EG' EX. congruence.
Qed.
Lemma frame_live sch n P h m h' m' f : hinv sch n h m -> frame P h m h' m' -> ~ P f -> live h f -> live h' f.
Proof.
  intros HI F N [(i & d1 & d2 & EG & ED & IN & N2 & N1) HD]. split.
  - exists i, d1, d2. rewrite (fr_lists _ _ _ _ _ F), (fr_dirty _ _ _ _ _ F) by auto. auto.
  - intros j x. rewrite (fr_lists _ _ _ _ _ F) by auto. intros EG' EX. destruct (hi_lists _ _ _ _ HI _ _ EG') as (y & Y1 & Y2).
    assert (X : nth_error (h_objs h') j = Some y) by (apply (fr_objs _ _ _ _ _ F); auto; congruence).
    assert (y = x) by congruence. subst. eauto.
Qed.

(** ** What the segment holds of a field *)
Definition rd (t : lty) (o : option value) : value := match o with Some w => as_read w | None => empty_list t end.
Lemma rd_written t v : lty_of v = Some t -> rd t (written v) = received v.
Proof.
  intros H. unfold written, received. destruct (list_empty v) eqn:E; auto.
  destruct v; try discriminate; inv H; destruct l; try discriminate; reflexivity.
Qed.
Definition no_blobs (t : lty) : Prop := match t with LBlobs _ => False | _ => True end.
Lemma received_id v t : lty_of v = Some t -> no_blobs t -> received v = v.
Proof. intros H N. unfold received. destruct v; try discriminate; inv H; try contradiction; cbn; destruct l; reflexivity. Qed.

(** A cached list without edits is what the segment holds. *)
Definition clean_ok (sch : schema) (h : hstruct) (m : msg) : Prop :=
  forall f t i o v, sch f = Some t -> no_blobs t -> GetList f (h_lists h) = Some i -> nth_error (h_objs h) i = Some o ->
    is_dirty (lo_c o) = false -> cval (lo_c o) v -> rd t (flook f m) = v.
Lemma sync_all_obj i l : forall h h' o, sync_all h l = Ok h' -> nth_error (h_objs h) i = Some o ->
  nth_error (h_objs h') i = Some o \/
  ((exists f, In (f, i) l) /\ nth_error (h_objs h') i = Some (mkL (lo_f o) (clean (lo_c o)))).
Proof.
  induction l as [|[g j] l IH]; intros h h' o E EO; cbn [sync_all] in E; [inv E; auto|].
  apply bind_Ok_inv in E. destruct E as (h1 & E1 & E). cbn [snd] in E1. unfold SyncToSegment in E1.
  destruct (nth_error (h_objs h) j) as [x|] eqn:EX; [|discriminate].
  destruct (is_dirty (lo_c x)) eqn:ED.
  - apply bind_Ok_inv in E1. destruct E1 as (s & _ & E1). inv E1. destruct (Nat.eq_dec j i) as [->|N].
    + assert (x = o) by congruence. subst x.
      assert (EO1 : nth_error (set_nth i (mkL (lo_f o) (clean (lo_c o))) (h_objs h)) i = Some (mkL (lo_f o) (clean (lo_c o))))
        by (apply nth_error_set_nth_eq; apply nth_error_Some; congruence).
      destruct (IH _ _ _ E EO1) as [H|[_ H]].
      * right. split; [exists g; now left|]. exact H.
      * right. split; [exists g; now left|]. cbn [lo_f lo_c] in H. rewrite H. f_equal. f_equal. destruct (lo_c o); reflexivity.
    + destruct (IH _ _ o E) as [H|[[f H] H']]; auto.
      * cbn [h_objs]. rewrite nth_error_set_nth_neq; auto.
      * right. split; auto. exists f. now right.
  - inv E1. destruct (IH _ _ o E EO) as [H|[[f H] H']]; auto. right. split; auto. exists f. now right.
Qed.
Lemma clean_sync sch n h m p h1 : schema_ok n sch -> hinv sch n h m -> single h -> room h ->
  sync_all h (filter p (h_dirty h)) = Ok h1 -> clean_ok sch h m ->
  clean_ok sch h1 (flush (h_objs h) (filter p (h_dirty h)) m).
Proof.
  intros HS HI HU HR E HC f t i o v Hf HN EG EO HD HV.
  destruct (sync_inv _ _ _ _ _ _ HS HI HR E) as (_ & EL & _). rewrite EL in EG.
  destruct (reached_sorted _ _ _ (hi_reached _ _ _ _ HI)) as (S & _).
  destruct (hi_lists _ _ _ _ HI _ _ EG) as (x & EX & EF). destruct (hi_objs _ _ _ _ HI _ _ EX) as (_ & w & HW).
  assert (VW : w = v).
  { destruct (sync_all_obj i _ _ _ x E EX) as [H|[_ H]]; rewrite H in EO; inv EO; [eapply cval_fun; eauto|].
    apply cval_clean in HW. exact (cval_fun _ _ _ HW HV). }
  subst w. pose proof (hinv_knows _ _ _ _ p HI) as K.
  destruct (in_dec prod_eq_dec' (f, i) (filter p (h_dirty h))) as [IN|NI].
  - rewrite (flush_field _ _ _ f i x v); auto.
    + destruct (is_dirty (lo_c x)) eqn:EDX; [|eapply HC; eauto].
      assert (T : lty_of v = Some t).
      { rewrite (cval_type _ _ HW). destruct (hi_objs _ _ _ _ HI _ _ EX) as (Y & _). congruence. }
      rewrite (rd_written t) by auto. eapply received_id; eauto.
    + intros j Hj. apply filter_In in Hj. destruct Hj as [Hj _]. apply HU in Hj. congruence.
  - rewrite flush_other; auto.
    + destruct (sync_all_obj i _ _ _ x E EX) as [H|[[g H] _]].
      * assert (x = o) by congruence. subst. eapply HC; eauto.
      * exfalso. apply NI. apply filter_In in H as H'. destruct (hi_dirty _ _ _ _ HI _ _ (proj1 H')) as (y & Y1 & Y2).
        assert (y = x) by congruence. subst y. rewrite <- EF, Y2. exact H.
    + intros j Hj. pose proof Hj as Hj'. apply filter_In in Hj. destruct Hj as [Hj _]. apply HU in Hj. congruence.
Qed.
Lemma clean_call sch n h m c h' m' :
  schema_ok n sch -> hinv sch n h m -> single h -> hcall sch n h m c h' m' -> clean_ok sch h m -> clean_ok sch h' m'.
Proof.
  intros HS HI HU HC HK. destruct (reached_sorted _ _ _ (hi_reached _ _ _ _ HI)) as (S & _). destruct HC.
  - intros f t i o' v Hf HN EG EO HD HV. rewrite (plain_field sch m o f t) by auto. eapply HK; eauto.
  - destruct (h_list_ok sch n h m f t HS HI H) as (h1 & j & x & E & HI' & GL & EX & HT & _ & HO & HX & HM).
    rewrite H0 in E. inv E. intros g u q o' v Hg HN EG EO HD HV. destruct (Z.eq_dec g f) as [->|NG].
    + rewrite GL in EG. inv EG. assert (o' = x) by congruence. subst o'. rewrite H in Hg. inv Hg.
      destruct (GetList f (h_lists h)) as [j0|] eqn:EJ.
      * destruct HM as [-> ->]. eapply HK; eauto.
      * destruct HM as (_ & _ & _ & HM). unfold rd. destruct (flook f m); destruct HM as [_ HM]; eapply cval_fun; eauto.
    + rewrite HO in EG by auto. destruct (hi_lists _ _ _ _ HI _ _ EG) as (y & Y1 & _). pose proof (HX _ _ Y1).
      assert (y = o') by congruence. subst. eapply HK; eauto.
  - destruct (hi_objs _ _ _ _ HI _ _ H) as (_ & w & HW). pose proof (h_edit_ok sch n h m i o w e HI H HW H0) as E.
    destruct (edited w e) as [w'|]; [|congruence]. destruct E as (h1 & c & E & _ & _ & HDc & _ & EOB & EL & _).
    rewrite H1 in E. inv E. intros g u q o' v Hg HN EG EO HD HV. rewrite EL in EG. rewrite EOB in EO.
    destruct (Nat.eq_dec q i) as [->|N].
    + rewrite nth_error_set_nth_eq in EO by (apply nth_error_Some; congruence). inv EO. cbn in HD. congruence.
    + rewrite nth_error_set_nth_neq in EO by auto. eapply HK; eauto.
  - unfold h_Clear in H0. apply bind_Ok_inv in H0. destruct H0 as (s1 & E1 & H0). inv H0.
    intros g u q o' v Hg HN EG EO HD HV. cbn [h_lists h_objs] in *. rewrite GetList_clear in EG.
    destruct (Z.eqb_spec g f); [discriminate|]. rewrite flook_fdel by auto. replace (g =? f) with false by lia. eapply HK; eauto.
  - unfold SyncDirtyListsForField in H0. apply bind_Ok_inv in H0. destruct H0 as (h1 & E1 & H0). inv H0.
    exact (clean_sync _ _ _ _ _ _ HS HI HU H E1 HK).
  - unfold h_Marshal, syncDirtyLists in H0. apply bind_Ok_inv in H0. destruct H0 as (h1 & E1 & H0).
    apply bind_Ok_inv in E1. destruct E1 as (h2 & E1 & E2). inv E2. apply bind_Ok_inv in H0.
    destruct H0 as ([s b'] & _ & H0). inv H0.
    rewrite <- (filter_all (h_dirty h)) in E1. pose proof (clean_sync _ _ _ _ _ _ HS HI HU H E1 HK) as G.
    rewrite filter_all in G. exact G.
Qed.
Lemma clean_calls sch n h m cs h' m' :
  schema_ok n sch -> hcalls sch n h m cs h' m' -> hinv sch n h m -> single h -> clean_ok sch h m -> clean_ok sch h' m'.
Proof.
  intros HS HC. induction HC; auto. intros HI HU HK. apply IHHC; [eapply hinv_call|eapply single_call|eapply clean_call]; eauto.
Qed.
Lemma hreached_clean sch n h m : schema_ok n sch -> hreached sch n h m -> clean_ok sch h m.
Proof.
  intros HS (s & m0 & cs & HR & HT & HC). eapply clean_calls; eauto; [| |intros f t i o v _ _ EG; discriminate EG].
  - apply hreached_inv; auto. exists s, m0, []. repeat split; auto. constructor.
  - intros f i [].
Qed.
