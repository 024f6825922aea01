(** What Diff writes, in terms of the two messages. *)
From Verif.Proofs Require Export PatchCodec.

(** ** Struct types *)
Fixpoint fdesc_rect' (P : fdesc -> Prop) (HS : forall k, P (DScalar k)) (HB : forall s, P (DBytes s))
  (HD : forall l, Forall (fun x => match x with Some d => P d | None => True end) l -> P (DStruct l))
  (HO : P DOther) (d : fdesc) : P d :=
  match d with
  | DScalar k => HS k
  | DBytes s => HB s
  | DStruct l => HD l ((fix go (l : list (option fdesc)) : Forall (fun x => match x with Some d => P d | None => True end) l :=
      match l with
      | [] => Forall_nil _
      | Some d :: r => Forall_cons (Some d) (fdesc_rect' P HS HB HD HO d) (go r)
      | None :: r => Forall_cons None I (go r)
      end) l)
  | DOther => HO
  end.

Lemma each_cons P i d l : each P i (Some d :: l) <-> P d i /\ each P (i + 1) l.
Proof. reflexivity. Qed.
Lemma each_impl (P Q : fdesc -> Z -> Prop) i l :
  (forall d j, In (Some d) l -> i <= j < i + len l -> P d j -> Q d j) -> each P i l -> each Q i l.
Proof.
  revert i. induction l as [|[d|] r IH]; intros i H; cbn [each]; auto.
  - intros [A B]. rewrite len_cons in H. pose proof (len_nonneg r). split.
    + apply H; auto; [now left|lia].
    + apply IH; auto. intros. apply H; auto; [now right|lia].
  - rewrite len_cons in H. intros B. apply IH; auto. intros. apply H; auto; [now right|lia].
Qed.

(** ** The operations *)
Fixpoint mdiff_field (f : Z) (d : fdesc) (o o' : option value) {struct d} : list rop :=
  match d with
  | DScalar k => if num_equal k (num_in o) (num_in o') then []
                 else [mkRop f OpSet NoListIndex (num_data k (num_in o'))]
  | DBytes _ => if bytes_equal (bytes_in o) (bytes_in o') then []
                else if (len (bytes_in o') =? 0) && (0 <? len (bytes_in o)) then [mkRop f OpClear NoListIndex []]
                else [mkRop f OpSet NoListIndex (bytes_in o')]
  | DStruct l =>
      match o, o' with
      | Some (VStruct _), None => [mkRop f OpClear NoListIndex []]
      | None, Some (VStruct c') => [mkRop f OpSet NoListIndex (wire_struct f c')]
      | Some (VStruct c), Some (VStruct c') =>
          match (fix go (i : Z) (l : list (option fdesc)) : list rop :=
                   match l with
                   | [] => []
                   | None :: r => go (i + 1) r
                   | Some d :: r => mdiff_field i d (flook i c) (flook i c') ++ go (i + 1) r
                   end) 0 l with
          | [] => []
          | ops => [mkRop f OpStructPatch NoListIndex (wire (patch_msg ops))]
          end
      | _, _ => []
      end
  | DOther => []
  end.
Fixpoint mdiff (i : Z) (l : mapping) (m m' : msg) : list rop :=
  match l with
  | [] => []
  | None :: r => mdiff (i + 1) r m m'
  | Some d :: r => mdiff_field i d (flook i m) (flook i m') ++ mdiff (i + 1) r m m'
  end.
Definition struct_ops (f : Z) (ops : list rop) : list rop :=
  match ops with [] => [] | _ => [mkRop f OpStructPatch NoListIndex (wire (patch_msg ops))] end.
Lemma mdiff_struct f l c c' :
  mdiff_field f (DStruct l) (Some (VStruct c)) (Some (VStruct c')) = struct_ops f (mdiff 0 l c c').
Proof.
  cbn [mdiff_field]. unfold struct_ops.
  assert (E : forall l i, (fix go (i : Z) (l : list (option fdesc)) : list rop :=
                   match l with
                   | [] => []
                   | None :: r => go (i + 1) r
                   | Some d :: r => mdiff_field i d (flook i c) (flook i c') ++ go (i + 1) r
                   end) i l = mdiff i l c c').
  { clear l. induction l as [|[d|] r IH]; intros i; cbn [mdiff]; auto. now rewrite IH. }
  rewrite E. now destruct (mdiff 0 l c c').
Qed.

(** ** Their validity and size *)
Definition vsize (f : Z) (o : option value) : Z := match o with Some v => len (wire_value f v) | None => 0 end.
Definition valid_opt (o : option value) : Prop := match o with Some v => valid_value v | None => True end.
Lemma vsize_nonneg f o : 0 <= vsize f o.
Proof. destruct o; cbn; [apply len_nonneg|lia]. Qed.
Lemma valid_flook f m : valid_msg m -> valid_opt (flook f m).
Proof.
  intros [_ V]. destruct (flook f m) as [v|] eqn:E; cbn; auto. apply flook_In in E.
  rewrite Forall_forall in V. now apply V in E.
Qed.
Fixpoint vsizes (i : Z) (l : mapping) (m : msg) : Z :=
  match l with
  | [] => 0
  | None :: r => vsizes (i + 1) r m
  | Some _ :: r => vsize i (flook i m) + vsizes (i + 1) r m
  end.
Lemma vsize_del f m : fsorted m -> vsize f (flook f m) + len (wire_msg (fdel f m)) = len (wire_msg m).
Proof.
  intros S. destruct (flook f m) as [v|] eqn:E.
  - destruct (flook_split f m v S E) as (l & r & -> & Hl & _). rewrite fdel_mid by auto. cbn [vsize].
    unfold wire_msg. rewrite !map_app, !concat_app, !len_app. cbn [map concat fst snd]. rewrite len_app. lia.
  - rewrite fdel_none by auto. reflexivity.
Qed.
Lemma vsizes_ext i l m m' : (forall j, i <= j -> flook j m = flook j m') -> vsizes i l m = vsizes i l m'.
Proof.
  revert i. induction l as [|[d|] r IH]; intros i H; cbn [vsizes]; auto.
  - rewrite H by lia. f_equal. apply IH. intros. apply H. lia.
  - apply IH. intros. apply H. lia.
Qed.
Lemma vsizes_le i l m : fsorted m -> vsizes i l m <= len (wire_msg m).
Proof.
  revert i m. induction l as [|x r IH]; intros i m S; cbn [vsizes]; [apply len_nonneg|].
  destruct x as [d|]; [|auto]. rewrite <- (vsize_del i m S).
  pose proof (IH (i + 1) (fdel i m) (fdel_sorted _ _ S)).
  rewrite (vsizes_ext _ _ m (fdel i m)); [lia|].
  intros j Hj. rewrite flook_fdel by auto. now replace (j =? i) with false by lia.
Qed.
Lemma vsizes_nonneg i l m : 0 <= vsizes i l m.
Proof.
  revert i. induction l as [|[d|] r IH]; intros i; cbn [vsizes]; [lia| |auto].
  pose proof (vsize_nonneg i (flook i m)). pose proof (IH (i + 1)). lia.
Qed.
Lemma overhead_pos d : 0 <= overhead d.
Proof.
  induction d using fdesc_rect'; cbn [overhead]; try lia.
  assert (0 <= fold_right (fun x n => match x with Some d => overhead d + n | None => n end) 0 l); [|lia].
  induction H as [|[d|] r Hd Hr IH]; cbn [fold_right]; lia.
Qed.
Lemma overhead_struct l : overhead (DStruct l) = 96 + overheads l.
Proof. reflexivity. Qed.
Lemma overheads_nonneg l : 0 <= overheads l.
Proof.
  unfold overheads. induction l as [|[d|] r IH]; cbn [fold_right]; [lia| |exact IH].
  pose proof (overhead_pos d). lia.
Qed.

Lemma byte_list_le n v : byte_list (le_enc n v).
Proof. apply le_enc_bytes. Qed.
Lemma num_data_bytes k v : byte_list (num_data k v).
Proof. destruct k; cbn [num_data]; try apply byte_list_le. constructor; [destruct (v =? 0); lia|constructor]. Qed.
Lemma num_data_len k v : len (num_data k v) = kind_width k.
Proof. destruct k; cbn [num_data kind_width]; rewrite ?len_le_enc; reflexivity. Qed.

Lemma op_size_padded f t i d : op_size (mkRop f t i d) <= 48 + len d + 7.
Proof. unfold op_size. cbn [r_data]. pose proof (len_padded_le d). lia. Qed.
Lemma kind_width_le k : 1 <= kind_width k <= 8.
Proof. destruct k; cbn; lia. Qed.
Lemma mk_valid f t d : 0 <= f < 2 ^ 16 -> 0 <= t < 2 ^ 8 -> byte_list d -> valid_rop (mkRop f t NoListIndex d).
Proof.
  intros. split; [auto|]. split; [auto|]. split; [|auto]. cbn. unfold NoListIndex. lia.
Qed.

Definition bounded_field (d : fdesc) : Prop := forall f o o',
  0 <= f < 2 ^ 16 -> numbered_ok d -> typed_field d o' -> valid_opt o' ->
  overhead d + vsize f o' < 2 ^ 32 - 64 ->
  Forall valid_rop (mdiff_field f d o o') /\ ops_size (mdiff_field f d o o') <= overhead d + vsize f o'.
Lemma bounded_fields l : Forall (fun x => match x with Some d => bounded_field d | None => True end) l ->
  forall i m m', 0 <= i -> i + len l <= 2 ^ 16 -> each (fun d _ => numbered_ok d) i l ->
  each (fun d j => typed_field d (flook j m')) i l -> valid_msg m' ->
  overheads l + vsizes i l m' < 2 ^ 32 - 64 ->
  Forall valid_rop (mdiff i l m m') /\ ops_size (mdiff i l m m') <= overheads l + vsizes i l m'.
Proof.
  induction 1 as [|x r Hx Hr IH]; intros i m m' Hi Hl HN HT V HB; cbn [mdiff vsizes].
  - split; [constructor|cbn; lia].
  - rewrite len_cons in Hl. pose proof (len_nonneg r).
    destruct x as [d|].
    + destruct HN as [HN1 HN2]. destruct HT as [HT1 HT2]. cbn [vsizes] in HB.
      change (overheads (Some d :: r)) with (overhead d + overheads r) in *.
      pose proof (overheads_nonneg r). pose proof (overhead_pos d).
      pose proof (vsize_nonneg i (flook i m')). pose proof (vsizes_nonneg (i + 1) r m').
      destruct (Hx i (flook i m) (flook i m')) as [A B]; auto; [lia|apply valid_flook; auto|lia|].
      destruct (IH (i + 1) m m') as [A' B']; auto; [lia|lia|lia|].
      split; [now apply Forall_app|]. rewrite ops_size_app. lia.
    + change (overheads (None :: r)) with (overheads r) in *. apply (IH (i + 1)); auto; lia.
Qed.
Lemma struct_ops_size f ops : Forall valid_rop ops -> ops_size ops < 2 ^ 32 - 64 ->
  ops_size (struct_ops f ops) <= 79 + ops_size ops.
Proof.
  intros V HL. pose proof (ops_size_nonneg ops). unfold struct_ops. destruct ops as [|o r] eqn:E; [cbn; lia|].
  rewrite <- E in *. destruct (patch_run ops V HL) as [_ L].
  match goal with |- ops_size [?x] <= _ => change (ops_size [x]) with (op_size x + 0) end.
  pose proof (op_size_padded f OpStructPatch NoListIndex (wire (patch_msg ops))) as P.
  unfold wire in P. rewrite len_wire_struct in P. unfold wire. lia.
Qed.
Lemma all_bounded d : bounded_field d.
Proof.
  induction d using fdesc_rect'; intros f o o' Hf HN HT HV HB; cbn [typed_field] in HT.
  - cbn [mdiff_field]. destruct (num_equal _ _ _).
    + split; [constructor|]. cbn [ops_size fold_right]. pose proof (vsize_nonneg f o'). cbn [overhead]. lia.
    + split; [constructor; [|constructor]; apply mk_valid; [exact Hf|unfold OpSet, OpClear, OpStructPatch; lia|apply num_data_bytes]|].
      match goal with |- ops_size [?x] <= _ => change (ops_size [x]) with (op_size x + 0) end.
      unfold op_size. cbn [r_data overhead]. pose proof (num_data_len k (num_in o')) as L. pose proof (kind_width_le k).
      assert (len (padded (num_data k (num_in o'))) <= 15) by (pose proof (len_padded_le (num_data k (num_in o'))); lia).
      pose proof (vsize_nonneg f o'). lia.
  - cbn [mdiff_field]. pose proof (vsize_nonneg f o'). destruct (bytes_equal _ _).
    { split; [constructor|]. cbn [ops_size fold_right overhead]. lia. }
    destruct (_ && _).
    { split; [constructor; [|constructor]; apply mk_valid; [exact Hf|unfold OpSet, OpClear, OpStructPatch; lia|constructor]|].
      change (48 + 0 <= 64 + vsize f o'). lia. }
    split.
    + constructor; [|constructor]. apply mk_valid; [exact Hf|unfold OpSet, OpClear, OpStructPatch; lia|].
      destruct o' as [[]|]; cbn [bytes_in]; try constructor. exact HV.
    + match goal with |- ops_size [?x] <= _ => change (ops_size [x]) with (op_size x + 0) end.
      unfold op_size. cbn [r_data overhead].
      destruct o' as [[]|]; cbn [bytes_in vsize] in *; try contradiction.
      * rewrite len_wire_blob. lia.
      * cbn. lia.
  - rewrite overhead_struct in *. pose proof (overheads_nonneg l). pose proof (vsize_nonneg f o').
    assert (Nil : forall x, 0 <= x -> Forall valid_rop [] /\ ops_size [] <= x) by (intros; split; [constructor|auto]).
    destruct o' as [[]|]; try contradiction.
    + destruct HT as [HT1 HT2]. destruct o as [[]|]; try (apply Nil; lia).
      * cbn [vsize] in *. rewrite wire_VStruct, len_wire_struct in *. apply (valid_VStruct m) in HV.
        rewrite mdiff_struct. destruct HN as [HN1 HN2].
        pose proof (vsizes_le 0 l m (proj1 HV)).
        destruct (bounded_fields l H 0 m0 m) as [A B]; auto; try lia.
        pose proof (struct_ops_size f (mdiff 0 l m0 m) A ltac:(lia)) as C. split; [|lia].
        unfold struct_ops. destruct (mdiff 0 l m0 m) as [|o r] eqn:E; [constructor|]. rewrite <- E in *.
        constructor; [|constructor]. apply mk_valid; [exact Hf|unfold OpSet, OpClear, OpStructPatch; lia|].
        destruct (patch_written (mdiff 0 l m0 m) A ltac:(lia)) as (_ & V & _). now apply wire_struct_bytes.
      * cbn [mdiff_field vsize] in *. rewrite wire_VStruct, len_wire_struct in *. apply (valid_VStruct m) in HV. split.
        -- constructor; [|constructor]. apply mk_valid; [exact Hf|unfold OpSet, OpClear, OpStructPatch; lia|]. now apply wire_struct_bytes.
        -- match goal with |- ops_size [?x] <= _ => change (ops_size [x]) with (op_size x + 0) end.
           pose proof (op_size_padded f OpSet NoListIndex (wire_struct f m)) as P. rewrite len_wire_struct in P. lia.
    + destruct o as [[]|]; cbn [mdiff_field]; try (apply Nil; lia).
      split; [constructor; [|constructor]; apply mk_valid; [exact Hf|unfold OpSet, OpClear, OpStructPatch; lia|constructor]|].
      match goal with |- ops_size [?x] <= _ => change (ops_size [x]) with (op_size x + 0) end.
      change (op_size _) with 48. lia.
  - contradiction.
Qed.
Lemma mdiff_bounded l i m m' :
  0 <= i -> i + len l <= 2 ^ 16 -> each (fun d _ => numbered_ok d) i l ->
  each (fun d j => typed_field d (flook j m')) i l -> valid_msg m' ->
  overheads l + vsizes i l m' < 2 ^ 32 - 64 ->
  Forall valid_rop (mdiff i l m m') /\ ops_size (mdiff i l m m') <= overheads l + vsizes i l m'.
Proof.
  apply bounded_fields. apply Forall_forall. intros [d|] _; [apply all_bounded|exact I].
Qed.

(** ** Diff computes them *)
Lemma GetNested_flags s f n c : GetNestedStruct s f n = Ok (Some c) -> st_isSetOn c = false.
Proof.
  unfold GetNestedStruct. intros H. apply bind_Ok_inv in H. destruct H as ([o z] & _ & H).
  destruct (z =? 0); [discriminate|]. apply bind_Ok_inv in H. destruct H as (d & _ & H).
  apply bind_Ok_inv in H. destruct H as (i & _ & H). injection H as <-. reflexivity.
Qed.
Lemma seen_lt n m f : 0 <= f < Z.of_nat n -> seen n m f = flook f m.
Proof. intros H. unfold seen. now replace (_ && _) with true by lia. Qed.

Definition diffs (d : fdesc) : Prop := forall f from to n g g' m m',
  Sim from n (hdr3 g) m [] -> Sim to n (hdr3 g') m' [] -> 0 <= f < Z.of_nat n -> f < 2 ^ 16 ->
  numbered_ok d -> typed_field d (flook f m) -> typed_field d (flook f m') ->
  overhead d + vsize f (flook f m') < 2 ^ 32 - 64 ->
  diff_field from to f d = Ok (mdiff_field f d (flook f m) (flook f m')).
Lemma diffs_fields l : Forall (fun x => match x with Some d => diffs d | None => True end) l ->
  forall i from to n g g' m m', 0 <= i -> i + len l <= 2 ^ 16 -> i + len l <= Z.of_nat n ->
  Sim from n (hdr3 g) m [] -> Sim to n (hdr3 g') m' [] ->
  each (fun d _ => numbered_ok d) i l -> each (fun d j => typed_field d (flook j m)) i l ->
  each (fun d j => typed_field d (flook j m')) i l -> overheads l + vsizes i l m' < 2 ^ 32 - 64 ->
  diff_fields from to i l = Ok (mdiff i l m m').
Proof.
  induction 1 as [|x r Hx Hr IH]; intros i from to n g g' m m' Hi Hl Hn S S' HN HT HT' HB; cbn [diff_fields mdiff]; auto.
  rewrite len_cons in *. pose proof (len_nonneg r). destruct x as [d|].
  - destruct HN as [HN1 HN2]. destruct HT as [HT1 HT2]. destruct HT' as [HT1' HT2']. cbn [vsizes] in HB.
    change (overheads (Some d :: r)) with (overhead d + overheads r) in *.
    pose proof (overheads_nonneg r). pose proof (overhead_pos d).
    pose proof (vsize_nonneg i (flook i m')). pose proof (vsizes_nonneg (i + 1) r m').
    rewrite (Hx i from to n g g' m m') by (auto; lia). rewrite bind_Ok.
    rewrite (IH (i + 1) from to n g g' m m') by (auto; lia). reflexivity.
  - apply (IH (i + 1) from to n g g' m m'); auto; lia.
Qed.
Lemma diff_struct from to f l :
  diff_field from to f (DStruct l) =
  (a <- GetNestedStruct from f (length l) ;;
   b <- GetNestedStruct to f (length l) ;;
   match a, b with
   | None, None => Ok []
   | Some _, None => Ok [mkRop f OpClear NoListIndex []]
   | None, Some b => '(_, buf) <- Marshal b ;; Ok [mkRop f OpSet NoListIndex buf]
   | Some a, Some b =>
       ops <- diff_fields a b 0 l ;;
       match ops with
       | [] => Ok []
       | _ => buf <- patch_bytes ops ;; Ok [mkRop f OpStructPatch NoListIndex buf]
       end
   end).
Proof.
  cbn [diff_field].
  assert (E : forall a b l i, (fix go (i : Z) (l : list (option fdesc)) : res (list rop) :=
                    match l with
                    | [] => Ok []
                    | None :: r => go (i + 1) r
                    | Some d :: r => x <- diff_field a b i d ;; y <- go (i + 1) r ;; Ok (x ++ y)
                    end) i l = diff_fields a b i l).
  { intros a b. clear l. induction l as [|[d|] r IH]; intros i; cbn [diff_fields]; auto.
    destruct (diff_field a b i d); cbn [bind]; auto. now rewrite IH. }
  destruct (GetNestedStruct from f (length l)) as [[a|]| | |]; cbn [bind]; auto.
  destruct (GetNestedStruct to f (length l)) as [[b|]| | |]; cbn [bind]; auto. now rewrite E.
Qed.
Lemma all_diffs d : diffs d.
Proof.
  induction d using fdesc_rect'; intros f from to n g g' m m' S S' Hf Hf' HN HT HT' HB.
  - cbn [diff_field mdiff_field]. unfold diff_scalar.
    assert (A : forall m, typed_field (DScalar k) (flook f m) -> scalar_or_none k (flook f m)).
    { intros x. cbn. destruct (flook f x) as [[]|]; cbn; tauto. }
    rewrite (Sim_get_scalar _ _ _ _ _ f k S), (Sim_get_scalar _ _ _ _ _ f k S') by (try lia; rewrite seen_lt by lia; auto).
    rewrite !bind_Ok, !seen_lt by lia. reflexivity.
  - cbn [diff_field mdiff_field]. unfold diff_bytes.
    assert (A : forall m, typed_field (DBytes s) (flook f m) -> bytes_or_none (flook f m)).
    { intros x. cbn. destruct (flook f x) as [[]|]; cbn; tauto. }
    rewrite (Sim_GetBytes _ _ _ _ _ f S), (Sim_GetBytes _ _ _ _ _ f S') by (try lia; rewrite seen_lt by lia; auto).
    rewrite !bind_Ok, !seen_lt by lia. reflexivity.
  - rewrite diff_struct.
    pose proof (GetNestedStruct_spec _ _ _ _ _ f (length l) S ltac:(lia)) as G.
    pose proof (GetNestedStruct_spec _ _ _ _ _ f (length l) S' ltac:(lia)) as G'.
    rewrite seen_lt in G, G' by lia. cbn [typed_field] in HT, HT'.
    rewrite overhead_struct in HB. pose proof (overheads_nonneg l).
    destruct (flook f m) as [[]|] eqn:E; try contradiction;
      destruct (flook f m') as [[]|] eqn:E'; try contradiction.
    + destruct G as (a & EG & SG & DG). destruct G' as (b & EG' & SG' & DG'). rewrite EG, bind_Ok, EG', bind_Ok.
      destruct HN as [HN1 HN2]. cbn [vsize] in HB. rewrite wire_VStruct, len_wire_struct in HB.
      destruct (Sim_fits _ _ _ _ _ SG') as [_ V1]. pose proof (vsizes_le 0 l m1 (proj1 V1)).
      assert (LN : len l = Z.of_nat (length l)) by reflexivity.
      rewrite (diffs_fields l H 0 a b (length l) f f m0 m1); try tauto; try lia. rewrite bind_Ok, mdiff_struct.
      destruct (mdiff_bounded l 0 m0 m1) as [A B]; try tauto; try lia.
      unfold struct_ops. destruct (mdiff 0 l m0 m1) as [|o r] eqn:EM; auto. rewrite <- EM in *.
      destruct (patch_written (mdiff 0 l m0 m1) A ltac:(lia)) as (-> & _). reflexivity.
    + destruct G as (a & EG & SG & DG). rewrite EG, bind_Ok, G', bind_Ok. reflexivity.
    + destruct G' as (b & EG' & SG' & DG'). rewrite G, bind_Ok, EG', bind_Ok.
      destruct (Sim_marshal _ _ _ _ _ SG' (GetNested_flags _ _ _ _ EG')) as (s' & -> & _). rewrite bind_Ok, DG'. reflexivity.
    + rewrite G, G', !bind_Ok. reflexivity.
  - contradiction.
Qed.
Lemma Diff_is l from to g g' m m' :
  Sim from (length l) (hdr3 g) m [] -> Sim to (length l) (hdr3 g') m' [] ->
  len l <= 2 ^ 16 -> each_field (fun d _ => numbered_ok d) l -> typed l m -> typed l m' ->
  overheads l + len (wire_msg m') < 2 ^ 32 - 64 ->
  Diff l from to = Ok (mdiff 0 l m m').
Proof.
  intros S S' Hl HN HT HT' HB. destruct (Sim_fits _ _ _ _ _ S') as [_ V]. pose proof (vsizes_le 0 l m' (proj1 V)).
  assert (LN : len l = Z.of_nat (length l)) by reflexivity.
  eapply (diffs_fields l); eauto; try lia. apply Forall_forall. intros [d|] _; [apply all_diffs|exact I].
Qed.
