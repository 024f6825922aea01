(** C64: compression is transparent. *)
From Verif.Model Require Import Base Compress.
From Verif.Proofs Require Import BaseLemmas.
From Coq Require Import Lia.

(** What is asked of an algorithm: what it compressed it decompresses, and it does not
    compress something to nothing. *)
Definition lossless (c : compressor) : Prop :=
  forall x y, x <> [] -> cp_Compress c x = Ok y -> y <> [] /\ cp_Decompress c y = Ok x.

(** The algorithm a history of registrations has installed for a type: the last one. *)
Fixpoint installed (h : list (Z * compressor)) (t : Z) (acc : option compressor) : option compressor :=
  match h with
  | [] => acc
  | (t', c) :: h => installed h t (if t =? t' then Some c else acc)
  end.
Definition registered (h : list (Z * compressor)) : creg := fold_left (fun r e => Register r (fst e) (snd e)) h [].

Lemma Get_registered h t : Get (registered h) t = installed h t None.
Proof.
  unfold registered. change (@None compressor) with (Get [] t). generalize (@nil (Z * compressor)).
  induction h as [|[t' c] h IH]; intros r; [reflexivity|]. cbn [fold_left fst snd installed]. rewrite IH. reflexivity.
Qed.

(** For every history of registrations and every type with a lossless algorithm (or none at
    all, CmpNone): what Compress returned is decompressed to the original. *)
Theorem C64_roundtrip : forall h t x y,
  (forall c, installed h t None = Some c -> lossless c) ->
  Compress (registered h) t x = Ok y -> Decompress (registered h) t y = Ok x.
Proof.
  intros h t x y HL H. unfold Compress, Decompress in *. destruct (t =? CmpNone); [congruence|].
  destruct x as [|a x]; [injection H as <-; reflexivity|]. rewrite Get_registered in *.
  destruct (installed h t None) as [c|] eqn:E; [|discriminate].
  destruct (HL c eq_refl (a :: x) y ltac:(discriminate) H) as [H1 H2]. destruct y; [congruence|]. exact H2.
Qed.
(** A type nobody registered is an error for any data, in both directions; empty data is
    passed through as it is. *)
Theorem C64_unknown : forall h t x, t <> CmpNone -> x <> [] -> installed h t None = None ->
  Compress (registered h) t x = Err /\ Decompress (registered h) t x = Err.
Proof.
  intros h t x HT HX H. unfold Compress, Decompress. destruct (Z.eqb_spec t CmpNone); [congruence|].
  destruct x as [|a x]; [congruence|]. rewrite Get_registered, H. auto.
Qed.
Theorem C64_none : forall h x, Compress (registered h) CmpNone x = Ok x /\ Decompress (registered h) CmpNone x = Ok x.
Proof. intros. split; reflexivity. Qed.
Theorem C64_empty : forall h t, Compress (registered h) t [] = Ok [] /\ Decompress (registered h) t [] = Ok [].
Proof. intros. unfold Compress, Decompress. destruct (t =? CmpNone); auto. Qed.
(** The second requirement is needed: an algorithm that is the identity when composed but
    encodes one input as nothing loses that input. *)
Theorem C64_nothing_is_not_decompressed : exists c x,
  (forall x y, cp_Compress c x = Ok y -> cp_Decompress c y = Ok x) /\ x <> [] /\
  Compress (registered [(1, c)]) 1 x = Ok [] /\ Decompress (registered [(1, c)]) 1 [] = Ok [].
Proof.
  exists (mkComp (fun x => Ok match x with [7] => [] | [] => [7] | _ => x end)
                 (fun y => Ok match y with [7] => [] | [] => [7] | _ => y end)), [7].
  split; [|split; [discriminate|split; reflexivity]].
  intros x y E. cbn in *. injection E as <-. f_equal.
  destruct x as [|a x]; [reflexivity|].
  destruct (Z.eq_dec a 7) as [->|N]; [destruct x; reflexivity|].
  assert (G : match a :: x with [] => [7] | [7] => [] | _ => a :: x end = a :: x).
  { destruct a as [|p|p]; auto. do 3 (destruct p as [p|p|]; auto). destruct x; auto. exfalso. apply N. reflexivity. }
  rewrite !G. reflexivity.
Qed.
Print Assumptions C64_roundtrip.
Print Assumptions C64_unknown.
Print Assumptions C64_none.
Print Assumptions C64_empty.
Print Assumptions C64_nothing_is_not_decompressed.

Example demo_compress :
  let c := mkComp (fun x => Ok (1 :: x)) (fun y => match y with 1 :: x => Ok x | _ => Err end) in
  lossless c /\ Compress (registered [(2, c); (3, c)]) 3 [5; 6] = Ok [1; 5; 6] /\
  Decompress (registered [(2, c); (3, c)]) 3 [1; 5; 6] = Ok [5; 6] /\ installed [(2, c)] 3 None = None.
Proof. cbn zeta. split; [intros x y _ E; cbn in E; injection E as <-; split; [discriminate|reflexivity]|repeat split]. Qed.
