(** The model computes the values of Spec/Values.v. *)
From Coq Require Import ZArith List Bool Lia.
Import ListNotations.
From Verif.Model Require Import Base Field Token Walk Ingest.
From Verif.Spec Require Import Values.
From Verif.Proofs Require Import BaseLemmas.
Open Scope Z_scope.

Lemma named_label e v : named e v = enum_label e v.
Proof.
  destruct e as [tbl|]; [|reflexivity]. cbn. f_equal. induction tbl as [|[n w] q IH]; cbn; [reflexivity|].
  destruct (v =? w); [reflexivity|exact IH].
Qed.
Lemma stored_kept k v : stored k v = kept k v.
Proof. destruct k; reflexivity. Qed.
Lemma zero_field_value t : zero_field t = zero_value t.
Proof. destruct t; cbn; rewrite ?named_label; reflexivity. Qed.
Lemma fresh_blank E id : fresh E id = blank E id.
Proof. unfold fresh, blank. apply map_ext. intros [n t]. cbn. rewrite zero_field_value. reflexivity. Qed.
Lemma len_nil_iff {A} (l : list A) : (len l =? 0) = match l with [] => true | _ => false end.
Proof. destruct l; [reflexivity|]. apply Z.eqb_neq. rewrite len_cons. pose proof (len_nonneg l). lia. Qed.
Lemma is_zero_unset v : is_zero v = unset v.
Proof. destruct v; cbn; rewrite ?len_nil_iff; reflexivity. Qed.
Lemma all_zero_nothing fs : all_zero fs = nothing_set fs.
Proof. unfold all_zero, nothing_set. induction fs as [|nv q IH]; cbn; [reflexivity|]. rewrite is_zero_unset, IH. reflexivity. Qed.
