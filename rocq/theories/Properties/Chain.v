(** C60: interceptor chains. *)
From Verif.Model Require Import Chain.
From Coq Require Import List Arith Lia.
Import ListNotations.

Section C60.
Variables A I C : Type.
Variable panic : C.
Notation handler := (A -> C).
Notation interceptor := (A -> I -> handler -> C).

(** Calling a possibly nil interceptor: nil panics. *)
Definition invoke (i : option interceptor) (a : A) (info : I) (h : handler) : C :=
  match i with Some f => f a info h | None => panic end.
(** Nesting: the first interceptor is called first, its continuation calls the rest, and
    the last one's continuation is the handler. *)
Fixpoint nest (l : list (option interceptor)) (a : A) (info : I) (h : handler) : C :=
  match l with
  | [] => h a
  | i :: r => invoke i a info (fun a' => nest r a' info h)
  end.

Lemma chain_handler_nest l : forall pre info h fuel, length l <= fuel ->
  chain_handler panic fuel (pre ++ l) (length pre) info h = (fun a => nest l a info h).
Proof.
  induction l as [|i l IH]; intros pre info h fuel HF.
  - rewrite app_nil_r. destruct fuel; cbn [chain_handler]; rewrite Nat.eqb_refl; reflexivity.
  - destruct fuel as [|fuel]; [cbn in HF; lia|]. cbn [chain_handler].
    rewrite app_length. cbn [length].
    destruct (Nat.eqb_spec (length pre) (length pre + S (length l))); [lia|].
    rewrite nth_error_app2, Nat.sub_diag by lia. cbn [nth_error nest].
    assert (E : chain_handler panic fuel (pre ++ i :: l) (S (length pre)) info h = (fun a' => nest l a' info h)).
    { replace (pre ++ i :: l) with ((pre ++ [i]) ++ l) by now rewrite <- app_assoc.
      replace (S (length pre)) with (length (pre ++ [i])) by (rewrite app_length; cbn; lia).
      apply IH. cbn in HF. lia. }
    rewrite E. reflexivity.
Qed.

(** A chain runs as the nesting of its members in the order given. *)
Theorem C60_chain_is_nesting : forall l a info h, l <> [] ->
  invoke (Chain panic l) a info h = nest l a info h.
Proof.
  intros [|i [|j l]] a info h HN; [congruence|reflexivity|].
  unfold Chain. cbn [invoke].
  rewrite (chain_handler_nest (i :: j :: l) [] info h) by (cbn; lia). reflexivity.
Qed.
(** The chain of nothing is absent, the chain of one is that one. *)
Theorem C60_chain_small : forall i : option interceptor,
  Chain (A := A) (I := I) panic [] = None /\ Chain panic [i] = i.
Proof. intros. split; reflexivity. Qed.

Lemma nest_app_fun l1 l2 info h :
  (fun a => nest (l1 ++ l2) a info h) = (fun a => nest l1 a info (fun a' => nest l2 a' info h)).
Proof.
  induction l1 as [|i l1 IH]; [reflexivity|]. cbn [app nest].
  change (fun a => invoke i a info (fun a' => nest (l1 ++ l2) a' info h)) with
         (fun a => (fun k => invoke i a info k) (fun a' => nest (l1 ++ l2) a' info h)).
  rewrite IH. reflexivity.
Qed.
(** Chaining chains is chaining the concatenation, for chains that are not empty. *)
Theorem C60_chain_assoc : forall ls, Forall (fun l => l <> []) ls -> ls <> [] ->
  forall a info h,
  invoke (Chain panic (map (Chain panic) ls)) a info h = invoke (Chain panic (concat ls)) a info h.
Proof.
  intros ls HF HN a info h.
  assert (HC : concat ls <> []).
  { destruct ls as [|l ls]; [congruence|]. apply Forall_inv in HF. cbn. destruct l; [congruence|discriminate]. }
  rewrite (C60_chain_is_nesting (concat ls)) by auto.
  rewrite C60_chain_is_nesting by (destruct ls; [congruence|discriminate]).
  clear HN HC.
  assert (E : (fun a => nest (map (Chain panic) ls) a info h) = (fun a => nest (concat ls) a info h)).
  { induction HF as [|l ls Hl HF IH]; [reflexivity|]. cbn [map concat nest].
    etransitivity; [|symmetry; apply (nest_app_fun l (concat ls) info h)]. rewrite <- IH.
    destruct l as [|i [|j l]]; [congruence|reflexivity|].
    unfold Chain at 1. cbn [invoke].
    pose proof (fun k => chain_handler_nest (i :: j :: l) [] info k (length (i :: j :: l)) (le_n _)) as Q.
    cbn [app length] in Q |- *. rewrite Q. reflexivity. }
  exact (f_equal (fun f => f a) E).
Qed.
End C60.

(** What this means for the order of effects: interceptors that log when they are entered
    and left, around a handler that logs its argument. *)
Section Log.
Variable N : Type.
Inductive event := Enter (n : N) | Leave (n : N) | Handled.
Definition logger (n : N) : option (unit -> unit -> (unit -> list event) -> list event) :=
  Some (fun a info h => Enter n :: h a ++ [Leave n]).
Theorem C60_order_of_effects : forall panic ns, ns <> [] ->
  invoke _ _ _ panic (Chain panic (map logger ns)) tt tt (fun _ => [Handled]) =
  map Enter ns ++ [Handled] ++ map Leave (rev ns).
Proof.
  intros panic ns HN. rewrite C60_chain_is_nesting by (destruct ns; [congruence|discriminate]). clear HN.
  induction ns as [|n ns IH]; [reflexivity|]. cbn [map nest logger invoke rev]. cbn. f_equal.
  rewrite IH. rewrite map_app. cbn. rewrite <- !app_assoc. reflexivity.
Qed.
End Log.
Print Assumptions C60_chain_is_nesting.
Print Assumptions C60_chain_small.
Print Assumptions C60_chain_assoc.
Print Assumptions C60_order_of_effects.

(** An interceptor that does not call its continuation cuts the chain; a nil member panics
    only when it is reached. *)
Example demo_chain :
  invoke _ _ _ [Leave nat 99] (Chain [Leave nat 99] [logger nat 1; Some (fun _ _ _ => [Handled nat]); None]) tt tt (fun _ => []) =
    [Enter nat 1; Handled nat; Leave nat 1] /\
  invoke _ _ _ [Leave nat 99] (Chain [Leave nat 99] [logger nat 1; None; logger nat 2]) tt tt (fun _ => [Handled nat]) =
    [Enter nat 1; Leave nat 99; Leave nat 1] /\
  Forall (fun l => l <> []) [[logger nat 1; logger nat 2]; [logger nat 3]].
Proof. repeat split; repeat constructor; discriminate. Qed.
