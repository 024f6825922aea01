(** C57: the most specific matching pattern wins. *)
From Verif.Model Require Import Base Any Registry ServiceConfig.
From Verif.Proofs Require Import BaseLemmas.
From Verif.Properties Require Import Registry.
From Coq Require Import Lia.

(** The documented patterns. *)
Inductive pattern :=
| Exact (pkg service method : bytes)
| Service (pkg service : bytes)
| Package (pkg : bytes)
| Global.
(** How a user writes them. *)
Definition written (p : pattern) : bytes :=
  match p with
  | Exact p s m => p ++ [47] ++ s ++ [47] ++ m
  | Service p s => p ++ [47] ++ s ++ [47; 42]
  | Package p => p ++ [47; 42; 47; 42]
  | Global => [42; 47; 42; 47; 42]
  end.
(** The methods they stand for, and how specific they are. *)
Definition stands_for (q : pattern) (p s m : bytes) : Prop :=
  match q with
  | Exact p' s' m' => p' = p /\ s' = s /\ m' = m
  | Service p' s' => p' = p /\ s' = s
  | Package p' => p' = p
  | Global => True
  end.
Definition specificity (q : pattern) : nat :=
  match q with Exact _ _ _ => 3 | Service _ _ => 2 | Package _ => 1 | Global => 0 end.

(** A history of configuration calls, and the configuration a pattern has after it. *)
Inductive cop := OSet (q : pattern) (x : mcfg) | OTimeout (q : pattern) (t : Z) | OWait (q : pattern) (w : bool).
Definition cop_pattern (o : cop) : pattern := match o with OSet q _ | OTimeout q _ | OWait q _ => q end.
Definition cop_run (c : config) (o : cop) : config :=
  match o with
  | OSet q x => SetMethodConfig c (written q) x
  | OTimeout q t => SetTimeout c (written q) t
  | OWait q w => SetWaitForReady c (written q) w
  end.
(** The config of a pattern after a history, given the one before. *)
Definition pattern_eq_dec : forall a b : pattern, {a = b} + {a <> b}.
Proof. decide equality; apply (list_eq_dec Z.eq_dec). Defined.
Fixpoint configured (q : pattern) (h : list cop) (x : option mcfg) : option mcfg :=
  match h with
  | [] => x
  | o :: h =>
      configured q h
        (if pattern_eq_dec (cop_pattern o) q then
           let old := match x with Some x => x | None => mkCfg 0 false end in
           Some match o with
                | OSet _ x => x
                | OTimeout _ t => mkCfg t (c_wait old)
                | OWait _ w => mkCfg (c_timeout old) w
                end
         else x)
  end.

(** Names: no slash, and not a star. *)
Definition name (s : bytes) : Prop := ~ In 47 s /\ s <> [42].
Definition names (q : pattern) : Prop :=
  match q with
  | Exact p s m => name p /\ name s /\ name m
  | Service p s => name p /\ name s
  | Package p => name p
  | Global => True
  end.

Definition parts (q : pattern) : bytes * bytes * bytes :=
  match q with
  | Exact p s m => (p, s, m)
  | Service p s => (p, s, [42])
  | Package p => (p, [42], [42])
  | Global => ([42], [42], [42])
  end.
Lemma written_key q : written q = key_of (parts q).
Proof. destruct q; cbn; unfold makeKey; reflexivity. Qed.
Lemma parts_plain q : names q -> plain (parts q).
Proof.
  assert (no_slash [42]) by (unfold no_slash, slash; cbn; lia).
  destruct q; cbn; unfold plain, name; cbn; intuition auto.
Qed.
Lemma written_inj a b : names a -> names b -> written a = written b -> a = b.
Proof.
  intros Ha Hb E. rewrite !written_key in E. apply key_inj in E; auto using parts_plain.
  destruct a, b; cbn in *; unfold name in *; try injection E as ?; intuition congruence.
Qed.

Lemma find_run q h : names q -> Forall (fun o => names (cop_pattern o)) h -> forall c,
  cfg_find (fold_left cop_run h c) (written q) = configured q h (cfg_find c (written q)).
Proof.
  intros HQ. induction h as [|o h IH]; intros HF c; [reflexivity|].
  pose proof (Forall_inv HF) as HO. apply Forall_inv_tail in HF. cbn [fold_left]. rewrite IH by auto. cbn [configured]. f_equal.
  destruct (pattern_eq_dec (cop_pattern o) q) as [E|E].
  - subst q. destruct o; cbn [cop_run cop_pattern] in *; unfold SetMethodConfig, SetTimeout, SetWaitForReady, cfg_find; cbn [reg_find];
      rewrite (proj2 (beq_spec _ _) eq_refl); reflexivity.
  - assert (N : bytes_eqb (written q) (written (cop_pattern o)) = false).
    { destruct (bytes_eqb _ _) eqn:EB; auto. apply beq_spec in EB. apply written_inj in EB; auto. congruence. }
    destruct o; cbn [cop_run cop_pattern] in *; unfold SetMethodConfig, SetTimeout, SetWaitForReady, cfg_find; cbn [reg_find];
      rewrite N; reflexivity.
Qed.

(** For every history of configuration calls: a method's configuration is the one of the
    most specific configured pattern that stands for it, and absent when there is none. *)
Theorem C57_most_specific : forall h p s m,
  Forall (fun o => names (cop_pattern o)) h -> name p -> name s -> name m ->
  match GetMethodConfig (fold_left cop_run h []) p s m with
  | Some x =>
      exists q, stands_for q p s m /\ configured q h None = Some x /\
        forall q', stands_for q' p s m -> configured q' h None <> None -> (specificity q' <= specificity q)%nat
  | None => forall q, stands_for q p s m -> configured q h None = None
  end.
Proof.
  intros h p s m HF Hp Hs Hm.
  assert (R : forall q, names q -> cfg_find (fold_left cop_run h []) (written q) = configured q h None).
  { intros q HQ. rewrite find_run by auto. reflexivity. }
  assert (X : forall q, stands_for q p s m -> q = Exact p s m \/ q = Service p s \/ q = Package p \/ q = Global).
  { intros [] E; cbn in E; intuition congruence. }
  set (c := fold_left cop_run h []) in *.
  assert (E : GetMethodConfig c p s m =
    match cfg_find c (written (Exact p s m)) with Some x => Some x | None =>
    match cfg_find c (written (Service p s)) with Some x => Some x | None =>
    match cfg_find c (written (Package p)) with Some x => Some x | None => cfg_find c (written Global) end end end).
  { destruct c; reflexivity. }
  rewrite E. rewrite !R by (cbn; tauto). clear E R.
  destruct (configured (Exact p s m) h None) as [x|] eqn:E1.
  { exists (Exact p s m). split; [cbn; auto|]. split; auto. intros q' HS _. destruct (X _ HS) as [->|[->|[->| ->]]]; cbn; lia. }
  destruct (configured (Service p s) h None) as [x|] eqn:E2.
  { exists (Service p s). split; [cbn; auto|]. split; auto. intros q' HS HC.
    destruct (X _ HS) as [->|[->|[->| ->]]]; cbn; try lia; congruence. }
  destruct (configured (Package p) h None) as [x|] eqn:E3.
  { exists (Package p). split; [cbn; auto|]. split; auto. intros q' HS HC.
    destruct (X _ HS) as [->|[->|[->| ->]]]; cbn; try lia; congruence. }
  destruct (configured Global h None) as [x|] eqn:E4.
  { exists Global. split; [cbn; auto|]. split; auto. intros q' HS HC.
    destruct (X _ HS) as [->|[->|[->| ->]]]; cbn; try lia; congruence. }
  intros q HS. destruct (X _ HS) as [->|[->|[->| ->]]]; auto.
Qed.
Print Assumptions C57_most_specific.

(** Other wildcard positions are accepted and have no effect: not even the only
    configured pattern, one a reader would take for "method m of any service", is used. *)
Theorem C57_other_wildcards_ignored : forall p s m x,
  name p -> name s -> name m ->
  GetMethodConfig (SetMethodConfig [] (p ++ [47; 42; 47] ++ m) x) p s m = None.
Proof.
  intros p s m x [P1 P2] [S1 S2] [M1 M2]. unfold SetMethodConfig, GetMethodConfig, cfg_find.
  assert (G : forall a b c, no_slash a -> no_slash b -> (a, b, c) <> (p, [42], m) ->
     reg_find (a ++ [slash] ++ b ++ [slash] ++ c) [(p ++ [47; 42; 47] ++ m, x)] = None).
  { intros a b c Ha Hb HN. cbn [reg_find]. destruct (bytes_eqb _ _) eqn:E; auto. apply beq_spec in E. exfalso. apply HN.
    apply (key_inj (a, b, c) (p, [42], m)); try (split; cbn; auto; unfold no_slash, slash; cbn; lia). exact E. }
  assert (no_slash star) by (unfold no_slash, slash; cbn; lia).
  rewrite !G; auto; unfold star; congruence.
Qed.
Print Assumptions C57_other_wildcards_ignored.

Example demo_config :
  let h := [OTimeout Global 5; OTimeout (Service [112] [115]) 7; OWait Global true; OSet (Exact [112] [115] [109]) (mkCfg 9 true)] in
  Forall (fun o => names (cop_pattern o)) h /\
  GetTimeout (fold_left cop_run h []) [112] [115] [109] = 9 /\
  GetTimeout (fold_left cop_run h []) [112] [115] [110] = 7 /\
  GetWaitForReady (fold_left cop_run h []) [112] [115] [110] = false /\
  GetWaitForReady (fold_left cop_run h []) [113] [115] [110] = true.
Proof.
  cbn zeta. split; [|repeat split].
  repeat constructor; cbn; try discriminate; intros C; intuition discriminate.
Qed.
