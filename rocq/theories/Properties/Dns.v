(** C132: a target is dialled at the addresses and the port that it names. *)
From Coq Require Import ZArith List Bool Lia.
Import ListNotations.
From Verif.Model Require Import Base ErrText Any Target Balancer.
From Verif.Spec Require Import Dns.
From Verif.Proofs Require Import Dns.
From Verif.Properties Require Target Balancer.
Local Open Scope Z_scope.

(** A number of Dials with one dialer: the addresses that are dialled. *)
Fixpoint dials (step : Z -> Z * res bytes) (n : nat) (c : Z) : list (res bytes) :=
  match n with O => [] | S n => snd (step c) :: dials step n (fst (step c)) end.
(** How often an address is dialled. *)
Definition dialled (a : bytes) (l : list (res bytes)) : Z :=
  len (filter (fun r => match r with Ok b => if list_eq_dec Z.eq_dec a b then true else false | _ => false end) l).

Section C132.
Context (ParseIP : bytes -> bool) (LookupIPAddr : bytes -> res (list bytes)) (LookupSRV : bytes -> bytes -> bytes -> res (list srv)).
Notation Resolve := (Resolve ParseIP LookupIPAddr LookupSRV defaultConfig).
Notation Dial := (Dial ParseIP LookupIPAddr LookupSRV).
(** What is used of net: an address literal has no brackets and not exactly one colon; the addresses that a lookup gives have no brackets;
    a lookup ends with an answer or an error. *)
Hypothesis P_brackets : forall s, ParseIP s = true -> unbracketed s.
Hypothesis P_colons : forall a b, ParseIP (a ++ 58 :: b) = true -> In 58 (a ++ b).
Hypothesis L_brackets : forall h ips, LookupIPAddr h = Ok ips -> Forall unbracketed ips.
Hypothesis L_ends : forall h, LookupIPAddr h = Err \/ exists ips, LookupIPAddr h = Ok ips.

(** The result of a name and a port: the addresses of the name, in the order of the answer, each with the port; an error if there
    are none. *)
Definition named (host port : bytes) (r : res (list addr)) : Prop :=
  match LookupIPAddr host with
  | Ok (ip :: ips) => exists addrs, r = Ok addrs /\ Forall2 (fun i a => addressed i port (a_addr a)) (ip :: ips) addrs
  | _ => r = Err
  end.
Lemma host_named cfg host port e : ParseIP host = false ->
  match SplitHostPort e with Ok hp => hp | _ => (e, d_port cfg) end = (host, port) -> named host port (resolveHost ParseIP LookupIPAddr cfg e).
Proof.
  intros HP HS. unfold resolveHost, named. rewrite HS, HP. destruct (L_ends host) as [->|[ips ->]]; [reflexivity|]. cbn [bind].
  destruct ips as [|ip ips]; [reflexivity|]. eexists. split; [reflexivity|].
  generalize (ip :: ips). induction l as [|i l IH]; constructor; [apply join_addressed|exact IH].
Qed.

(** C132: a name with a port. *)
Theorem C132_name : forall host port, plain host -> plain port -> ParseIP host = false -> named host port (Resolve (host ++ [58] ++ port)).
Proof. intros host port H1 H2 HP. apply host_named; [exact HP|]. cbn [app]. rewrite (split_plain host port H1 H2). reflexivity. Qed.
(** C132: a name without a port: 443 is meant. *)
Theorem C132_default_port : forall host, ~ In 58 host -> ParseIP host = false -> named host https (Resolve host).
Proof. intros host H HP. apply host_named; [exact HP|]. unfold SplitHostPort. rewrite (last_none 58 host H). reflexivity. Qed.
(** C132: an address literal is taken as it is, with its port, and with 443 if it has none. *)
Theorem C132_literal : forall ip port, ParseIP ip = true -> plain port ->
  (forall e, addressed ip port e -> exists a, Resolve e = Ok [a] /\ a_addr a = e) /\
  (exists a, Resolve ip = Ok [a] /\ addressed ip https (a_addr a)).
Proof.
  intros ip port HI HP. pose proof (P_brackets ip HI) as HU. split.
  - intros e HE. pose proof (addressed_split ip port e HU HP HE) as S. unfold Dns.Resolve, resolveHost. cbn [defaultConfig d_useSRV andb]. rewrite S, HI.
    eexists. split; [reflexivity|]. apply (addressed_fun ip port); [apply join_addressed|exact HE].
  - unfold Dns.Resolve, resolveHost. cbn [defaultConfig d_useSRV andb].
    assert (S : forall hp, SplitHostPort ip <> Ok hp).
    { intros [h p] S. apply split_inv in S as (PP & _ & [[NH ->] | ->]).
      - specialize (P_colons _ _ HI). rewrite in_app_iff in P_colons. destruct P_colons; [contradiction|]. destruct PP. contradiction.
      - destruct HU as [HU _]. apply HU. left. reflexivity. }
    replace (match SplitHostPort ip with Ok hp => hp | _ => (ip, d_port defaultConfig) end) with (ip, d_port defaultConfig)
      by (destruct (SplitHostPort ip) as [hp| | |]; [exfalso; apply (S hp); reflexivity|reflexivity|reflexivity|reflexivity]).
    rewrite HI. eexists. split; [reflexivity|]. apply join_addressed.
Qed.
(** C132: whatever the endpoint, what comes out can be dialled: there is an address, and each one is a host and a port,
    the same port for all. *)
Theorem C132_dialable : forall e addrs, Resolve e = Ok addrs -> addrs <> [] /\
  exists port, plain port /\ Forall (fun a => exists host, addressed host port (a_addr a) /\ SplitHostPort (a_addr a) = Ok (host, port)) addrs.
Proof.
  intros e addrs. unfold Dns.Resolve, resolveHost. cbn [defaultConfig d_useSRV andb].
  set (hp := match SplitHostPort e with Ok hp => hp | _ => (e, d_port defaultConfig) end).
  assert (HPort : plain (snd hp)).
  { subst hp. destruct (SplitHostPort e) as [[h p]| | |] eqn:S; try (cbn; unfold plain; cbn; repeat split; intros C; repeat (destruct C as [C|C]; [discriminate|]); exact C).
    apply split_inv in S as (P & _). exact P. }
  fold defaultConfig in *. destruct hp as [host port]. cbn [snd] in HPort. destruct (ParseIP host) eqn:HI.
  - intros H. injection H as <-. split; [discriminate|]. exists port. split; [exact HPort|]. constructor; [|constructor].
    exists host. cbn [a_addr]. pose proof (join_addressed host port) as J. split; [exact J|]. apply addressed_split; auto.
  - destruct (LookupIPAddr host) as [ips| | |] eqn:L; cbn [bind]; try discriminate. destruct ips as [|ip ips]; [discriminate|].
    intros H. injection H as <-. split; [discriminate|]. exists port. split; [exact HPort|].
    change (mkAddr (JoinHostPort ip port) 0 0 :: map (fun ip0 => mkAddr (JoinHostPort ip0 port) 0 0) ips)
      with (map (fun ip0 => mkAddr (JoinHostPort ip0 port) 0 0) (ip :: ips)).
    pose proof (L_brackets _ _ L) as LB. rewrite Forall_map. eapply Forall_impl; [|exact LB].
    intros i HU. exists i. cbn [a_addr]. pose proof (join_addressed i port) as J. split; [exact J|]. apply addressed_split; auto.
Qed.
(** C132: an IPv6 literal in brackets without a port is looked up as a name, brackets and all; a colon without a port behind it means the
    empty port. *)
Theorem C132_bracketed : forall ip, unbracketed ip -> ParseIP ([91] ++ ip ++ [93]) = false -> named ([91] ++ ip ++ [93]) https (Resolve ([91] ++ ip ++ [93])).
Proof.
  intros ip HU HP. apply host_named; [exact HP|]. destruct (SplitHostPort ([91] ++ ip ++ [93])) as [[h p]| | |] eqn:S; try reflexivity.
  exfalso. apply split_inv in S as (PP & UH & [[NH E]|E]).
  - destruct h as [|x h]; [discriminate|]. cbn in E. injection E as <- _. apply (proj1 UH). left. reflexivity.
  - cbn [app] in E. injection E as E. assert (R : rev (ip ++ [93]) = rev (h ++ 93 :: 58 :: p)) by now rewrite E.
    rewrite !rev_app_distr in R. cbn [rev app] in R. rewrite <- !app_assoc in R. cbn [app] in R.
    destruct (rev p) as [|y q] eqn:RP; [cbn in R; discriminate|]. cbn in R. injection R as <- _.
    apply (proj2 (proj2 PP)). apply in_rev. rewrite RP. left. reflexivity.
Qed.
Theorem C132_empty_port : forall host, plain host -> ParseIP host = false -> named host [] (Resolve (host ++ [58])).
Proof. intros host H HP. apply (C132_name host [] H); [|exact HP]. unfold plain. cbn. auto. Qed.
(** C132: SRV records are never asked for, and the default port is always 443: every dialer has the default configuration. *)
Theorem C132_no_srv : forall text r, NewResolvingDialer ascii_lower text = Ok r ->
  ((exists e, r = RDns defaultConfig e) \/ exists e, r = RPass e) /\
  forall SRV c, Dns.Dial ParseIP LookupIPAddr SRV r c = Dial r c.
Proof.
  intros text r. unfold NewResolvingDialer. destruct (Parse ascii_lower text) as [t| | |]; cbn [bind]; try discriminate.
  unfold build. destruct (list_eq_dec Z.eq_dec (t_scheme t) dns); [intros H; injection H as <-; split; [left; eauto|reflexivity]|].
  destruct (list_eq_dec Z.eq_dec (t_scheme t) passthrough); [intros H; injection H as <-; split; [right; eauto|reflexivity]|discriminate].
Qed.

(** C132: the dialer of "dns:///endpoint" dials the addresses of the endpoint, each as often as any other; that of a text without
    "://" dials the text. *)
Theorem C132_dial : forall e addrs w c, e <> [] -> Resolve e = Ok addrs -> NoDup (map a_addr addrs) -> 0 <= c -> c + Z.of_nat w < 2 ^ 64 ->
  exists r, NewResolvingDialer ascii_lower (dns ++ [58; 47; 47; 47] ++ e) = Ok r /\
  let l := dials (Dial r) w c in
  Forall (fun o => exists a, o = Ok (a_addr a) /\ In a addrs) l /\
  forall a b, In a addrs -> In b addrs -> Z.abs (dialled (a_addr a) l - dialled (a_addr b) l) <= 1.
Proof.
  intros e addrs w c HE HR ND H0 H1. exists (RDns defaultConfig e). split.
  - unfold NewResolvingDialer. change (dns ++ [58; 47; 47; 47] ++ e) with (Target_String (mkTarget dns [] e)).
    rewrite Target.C58_ascii; [reflexivity|]. split; cbn; auto; discriminate.
  - cbn zeta. pose proof (proj1 (C132_dialable _ _ HR)) as NE.
    assert (eqd : forall a b : addr, {a = b} + {a <> b}) by (decide equality; try apply Z.eq_dec; apply (list_eq_dec Z.eq_dec)).
    pose proof (Balancer.C49_round_robin_picker addr eqd addrs w c NE (NoDup_map_inv _ _ ND) H0 H1) as HF. cbn zeta in HF.
    assert (G : forall w c, dials (Dial (RDns defaultConfig e)) w c =
      map (fun r => a <- r ;; Ok (a_addr a)) (snd (Balancer.picks addr (RRPicker_Pick addr) w c addrs))).
    { clear -HR. assert (D : forall c, Dial (RDns defaultConfig e) c = let '(c', p) := RRPicker_Pick addr c addrs in (c', a <- p ;; Ok (a_addr a))).
      { intros c. unfold Dns.Dial. cbn [resolve]. rewrite HR. reflexivity. }
      induction w as [|w IH]; intros c; [reflexivity|]. cbn [dials Balancer.picks]. rewrite D. destruct (RRPicker_Pick addr c addrs) as [c' p]. cbn [fst snd].
      rewrite IH. destruct (Balancer.picks addr (RRPicker_Pick addr) w c' addrs) as [c'' rs]. reflexivity. }
    rewrite G. destruct HF as [HM HT]. split.
    + rewrite Forall_map. eapply Forall_impl; [|exact HM]. intros o (a & -> & I). exists a. split; [reflexivity|exact I].
    + assert (T : forall a, In a addrs -> dialled (a_addr a) (map (fun r => x <- r ;; Ok (a_addr x)) (snd (Balancer.picks addr (RRPicker_Pick addr) w c addrs))) =
        Balancer.times addr eqd a (snd (Balancer.picks addr (RRPicker_Pick addr) w c addrs))).
      { intros a IA. unfold dialled, Balancer.times. revert HM. generalize (snd (Balancer.picks addr (RRPicker_Pick addr) w c addrs)).
        induction l as [|o l IL]; intros HM; [reflexivity|]. inversion HM as [|o' l' (b & -> & IB) HM']; subst.
        cbn [map filter bind]. specialize (IL HM').
        assert (EQ : (if list_eq_dec Z.eq_dec (a_addr a) (a_addr b) then true else false) = (if eqd a b then true else false)).
        { destruct (eqd a b) as [->|N]; [destruct (list_eq_dec Z.eq_dec (a_addr b) (a_addr b)); congruence|].
          destruct (list_eq_dec Z.eq_dec (a_addr a) (a_addr b)) as [E|]; [|reflexivity]. exfalso. apply N. clear -E IA IB ND.
          induction addrs as [|y q IH]; [destruct IA|]. cbn in ND. inversion ND as [|? ? N1 N2]; subst.
          destruct IA as [->|IA], IB as [->|IB]; auto.
          - exfalso. apply N1. rewrite E. apply in_map. exact IB.
          - exfalso. apply N1. rewrite <- E. apply in_map. exact IA. }
        rewrite EQ. unfold len in *. destruct (eqd a b); cbn [length]; lia. }
      intros a b IA IB. rewrite (T a IA), (T b IB). apply HT; auto.
Qed.
Theorem C132_bare : forall text c, text <> [] -> contains text [58; 47; 47] = false -> 
  exists r, NewResolvingDialer ascii_lower text = Ok r /\ snd (Dial r c) = Ok text.
Proof.
  intros text c HN HC. unfold NewResolvingDialer. rewrite (Target.C58_bare ascii_lower text HN HC). cbn [bind].
  exists (RPass text). split; [reflexivity|]. unfold Dns.Dial. cbn [resolve]. unfold RRPicker_Pick.
  change (len [mkAddr text 0 0]) with 1. rewrite Z.mod_1_r. reflexivity.
Qed.
(** C132: a scheme that nobody registered is refused. *)
Theorem C132_unknown : forall scheme e, scheme <> [] -> contains scheme [58; 47; 47] = false -> ascii_lower scheme = scheme -> e <> [] ->
  scheme <> dns -> scheme <> passthrough -> NewResolvingDialer ascii_lower (scheme ++ [58; 47; 47; 47] ++ e) = Err.
Proof.
  intros scheme e H1 H2 H3 H4 H5 H6. unfold NewResolvingDialer. change (scheme ++ [58; 47; 47; 47] ++ e) with (Target_String (mkTarget scheme [] e)).
  rewrite Target.C58_ascii by (split; cbn; auto). cbn [bind]. unfold build. cbn [t_scheme].
  destruct (list_eq_dec Z.eq_dec scheme dns); [contradiction|]. destruct (list_eq_dec Z.eq_dec scheme passthrough); [contradiction|reflexivity].
Qed.
End C132.

(** C132: that an IPv6 literal in brackets without a port means the address with the default port: [::1], of which the name server knows
    nothing. *)
Definition loop : bytes := [58; 58; 49].
Definition isLoop (s : bytes) : bool := if list_eq_dec Z.eq_dec s loop then true else false.
Theorem C132_bracket_refuted : ~ (forall ParseIP Lookup SRV ip, ParseIP ip = true -> unbracketed ip ->
  (forall h ips, Lookup h = Ok ips -> Forall unbracketed ips) ->
  exists a, Resolve ParseIP Lookup SRV defaultConfig ([91] ++ ip ++ [93]) = Ok [a] /\ addressed ip https (a_addr a)).
Proof.
  intros H. destruct (H isLoop (fun _ => Err) (fun _ _ _ => Err) loop eq_refl) as (a & E & _).
  - split; cbn; intros C; repeat (destruct C as [C|C]; [discriminate|]); exact C.
  - discriminate.
  - vm_compute in E. discriminate.
Qed.
(** C132: that an endpoint without a port number gets the default port: "a:". *)
Theorem C132_empty_port_refuted : ~ (forall ParseIP Lookup SRV host ip, ParseIP host = false -> plain host -> Lookup host = Ok [ip] -> unbracketed ip ->
  exists a, Resolve ParseIP Lookup SRV defaultConfig (host ++ [58]) = Ok [a] /\ addressed ip https (a_addr a)).
Proof.
  intros H. destruct (H (fun _ => false) (fun _ => Ok [[49]]) (fun _ _ _ => Err) [97] [49] eq_refl) as (a & E & A); try reflexivity;
    try (unfold plain, unbracketed; cbn; repeat split; intros C; repeat (destruct C as [C|C]; [discriminate|]); exact C).
  vm_compute in E. injection E as <-. inversion A.
Qed.
(** A name with two addresses, one of them IPv6. *)
Example C132_case :
  let lookup := fun h : bytes => if list_eq_dec Z.eq_dec h [97] then Ok [[49]; loop] else Err in
  let r := Resolve isLoop lookup (fun _ _ _ => Err) defaultConfig in
  r [97; 58; 56; 48] = Ok [mkAddr [49; 58; 56; 48] 0 0; mkAddr [91; 58; 58; 49; 93; 58; 56; 48] 0 0] /\
  r [97] = Ok [mkAddr [49; 58; 52; 52; 51] 0 0; mkAddr [91; 58; 58; 49; 93; 58; 52; 52; 51] 0 0] /\
  r [98] = Err /\ r loop = Ok [mkAddr [91; 58; 58; 49; 93; 58; 52; 52; 51] 0 0] /\
  (forall s, isLoop s = true -> unbracketed s) /\ (forall a b, isLoop (a ++ 58 :: b) = true -> In 58 (a ++ b)).
Proof.
  repeat split; try reflexivity; unfold isLoop in *.
  1, 2: destruct (list_eq_dec Z.eq_dec s loop) as [->|]; [|discriminate]; cbn; intros C; repeat (destruct C as [C|C]; [discriminate|]); exact C.
  intros a b. destruct (list_eq_dec Z.eq_dec (a ++ 58 :: b) loop) as [E|]; [|discriminate]. intros _. unfold loop in E.
  destruct a as [|x [|y a]]; cbn in E; injection E; intros; subst; cbn; auto.
Qed.

Print Assumptions C132_name.
Print Assumptions C132_default_port.
Print Assumptions C132_literal.
Print Assumptions C132_dialable.
Print Assumptions C132_bracketed.
Print Assumptions C132_empty_port.
Print Assumptions C132_no_srv.
Print Assumptions C132_dial.
Print Assumptions C132_bare.
Print Assumptions C132_unknown.
Print Assumptions C132_bracket_refuted.
Print Assumptions C132_empty_port_refuted.
