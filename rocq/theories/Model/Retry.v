(** rpc/retry/retry.go. *)
From Verif.Model Require Import Base.

Section Retry.
Variables Resp Error : Type.

(** Policy, retry.go:15-32.  The multiplier is a finite, non-negative float64, given as the
    dyadic number p_mant * 2^p_exp. *)
Record policy := mkPolicy {
  p_max : Z; p_init : Z; p_cap : Z; p_mant : Z; p_exp : Z; p_retryable : Error -> bool }.

(** The outside: the result of the i-th invocation, and whether the i-th wait ends
    because the context is done. *)
Record world := mkWorld {
  w_call : nat -> Resp + Error;
  w_done : nat -> bool;    (* the select of retry.go:77-81 takes the ctx.Done branch *)
  w_ctxerr : Error }.

(** Round a non-negative integer to a multiple of 2^k, ties to even. *)
Definition rne (x k : Z) : Z :=
  if k <=? 0 then x
  else
    let q := x / 2 ^ k in
    let r := x mod 2 ^ k in
    let up := (2 ^ (k - 1) <? r) || ((r =? 2 ^ (k - 1)) && Z.odd q) in
    (if up then q + 1 else q) * 2 ^ k.
(** The nearest float64 of x >= 0 (53 significant bits), for integers. *)
Definition round53 (x : Z) : Z := if x <=? 0 then x else rne x (Z.log2 x - 52).

(** time.Duration(float64(backoff) * policy.Multiplier), retry.go:84, for backoff >= 0:
    the product of the rounded backoff and the multiplier, rounded to 53 significant bits
    (scaling by 2^p_exp does not affect that; no product is subnormal) and cut to an integer.
    A product of 2^63 or more converts to a value the Go specification leaves open ([ovf]). *)
Variable ovf : Z.
Definition scale (p : policy) (backoff : Z) : Z :=
  let prod := round53 (round53 backoff * p.(p_mant)) in
  let v := if 0 <=? p.(p_exp) then prod * 2 ^ p.(p_exp) else prod / 2 ^ (- p.(p_exp)) in
  if v <? 2 ^ 63 then v else ovf.

(** retry.go:84-87. *)
Definition next_backoff (p : policy) (backoff : Z) : Z :=
  let b := scale p backoff in
  if b >? p.(p_cap) then p.(p_cap) else b.

(** What the caller gets, how often the invoker ran and the timers started. *)
Record run := mkRun { r_result : Resp + Error; r_calls : nat; r_waits : list Z }.

(** The loop, retry.go:64-90.  [remaining] is MaxAttempts - attempt. *)
Fixpoint attempts (p : policy) (w : world) (remaining : nat) (attempt : nat) (backoff : Z) : run :=
  match w_call w attempt with
  | inl resp => mkRun (inl resp) 1 []
  | inr err =>
      if negb (p.(p_retryable) err) then mkRun (inr err) 1 []
      else
        match remaining with
        | O => mkRun (inr err) 1 []
        | S remaining' =>
            if w_done w attempt then mkRun (inr (w_ctxerr w)) 1 [backoff]
            else
              let r := attempts p w remaining' (S attempt) (next_backoff p backoff) in
              mkRun (r_result r) (S (r_calls r)) (backoff :: r_waits r)
        end
  end.

(** UnaryClientInterceptor, retry.go:47-92. *)
Definition UnaryClientInterceptor (p : policy) (w : world) : run :=
  if p.(p_max) <=? 0 then mkRun (w_call w 0) 1 []
  else attempts p w (Z.to_nat p.(p_max)) 0 p.(p_init).
End Retry.
