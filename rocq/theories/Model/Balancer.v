(** rpc/client/pool/balancer.go and rpc/transport/resolver/picker.go.  Every Pick takes its
    position from one atomic Add on the counter, so picks by concurrent callers are picks
    one after the other. The lists are the arguments of Pick. *)
From Verif.Model Require Import Base.

Section Balancer.
Variable A : Type.     (* *SubConn, or Address *)
Variable weight : A -> Z.   (* addr.Weight, uint32 *)
Variable priority : A -> Z. (* Priority, uint32 *)

(** counter.Add(1) on an atomic.Uint64: the new value. *)
Definition Add1 (c : Z) : Z := (c + 1) mod 2 ^ 64.

(** RoundRobinBalancer.Pick, balancer.go:22-29: the counter afterwards and the pick. *)
Definition RoundRobin_Pick (c : Z) (l : list A) : Z * res A :=
  match l with
  | [] => (c, Err)
  | _ =>
      let c' := Add1 c in
      let idx := (c' - 1) mod 2 ^ 64 in
      (c', index l (idx mod len l))
  end.
(** PickFirstBalancer.Pick, balancer.go:37-42; FirstPicker.Pick, picker.go:37-42. *)
Definition PickFirst_Pick (l : list A) : res A :=
  match l with [] => Err | x :: _ => Ok x end.

(** balancer.go:60-63, 74-77. *)
Definition eff_weight (x : A) : Z := if weight x =? 0 then 1 else weight x.
(** The loop of balancer.go:58-65; uint64 additions. *)
Definition totalWeight (l : list A) : Z := fold_left (fun t x => (t + eff_weight x) mod 2 ^ 64) l 0.
(** The loop of balancer.go:72-82. *)
Fixpoint find_pos (l : list A) (cumulative pos : Z) : option A :=
  match l with
  | [] => None
  | x :: l =>
      let cumulative := (cumulative + eff_weight x) mod 2 ^ 64 in
      if pos <? cumulative then Some x else find_pos l cumulative pos
  end.
(** WeightedBalancer.Pick, balancer.go:52-86. *)
Definition Weighted_Pick (c : Z) (l : list A) : Z * res A :=
  match l with
  | [] => (c, Err)
  | x0 :: _ =>
      let total := totalWeight l in
      let c' := Add1 c in
      let idx := (c' - 1) mod 2 ^ 64 in
      if total =? 0 then (c', Panic)   (* division by zero; needs the sum to wrap *)
      else (c', match find_pos l 0 (idx mod total) with Some x => Ok x | None => Ok x0 end)
  end.

(** RandomBalancer.Pick, balancer.go:96-110. *)
Definition Random_Pick (c : Z) (l : list A) : Z * res A :=
  match l with
  | [] => (c, Err)
  | [x] => (c, Ok x)
  | _ =>
      let seed := Add1 c in
      let idx := ((seed * 6364136223846793005 + 1442695040888963407) mod 2 ^ 64) mod len l in
      (seed, index l idx)
  end.

(** RoundRobinPicker.Pick, picker.go:24-30. *)
Definition RRPicker_Pick (c : Z) (l : list A) : Z * res A :=
  match l with
  | [] => (c, Err)
  | _ => let c' := Add1 c in (c', index l (c' mod len l))
  end.

(** The loop of picker.go:57-62. *)
Definition minPriority (x0 : A) (l : list A) : Z :=
  fold_left (fun m x => if priority x <? m then priority x else m) l (priority x0).
(** PriorityPicker.Pick, picker.go:51-75. *)
Definition Priority_Pick (c : Z) (l : list A) : Z * res A :=
  match l with
  | [] => (c, Err)
  | x0 :: l' =>
      let m := minPriority x0 l' in
      let candidates := filter (fun x => priority x =? m) l in
      let c' := Add1 c in (c', index candidates (c' mod len candidates))
  end.
End Balancer.
