(** rpc/serviceconfig/serviceconfig.go. *)
From Verif.Model Require Import Base Any Registry.

(** MethodConfig, serviceconfig.go:12-21; the timeout in nanoseconds. *)
Record mcfg := mkCfg { c_timeout : Z; c_wait : bool }.
Definition cfg_zero : mcfg := mkCfg 0 false.

(** Config, 25-33: the Go map as an association list; the newest entry of a key counts. *)
Definition config := list (bytes * mcfg).
Definition cfg_find (c : config) (pattern : bytes) : option mcfg := reg_find pattern c.
(** A Go map read, with the zero value for an absent key. *)
Definition cfg_read (c : config) (pattern : bytes) : mcfg :=
  match cfg_find c pattern with Some x => x | None => cfg_zero end.

(** SetMethodConfig, 44-47. *)
Definition SetMethodConfig (c : config) (pattern : bytes) (x : mcfg) : config := (pattern, x) :: c.
(** SetTimeout, 50-55. *)
Definition SetTimeout (c : config) (pattern : bytes) (t : Z) : config :=
  let x := cfg_read c pattern in (pattern, mkCfg t (c_wait x)) :: c.
(** SetWaitForReady, 58-63. *)
Definition SetWaitForReady (c : config) (pattern : bytes) (w : bool) : config :=
  let x := cfg_read c pattern in (pattern, mkCfg (c_timeout x) w) :: c.

Definition star : bytes := [42].
(** GetMethodConfig, 73-102, of a non-nil config.  A nil config behaves like an empty one. *)
Definition GetMethodConfig (c : config) (pkg service method : bytes) : option mcfg :=
  match c with
  | [] => None
  | _ =>
      match cfg_find c (pkg ++ [slash] ++ service ++ [slash] ++ method) with
      | Some x => Some x
      | None =>
          match cfg_find c (pkg ++ [slash] ++ service ++ [slash] ++ star) with
          | Some x => Some x
          | None =>
              match cfg_find c (pkg ++ [slash] ++ star ++ [slash] ++ star) with
              | Some x => Some x
              | None => cfg_find c (star ++ [slash] ++ star ++ [slash] ++ star)
              end
          end
      end
  end.
(** GetTimeout, 106-112, and GetWaitForReady, 115-121. *)
Definition GetTimeout (c : config) (pkg service method : bytes) : Z :=
  match GetMethodConfig c pkg service method with Some x => c_timeout x | None => 0 end.
Definition GetWaitForReady (c : config) (pkg service method : bytes) : bool :=
  match GetMethodConfig c pkg service method with Some x => c_wait x | None => false end.
