(** From a target to the address that is dialled: rpc/transport/transport.go:69-166 (ResolvingDialer),
    rpc/transport/resolver/dns/dns.go and rpc/transport/resolver/passthrough/passthrough.go. *)
From Verif.Model Require Import Base Target Balancer.
Local Open Scope Z_scope.

(** The first and the last place of a byte in a string. *)
Fixpoint indexByte (c : Z) (s : bytes) : option nat :=
  match s with [] => None | x :: q => if x =? c then Some O else match indexByte c q with Some i => Some (S i) | None => None end end.
Fixpoint lastIndexByte (c : Z) (s : bytes) : option nat :=
  match s with [] => None | x :: q => match lastIndexByte c q with Some i => Some (S i) | None => if x =? c then Some O else None end end.
Definition has (c : Z) (s : bytes) : bool := match indexByte c s with Some _ => true | None => false end.

(** net.SplitHostPort of the Go standard library; 58 is the colon, 91 and 93 are the brackets. *)
Definition SplitHostPort (s : bytes) : res (bytes * bytes) :=
  match lastIndexByte 58 s with
  | None => Err
  | Some i =>
    let finish host j k := if has 91 (skipn j s) then Err else if has 93 (skipn k s) then Err else Ok (host, skipn (S i) s) in
    match s with
    | 91 :: _ =>
      match indexByte 93 s with
      | None => Err
      | Some e => if Nat.eqb (S e) (length s) then Err else if Nat.eqb (S e) i then finish (firstn (e - 1) (skipn 1 s)) 1%nat (S e) else Err
      end
    | _ => let host := firstn i s in if has 58 host then Err else finish host O O
    end
  end.
(** net.JoinHostPort of the Go standard library. *)
Definition JoinHostPort (host port : bytes) : bytes :=
  if has 58 host then [91] ++ host ++ [93; 58] ++ port else host ++ [58] ++ port.

(** Address, resolver.go:13-26 without the attributes. *)
Record addr := mkAddr { a_addr : bytes; a_weight : Z; a_priority : Z }.
Record srv := mkSrv { v_target : bytes; v_port : bytes; v_priority : Z; v_weight : Z }.

Section Dns.
(** The world: net.ParseIP, and what the name servers answer (the addresses as IPAddr.String gives them; the port of a SRV record in
    decimals). *)
Variable ParseIP : bytes -> bool.
Variable LookupIPAddr : bytes -> res (list bytes).
Variable LookupSRV : bytes -> bytes -> bytes -> res (list srv).

(** config, dns.go:49-64, without the timeout, and defaultConfig 66-71; 443. *)
Record config := mkDC { d_port : bytes; d_service : bytes; d_proto : bytes; d_useSRV : bool }.
Definition defaultConfig : config := mkDC [52; 52; 51] [] [] false.
(** strings.TrimSuffix(s, ".") *)
Definition trimDot (s : bytes) : bytes := match rev s with 46 :: q => rev q | _ => s end.

(** resolveSRV, dns.go:100-119. *)
Definition resolveSRV (cfg : config) (endpoint : bytes) : res (list addr) :=
  records <- LookupSRV (d_service cfg) (d_proto cfg) endpoint ;;
  Ok (map (fun v => mkAddr (JoinHostPort (trimDot (v_target v)) (v_port v)) (v_weight v) (v_priority v)) records).
(** resolveHost, dns.go:121-153. *)
Definition resolveHost (cfg : config) (endpoint : bytes) : res (list addr) :=
  let '(host, port) := match SplitHostPort endpoint with Ok hp => hp | _ => (endpoint, d_port cfg) end in
  if ParseIP host then Ok [mkAddr (JoinHostPort host port) 0 0]
  else
    ips <- LookupIPAddr host ;;
    match ips with
    | [] => Err
    | _ => Ok (map (fun ip => mkAddr (JoinHostPort ip port) 0 0) ips)
    end.
(** Resolve, dns.go:80-98. *)
Definition Resolve (cfg : config) (endpoint : bytes) : res (list addr) :=
  let empty (s : bytes) := match s with [] => true | _ => false end in
  if d_useSRV cfg && negb (empty (d_service cfg)) && negb (empty (d_proto cfg)) then
    match resolveSRV cfg endpoint with
    | Ok (a :: q) => Ok (a :: q)
    | _ => resolveHost cfg endpoint
    end
  else resolveHost cfg endpoint.

(** The two builders: dns.go:27-47 always takes the default configuration; passthrough.go:23-33. *)
Inductive resolver := RDns (cfg : config) (endpoint : bytes) | RPass (endpoint : bytes).
Definition dns : bytes := [100; 110; 115].
Definition build (t : target) : option resolver :=
  if list_eq_dec Z.eq_dec (t_scheme t) dns then Some (RDns defaultConfig (t_endpoint t))
  else if list_eq_dec Z.eq_dec (t_scheme t) passthrough then Some (RPass (t_endpoint t))
  else None.
Definition resolve (r : resolver) : res (list addr) :=
  match r with RDns cfg e => Resolve cfg e | RPass e => Ok [mkAddr e 0 0] end.

(** NewResolvingDialer, transport.go:110-139, with the default picker; both resolver packages are imported. *)
Variable ToLower : bytes -> bytes.
Definition NewResolvingDialer (text : bytes) : res resolver :=
  t <- Parse ToLower text ;; match build t with Some r => Ok r | None => Err end.
(** Dial up to the call of dialFunc, transport.go:142-158: the picker's counter afterwards and the address. *)
Definition Dial (r : resolver) (c : Z) : Z * res bytes :=
  match resolve r with
  | Ok addrs => let '(c', p) := RRPicker_Pick addr c addrs in (c', a <- p ;; Ok (a_addr a))
  | Err => (c, Err) | Panic => (c, Panic) | Hang => (c, Hang)
  end.
End Dns.
