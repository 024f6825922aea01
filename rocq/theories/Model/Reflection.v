(** The reflection service (rpc/reflection/service.go, config.go, client.go) and the address the HTTP
    transport gives it (rpc/transport/http/server.go). *)
From Coq Require Import ZArith List Bool.
Import ListNotations.
From Verif.Model Require Import Base Header Segment Struct Scalar Any Lists MapApi Registry.
Open Scope Z_scope.

(** ** Access control *)
(** A net.Addr by its dynamic type; [IP] stands for a non-nil net.IP, and httpAddr, *net.UnixAddr and the
    like are known by their String(). *)
Inductive addr (IP : Type) := TCPAddr (ip : option IP) | UDPAddr (ip : option IP) | IPAddr (ip : option IP) | OtherAddr (text : bytes).
Arguments TCPAddr {IP}. Arguments UDPAddr {IP}. Arguments IPAddr {IP}. Arguments OtherAddr {IP}.
(** Config, config.go:115-132, before Validate; the validator returns whether it accepts. *)
Record config := mkConfig { AllowedCIDRs : list bytes; AuthHeader : bytes; TokenValidator : option (bytes -> bool) }.
(** Config after Validate: parsedCIDRs as the sets of addresses. *)
Record checked (IP : Type) := mkChecked { parsedCIDRs : list (IP -> bool); authHeader : bytes; tokenValidator : option (bytes -> bool) }.
Arguments mkChecked {IP}. Arguments parsedCIDRs {IP}. Arguments authHeader {IP}. Arguments tokenValidator {IP}.
(** "authorization", config.go:152. *)
Definition default_header : bytes := [97; 117; 116; 104; 111; 114; 105; 122; 97; 116; 105; 111; 110].

Section Access.
Variable IP : Type.
(** Go standard library: net.ParseIP, the host of net.SplitHostPort, net.ParseCIDR as the set of the
    addresses it Contains, strings.ToLower. *)
Variable ParseIP : bytes -> option IP.
Variable SplitHostPort : bytes -> option bytes.
Variable ParseCIDR : bytes -> option (IP -> bool).
Variable ToLower : bytes -> bytes.

Fixpoint parse_all (l : list bytes) : res (list (IP -> bool)) :=
  match l with
  | [] => Ok []
  | c :: l => match ParseCIDR c with None => Err | Some n => q <- parse_all l ;; Ok (n :: q) end
  end.
(** Validate, config.go:136-156; called by NewServer, service.go:31-39. *)
Definition Validate (c : config) : res (checked IP) :=
  nets <- parse_all c.(AllowedCIDRs) ;;
  Ok (mkChecked nets (match c.(AuthHeader) with [] => default_header | h => h end) c.(TokenValidator)).
(** IsIPAllowed, config.go:160-175. *)
Definition IsIPAllowed (c : checked IP) (ip : IP) : bool :=
  match c.(parsedCIDRs) with [] => true | nets => existsb (fun n => n ip) nets end.
(** extractIP, service.go:65-81. *)
Definition extractIP (a : addr IP) : option IP :=
  match a with
  | TCPAddr ip | UDPAddr ip | IPAddr ip => ip
  | OtherAddr text => match SplitHostPort text with None => ParseIP text | Some host => ParseIP host end
  end.
(** findMetadataValue, service.go:84-92. *)
Definition findMetadataValue (md : list (bytes * bytes)) (key : bytes) : bytes :=
  match find (fun m => bytes_eqb (ToLower (fst m)) (ToLower key)) md with Some m => snd m | None => [] end.
(** checkAccess, service.go:43-62, with ValidateToken, config.go:179-189; [a] is what RemoteAddr finds in the context. *)
Definition checkAccess (c : checked IP) (a : option (addr IP)) (md : list (bytes * bytes)) : bool :=
  (match a with
   | None => true
   | Some a => match extractIP a with None => true | Some ip => IsIPAllowed c ip end
   end) &&
  (match c.(tokenValidator) with None => true | Some v => v (findMetadataValue md c.(authHeader)) end).
(** remoteAddr, http/server.go:126-137: the value of X-Forwarded-For ("" if there is none) and r.RemoteAddr. *)
Definition remoteAddr (xff remote : bytes) : addr IP :=
  match xff with
  | [] => match SplitHostPort remote with None => OtherAddr remote | Some host => OtherAddr host end
  | _ => OtherAddr xff
  end.
End Access.
Arguments Validate {IP}. Arguments extractIP {IP}. Arguments checkAccess {IP}. Arguments remoteAddr {IP}.

(** ** The answers *)
Notation info := (bytes * bytes * bytes * Z)%type (only parsing).    (* server.HandlerInfo: package, service, call, type *)
Notation method := (bytes * Z)%type (only parsing).
Notation service := (bytes * list (bytes * Z))%type (only parsing).
Notation package := (bytes * list (bytes * list (bytes * Z)))%type (only parsing).

Section Maps.
Context {A : Type}.
(** A Go map from names, in the order of insertion: m[k] = f(m[k]). *)
Fixpoint gput (k : bytes) (f : option A -> A) (m : list (bytes * A)) : list (bytes * A) :=
  match m with
  | [] => [(k, f None)]
  | (k', v) :: m => if bytes_eqb k k' then (k', f (Some v)) :: m else (k', v) :: gput k f m
  end.
(** sort.Strings and sort.Slice (Go standard library), by name.  The result is that of any sorting: the names are distinct. *)
Fixpoint insert (x : bytes * A) (l : list (bytes * A)) : list (bytes * A) :=
  match l with
  | [] => [x]
  | y :: l' => if cmpS (fst x) (fst y) <? 0 then x :: l else y :: insert x l'
  end.
Definition sorted (l : list (bytes * A)) : list (bytes * A) := fold_right insert [] l.
End Maps.
Definition or_empty {A} (o : option (list A)) : list A := match o with Some l => l | None => [] end.

(** The loop of ListServices, service.go:119-136. *)
Definition collect_one (pkgs : list package) (i : info) : list package :=
  let '(p, s, c, t) := i in
  gput p (fun o => gput s (fun ms => or_empty ms ++ [(c, t)]) (or_empty o)) pkgs.
Definition collect (infos : list info) : list package := fold_left collect_one infos [].
(** The order in which 141-179 goes through the maps. *)
Definition in_order (pkgs : list package) : list package :=
  sorted (map (fun p => (fst p, sorted (map (fun s => (fst s, sorted (snd s))) (snd p)))) pkgs).

Section All.
Context {A B : Type}.
Variable f : A -> res B.
Fixpoint each (l : list A) : res (list B) :=
  match l with [] => Ok [] | a :: l => b <- f a ;; q <- each l ;; Ok (b :: q) end.
End All.
(** xAppend in a loop; the list is written to the segment when the struct is put into another one or marshalled
    (C18_new_list_written), which here is at once. *)
Definition append_all (s : strct) (f : Z) (items : list strct) : res strct :=
  match items with [] => Ok s | _ => '(s, _) <- sync_structs s f items ;; Ok s end.
(** 169-171, 232-234, 263-265. *)
Definition methodInfo (m : method) : res strct :=
  s <- New 2 ;; s <- SetString s 0 (fst m) ;; SetUint8 s 1 (snd m).
(** 160-173, 223-236. *)
Definition serviceInfo (sv : service) : res strct :=
  s <- New 2 ;; s <- SetString s 0 (fst sv) ;; items <- each methodInfo (snd sv) ;; append_all s 1 items.
(** 149-176. *)
Definition packageInfo (p : package) : res strct :=
  s <- New 2 ;; s <- SetString s 0 (fst p) ;; items <- each serviceInfo (snd p) ;; append_all s 1 items.

(** ListServices, service.go:95-182; [access] is the answer of checkAccess, [infos] what Handlers() yields. *)
Definition ListServices (access : bool) (infos : list info) (req : bytes) : res bytes :=
  if access then
    r <- New 1 ;; _ <- Unmarshal r req ;;
    resp <- New 1 ;;
    items <- each packageInfo (in_order (collect infos)) ;;
    resp <- append_all resp 0 items ;;
    '(_, b) <- Marshal resp ;; Ok b
  else Err.
(** The loop 205-212. *)
Definition methods_of (infos : list info) (pkg svc : bytes) : list method :=
  flat_map (fun i => let '(p, s, c, t) := i in if bytes_eqb p pkg && bytes_eqb s svc then [(c, t)] else []) infos.
(** GetServiceInfo, service.go:185-241. *)
Definition GetServiceInfo (access : bool) (infos : list info) (req : bytes) : res bytes :=
  if access then
    r <- New 2 ;; r <- Unmarshal r req ;;
    pkg <- GetString r 0 ;; svc <- GetString r 1 ;;
    resp <- New 2 ;;
    match methods_of infos pkg svc with
    | [] => resp <- SetBool resp 1 false ;; '(_, b) <- Marshal resp ;; Ok b
    | ms =>
      resp <- SetBool resp 1 true ;;
      c <- serviceInfo (svc, sorted ms) ;;
      resp <- SetNestedStruct resp 0 (Some c) ;;
      '(_, b) <- Marshal resp ;; Ok b
    end
  else Err.
(** GetMethodInfo, service.go:244-273. *)
Definition GetMethodInfo (access : bool) (infos : list info) (req : bytes) : res bytes :=
  if access then
    r <- New 3 ;; r <- Unmarshal r req ;;
    pkg <- GetString r 0 ;; svc <- GetString r 1 ;; name <- GetString r 2 ;;
    resp <- New 2 ;;
    match find (fun i => let '(p, s, c, _) := i in bytes_eqb p pkg && bytes_eqb s svc && bytes_eqb c name) infos with
    | Some (_, _, c, t) =>
      resp <- SetBool resp 1 true ;;
      m <- methodInfo (c, t) ;;
      resp <- SetNestedStruct resp 0 (Some m) ;;
      '(_, b) <- Marshal resp ;; Ok b
    | None => resp <- SetBool resp 1 false ;; '(_, b) <- Marshal resp ;; Ok b
    end
  else Err.

(** ** The client *)
(** The requests, client.go:17-21, 51-55, 79-83. *)
Definition list_request : res bytes := s <- New 1 ;; '(_, b) <- Marshal s ;; Ok b.
Definition service_request (pkg svc : bytes) : res bytes :=
  s <- New 2 ;; s <- SetString s 0 pkg ;; s <- SetString s 1 svc ;; '(_, b) <- Marshal s ;; Ok b.
Definition method_request (pkg svc name : bytes) : res bytes :=
  s <- New 3 ;; s <- SetString s 0 pkg ;; s <- SetString s 1 svc ;; s <- SetString s 2 name ;; '(_, b) <- Marshal s ;; Ok b.
(** What a caller reads with the getters of MethodInfo, ServiceInfo and PackageInfo. *)
Definition read_method (s : strct) : res method := c <- GetString s 0 ;; t <- GetUint8 s 1 ;; Ok (c, t).
Definition read_service (s : strct) : res service :=
  n <- GetString s 0 ;; items <- get_structs s 1 2 ;; ms <- each read_method items ;; Ok (n, ms).
Definition read_package (s : strct) : res package :=
  n <- GetString s 0 ;; items <- get_structs s 1 2 ;; ss <- each read_service items ;; Ok (n, ss).
(** The rest of ListServices, client.go:28-39. *)
Definition list_response (resp : bytes) : res (list package) :=
  s <- New 1 ;; s <- Unmarshal s resp ;; items <- get_structs s 0 2 ;; each read_package items.
(** The rest of GetServiceInfo and of GetMethodInfo, client.go:62-67, 90-95: the struct (None: there is none) and found. *)
Definition info_response {A} (read : strct -> res A) (resp : bytes) : res (option A * bool) :=
  s <- New 2 ;; s <- Unmarshal s resp ;;
  o <- GetNestedStruct s 0 2 ;; found <- GetBool s 1 ;;
  match o with None => Ok (None, found) | Some c => x <- read c ;; Ok (Some x, found) end.

(** Whole calls; the connection carries the bytes of a request and of a response unchanged. *)
Definition list_services (access : bool) (infos : list info) : res (list package) :=
  q <- list_request ;; b <- ListServices access infos q ;; list_response b.
Definition get_service_info (access : bool) (infos : list info) (pkg svc : bytes) : res (option service * bool) :=
  q <- service_request pkg svc ;; b <- GetServiceInfo access infos q ;; info_response read_service b.
Definition get_method_info (access : bool) (infos : list info) (pkg svc name : bytes) : res (option method * bool) :=
  q <- method_request pkg svc name ;; b <- GetMethodInfo access infos q ;; info_response read_method b.
