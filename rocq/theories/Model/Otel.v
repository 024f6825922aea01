(** The telemetry interceptors and their trace rules, rpc/interceptor/otel/otel.go and config.go. *)

From Verif.Model Require Import Base SrvSession.
Local Open Scope Z_scope.

(** Go errors as the chain that errors.Is and errors.As go through: an error without a cause (whether it is
    context.DeadlineExceeded, context.Canceled), an Error of the packages rpc/errors and languages/go/errors with its
    category (both are the Error of gostdlib, but their categories are two Go types), and a wrapping of fmt.Errorf. *)
Inductive err :=
| EPlain (deadline canceled : bool)
| ERpc (category : Z) (e : err)
| ELang (category : Z) (e : err)
| EWrap (e : err).
(** What errCodeFromError (rpc/server/handlers.go:380-402) sees: errors.As gives the first Error of the chain, whose category
    counts if it is one of rpc/errors; errors.Is asks the whole chain. *)
Fixpoint first_cat (e : err) : option Z :=
  match e with EPlain _ _ => None | ERpc c _ => Some c | ELang _ _ => None | EWrap e => first_cat e end.
Fixpoint cause (e : err) : bool * bool :=
  match e with EPlain d c => (d, c) | ERpc _ e | ELang _ e | EWrap e => cause e end.
Definition seen (e : err) : gerr := mkGE (first_cat e) (fst (cause e)) (snd (cause e)).
Definition code_of (e : option err) : Z := errCode (match e with Some e => Some (seen e) | None => None end).

(** What the interceptor does, in order: starts and ends a span with a name, records a value in an instrument of a method, calls the
    next handler with a context (with or without the new span) and an argument. *)
Inductive status := SOk | SError.
Inductive tele (A : Type) :=
| TSpan (server : bool) (name : bytes) | TEnd
| TReqSize (method : bytes) (n : Z) | TRespSize (method : bytes) (n : Z)
| TDuration (method : bytes) (s : status) | TCount (method : bytes) (s : status)
| TCall (span : bool) (arg : A).
Arguments TSpan {A}. Arguments TEnd {A}. Arguments TReqSize {A}. Arguments TRespSize {A}.
Arguments TDuration {A}. Arguments TCount {A}. Arguments TCall {A}.

(** A call's end: it returns a result and possibly an error, or panics. *)
Inductive out (R : Type) := ORet (r : R) (e : option err) | OPanic.
Arguments ORet {R}. Arguments OPanic {R}.

(** The rules, config.go:44-139.  Addresses, networks and their parsing are those of package net. *)
Section Rules.
Context {IP Net : Type} (ParseIP : bytes -> option IP) (ParseCIDR : bytes -> option Net) (Contains : Net -> IP -> bool).
(** TraceRules, config.go:44-60; Metadata is a Go map, by its entries. *)
Record rules := mkRules { r_ranges : list bytes; r_md : list (bytes * bytes); r_methods : list bytes; r_cidrs : list Net }.
(** compile, config.go:63-77. *)
Fixpoint parseAll (l : list bytes) : option (list Net) :=
  match l with
  | [] => Some []
  | c :: q => match ParseCIDR c with None => None | Some n => match parseAll q with Some r => Some (n :: r) | None => None end end
  end.
Definition compile (r : option rules) : option (option rules) :=
  match r with
  | None => Some None
  | Some r => match parseAll (r_ranges r) with
              | Some l => Some (Some (mkRules (r_ranges r) (r_md r) (r_methods r) l))
              | None => None
              end
  end.
Definition beq (a b : bytes) : bool := if list_eq_dec Z.eq_dec a b then true else false.
(** matchesIP, config.go:80-96. *)
Definition matchesIP (r : rules) (ip : bytes) : bool :=
  if len (r_cidrs r) =? 0 then false
  else match ParseIP ip with None => false | Some a => existsb (fun n => Contains n a) (r_cidrs r) end.
Fixpoint lookupKey (k : bytes) (m : list (bytes * bytes)) : option bytes :=
  match m with [] => None | (a, v) :: q => if beq a k then Some v else lookupKey k q end.
(** matchesMetadata, config.go:99-113; 42 is the star. *)
Definition matchesMetadata (r : rules) (md : list (bytes * bytes)) : bool :=
  if len (r_md r) =? 0 then false
  else existsb (fun kv => match lookupKey (fst kv) (r_md r) with Some want => beq want [42] || beq want (snd kv) | None => false end) md.
(** strings.HasSuffix. *)
Definition HasSuffix (s t : bytes) : bool := (len t <=? len s) && beq (drop (len s - len t) s) t.
(** matchesMethod, config.go:116-131. *)
Definition matchesMethod (r : rules) (fullMethod : bytes) : bool :=
  if len (r_methods r) =? 0 then false
  else existsb (fun m => beq m fullMethod || HasSuffix fullMethod (47 :: m)) (r_methods r).
(** ShouldTrace, config.go:134-140. *)
Definition ShouldTrace (r : option rules) (ip method : bytes) (md : list (bytes * bytes)) : bool :=
  match r with None => false | Some r => matchesIP r ip || matchesMethod r method || matchesMetadata r md end.
End Rules.

Section Otel.
Context {Net : Type} (ParseCIDR : bytes -> option Net).
(** gostdlib's errors.E is not in the tree: [keeps] says whether it gives back a message that is an Error already as it is. *)
Variable keeps : bool.
Definition is_Error (e : err) : bool := match e with ERpc _ _ | ELang _ _ => true | _ => false end.
(** languages/go/errors/errors.go:98-107. *)
Definition E (category : Z) (e : err) : err := if keeps && is_Error e then e else ELang category e.
(** languages/go/errors/errors.go:27. *)
Definition CatInternal : Z := 2.

(** Config, config.go:14-31 without the MeterProvider. *)
Record config := mkCfg { c_tracing : bool; c_metrics : bool; c_sizes : bool; c_rules : option (rules (Net := Net)) }.
(** DefaultConfig, config.go:34-40. *)
Definition DefaultConfig : config := mkCfg true true true None.
(** Interceptor, otel.go:17-31: which instruments are not nil (duration, count, request size, response size). *)
Record side := mkSide { s_duration : bool; s_count : bool; s_req : bool; s_resp : bool }.
Record inter := mkI { i_cfg : config; i_server : side; i_client : side }.
Definition none : side := mkSide false false false false.

(** initMetrics, otel.go:54-136.  [ok n] says whether the n-th instrument can be made. *)
Definition initSide (ok : nat -> bool) (n : nat) (sizes : bool) : option (side * nat) :=
  if ok n then if ok (S n) then
    if sizes then if ok (S (S n)) then if ok (S (S (S n))) then Some (mkSide true true true true, 4 + n)%nat else None else None
    else Some (mkSide true true false false, 2 + n)%nat
  else None else None.
Definition initMetrics (ok : nat -> bool) (cfg : config) : option inter :=
  match initSide ok 0 (c_sizes cfg) with
  | Some (s, n) => match initSide ok n (c_sizes cfg) with Some (c, _) => Some (mkI cfg s c) | None => None end
  | None => None
  end.
(** New, otel.go:34-51; compile changes the rules that the configuration points to. *)
Definition New (ok : nat -> bool) (cfg : config) : option inter :=
  match (if c_metrics cfg then initMetrics ok cfg else Some (mkI cfg none none)) with
  | Some i =>
    match compile ParseCIDR (c_rules cfg) with
    | Some r => Some (mkI (mkCfg (c_tracing cfg) (c_metrics cfg) (c_sizes cfg) r) (i_server i) (i_client i))
    | None => None
    end
  | None => None
  end.

(** Record and Add on an instrument: nil panics. *)
Definition record {A} (instrument : bool) (t : tele A) : option (list (tele A)) := if instrument then Some [t] else None.

(** The block "Record metrics", otel.go:172-195, 231-247, 289-312, 345-361. *)
Definition metrics {A} (i : inter) (s : side) (method : bytes) (e : option err) (size : option Z) : option (list (tele A)) :=
  if c_metrics (i_cfg i) then
    let st := match e with Some _ => SError | None => SOk end in
    match record (s_duration s) (TDuration method st), record (s_count s) (TCount method st) with
    | Some a, Some b =>
      match size with
      | Some n => if c_sizes (i_cfg i) && s_resp s then Some (a ++ b ++ [TRespSize method n]) else Some (a ++ b)
      | None => Some (a ++ b)
      end
    | _, _ => None
    end
  else Some [].
(** The start of the span and its deferred End, otel.go:145-163, 210-229, 265-285, 328-342.  The attributes are left out. *)
Definition traced {A R} (i : inter) (server : bool) (name : bytes) (body : list (tele A) * out R) : list (tele A) * out R :=
  if c_tracing (i_cfg i) then (TSpan server name :: fst body ++ [TEnd], snd body) else body.

(** "/" between package, service and method, otel.go:141, 207. *)
Definition full (pkg svc m : bytes) : bytes := pkg ++ [47] ++ svc ++ [47] ++ m.

(** UnaryServerInterceptor, otel.go:139-203. *)
Definition UnaryServer (i : inter) (pkg svc m : bytes) (req : bytes) (handler : bytes -> out bytes) : list (tele bytes) * out bytes :=
  let method := full pkg svc m in
  traced i true method
    (let pre := if c_metrics (i_cfg i) && c_sizes (i_cfg i) && s_req (i_server i) then [TReqSize method (len req)] else [] in
     let log := pre ++ [TCall (c_tracing (i_cfg i)) req] in
     match handler req with
     | OPanic => (log, OPanic)
     | ORet resp e =>
       match metrics i (i_server i) method e (Some (len resp)) with
       | None => (log, OPanic)
       | Some ts => (log ++ ts, ORet resp (match e with Some e => Some (E CatInternal e) | None => None end))
       end
     end).
(** StreamServerInterceptor, otel.go:206-261; the stream is handed on as it is. *)
Definition StreamServer {S} (i : inter) (pkg svc m : bytes) (stream : S) (handler : S -> out unit) : list (tele S) * out unit :=
  let method := full pkg svc m in
  traced i true method
    (let log := [TCall (c_tracing (i_cfg i)) stream] in
     match handler stream with
     | OPanic => (log, OPanic)
     | ORet r e =>
       match metrics i (i_server i) method e None with
       | None => (log, OPanic)
       | Some ts => (log ++ ts, ORet r (match e with Some e => Some (E CatInternal e) | None => None end))
       end
     end).
(** UnaryClientInterceptor, otel.go:264-325. *)
Definition UnaryClient (i : inter) (method : bytes) (req : bytes) (invoker : bytes -> out bytes) : list (tele bytes) * out bytes :=
  traced i false method
    (let pre := if c_metrics (i_cfg i) && c_sizes (i_cfg i) && s_req (i_client i) then [TReqSize method (len req)] else [] in
     let log := pre ++ [TCall (c_tracing (i_cfg i)) req] in
     match invoker req with
     | OPanic => (log, OPanic)
     | ORet resp e =>
       match metrics i (i_client i) method e (Some (len resp)) with
       | None => (log, OPanic)
       | Some ts => (log ++ ts, ORet resp (match e with Some e => Some (E CatInternal e) | None => None end))
       end
     end).
(** StreamClientInterceptor, otel.go:328-375; None is the nil stream. *)
Definition StreamClient {S} (i : inter) (method : bytes) (streamer : unit -> out (option S)) : list (tele unit) * out (option S) :=
  traced i false method
    (let log := [TCall (c_tracing (i_cfg i)) tt] in
     match streamer tt with
     | OPanic => (log, OPanic)
     | ORet s e =>
       match metrics i (i_client i) method e None with
       | None => (log, OPanic)
       | Some ts => (log ++ ts, match e with Some e => ORet None (Some (E CatInternal e)) | None => ORet s None end)
       end
     end).
End Otel.
