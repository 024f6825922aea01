(** What telemetry may and may not do to the calls it looks at. *)
From Verif.Model Require Import Base SrvSession.
From Verif.Model Require Export Otel.
Local Open Scope Z_scope.

(** e is in the chain of e': errors.Is finds in e' all that it finds in e. *)
Inductive within (e : err) : err -> Prop :=
| w_here : within e e
| w_rpc c e' : within e e' -> within e (ERpc c e')
| w_lang c e' : within e e' -> within e (ELang c e')
| w_wrap e' : within e e' -> within e (EWrap e').
(** The caller gets what the handler gave: its result ([after] an error, the client's stream is nil), an error exactly if there was one, with
    the handler's error within, a panic if it panicked. *)
Definition passed {R} (after : R -> R) (o o' : out R) : Prop :=
  match o with
  | OPanic => o' = OPanic
  | ORet r None => o' = ORet r None
  | ORet r (Some e) => exists e', o' = ORet (after r) (Some e') /\ within e e'
  end.

Section Logs.
Context {A : Type}.
Definition is_call (t : tele A) : bool := match t with TCall _ _ => true | _ => false end.
Definition is_span (t : tele A) : bool := match t with TSpan _ _ | TEnd => true | _ => false end.
Definition is_count (t : tele A) : bool := match t with TCount _ _ => true | _ => false end.
Definition is_duration (t : tele A) : bool := match t with TDuration _ _ => true | _ => false end.
Definition is_reqsize (t : tele A) : bool := match t with TReqSize _ _ => true | _ => false end.
Definition is_respsize (t : tele A) : bool := match t with TRespSize _ _ => true | _ => false end.
(** One call of the handler, with this argument and in this context. *)
Definition called_once (span : bool) (a : A) (log : list (tele A)) : Prop := filter is_call log = [TCall span a].
(** One span around everything, or none. *)
Definition one_span (server : bool) (name : bytes) (log : list (tele A)) : Prop :=
  exists mid, log = TSpan server name :: mid ++ [TEnd] /\ filter is_span mid = [].
Definition no_span (log : list (tele A)) : Prop := filter is_span log = [].
(** The status of a call that came to an end. *)
Definition status_of {R} (o : out R) : option status :=
  match o with ORet _ None => Some SOk | ORet _ (Some _) => Some SError | OPanic => None end.
(** Counted and timed once, with the status; not at all if it did not return. *)
Definition counted {R} (method : bytes) (o : out R) (log : list (tele A)) : Prop :=
  filter is_count log = match status_of o with Some s => [TCount method s] | None => [] end /\
  filter is_duration log = match status_of o with Some s => [TDuration method s] | None => [] end.
Definition not_counted (log : list (tele A)) : Prop := filter is_count log = [] /\ filter is_duration log = [].
End Logs.

(** The value of the counter of a method and status after some calls. *)
Definition st_eqb (a b : status) : bool := match a, b with SOk, SOk | SError, SError => true | _, _ => false end.
Definition counter {A} (m : bytes) (s : status) (log : list (tele A)) : nat :=
  length (filter (fun t => match t with TCount m' s' => beq m' m && st_eqb s' s | _ => false end) log).
(** A call: package, service, method, request and what the handler does with it. *)
Record call := mkCall { k_pkg : bytes; k_svc : bytes; k_m : bytes; k_req : bytes; k_out : out bytes }.
Definition ends_so (m : bytes) (s : status) (k : call) : bool :=
  beq (full (k_pkg k) (k_svc k) (k_m k)) m && match status_of (k_out k) with Some s' => st_eqb s' s | None => false end.

Section Rules.
Context {IP Net : Type} (ParseIP : bytes -> option IP) (ParseCIDR : bytes -> option Net) (Contains : Net -> IP -> bool).
(** A request matches the rules: its address is in a range, its method is named in full or by what follows a slash, or
    it has a metadata entry that is asked for, with the value or with a star for any. *)
Definition rule_ip (r : rules (Net := Net)) (ip : bytes) : Prop :=
  exists a c n, ParseIP ip = Some a /\ In c (r_ranges r) /\ ParseCIDR c = Some n /\ Contains n a = true.
Definition rule_method (r : rules (Net := Net)) (method : bytes) : Prop :=
  exists m, In m (r_methods r) /\ (method = m \/ exists p, method = p ++ [47] ++ m).
Definition rule_md (r : rules (Net := Net)) (md : list (bytes * bytes)) : Prop :=
  exists k v w, In (k, v) md /\ In (k, w) (r_md r) /\ (w = [42] \/ w = v).
Definition matches (r : rules (Net := Net)) (ip method : bytes) (md : list (bytes * bytes)) : Prop :=
  rule_ip r ip \/ rule_method r method \/ rule_md r md.
End Rules.
