(** Per-call credentials: rpc/credentials/credentials.go and Conn.applyCredentials,
    rpc/client/client.go:944-980, with the four call constructors (1013-1158) that use it. *)
From Verif.Model Require Import Base Registry Metadata.

Section Creds.
Variable ToLower : bytes -> bytes.

(** PerRPCCredentials, client.go:205-217, with the implementations of credentials.go. *)
Inductive creds :=
(* TokenCredentials 10-39, TokenSourceCredentials 53-88, APIKeyCredentials 92-116, or any
   other provider: a name, whether it requires security, and what it returns for a URI *)
| Provider (name : Z) (req : bool) (get : bytes -> res (list (bytes * bytes)))
(* CompositeCredentials 120-161 *)
| Composite (l : list creds).

(** RequireTransportSecurity; for a composite the flag computed by NewCompositeCredentials, 127-139. *)
Fixpoint requires (c : creds) : bool :=
  match c with
  | Provider _ r _ => r
  | Composite l => existsb requires l
  end.

(** What the outside world sees. *)
Inductive cevent :=
| Asked (name : Z)                              (* GetRequestMetadata of a provider was called *)
| Opened (secure : bool) (md : list (bytes * bytes)).  (* an Open message with this metadata was written *)

(** GetRequestMetadata, with the providers asked; 142-155 for a composite. *)
Fixpoint GetRequestMetadata (c : creds) (uri : bytes) : list cevent * res (list (bytes * bytes)) :=
  match c with
  | Provider n _ get => ([Asked n], get uri)
  | Composite l =>
    (fix go (l : list creds) (result : list (bytes * bytes)) : list cevent * res (list (bytes * bytes)) :=
       match l with
       | [] => ([], Ok result)
       | c :: l =>
         let '(ev, r) := GetRequestMetadata c uri in
         match r with
         | Ok md =>
           let '(ev', r') := go l (fold_left (fun a kv => md_put a (fst kv) (snd kv)) md result) in (ev ++ ev', r')
         | Err => (ev, Err)
         | Panic => (ev, Panic)
         | Hang => (ev, Hang)
         end
       end) l []
  end.

(** Metadata maps are shared: an MD value is a reference.  The heap is a list of maps, a
    reference an index into it. *)
Definition heap := list MD.
Definition deref (h : heap) (a : nat) : MD := nth a h [].
Fixpoint write (h : heap) (a : nat) (md : MD) : heap :=
  match h, a with
  | [], _ => []
  | _ :: h, O => md :: h
  | x :: h, S a => x :: write h a md
  end.

(** One call: the connection's secure flag, WithMetadata, the context's metadata,
    WithPerRPCCredentials, the URI, and whether waitForReady (1028) and openSession up to its
    write (808-855) get through. *)
Record call := mkCall {
  ca_secure : bool; ca_md : option nat; ca_ctx : option nat; ca_creds : option creds;
  ca_uri : bytes; ca_ready : bool; ca_open : bool }.

(** applyCredentials, 946-980: the reference of the metadata to send, None for nil. *)
Definition applyCredentials (h : heap) (c : call) : heap * list cevent * res (option nat) :=
  let md := match ca_md c with Some a => Some a | None => ca_ctx c end in
  match ca_creds c with
  | None => (h, [], Ok md)
  | Some cr =>
    if requires cr && negb (ca_secure c) then (h, [], Err)
    else
      let '(ev, r) := GetRequestMetadata cr (ca_uri c) in
      match r with
      | Ok credMD =>
        match credMD with
        | [] => (h, ev, Ok md)
        | _ =>
          (* 970: a new map if there is none *)
          let '(h, a) := match md with Some a => (h, a) | None => (h ++ [[]], length h) end in
          (write h a (fold_left (fun m kv => Set_ ToLower m (fst kv) (snd kv)) credMD (deref h a)), ev, Ok (Some a))
        end
      | _ => (h, ev, Err)
      end
  end.

(** Sync, BiDir, Send and Recv up to the write of the Open message. *)
Definition do_call (h : heap) (c : call) : heap * list cevent * bool :=
  if negb (ca_ready c) then (h, [], false)
  else
    let '(h, ev, r) := applyCredentials h c in
    match r with
    | Ok md =>
      if negb (ca_open c) then (h, ev, false)
      else (h, ev ++ [Opened (ca_secure c) (ToMsgs match md with Some a => deref h a | None => [] end)], true)
    | _ => (h, ev, false)
    end.

(** Any number of calls, one after the other. *)
Fixpoint do_calls (h : heap) (cs : list call) : heap * list cevent :=
  match cs with
  | [] => (h, [])
  | c :: cs => let '(h, ev, _) := do_call h c in let '(h, ev') := do_calls h cs in (h, ev ++ ev')
  end.
End Creds.
