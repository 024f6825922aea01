(** What the client and a handler can count on from one session of the server. *)
From Coq Require Import ZArith List Bool.
Import ListNotations.
From Verif.Model Require Import Base SrvSession.
Local Open Scope nat_scope.

(** What is sent to the client, in order. *)
Definition sent (s : st) : list wmsg := map snd (x_wire s).
(** The answer to a request: under its id. *)
Definition answer (c : pay * bytes) : wmsg := WData (p_req (fst c)) (snd c) false.
(** A call of the handler that succeeded. *)
Definition good (c : pay * bytes) : pay * (bytes + gerr) := (fst c, inl (snd c)).
(** Why a sync session was closed with the code: the client closed it and each request was answered; the last request failed; the
    answer to the last one could not be sent, because it is too long or the transport said so. *)
Definition close_reason (m : Z) (es : list event) (s : st) (done : list (pay * bytes)) (rest : list (pay * (bytes + gerr))) (code : Z) : Prop :=
  (rest = [] /\ code = 0%Z /\ x_qclosed s = true /\ x_arrived s = map fst done) \/
  (exists p e, rest = [(p, inr e)] /\ code = errCode (Some e)) \/
  (exists p b e, rest = [(p, inl b)] /\ code = errCode (Some e) /\
     ((0 < m < Z.of_nat (length b))%Z /\ e = cat 8 \/ In (EStep (Some e)) es)).

(** What a handler sees of the payloads: their data; a last one without data is only a mark. *)
Definition yields (l : list pay) : list bytes :=
  map p_data (filter (fun p => negb (p_end p && match p_data p with [] => true | _ => false end)) l).
(** v is the last value that the calls give to k. *)
Definition last_bound (k : bytes) (v : list bytes) (l : MD) : Prop :=
  exists a b, l = a ++ (k, v) :: b /\ ~ In k (map fst b).
Definition lookup (k : bytes) (t : MD) : option (list bytes) :=
  match find (fun p => if list_eq_dec Z.eq_dec (fst p) k then true else false) t with Some p => Some (snd p) | None => None end.
Definition trailer_of (md : option MD) (sets : list MD) : Prop :=
  match md with
  | None => sets = []
  | Some t => forall k v, lookup k t = Some v <-> last_bound k v (concat sets)
  end.
Definition is_done (x : sender) : Prop := exists r, s_pc x = SDone r.
(** A Send that has not yet looked whether the stream is closed, or is over. *)
Definition not_past (x : sender) : Prop := s_pc x = SCheck \/ is_done x.
