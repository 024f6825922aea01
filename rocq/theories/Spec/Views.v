(** Calls on a struct in memory, and child structs that are views into their parent. *)
From Verif.Model Require Export Alias.
From Verif.Spec Require Export Reach.

(** The calls of [op] that Model/Alias.v has on memory. *)
Definition direct (o : op) : Prop :=
  match o with
  | OScalar _ _ _ | OBytes _ _ _ | OClear _ | ORead | OMarshal | ORecord _ | ODrain
  | ONested _ _ _ | ONil _ => True
  | _ => False
  end.
Definition m_do_op (h : heap) (v : vst) (o : op) : res (heap * vst) :=
  match o with
  | OScalar f k x => m_set_scalar h v f k x
  | OBytes f str b => m_SetBytes h v f str b
  | OClear f => m_removeField h v f
  | ORead => s <- ensureFieldIndexParsed (load h v) ;; Ok (h, mkV (v_sl v) s)
  | OMarshal => m_Marshal h v
  | ORecord b => Ok (h, mkV (v_sl v) (SetRecording (v_st v) b))
  | ODrain => Ok (h, mkV (v_sl v) (fst (DrainRecordedOps (v_st v))))
  | ONested f n l => c <- build n l ;; m_SetNestedStruct h v f (Some c)
  | ONil f => m_SetNestedStruct h v f None
  | _ => Err
  end.
Fixpoint m_run (h : heap) (v : vst) (l : list op) : res (heap * vst) :=
  match l with [] => Ok (h, v) | o :: r => '(h, v) <- m_do_op h v o ;; m_run h v r end.

(** [child_of h p n m f c n' p' v]: in memory h, a parent p with n fields stands for the
    message m, and GetNestedStruct of its field f, which holds the message c, has returned
    v for a type with n' fields; p' is the parent after that call. *)
Definition child_of (h : heap) (p : vst) (n : nat) (m : msg) (f : Z) (c : msg) (n' : nat)
    (p' v : vst) : Prop :=
  wf h (v_sl p) /\ reached n (load h p) m /\ seen n m f = Some (VStruct c) /\
  m_GetNestedStruct h p f n' = Ok (p', Some v).

(** The encoded size of the child. *)
Definition size (c : msg) : Z := 8 + len (wire_msg c).

(** Every call of the run leaves the encoded size as it is. *)
Fixpoint keeps_size (c : msg) (l : list op) : Prop :=
  match l with
  | [] => True
  | o :: r => size (apply_op c o) = size c /\ keeps_size (apply_op c o) r
  end.

(** Reading the struct v in memory h gives what the message m prescribes. *)
Definition reads_as (h : heap) (v : vst) (n : nat) (m : msg) : Prop :=
  forall q r, expects n m q r -> answer (load h v) q = r.
