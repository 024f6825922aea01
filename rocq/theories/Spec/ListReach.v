(** The histories of a struct with list objects. *)
From Verif.Model Require Export ListHeap.
From Verif.Spec Require Export Reach.

(** Which fields are lists, and of what. *)
Definition schema := Z -> option lty.
Definition schema_ok (n : nat) (sch : schema) : Prop :=
  forall f t, sch f = Some t -> 0 <= f < Z.of_nat n /\ f < 2 ^ 16 /\ t <> LNums KBool.
(** A message of that type. *)
Definition typed_msg (sch : schema) (m : msg) : Prop :=
  forall f t v, sch f = Some t -> flook f m = Some v -> lty_of v = Some t.

(** The encoded lists that are still to be written have room below 4 GiB. *)
Definition content_size (c : content) : Z :=
  match c with
  | CBools l _ => 15 + (len l + 7) / 8
  | CNums _ nu => 8 + len nu.(nu_data)
  | CBlobs _ l _ => 15 + len (concat (map blob l))
  end.
Definition pending_size (h : hstruct) (l : list (Z * nat)) : Z :=
  fold_right Z.add 0
    (map (fun p => match nth_error h.(h_objs) (snd p) with Some o => content_size o.(lo_c) | None => 0 end) l).
Definition room (h : hstruct) : Prop := len h.(h_s).(st_data) + pending_size h h.(h_dirty) < 2 ^ 32.

(** The message after the dirty objects of a list of registrations are written. *)
Fixpoint flush (objs : list lobj) (l : list (Z * nat)) (m : msg) : msg :=
  match l with
  | [] => m
  | (_, i) :: r =>
      match nth_error objs i with
      | Some o =>
          match is_dirty o.(lo_c), read_content o.(lo_c) with
          | true, Ok v => flush (set_nth i (mkL o.(lo_f) (clean o.(lo_c))) objs) r (mset (list_empty v) o.(lo_f) v m)
          | _, _ => flush objs r m
          end
      | None => flush objs r m
      end
  end.

(** The calls of a program; i names the list object the call is made on. *)
Inductive call :=
| CPlain (o : op)                 (* a call that has nothing to do with the lists *)
| CList (f : Z) (i : nat)         (* the accessor of list field f, returning the object i *)
| CEdit (i : nat) (e : edit)      (* an edit of the object i *)
| CClear (f : Z)                  (* ClearField on a list field *)
| CSync (f : Z)                   (* SyncDirtyListsForField *)
| CMarshal (b : bytes).           (* Marshal, returning b *)

Definition plain (sch : schema) (o : op) : Prop :=
  o <> OMarshal /\ match op_field o with Some g => sch g = None | None => True end.

(** [hcall h m c h' m']: the call c on a struct h whose segment holds m. *)
Inductive hcall (sch : schema) (n : nat) : hstruct -> msg -> call -> hstruct -> msg -> Prop :=
| H_plain h m o s : plain sch o -> ok_op n 0 m o -> do_op h.(h_s) o = Ok s ->
    hcall sch n h m (CPlain o) (with_s h s) (apply_op m o)
| H_list h m f t h' i : sch f = Some t -> h_list h f t = Ok (h', i) -> hcall sch n h m (CList f i) h' m
| H_edit h m i e h' o : nth_error h.(h_objs) i = Some o -> edit_typed (c_type o.(lo_c)) e ->
    h_edit h i e = Ok h' -> hcall sch n h m (CEdit i e) h' m
| H_clear h m f t h' : sch f = Some t -> h_Clear h f = Ok h' -> hcall sch n h m (CClear f) h' (fdel f m)
| H_sync h m f h' : room h -> SyncDirtyListsForField h f = Ok h' ->
    hcall sch n h m (CSync f) h' (flush h.(h_objs) (filter (fun p => fst p =? f) h.(h_dirty)) m)
| H_marshal h m h' b : room h -> h_Marshal h = Ok (h', b) ->
    hcall sch n h m (CMarshal b) h' (flush h.(h_objs) h.(h_dirty) m).

Inductive hcalls (sch : schema) (n : nat) : hstruct -> msg -> list call -> hstruct -> msg -> Prop :=
| HC_nil h m : hcalls sch n h m [] h m
| HC_cons h m c h1 m1 cs h2 m2 :
    hcall sch n h m c h1 m1 -> hcalls sch n h1 m1 cs h2 m2 -> hcalls sch n h m (c :: cs) h2 m2.

(** A struct in the middle of a program: it was made or received, then used. *)
Definition hreached (sch : schema) (n : nat) (h : hstruct) (m : msg) : Prop :=
  exists s m0 cs, reached n s m0 /\ typed_msg sch m0 /\ hcalls sch n (hstart s) m0 cs h m.

(** The edits a list of calls makes through the object i. *)
Fixpoint edits_of (i : nat) (cs : list call) : list edit :=
  match cs with
  | [] => []
  | CEdit j e :: r => if Nat.eqb i j then e :: edits_of i r else edits_of i r
  | _ :: r => edits_of i r
  end.

(** What the accessor shows of a stored list: the list, except that a list of strings or
    bytes may have gained a last item (C16); and what a reader of a written list sees. *)
Definition as_read (v : value) : value :=
  match v with VBlobs b l => VBlobs b (actual_blobs l) | _ => v end.
Definition received (v : value) : value := if list_empty v then v else as_read v.

(** [reader_sees f t b v]: a reader of any type that has field f reads the list v there. *)
Definition reader_sees (f : Z) (t : lty) (b : bytes) (v : value) : Prop :=
  forall n rest, f < Z.of_nat n ->
    exists s0 r r' i, New n = Ok s0 /\ Unmarshal s0 (b ++ rest) = Ok r /\
      h_list (hstart r) f t = Ok (r', i) /\ h_read r' i = Ok v.
