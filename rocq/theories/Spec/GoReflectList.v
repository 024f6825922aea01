(** Lists of Go reflection as sequences of cells, and what NewField should give. *)
From Verif.Spec Require Export GoReflect.
From Verif.Model Require Export GoReflectList.

(** The values a list may hold, and the Value that Get gives for them. *)
Definition element (k : lkind) (v : rvalue) : Prop :=
  match k with
  | LKBools => exists b, v = RBool b
  | LKNums k => exists z, v = RNum k z
  | LKBytes => exists b, v = RBytes b
  | LKStrings => exists b, v = RStr b
  | LKStructs fs => exists h, v = RStruct h fs
  end.

(** Lists that are cells of a fixed number; copies share their cells. *)
Section Cells.
Variable acc : lkind -> rvalue -> option rvalue.
Record cells := mkC { c_cells : list (list rvalue); c_live : list (lkind * nat) }.
Definition cget (c : cells) (j : nat) : option (list rvalue) :=
  match nth_error c.(c_live) j with Some (_, g) => nth_error c.(c_cells) g | None => None end.
Definition cstep (c : cells) (o : rlop) : cells :=
  match o with
  | MkList k items _ => mkC (c.(c_cells) ++ [items]) (c.(c_live) ++ [(k, length c.(c_cells))])
  | CopyList j => match nth_error c.(c_live) j with Some x => mkC c.(c_cells) (c.(c_live) ++ [x]) | None => c end
  | SetItem j i v => match nth_error c.(c_live) j with
                  | Some (k, g) => match acc k v, nth_error c.(c_cells) g with
                                   | Some e, Some l => if (0 <=? i) && (i <? Z.of_nat (length l))
                                                       then mkC (putAt c.(c_cells) g (putAt l (Z.to_nat i) e)) c.(c_live) else c
                                   | _, _ => c
                                   end
                  | None => c
                  end
  | AppendItem _ _ => c            (* Append does nothing *)
  end.
Definition crun (ops : list rlop) : cells := fold_left cstep ops (mkC [] []).
End Cells.

(** [v] is a new value for the field d: it has its type, is empty, and a struct or a list of structs has the fields of the
    type of the field. *)
Definition new_value (d : fdesc) (v : rvalue) : Prop :=
  has_type v (fd_ty d) /\
  match v with
  | RBool b => b = false
  | RNum _ z | REnum _ z _ => z = 0
  | RBytes b => b = None
  | RStr b => b = []
  | RStruct h fs => fd_child d = Some fs /\ reached (length fs) (h_s h) []
  | RList (RBools l) => l = []
  | RList (RNums _ l) => l = []
  | RList (RBlobs _ l) => l = []
  | RList (RStructs l fs) => l = [] /\ fd_child d = Some fs
  end.
