(** What a reader can ask of a struct, the model calls that answer it, and the answer
    the abstract message prescribes. *)
From Verif.Spec Require Export History.

(** A question.  [QIn], [QAt], [QAny] and [QAnyAt] step into a nested struct, an item of
    a struct list, an Any value and an item of a list of Any (read with a mapping of [n]
    fields) and ask there. *)
Inductive query :=
| QHas (f : Z)                                   (* HasField *)
| QScalar (f : Z) (k : kind)                     (* GetBool, GetInt8, ..., GetFloat64 *)
| QBytes (f : Z)                                 (* GetBytes, GetString *)
| QBools (f : Z)                                 (* GetListBools(..).Slice() *)
| QNums (f : Z) (k : kind)                       (* GetListNumbers(..).Slice() *)
| QBlobs (f : Z)                                 (* GetListStrings/GetListBytes(..).Slice() *)
| QLen (f : Z) (n : nat)                         (* GetListStructs(..).Len() *)
| QAnyRaw (f : Z)                                (* GetAnyRaw *)
| QAnyLen (f : Z)                                (* GetListAnyLen *)
| QAnyItem (f i : Z)                             (* GetListAnyRaw *)
| QIn (f : Z) (n : nat) (q : query)              (* GetNestedStruct, then q *)
| QAt (f : Z) (n : nat) (i : Z) (q : query)      (* GetListStructs(..).Get(i), then q *)
| QAny (f : Z) (h : bytes) (n : nat) (q : query)      (* GetAny into a fresh struct, then q *)
| QAnyAt (f i : Z) (h : bytes) (n : nat) (q : query). (* GetListAny into a fresh struct, then q *)

Inductive ans :=
| ABool (b : bool)
| ANum (z : Z)
| ABytes (b : bytes)
| ABools (l : option (list bool))    (* None is nil *)
| ANums (l : option (list Z))
| ABlobs (l : option (list bytes))
| ARaw (r : option (bytes * bytes))  (* data, type hash *)
| ANil.                              (* no nested struct to ask *)

(** ** The calls *)
Fixpoint answer (s : strct) (q : query) : res ans :=
  match q with
  | QHas f => b <- HasField s f ;; Ok (ABool b)
  | QScalar f k => v <- get_scalar s f k ;; Ok (ANum v)
  | QBytes f => b <- GetBytes s f ;; Ok (ABytes b)
  | QBools f => l <- get_bools s f ;; Ok (ABools l)
  | QNums f k =>
      o <- get_numbers s f k ;;
      match o with
      | None => Ok (ANums None)
      | Some nu => l <- nu_slice k nu ;; Ok (ANums (Some l))
      end
  | QBlobs f => l <- get_blobs s f ;; Ok (ABlobs l)
  | QLen f n => l <- get_structs s f n ;; Ok (ANum (len l))
  | QAnyRaw f => r <- GetAnyRaw s f ;; Ok (ARaw r)
  | QAnyLen f => n <- GetListAnyLen s f ;; Ok (ANum n)
  | QAnyItem f i => r <- GetListAnyRaw s f i ;; Ok (ARaw r)
  | QIn f n q =>
      o <- GetNestedStruct s f n ;;
      match o with None => Ok ANil | Some c => answer c q end
  | QAt f n i q => l <- get_structs s f n ;; c <- index l i ;; answer c q
  | QAny f h n q => t <- New n ;; c <- GetAny s f h t ;; answer c q
  | QAnyAt f i h n q => t <- New n ;; c <- GetListAny s f i h t ;; answer c q
  end.

(** ** The prescribed answers.  [expects n m q r]: a reader whose mapping has [n] fields
    and who asks q of the message m must get r.  Nothing is prescribed when the question
    does not fit the type of the field.  [reads rule] is the same with another rule for the
    items of a string or bytes list. *)

(** The field as a reader with n fields sees it. *)
Definition seen (n : nat) (m : msg) (f : Z) : option value :=
  if (0 <=? f) && (f <? Z.of_nat n) then flook f m else None.

(** An encoded message, as carried by an Any. *)
Definition carries (d : bytes) (m : msg) : Prop :=
  exists g, 0 <= g < 2 ^ 16 /\ d = wire_struct g m /\ valid_msg m /\ fits 0 m.

(** The zero padding behind the items of a string list can be read as one more empty
    item, so answers are prescribed only for lists with less than four bytes of it. *)
Definition short_pad (l : list bytes) : Prop := pad_len (len (concat (map blob l))) < 4.

Fixpoint reads (rule : list bytes -> res ans -> Prop) (n : nat) (m : msg) (q : query) (r : res ans) : Prop :=
  match q with
  | QHas f => 0 <= f /\ r = Ok (ABool (match seen n m f with Some _ => true | None => false end))
  | QScalar f k => 0 <= f /\
      match seen n m f with
      | None => r = Ok (ANum 0)
      | Some (VScalar k' v) => k' = k /\ r = Ok (ANum v)
      | _ => False
      end
  | QBytes f => 0 <= f /\
      match seen n m f with
      | None => r = Ok (ABytes [])
      | Some (VBytes _ b) => r = Ok (ABytes b)
      | _ => False
      end
  | QBools f => 0 <= f /\
      match seen n m f with
      | None => r = Ok (ABools None)
      | Some (VBools l) => r = Ok (ABools (Some l))
      | _ => False
      end
  | QNums f k => 0 <= f /\
      match seen n m f with
      | None => r = Ok (ANums None)
      | Some (VNums k' l) => k' = k /\ r = Ok (ANums (Some l))
      | _ => False
      end
  | QBlobs f => 0 <= f /\
      match seen n m f with
      | None => r = Ok (ABlobs None)
      | Some (VBlobs _ l) => rule l r
      | _ => False
      end
  | QLen f _ => 0 <= f /\
      match seen n m f with
      | None => r = Ok (ANum 0)
      | Some (VStructs l) => r = Ok (ANum (len l))
      | _ => False
      end
  | QAnyRaw f => 0 <= f /\
      match seen n m f with
      | None => r = Ok (ARaw None)
      | Some (VAny h d) => r = Ok (ARaw (Some (d, h)))
      | _ => False
      end
  | QAnyLen f => 0 <= f /\
      match seen n m f with
      | None => r = Ok (ANum 0)
      | Some (VAnys l) => r = Ok (ANum (len l))
      | _ => False
      end
  | QAnyItem f i => 0 <= f /\
      match seen n m f with
      | None => r = Ok (ARaw None)
      | Some (VAnys l) =>
          r = Ok (ARaw (if i <? 0 then None
                        else match nth_error l (Z.to_nat i) with
                             | Some (h, d) => Some (d, h)
                             | None => None
                             end))
      | _ => False
      end
  | QIn f n' q => 0 <= f /\
      match seen n m f with
      | None => r = Ok ANil
      | Some (VStruct c) => reads rule n' c q r
      | _ => False
      end
  | QAt f n' i q => 0 <= f /\ 0 <= i /\
      match seen n m f with
      | Some (VStructs l) =>
          match nth_error l (Z.to_nat i) with
          | Some c => reads rule n' c q r
          | None => r = Panic
          end
      | None => r = Panic
      | _ => False
      end
  | QAny f h n' q => 0 <= f /\
      match seen n m f with
      | None => r = Err
      | Some (VAny h' d) => (h' <> h /\ r = Err) \/ (h' = h /\ exists c, carries d c /\ reads rule n' c q r)
      | _ => False
      end
  | QAnyAt f i h n' q => 0 <= f /\ 0 <= i /\
      match seen n m f with
      | None => r = Err
      | Some (VAnys l) =>
          match nth_error l (Z.to_nat i) with
          | None => r = Err
          | Some (h', d) => (h' <> h /\ r = Err) \/ (h' = h /\ exists c, carries d c /\ reads rule n' c q r)
          end
      | _ => False
      end
  end.

Definition expects : nat -> msg -> query -> res ans -> Prop :=
  reads (fun l r => short_pad l /\ r = Ok (ABlobs (Some l))).
(** The answers the code really gives: a string or bytes list with four or more bytes of
    padding is read with one empty item too many. *)
Definition actual_blobs (l : list bytes) : list bytes :=
  l ++ if 4 <=? pad_len (len (concat (map blob l))) then [[]] else [].
Definition actual : nat -> msg -> query -> res ans -> Prop :=
  reads (fun l r => r = Ok (ABlobs (Some (actual_blobs l)))).
