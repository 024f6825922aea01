(** Which parts of a message are not padded to a multiple of eight bytes. *)
From Verif Require Import Spec.Message.

Definition sum (l : list Z) : Z := fold_right Z.add 0 l.

(** Bytes of number-list items and of Any contents inside a value, at any depth: the
    only parts the format does not pad. *)
Fixpoint unpadded (v : value) : Z :=
  match v with
  | VNums k l => Z.of_nat (kind_size k) * len l
  | VAny hash data => len hash + len data
  | VAnys l => sum (map (fun p => len (fst p) + len (snd p)) l)
  | VStruct m => sum (map (fun p => unpadded (snd p)) m)
  | VStructs l => sum (map (fun m => sum (map (fun p => unpadded (snd p)) m)) l)
  | _ => 0
  end.
Definition unpadded_msg (m : msg) : Z := unpadded (VStruct m).

(** No number list (at any depth) has an item count that leaves a partial word, and
    no Any holds a partial word. *)
Fixpoint whole_words (v : value) : Prop :=
  match v with
  | VNums k l => (Z.of_nat (kind_size k) * len l) mod 8 = 0
  | VAny hash data => (len hash + len data) mod 8 = 0
  | VAnys l => (fix go (l : list (bytes * bytes)) := match l with
                 | [] => True | p :: r => (len (fst p) + len (snd p)) mod 8 = 0 /\ go r end) l
  | VStruct m => (fix go (m : msg) := match m with
                 | [] => True | p :: r => whole_words (snd p) /\ go r end) m
  | VStructs l => (fix gol (l : list msg) := match l with
                 | [] => True
                 | m :: r => (fix go (m : msg) := match m with
                     | [] => True | p :: r => whole_words (snd p) /\ go r end) m /\ gol r end) l
  | _ => True
  end.
