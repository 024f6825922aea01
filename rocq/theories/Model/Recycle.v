(** clawc/languages/go/segment: structs that are given back with Release and handed out
    again by New, on the memory of Model/Alias.v.  All structs here have one mapping, with n
    fields, so there is one pool of segments; the pool of field indices is not kept apart,
    because an index is cleared when it is put back (segment.go:119) and is no part of the
    memory of Model/Alias.v.  The pool itself is a dependency
    (base/concurrency/sync.Pool): Get gives any value that was put back and not given out
    since, or a new one, and Put calls Reset first. *)
From Coq Require Import List.
From Verif.Model Require Export Alias.
Import ListNotations.

(** Segment.Reset, segment.go:175-178: data[:8], which panics when the array has not so much
    room, and clear of these bytes. *)
Definition m_Reset (h : heap) (s : sl) : res (heap * sl) :=
  if sl_cap s <? 8 then Panic else Ok (put h s (zeros 8), reslice s 8).

(** Release, struct.go:526-533, and SegmentPools.Put, segment.go:62-69: the segment that goes
    into the pool. *)
Definition m_Release (h : heap) (v : vst) : res (heap * sl) := m_Reset h (v_sl v).

(** New, struct.go:94-105, when the pool gives the segment s. *)
Definition m_NewFrom (h : heap) (s : sl) (n : nat) : res (heap * vst) :=
  b <- slice (view h s) 0 8 ;;
  d <- EncodeHeader b 0 FTStruct 8 ;;
  Ok (put h s d, mkV s (mkStruct [] (repeat fe_zero n) false false None false [])).

(** MarshalSafe, struct.go:409-417: the struct after it and the copy. *)
Definition m_MarshalSafe (h : heap) (v : vst) : res (heap * vst * sl) :=
  '(h, v) <- m_Marshal h v ;;
  let b := view h (v_sl v) in
  Ok (h ++ [b], v, mkSl (length h) 0 (len b) (len b)).

(** Unmarshal, struct.go:427-448, of a caller's slice: the struct then is on that slice. *)
Definition m_Unmarshal (h : heap) (v : vst) (data : sl) : res vst :=
  s <- Unmarshal (load h v) (view h data) ;;
  Ok (mkV (reslice data (len (st_data s))) s).
