(** Recording of changes of a map (clawc/languages/go/segment/maps.go:83-123, 156-170), for the patch package. *)
From Verif.Model Require Export Patch MapApi.

Inductive medit := MSet (k : mkey) (v : mval) | MDelete (k : mkey) | MClear.

Section Maps.
Context (kt : keyty) (vt : valty) (f : Z).
Definition m_edit (m : mapobj) (e : medit) : res mapobj :=
  match e with MSet k v => mp_Set kt m k v | MDelete k => mp_Delete kt m k | MClear => Ok (mp_Clear m) end.
(** The operations that are recorded: Set 96-103, Delete 114-121 (only if the key was there), Clear 162-168 (only if there were entries). *)
Definition m_recorded (m : mapobj) (e : medit) : res (list rop) :=
  match e with
  | MSet k v => Ok [mkRop f OpMapSet NoListIndex (encodeKeyValue kt vt k v)]
  | MDelete k => h <- mp_Has kt m k ;; Ok (if h then [mkRop f OpMapDelete NoListIndex (encodeKey kt k)] else [])
  | MClear => Ok (if mp_Len m >? 0 then [mkRop f OpClear NoListIndex []] else [])
  end.
(** The map afterwards and what was recorded. *)
Fixpoint m_edits (m : mapobj) (es : list medit) : res (mapobj * list rop) :=
  match es with
  | [] => Ok (m, [])
  | e :: r => o <- m_recorded m e ;; m <- m_edit m e ;; '(m, q) <- m_edits m r ;; Ok (m, o ++ q)
  end.
End Maps.
