(** What a program with many structs is to see: every struct is made of the calls on it
    since its own New, and bytes it kept are those of the struct they were made from. *)
From Coq Require Import List.
From Verif.Model Require Export Recycle.
From Verif.Spec Require Export Reach Views.
Import ListNotations.

(** A program with many structs. *)
Definition remove_at {A} (i : nat) (l : list A) : list A := firstn i l ++ skipn (S i) l.
Record world := mkW { w_heap : heap; w_live : list vst; w_pool : list sl; w_held : list sl }.
Inductive event :=
| ENew (pick : nat)                (* New; the pool gives its segment number pick, or makes one *)
| ECall (i : nat) (o : op)         (* a call on live struct i *)
| ESafe (i : nat)                  (* MarshalSafe of live struct i; the bytes are kept *)
| ERelease (i : nat).              (* Release of live struct i, which is not used again *)
Definition w_step (n : nat) (w : world) (e : event) : res world :=
  match e with
  | ENew k =>
      match nth_error w.(w_pool) k with
      | Some s => '(h, v) <- m_NewFrom w.(w_heap) s n ;; Ok (mkW h (w.(w_live) ++ [v]) (remove_at k w.(w_pool)) w.(w_held))
      | None => '(h, v) <- m_New w.(w_heap) n ;; Ok (mkW h (w.(w_live) ++ [v]) w.(w_pool) w.(w_held))
      end
  | ECall i o =>
      match nth_error w.(w_live) i with
      | Some v => '(h, v) <- m_do_op w.(w_heap) v o ;; Ok (mkW h (set_nth i v w.(w_live)) w.(w_pool) w.(w_held))
      | None => Ok w
      end
  | ESafe i =>
      match nth_error w.(w_live) i with
      | Some v => '(h, v, b) <- m_MarshalSafe w.(w_heap) v ;; Ok (mkW h (set_nth i v w.(w_live)) w.(w_pool) (w.(w_held) ++ [b]))
      | None => Ok w
      end
  | ERelease i =>
      match nth_error w.(w_live) i with
      | Some v => '(h, s) <- m_Release w.(w_heap) v ;; Ok (mkW h (remove_at i w.(w_live)) (w.(w_pool) ++ [s]) w.(w_held))
      | None => Ok w
      end
  end.
Fixpoint w_run (n : nat) (w : world) (es : list event) : res world :=
  match es with [] => Ok w | e :: r => w <- w_step n w e ;; w_run n w r end.

(** The calls on each live struct, and for the kept bytes the calls on the struct before. *)
Definition log := (list (list op) * list (list op))%type.
Definition note (g : log) (e : event) : log :=
  let '(live, held) := g in
  match e with
  | ENew _ => (live ++ [[]], held)
  | ECall i o => match nth_error live i with Some l => (set_nth i (l ++ [o]) live, held) | None => g end
  | ESafe i => match nth_error live i with Some l => (set_nth i (l ++ [OMarshal]) live, held ++ [l]) | None => g end
  | ERelease i => (remove_at i live, held)
  end.
Definition notes (es : list event) : log := fold_left note es ([], []).

(** Every call is one of the modelled ones and is legal for the struct it is made on. *)
Definition lawful (n : nat) (es : list event) : Prop :=
  forall a i o b l, es = a ++ ECall i o :: b -> nth_error (fst (notes a)) i = Some l ->
  direct o /\ ok_op n 0 (sem [] l) o.

(** A struct that was just made, and then only had the calls l. *)
Definition as_new (n : nat) (h : heap) (v : vst) (l : list op) : Prop := build n l = Ok (load h v).
(** The bytes that Marshal gives for such a struct. *)
Definition bytes_of (n : nat) (h : heap) (s : sl) (l : list op) : Prop :=
  exists st st', build n l = Ok st /\ Marshal st = Ok (st', view h s).
