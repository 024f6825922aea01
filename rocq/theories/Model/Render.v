(** What clawc makes of the parsed packages: clawc/internal/render/render.go (Render,
    cleanImports) and clawc/internal/writer/golang/golang.go (WriteFiles, getImports). *)
From Coq Require Import String.
From Verif.Model Require Import Base Any Registry ErrText Escape Idl.
From Coq Require Import List.
Import ListNotations.
Open Scope list_scope. Open Scope Z_scope.

(** *** Goroutines that work for one result
    Render (render.go:77-138) and getImports (writer/golang/golang.go:77-104) start one goroutine
    per job, under a context that each of them cancels when its job fails, after it has tried to
    put its error in a channel with room for one.  Wait ends when all of them have. *)
Section Par.
Variables J A E : Type.
(** What the calls of a job return: the flag tells whether the calls found the context
    cancelled.  Several calls of one job are one step at the time of the last one. *)
Variable work : J -> bool -> A + E.

(** Where a goroutine is: before its calls; with their result; with the result in the output;
    with an error; with the error in, or kept out of, the channel; done after cancelling. *)
Inductive gor := GTodo | GGot (a : A) | GAppended (a : A) | GFailed (e : E) | GSent | GReturned.
Record par := mkPar {
  p_gors : list (J * gor);
  p_out : list (J * A);          (* the results so far, under mu: render.go:133-135 *)
  p_err : option E;              (* errCh *)
  p_cancelled : bool }.
Definition par_init (js : list J) : par := mkPar (map (fun j => (j, GTodo)) js) [] None false.

(** [parent] tells whether the context of the caller may end during the run. *)
Variable parent : bool.
Inductive par_step : par -> par -> Prop :=
| SWork j l1 l2 out err c (view : bool) : (view = true -> c = true) ->
    par_step (mkPar (l1 ++ (j, GTodo) :: l2) out err c)
      (mkPar (l1 ++ (j, match work j view with inl a => GGot a | inr e => GFailed e end) :: l2) out err c)
| SAppend j a l1 l2 out err c :
    par_step (mkPar (l1 ++ (j, GGot a) :: l2) out err c) (mkPar (l1 ++ (j, GAppended a) :: l2) (out ++ [(j, a)]) err c)
  (* render.go:91-94, 112-115; golang.go:162-167 *)
| SSend j e l1 l2 out err c :
    par_step (mkPar (l1 ++ (j, GFailed e) :: l2) out err c)
      (mkPar (l1 ++ (j, GSent) :: l2) out (match err with None => Some e | Some _ => err end) c)
  (* render.go:95, 116; golang.go:98 *)
| SCancel j l1 l2 out err c :
    par_step (mkPar (l1 ++ (j, GSent) :: l2) out err c) (mkPar (l1 ++ (j, GReturned) :: l2) out err true)
  (* the context of the caller ends *)
| SParent g out err : parent = true -> par_step (mkPar g out err false) (mkPar g out err true).
Inductive par_run : par -> par -> Prop :=
| PR_nil s : par_run s s
| PR_step s t u : par_run s t -> par_step t u -> par_run s u.

Definition par_over (s : par) : Prop := Forall (fun g => match snd g with GAppended _ | GReturned => True | _ => False end) (p_gors s).
(** render.go:140-145; golang.go:169-176. *)
Definition par_result (s : par) : list (J * A) + E :=
  match p_err s with Some e => inr e | None => inl (p_out s) end.
End Par.
Arguments mkPar {J A E}. Arguments p_gors {J A E}. Arguments p_out {J A E}. Arguments p_err {J A E}.
Arguments p_cancelled {J A E}. Arguments GTodo {A E}. Arguments GGot {A E}. Arguments GAppended {A E}.
Arguments GFailed {A E}. Arguments GSent {A E}. Arguments GReturned {A E}. Arguments par_init {J A E}.
Arguments par_step {J A E}. Arguments par_run {J A E}. Arguments par_over {J A E}. Arguments par_result {J A E}.

(** *** cleanImports, render.go:147-182 *)
Record importCheck := mkIC { ic_path : bytes; ic_find : bytes }.
Definition findImports : list importCheck :=
  [mkIC (lit "github.com/bearlytools/claw/clawc/languages/go/mapping") (lit "mapping.");
   mkIC (lit "github.com/bearlytools/claw/languages/go/reflect") (lit "reflect.");
   mkIC (lit "github.com/bearlytools/claw/languages/go/reflect/runtime") (lit "runtime.");
   mkIC (lit "github.com/bearlytools/claw/clawc/languages/go/conversions") (lit "conversions.");
   mkIC (lit "github.com/bearlytools/claw/clawc/languages/go/field") (lit "field.");
   mkIC (lit "github.com/bearlytools/claw/clawc/languages/go/clawiter") (lit "clawiter.")].

(** bytes.SplitAfter(b, "\n") of the Go standard library. *)
Fixpoint splitLines (b : bytes) : list bytes :=
  match b with
  | [] => [[]]
  | c :: q => if c =? 10 then [c] :: splitLines q
              else match splitLines q with l :: ls => (c :: l) :: ls | [] => [[c]] end
  end.
(** bytes.TrimPrefix and TrimSuffix of a quotation mark. *)
Definition trimQuoteL (s : bytes) : bytes := match s with c :: q => if c =? 34 then q else s | [] => [] end.
Definition trimQuoteR (s : bytes) : bytes := rev (trimQuoteL (rev s)).
(** render.go:174-176.  bytes.TrimSpace for the white space of ASCII. *)
Definition bare (line : bytes) : bytes := trimQuoteR (trimQuoteL (Escape.trimSpace line)).
(** render.go:162-171: the keys left in the map. *)
Definition toRemove (lines : list bytes) : list bytes :=
  map ic_path (filter (fun ic => negb (existsb (fun line => contains line (ic_find ic)) lines)) findImports).
Definition cleanImports (b : bytes) : bytes :=
  let lines := splitLines b in
  let remove := toRemove lines in
  concat (filter (fun line => negb (existsb (bytes_eqb (bare line)) remove)) lines).

(** *** Render, render.go:59-146 *)
(** A package to render: its name, the version of its repository, and its path, which is also
    its key in config.Imports. *)
Record pkgFile := mkPkg { pf_name : bytes; pf_version : bytes; pf_path : bytes }.
Record rendered := mkRend { rd_pkg : pkgFile; rd_lang : nat; rd_native : bytes; rd_files : list (bytes * bytes) }.
Section Render.
Variable E : Type.
Variable supported : nat -> bool.                   (* Supported *)
(** Renderer.Render and RenderAdditionalFiles (no files for a renderer without it); the flag as
    for [work]. *)
Variable RenderF : nat -> pkgFile -> bool -> bytes + E.
Variable RenderMore : nat -> pkgFile -> bool -> list (bytes * bytes) + E.
Definition render_job (j : nat * pkgFile) (view : bool) : rendered + E :=
  match RenderF (fst j) (snd j) view with
  | inr e => inr e
  | inl b =>
      match RenderMore (fst j) (snd j) view with
      | inr e => inr e
      | inl fs => inl (mkRend (snd j) (fst j) (cleanImports b) (map (fun f => (fst f, cleanImports (snd f))) fs))
      end
  end.
Definition render_jobs (langs : list nat) (pkgs : list pkgFile) : list (nat * pkgFile) :=
  flat_map (fun l => map (fun p => (l, p)) pkgs) langs.
(** The result: None is the error of an unsupported language (66-71); otherwise what the run of
    the goroutines, here one that is over, gives. *)
Inductive renders (parent : bool) (langs : list nat) (pkgs : list pkgFile) : option (list rendered + E) -> Prop :=
| R_unsupported l : In l langs -> supported l = false -> renders parent langs pkgs None
| R_run s : (forall l, In l langs -> supported l = true) ->
    par_run render_job parent (par_init (render_jobs langs pkgs)) s -> par_over s ->
    renders parent langs pkgs (Some (match par_result s with inl out => inl (map snd out) | inr e => inr e end)).
End Render.

(** *** WriteFiles, writer/golang/golang.go:35-75 *)
(** A file is named by its directory and its name: filepath.Join of a clean directory and a name
    without slashes.  The file system maps names to contents, with the last write in front. *)
Definition fpath := (bytes * bytes)%type.
Definition fpath_eqb (a b : fpath) : bool := bytes_eqb (fst a) (fst b) && bytes_eqb (snd a) (snd b).
Fixpoint fs_read (fs : list (fpath * bytes)) (p : fpath) : option bytes :=
  match fs with [] => None | (q, c) :: fs => if fpath_eqb p q then Some c else fs_read fs p end.

Section Write.
Variable should : bytes -> bool.                    (* config.ShouldWriteFile *)
Variable Abs : bytes -> option bytes.               (* config.Abs; None is an error *)
Variable fails : fpath -> bool.                     (* whether WriteFile of the path fails *)
(** The files of a package in the order they are written: 55-70; the order of r.Files is that of
    a Go map, and the model's list stands for it. *)
Definition files_of (r : rendered) (p : bytes) : list (fpath * bytes) :=
  ((p, pf_name (rd_pkg r) ++ lit ".go"), rd_native r) :: map (fun f => ((p, fst f), snd f)) (rd_files r).
(** The writes of a goroutine that take place, and whether it reports an error.  A write that
    fails is taken to leave the file as it was. *)
Fixpoint until_fail (l : list (fpath * bytes)) : list (fpath * bytes) * bool :=
  match l with
  | [] => ([], false)
  | w :: l => if fails (fst w) then ([], true) else let '(d, e) := until_fail l in (w :: d, e)
  end.
Definition write_job (r : rendered) : list (fpath * bytes) * bool :=
  if should (pf_path (rd_pkg r)) then
    match Abs (pf_path (rd_pkg r)) with None => ([], true) | Some p => until_fail (files_of r p) end
  else ([], false).
(** The goroutines run at the same time: their writes are merged in any way. *)
Inductive merged : list (list (fpath * bytes)) -> list (fpath * bytes) -> Prop :=
| M_nil ls : Forall (eq []) ls -> merged ls []
| M_step l1 x xs l2 w : merged (l1 ++ xs :: l2) w -> merged (l1 ++ (x :: xs) :: l2) (x :: w).
(** WriteFiles after getImports has succeeded: the file system afterwards and whether it
    returns an error. *)
Definition writes (rs : list rendered) (fs fs' : list (fpath * bytes)) (err : bool) : Prop :=
  exists w, merged (map (fun r => fst (write_job r)) rs) w /\ fs' = rev w ++ fs /\
    err = existsb (fun r => snd (write_job r)) rs.

(** getImports: [inRoot] is config.InRootRepo, [get] the go command. *)
Variable E : Type.
Variable inRoot : bytes -> bool.
Variable get : bytes -> bytes -> bool -> unit + E.
Definition get_job (p : pkgFile) (view : bool) : unit + E :=
  if inRoot (pf_path p) then inl tt else get (pf_path p) (match pf_version p with [] => lit "latest" | v => v end) view.
Inductive write_files (parent : bool) (pkgs : list pkgFile) (rs : list rendered) (fs : list (fpath * bytes)) :
    list (fpath * bytes) -> bool -> Prop :=
| W_get s e : par_run get_job parent (par_init pkgs) s -> par_over s -> par_result s = inr e ->
    write_files parent pkgs rs fs fs true
| W_write s l fs' err : par_run get_job parent (par_init pkgs) s -> par_over s -> par_result s = inl l ->
    writes rs fs fs' err -> write_files parent pkgs rs fs fs' err.
End Write.
