(** clawc compile: which files code is generated for (clawc/clawc.go:handleCompile).  The world is that of
    Model/Vendor.v. *)
From Coq Require Import ZArith List Bool String.
Import ListNotations.
From Verif.Model Require Import Base Utf8 Field Any ClawText Idl ClawMod Vendor.
Local Open Scope Z_scope.

(** What is read, rendered and written: a package of the workspace, with imports.NewConfig (compileLocalDependency
    279-322), a package in the vendor directory (compileDependency 241-276) or the file that was asked for (217-239), both
    with imports.NewVendoredConfig. *)
Inductive job := Local (f : bytes) | Vendored (f : bytes) | Main (f : bytes).

(** The names of the files of [fs] that are in the directory itself.  Directories in it are left out, so none is taken to
    have a name that ends in .claw. *)
Definition nameIn (d f : bytes) : list bytes :=
  if hasPrefix (d ++ [47]) f then
    let n := skipn (length d + 1) f in if existsb (fun c => c =? 47) n then [] else [n]
  else [].
Definition namesIn (d : bytes) (fs : list (bytes * bytes)) : list bytes :=
  nodup (list_eq_dec Z.eq_dec) (flat_map (fun e => nameIn d (fst e)) fs).

Section World.
Variable dec : Z -> bytes.
Variable readDir : bytes -> option (list bytes).
Variable readFile : bytes -> option bytes.
Variable join : bytes -> bytes -> bytes.
Variable hasGit : bool.
Variable inRepo : bytes -> bool.
Variable abs : bytes -> option bytes.
Variable getClawFile : bytes -> bytes -> option bytes.
Variable importsOf : bytes -> option (list bytes).
Variable parseMod : bytes -> option module.
Variable vendorDir : bytes.
(** The directory of claw.work and its repo. *)
Variable workDir repo : bytes.
(** The order of the range over the map of the nodes. *)
Variable order : list bytes -> list bytes.
(** Reading, rendering and writing of one job: whether there is no error. *)
Variable compile : job -> bool.

(** clawc.go:findClawFileInDir 334-356 *)
Definition findClawFileInDir (names : option (list bytes)) (d : bytes) : res bytes :=
  es <- lift names ;;
  match filter (fun e => hasSuffix e (lit ".claw")) es with
  | [e] => Ok (d ++ lit "/" ++ e)
  | _ => Err
  end.
(** clawc.go:isLocalDependency 325-331, compileLocalDependency 279-299, handleCompile 197-208: the job for a package.
    filepath.Join is simplified as in Model/Vendor.v.  A directory of the vendor directory without files is not told from
    one that is not there: both are errors. *)
Definition trimPrefix (p s : bytes) : bytes := if hasPrefix p s then skipn (length p) s else s.
Definition jobOf (fs : list (bytes * bytes)) (q : bytes) : res job :=
  if hasPrefix repo q then
    let d := workDir ++ lit "/" ++ trimPrefix (repo ++ lit "/") q in
    f <- findClawFileInDir (readDir d) d ;; Ok (Local f)
  else
    let d := vendorDir ++ lit "/" ++ q in
    f <- findClawFileInDir (Some (namesIn d fs)) d ;; Ok (Vendored f).
(** clawc.go:handleCompile 185-214: the loop; 188 leaves the root out. *)
Fixpoint compileAll (fs : list (bytes * bytes)) (file : bytes) (qs : list bytes) : res (list job) :=
  match qs with
  | [] => Ok []
  | q :: qs =>
    if containsSub file q then compileAll fs file qs
    else
      j <- jobOf fs q ;;
      if compile j then (js <- compileAll fs file qs ;; Ok (j :: js)) else Err
  end.
(** clawc.go:handleCompile 165-239 from the absolute path of the schema on: what has been compiled, in order, and the file
    system.  Err is the exit with an error. *)
Definition handleCompile (fuel : nat) (root : module) (local : list replace) (file : bytes) (fs : list (bytes * bytes)) : res (list job * list (bytes * bytes)) :=
  '(g, fs) <- VendorDependencies dec readDir readFile join hasGit inRepo abs getClawFile importsOf parseMod vendorDir fuel root repo local file fs ;;
  r <- GetCompilationOrder (edgesOf g) (S (length g)) (order (map fst g)) ;;
  js <- compileAll fs file r ;;
  if compile (Main file) then Ok (js ++ [Main file], fs) else Err.
End World.
