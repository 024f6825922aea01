(** How the compiler finds the packages a schema imports: the dependency graph and its order
    (clawc/internal/vendor/vendor.go) and the reading of the imports (clawc/internal/imports/imports.go). *)
From Coq Require Import ZArith List Bool String.
Import ListNotations.
From Verif.Model Require Import Base Utf8 Field Any ClawText Idl ClawMod.
Local Open Scope Z_scope.

Definition memb (p : bytes) (l : list bytes) : bool := existsb (bytes_eqb p) l.
(** A map from paths, in the order of the first writes. *)
Fixpoint get {A} (p : bytes) (m : list (bytes * A)) : option A :=
  match m with [] => None | (q, a) :: r => if bytes_eqb p q then Some a else get p r end.
Fixpoint put {A} (p : bytes) (a : A) (m : list (bytes * A)) : list (bytes * A) :=
  match m with [] => [(p, a)] | (q, b) :: r => if bytes_eqb p q then (q, a) :: r else (q, b) :: put p a r end.
(** The loop over the dependencies. *)
Fixpoint each {S} (f : bytes -> S -> res S) (ds : list bytes) (s : S) : res S :=
  match ds with [] => Ok s | d :: q => s <- f d s ;; each f q s end.

(** vendor.go:DependencyNode 35-44; Version, ClawFile and IsLeaf are left out. *)
Record node := mkNode { n_deps : list bytes; n_content : bytes; n_module : option module; n_vendor : bool }.

Section World.
(** fmt's %d; os.ReadDir: the names in a directory; os.ReadFile; filepath.Join of a directory and a name. *)
Variable dec : Z -> bytes.
Variable readDir : bytes -> option (list bytes).
Variable readFile : bytes -> option bytes.
Variable join : bytes -> bytes -> bytes.
(** vm.git: whether there is one, InRepo and Abs; vm.getClawFile of a path and a version; the parser of schemas:
    the import paths in the order the range over the map gives them; the parser of claw.mod. *)
Variable hasGit : bool.
Variable inRepo : bytes -> bool.
Variable abs : bytes -> option bytes.
Variable getClawFile : bytes -> bytes -> option bytes.
Variable importsOf : bytes -> option (list bytes).
Variable parseMod : bytes -> option module.

Definition lift {A} (o : option A) : res A := match o with Some a => Ok a | None => Err end.
(** vendor.go:isLocalPath 336-338 *)
Definition isLocalPath (p : bytes) : bool := hasPrefix (lit "/") p || hasPrefix (lit "./") p || hasPrefix (lit "../") p.
(** vendor.go:getLocalClawFile 353-392 *)
Definition getLocalClawFile (p : bytes) : res bytes :=
  if hasSuffix p (lit ".claw") then lift (readFile p)
  else
    es <- lift (readDir p) ;;
    match filter (fun e => hasSuffix e (lit ".claw")) es with
    | [e] => lift (readFile (join p e))
    | _ => Err
    end.
(** vendor.go:getModuleFile 404-428 and processClawFile 269-273: an error is no module file. *)
Definition getModuleFile (p : bytes) : option module :=
  if isLocalPath p then match readFile (join p (lit "claw.mod")) with Some c => parseMod c | None => None end else None.
(** vendor.go:applyReplaceDirectives 313-334 *)
Fixpoint replaced (rs : list replace) (p : bytes) : option bytes :=
  match rs with [] => None | r :: q => if bytes_eqb r.(rp_from) p then Some r.(rp_to) else replaced q p end.
Definition applyReplace (root : module) (local : list replace) (p : bytes) : bytes :=
  match replaced local p with
  | Some t => t
  | None => match replaced root.(m_replace) p with Some t => t | None => p end
  end.
(** vendor.go:resolveVersion 439-450 *)
Fixpoint resolveVersion (rs : list require) (p : bytes) : bytes :=
  match rs with
  | [] => []
  | r :: q => if bytes_eqb r.(rq_path) p then (if negb (verZero r.(rq_version)) then verText dec r.(rq_version) else r.(rq_id)) else resolveVersion q p
  end.
(** vendor.go:processClawFile 239-283: the node of a package. *)
Definition loadNode (root : module) (local : list replace) (p version : bytes) : res node :=
  let actual := applyReplace root local p in
  '(c, v) <- (if isLocalPath actual then (c <- getLocalClawFile actual ;; Ok (c, false))
              else if hasGit && inRepo actual then (a <- lift (abs actual) ;; c <- getLocalClawFile a ;; Ok (c, false))
              else (c <- lift (getClawFile actual version) ;; Ok (c, true))) ;;
  ds <- lift (importsOf c) ;;
  Ok (mkNode ds c (getModuleFile actual) v).
(** vendor.go:processClawFile 222-303; [visited] are the packages on the way. *)
Fixpoint processClawFile (fuel : nat) (root : module) (local : list replace) (visited : list bytes) (p version : bytes) (g : list (bytes * node)) : res (list (bytes * node)) :=
  match fuel with
  | O => Hang
  | S fuel =>
    if memb p visited then Err
    else
      match get p g with
      | Some _ => Ok g
      | None =>
        n <- loadNode root local p version ;;
        each (fun d g => processClawFile fuel root local (p :: visited) d (resolveVersion root.(m_required) d) g) n.(n_deps) (put p n g)
      end
  end.
(** vendor.go:buildDependencyGraph 204-220 *)
Definition buildDependencyGraph (fuel : nat) (root : module) (local : list replace) (p : bytes) : res (list (bytes * node)) :=
  processClawFile fuel root local [] p [] [].

(** vendor.go:vendorPackage 536-559, getClawFileName 561-565, createVendorStructure 504-534: the files that are written,
    in the order the range over the map gives.  filepath.Join is simplified to putting slashes between, so a package
    path has no dots and no double slashes as elements.  Failures to make directories or to write are left out. *)
Variable vendorDir : bytes.
Definition place (p : bytes) : bytes := vendorDir ++ lit "/" ++ p ++ lit "/" ++ last (splitAt 47 p) [] ++ lit ".claw".
Definition modPlace (p : bytes) : bytes := vendorDir ++ lit "/" ++ p ++ lit "/claw.mod".
Definition vendorPackage (p : bytes) (n : node) (fs : list (bytes * bytes)) : list (bytes * bytes) :=
  let fs := put (place p) n.(n_content) fs in
  match n.(n_module) with Some m => put (modPlace p) (serializeModule dec m) fs | None => fs end.
Definition createVendorStructure (g : list (bytes * node)) (fs : list (bytes * bytes)) : list (bytes * bytes) :=
  fold_left (fun fs e => if (snd e).(n_vendor) then vendorPackage (fst e) (snd e) fs else fs) g fs.
(** vendor.go:VendorDependencies 109-144 behind the parsing of the files. *)
Definition VendorDependencies (fuel : nat) (root : module) (repo : bytes) (local : list replace) (p : bytes) (fs : list (bytes * bytes)) : res (list (bytes * node) * list (bytes * bytes)) :=
  _ <- ValidateModuleInRepo root.(m_path) repo ;;
  g <- buildDependencyGraph fuel root local p ;;
  _ <- validateACLs root.(m_path) (map (fun e => (snd e).(n_module)) g) ;;
  Ok (g, createVendorStructure g fs).
End World.

(** vcs.go:InRepo 176-179 of a clean path; imports.go:TransformImportPath 134-146 *)
Definition InRepo (origin p : bytes) : bool := hasPrefix origin p.
Definition TransformImportPath (repo dir p : bytes) : bytes :=
  if bytes_eqb repo [] || bytes_eqb dir [] then p
  else if hasPrefix repo p then p
  else repo ++ lit "/" ++ dir ++ lit "/" ++ p.

(** vendor.go:GetCompilationOrder 661-703.  [edges] is graph.Edges; [visiting] the packages on the way; [result] is
    also the map visited, which is set when a package is appended.  The nodes are in the order the range over the map
    gives. *)
Section Order.
Variable edges : bytes -> list bytes.
Fixpoint visit (fuel : nat) (visiting : list bytes) (p : bytes) (result : list bytes) : res (list bytes) :=
  match fuel with
  | O => Hang
  | S fuel =>
    if memb p visiting then Err
    else if memb p result then Ok result
    else r <- each (fun d r => visit fuel (p :: visiting) d r) (edges p) result ;; Ok (r ++ [p])
  end.
Definition GetCompilationOrder (fuel : nat) (nodes : list bytes) : res (list bytes) :=
  r <- each (fun p r => visit fuel [] p r) nodes [] ;; Ok (rev r).
End Order.
(** The edges of a graph that was built. *)
Definition edgesOf (g : list (bytes * node)) (p : bytes) : list bytes := match get p g with Some n => n.(n_deps) | None => [] end.

(** ** Reading the imports *)
Section Read.
Context {F : Type}.
(** Finding, reading, parsing and validating the schema of a package (imports.go:readLocal 355-378, readRemote 390-411,
    readVendored 647-698); the paths it imports, in the order of the range over the map. *)
Variable load : bytes -> option F.
Variable importsOf : F -> list bytes.
(** imports.go:Config.read 333-353 with readLocal and readRemote; [stack] is the list in the context. *)
Fixpoint read (fuel : nat) (stack : list bytes) (p : bytes) (have : list (bytes * F)) : res (list (bytes * F)) :=
  match fuel with
  | O => Hang
  | S fuel =>
    if memb p stack then Err
    else
      f <- lift (load p) ;;
      each (fun d m => read fuel (p :: stack) d m) (importsOf f) (put p f have)
  end.
(** imports.go:Config.Read 167-247 where there is no local.replace (see C97): the test of the replacements looks for
    the empty path, which no package has.  [module] is the path in claw.mod. *)
Definition Read (fuel : nat) (module : bytes) (root : F) : res (list (bytes * F)) :=
  m <- each (fun d m => read fuel [module] d m) (importsOf root) [] ;;
  Ok (put module root m).
(** imports.go:VendoredConfig.readVendored 647-698 and readLocal 703-738: what is there is not looked at again. *)
Fixpoint readVendored (fuel : nat) (stack : list bytes) (p : bytes) (have : list (bytes * F)) : res (list (bytes * F)) :=
  match fuel with
  | O => Hang
  | S fuel =>
    match get p have with
    | Some _ => Ok have
    | None =>
      if memb p stack then Err
      else
        f <- lift (load p) ;;
        each (fun d m => readVendored fuel (p :: stack) d m) (importsOf f) (put p f have)
    end
  end.
(** imports.go:VendoredConfig.Read 557-642 *)
Definition ReadVendored (fuel : nat) (module : bytes) (root : F) : res (list (bytes * F)) :=
  m <- each (fun d m => readVendored fuel [module] d m) (importsOf root) [] ;;
  Ok (put module root m).
End Read.
(** imports.go:populateIDLExternals 262-278 and populateExternals 251-259: the schemas of the external types of a
    schema; None is nil. *)
Definition importPath (f : file) (n : bytes) : option bytes := match f.(f_imports) with None => None | Some l => get n l end.
Fixpoint populate (have : list (bytes * file)) (f : file) (ws : list bytes) : res (list (bytes * option file)) :=
  match ws with
  | [] => Ok []
  | w :: q =>
    p <- lift (importPath f (hd [] (splitAt 46 w))) ;;
    r <- populate have f q ;;
    Ok ((w, get p have) :: r)
  end.
