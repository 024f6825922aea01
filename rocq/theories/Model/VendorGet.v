(** clawc get: one package at one version with all it imports is put in the vendor directory
    (clawc/internal/vendor/vendor.go:VendorSingleDependency).  The world is that of Model/Vendor.v. *)
From Coq Require Import ZArith List Bool String.
Import ListNotations.
From Verif.Model Require Import Base Utf8 Field Any ClawText Idl ClawMod Vendor.
Local Open Scope Z_scope.

Section World.
Variable dec : Z -> bytes.
Variable readDir : bytes -> option (list bytes).
Variable readFile : bytes -> option bytes.
Variable join : bytes -> bytes -> bytes.
Variable hasGit : bool.
Variable inRepo : bytes -> bool.
Variable abs : bytes -> option bytes.
Variable getClawFile : bytes -> bytes -> option bytes.
Variable importsOf : bytes -> option (list bytes).
Variable parseMod : bytes -> option module.

(** vendor.go:processSingleDependency 777-825: the node of a package.  vm.git is used without the test for nil that
    processClawFile has, and every package is to be vendored. *)
Definition loadSingle (root : module) (local : list replace) (p version : bytes) : res node :=
  let actual := applyReplace root local p in
  c <- (if isLocalPath actual then getLocalClawFile readDir readFile join actual
        else if negb hasGit then Panic
        else if inRepo actual then (a <- lift (abs actual) ;; getLocalClawFile readDir readFile join a)
        else lift (getClawFile actual version)) ;;
  ds <- lift (importsOf c) ;;
  Ok (mkNode ds c (getModuleFile readFile join parseMod actual) true).
(** vendor.go:processSingleDependency 756-840 *)
Fixpoint processSingle (fuel : nat) (root : module) (local : list replace) (visited : list bytes) (p version : bytes) (g : list (bytes * node)) : res (list (bytes * node)) :=
  match fuel with
  | O => Hang
  | S fuel =>
    if memb p visited then Err
    else
      match get p g with
      | Some _ => Ok g
      | None =>
        n <- loadSingle root local p version ;;
        each (fun d g => processSingle fuel root local (p :: visited) d (resolveVersion dec root.(m_required) d) g) n.(n_deps) (put p n g)
      end
  end.
(** vendor.go:VendorSingleDependency 708-752.  [rootFile] is the claw.mod that was parsed, None for any error with it;
    likewise [localFile] for local.replace.  The files that are written are in the order the range over the map gives;
    failures to write are left out. *)
Variable vendorDir : bytes.
Definition minimal : module := mkMod (lit "local") [] [] [].
Definition VendorSingleDependency (fuel : nat) (rootFile : option module) (localFile : option (list replace)) (p version : bytes) (fs : list (bytes * bytes)) : res (list (bytes * bytes)) :=
  let root := match rootFile with Some m => m | None => minimal end in
  let local := match localFile with Some l => l | None => [] end in
  g <- processSingle fuel root local [] p version [] ;;
  _ <- validateACLs root.(m_path) (map (fun e => (snd e).(n_module)) g) ;;
  Ok (fold_left (fun fs e => vendorPackage dec vendorDir (fst e) (snd e) fs) g fs).
End World.
