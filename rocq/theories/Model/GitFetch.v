(** What clawc does with git: the fetching of a package at a version (clawc/internal/imports/git/git.go), the redirect
    of a package (clawc/internal/imports/globalreplace/globalreplace.go), the questions about the repository one stands
    in (clawc/internal/vcs/vcs.go), and the commands get and init (clawc/clawc.go). *)
From Coq Require Import ZArith List Bool String.
Import ListNotations.
From Verif.Model Require Import Base Utf8 Field Any Escape ClawText Idl ClawMod.
Local Open Scope Z_scope.

Definition lift {A} (o : option A) : res A := match o with Some a => Ok a | None => Err end.

(** ** Versions *)
(** vcs.go:Version.FromString 35-56; the last part of git.go 275-298.  strconv.Atoi is parseInt of Model/ClawText.v;
    what is set in the receiver before an error is left out: it is not looked at. *)
Definition threeNumbers (s : bytes) : res version :=
  match splitAt 46 s with
  | [a; b; c] =>
    a <- lift (parseInt a) ;;
    b <- lift (parseInt b) ;;
    c <- lift (parseInt c) ;;
    Ok (mkVer a b c)
  | _ => Err
  end.
(** git.go:Version.FromString 275-298: a v goes, and then one more character. *)
Definition trimV (s : bytes) : bytes := match s with 118 :: q => q | _ => s end.
Definition gitFromString (s : bytes) : res version :=
  match trimV s with [] => Panic | _ :: q => threeNumbers q end.

(** plumbing.NewHash of go-git: the bytes hex.DecodeString gives up to its error, filled up with zeros. *)
Fixpoint hexPrefix (s : bytes) : bytes :=
  match s with
  | a :: b :: q => match hexVal a, hexVal b with Some x, Some y => x * 16 + y :: hexPrefix q | _, _ => [] end
  | _ => []
  end.
Definition NewHash (s : bytes) : bytes := firstn 20 (hexPrefix s ++ repeat 0 20).

(** ** Repositories *)
(** A checked out commit: for a directory, by its path inside, the entries with their contents; None where there is no
    such directory, and for the content of an entry that cannot be read. *)
Definition tree := bytes -> option (list (bytes * option bytes)).
(** A repository as go-git gives it after it was opened or cloned, and pulled: the full names of the tags with their
    hashes (None: Tags fails), Worktree.Checkout of a hash, and the commit of HEAD as it stands after the pull. *)
Record repo := mkRepo { r_tags : option (list (bytes * bytes)); r_checkout : bytes -> option tree; r_head : option (bytes * tree) }.
(** git.go:ClawFile 22-27 *)
Record clawFile := mkCF { cf_content : bytes; cf_version : bytes; cf_sha : bytes }.

(** git.go:hashCheckout 230-235 *)
Definition hashCheckout (r : repo) (version : bytes) : res tree := lift (r.(r_checkout) (NewHash version)).
(** git.go:semanticCheckout 212-228; Hash.String is the text NewHash reads. *)
Definition semanticCheckout (r : repo) (version : bytes) : res tree :=
  tags <- lift r.(r_tags) ;;
  match find (fun t => bytes_eqb (fst t) version) tags with
  | Some (_, h) => hashCheckout r (appendHex h)
  | None => Err
  end.
(** git.go:versionCheckout 196-210 of a version that is not empty. *)
Definition versionCheckout (r : repo) (version : bytes) : res tree :=
  match gitFromString version with
  | Ok _ => semanticCheckout r version
  | Panic => Panic
  | _ => hashCheckout r version
  end.

Section World.
(** Stat, PlainOpen, PlainClone, Worktree and Pull of git.go 97-151 for a host, a user and a name; None: one of them
    failed.  Simplification: it is the same repository whenever it is asked for; the three parts are not empty, not a
    dot and not two dots, which filepath.Join would take away. *)
Variable openRepo : bytes -> bytes -> bytes -> option repo.
(** halfpike's lexer; sha256.Sum256. *)
Variable lexer : bytes -> list iline.
Variable sha256 : bytes -> bytes.

(** git.go:cloneRepo 86-166 and currentVersion 168-185: the tree that is checked out and the version. *)
Definition cloneRepo (pkgPath version : bytes) : res (tree * bytes) :=
  match splitAt 47 pkgPath with
  | host :: user :: name :: _ =>
    r <- lift (openRepo host user name) ;;
    match version with
    | [] => '(h, t) <- lift r.(r_head) ;; Ok (t, appendHex h)
    | _ => t <- versionCheckout r version ;; Ok (t, version)
    end
  | _ => Panic
  end.
(** globalreplace.go:ParseWith 39-57 and FindNext 59-67; SkipLinesWithComments 26-37 is that of claw.mod. *)
Definition parseGlobal (ls : list iline) : res bytes :=
  let '(l, q) := next ls in
  _ <- ok_if (negb (len l.(l_items) <? 3)) ;;
  w0 <- item l 0 ;;
  _ <- ok_if (w0 =b "with") ;;
  w1 <- item l 1 ;;
  _ <- commentOrEOL l 2 ;;
  q <- modSkip q ;;
  let '(l, _) := next q in
  if l.(l_eof) then Ok w1 else Err.
(** git.go 49-54: the path inside the repository. *)
Definition insidePath (pkgPath : bytes) : bytes := join (lit "/") (skipn 3 (splitAt 47 pkgPath)).
(** git.go:FindClawFile 237-260 and the reading of the file, 72-80. *)
Definition readClaw (es : list (bytes * option bytes)) : res bytes :=
  match filter (fun e => hasSuffix (fst e) (lit ".claw")) es with
  | [(_, c)] => lift c
  | _ => Err
  end.
(** git.go:getClawFile 35-84; [hops] is 5 - depth.  os.Stat of global.replace fails where the directory is not there, and
    then os.ReadDir does. *)
Fixpoint getClawFile (hops : nat) (pkgPath version : bytes) : res clawFile :=
  match hops with
  | O => Err
  | S hops =>
    '(t, ver) <- cloneRepo pkgPath version ;;
    let version := match version with [] => ver | _ => version end in
    es <- lift (t (insidePath pkgPath)) ;;
    match find (fun e => bytes_eqb (fst e) (lit "global.replace")) es with
    | Some (_, c) =>
      b <- lift c ;;
      to <- parseGlobal (lexer b) ;;
      getClawFile hops to version
    | None =>
      b <- readClaw es ;;
      Ok (mkCF b version (appendHex (sha256 b)))
    end
  end.
(** git.go:GetClawFile 29-33, GetLatestVersion 187-194 *)
Definition GetClawFile (pkgPath version : bytes) : res clawFile := getClawFile 5 pkgPath version.
Definition GetLatestVersion (pkgPath : bytes) : res bytes := '(_, v) <- cloneRepo pkgPath [] ;; Ok v.
End World.

(** ** The command get *)
(** strings.SplitN(s, c, 2) for one character. *)
Fixpoint cutAt (c : Z) (s : bytes) : bytes * option bytes :=
  match s with
  | [] => ([], None)
  | d :: q => if d =? c then ([], Some q) else let '(a, b) := cutAt c q in (d :: a, b)
  end.
(** clawc.go:parsePackageSpec 103-134.  Simplification: the white space is that of ASCII. *)
Definition parsePackageSpec (spec : bytes) : res (bytes * bytes) :=
  let spec := trimSpace spec in
  match spec with
  | [] => Err
  | _ =>
    let '(p, v) := cutAt 64 spec in
    match trimSpace p with
    | [] => Err
    | pkg => Ok (pkg, match v with Some v => trimSpace v | None => [] end)
    end
  end.
(** clawc.go:handleGet 55-71: what is fetched; [latest] is git.GetLatestVersion. *)
Definition getTarget (latest : bytes -> res bytes) (spec : bytes) : res (bytes * bytes) :=
  '(pkg, version) <- parsePackageSpec spec ;;
  if (version =b "latest") || bytes_eqb version [] then (v <- latest pkg ;; Ok (pkg, v)) else Ok (pkg, version).

(** ** The repository one stands in *)
(** vcs.go:meetsMin 58-66 *)
Definition meetsMin (v : version) : bool :=
  if v.(v_major) <? 2 then false else if v.(v_minor) <? 18 then false else true.
(** The regular expression digits, dot, digits, dot, digits at the start of a text; each run of digits is as long as it
    can be, and a shorter one would not be followed by a dot. *)
Fixpoint spanDigits (s : bytes) : bytes * bytes :=
  match s with
  | c :: q => if isDigit c then let '(a, b) := spanDigits q in (c :: a, b) else ([], s)
  | [] => ([], [])
  end.
Definition someDigits (s : bytes) : option (bytes * bytes) :=
  match spanDigits s with ([], _) => None | p => Some p end.
Definition matchVersion (s : bytes) : option bytes :=
  match someDigits s with
  | Some (a, 46 :: q) =>
    match someDigits q with
    | Some (b, 46 :: q) => match someDigits q with Some (c, _) => Some (a ++ 46 :: b ++ 46 :: c) | None => None end
    | _ => None
    end
  | _ => None
  end.
Fixpoint findVersion (s : bytes) : option bytes :=
  match matchVersion s with
  | Some m => Some m
  | None => match s with [] => None | _ :: q => findVersion q end
  end.
(** vcs.go:version 119-139 and NewGit 89-95 of what git version prints. *)
Definition gitVersion (out : bytes) : res version := m <- lift (findVersion out) ;; threeNumbers m.
Definition gitSupported (out : bytes) : res unit := v <- gitVersion out ;; ok_if (meetsMin v).

(** strings.Split(s, sep) for a separator that is not empty; [skip] counts the characters of a separator that are still to
    be passed over. *)
Fixpoint splitSub (sep : bytes) (skip : nat) (s : bytes) : list bytes :=
  match s with
  | [] => [[]]
  | c :: q =>
    match skip with
    | S k => splitSub sep k q
    | O =>
      if hasPrefix sep s then [] :: splitSub sep (pred (length sep)) q
      else match splitSub sep 0 q with w :: ws => (c :: w) :: ws | [] => [[c]] end
    end
  end.
(** vcs.go:Root 141-157 of what git rev-parse --git-dir prints. *)
Definition gitRoot (out : bytes) : res bytes :=
  match splitSub (lit ".git") 0 out with [a; _] => Ok a | _ => Panic end.
(** vcs.go:Origin 159-173 of the host and the path url.Parse gives for the remote. *)
Definition gitOrigin (host path : bytes) : bytes := host ++ trimSuffix path (lit ".git").
(** vcs.go:Abs 181-205 up to filepath.Join with the root: the path inside the repository; [clean] is path.Clean. *)
Definition trimSlash (s : bytes) : bytes := match s with 47 :: q => q | _ => s end.
Definition absInside (clean : bytes -> bytes) (origin p : bytes) : bytes :=
  trimSlash (join (lit "/") (tl (splitSub origin 0 (clean p)))).

(** ** The command init *)
(** clawc.go:writeWorkFile 454-458, writeModFile 460-464 *)
Definition workFileText (repo vendorDir : bytes) : bytes := lit "repo " ++ repo ++ [10; 10] ++ lit "vendorDir " ++ vendorDir ++ [10].
Definition modFileText (modulePath : bytes) : bytes := lit "module " ++ modulePath ++ [10].
(** clawc.go:handleInit 399-403 and 440-444: [rel] is filepath.Rel with slashes. *)
Definition modulePath (repo rel : bytes) : bytes := if rel =b "." then repo else repo ++ lit "/" ++ rel.
(** clawc.go:handleInit 373-452.  [there]: claw.mod is there; [work]: FindWork, the repository of the claw.work that was
    found and the path from its directory; [git]: NewGit, the origin and the path from the root.  The result is the
    texts written: that of claw.work, where one is, and that of claw.mod. *)
Definition handleInit (there : bool) (work git : option (bytes * bytes)) : res (option bytes * bytes) :=
  if there then Err
  else
    match work, git with
    | Some (repo, rel), _ => Ok (None, modFileText (modulePath repo rel))
    | None, Some (origin, rel) => Ok (Some (workFileText origin (lit "claw_vendor")), modFileText (modulePath origin rel))
    | None, None => Err
    end.
