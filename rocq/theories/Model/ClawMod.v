(** The files beside a schema: claw.mod (clawc/internal/imports/module.go), local.replace (localreplace.go) and
    claw.work (clawc/internal/work/work.go), and what is done with the access lists of claw.mod
    (clawc/internal/vendor/vendor.go).

    As in Model/Idl.v the parsers are given the lines of the lexer. *)
From Coq Require Import ZArith List Bool String.
Import ListNotations.
From Verif.Model Require Import Base Utf8 Field Any ClawText Idl.
Local Open Scope Z_scope.

(** imports.go:Version 439-443, Require 476-484, Replace 490-495 (FromVersion and ToVersion are never set), ACL
    486-488 (its Path); module.go:Module 19-29 *)
Record version := mkVer { v_major : Z; v_minor : Z; v_patch : Z }.
Record require := mkReq { rq_path : bytes; rq_version : version; rq_id : bytes }.
Record replace := mkRep { rp_from : bytes; rp_to : bytes }.
Record module := mkMod { m_path : bytes; m_required : list require; m_replace : list replace; m_acls : list bytes }.

(** strings.Contains(s, t), strings.HasSuffix and TrimSuffix. *)
Fixpoint containsSub (t s : bytes) : bool :=
  hasPrefix t s || match s with [] => false | _ :: q => containsSub t q end.
Definition hasSuffix (s t : bytes) : bool := hasPrefix (rev t) (rev s).
Definition trimSuffix (s t : bytes) : bytes := if hasSuffix s t then firstn (length s - length t) s else s.

(** path.Base: the slashes at the end go, then all up to the last slash. *)
Fixpoint dropSlashes (s : bytes) : bytes := match s with 47 :: q => dropSlashes q | _ => s end.
Definition pathBase (s : bytes) : bytes :=
  match s with
  | [] => lit "."
  | _ => match rev (dropSlashes (rev s)) with [] => lit "/" | t => last (splitAt 47 t) [] end
  end.

Section Tables.
(** unicode.IsUpper, unicode.IsLetter, unicode.IsNumber; strings.ToLower. *)
Variables isUpper isLetter isNumber : Z -> bool.
Variable toLower : bytes -> bytes.

(** module.go:ValidModuleName 324-348 *)
Definition ValidModuleName (m : bytes) : res unit :=
  let b := pathBase m in
  _ <- ValidPackage isUpper isLetter isNumber b ;;
  _ <- ok_if (negb (containsSub (lit "//") m)) ;;
  ok_if (forallb (fun r => isLetter r || isNumber r || (r =? 95) || (r =? 45) || (r =? 47)) (runes b)).

(** module.go:SkipLinesWithComments 43-54, localreplace.go 48-59: the prefix and the word are swapped.  Where the
    line is the end of the file it stays read. *)
Fixpoint modSkip (ls : list iline) : res (list iline) :=
  match ls with
  | [] => Ok []
  | l :: q => w <- item l 0 ;; if hasPrefix w (lit "//") then (if l.(l_eof) then Ok q else modSkip q) else Ok ls
  end.

(** module.go:parseReplaceLine 222-239, localreplace.go 120-138 *)
Definition parseReplaceLine (l : iline) : res replace :=
  _ <- ok_if (negb (len l.(l_items) <? 4)) ;;
  w1 <- item l 1 ;;
  _ <- ok_if (w1 =b "=>") ;;
  w0 <- item l 0 ;;
  w2 <- item l 2 ;;
  _ <- commentOrEOL l 3 ;;
  Ok (mkRep w0 w2).
(** The loop of ParseReplace, module.go 198-219, localreplace.go 96-117; [have] are the entries so far. *)
Fixpoint replaceLoop (ls : list iline) (have : list replace) : res (list replace * list iline) :=
  match ls with
  | [] => Err
  | l :: q =>
    if l.(l_eof) then Err
    else
      _ <- ok_if (negb (len l.(l_items) <? 2)) ;;
      w <- item l 0 ;;
      if w =b ")" then
        (_ <- ok_if (negb (len have =? 0)) ;; _ <- commentOrEOL l 1 ;; Ok (have, q))
      else (r <- parseReplaceLine l ;; replaceLoop q (have ++ [r]))
  end.
(** ParseReplace, module.go 183-220, localreplace.go 81-118; caseSensitiveCheck 297-305 is the comparison. *)
Definition parseReplace (have : list replace) (ls : list iline) : res (list replace * list iline) :=
  let '(l, q) := next ls in
  _ <- ok_if (negb (len l.(l_items) <? 3)) ;;
  w0 <- item l 0 ;;
  _ <- ok_if (w0 =b "replace") ;;
  _ <- commentOrEOL l 2 ;;
  replaceLoop q have.

(** strings.Index(s, c) for one character: -1 where there is none. *)
Fixpoint indexFrom (i : Z) (c : Z) (s : bytes) : Z :=
  match s with [] => -1 | d :: q => if d =? c then i else indexFrom (i + 1) c q end.
(** The loop of ParseACLs, module.go 269-294. *)
Fixpoint aclLoop (ls : list iline) (have : list bytes) : res (list bytes * list iline) :=
  match ls with
  | [] => Err
  | l :: q =>
    if l.(l_eof) then Err
    else
      _ <- ok_if (negb (len l.(l_items) <? 2)) ;;
      w <- item l 0 ;;
      if w =b ")" then
        (_ <- ok_if (negb (len have =? 0)) ;; _ <- commentOrEOL l 1 ;; Ok (have, q))
      else
        let index := indexFrom 0 42 w in
        if negb (index =? -1) || negb (index =? len w - 1) then Err else aclLoop q (have ++ [w])
  end.
(** module.go:ParseACLs 241-295 *)
Definition parseACLs (have : list bytes) (ls : list iline) : res (list bytes * list iline) :=
  let '(l, q) := next ls in
  _ <- ok_if (negb (len l.(l_items) <? 3)) ;;
  w0 <- item l 0 ;;
  _ <- ok_if (w0 =b "acls") ;;
  w1 <- item l 1 ;;
  if w1 =b "=" then
    (w2 <- item l 2 ;;
     if w2 =b "public" then (_ <- commentOrEOL l 3 ;; Ok (have ++ [lit "*"], q)) else Err)
  else
    (_ <- ok_if (w1 =b "(") ;;
     _ <- commentOrEOL l 2 ;;
     aclLoop q have).

(** module.go:FindNext 77-108.  ParseRequire 110-147 and parseRequireLine 151-181 are behind a test that is never
    false and are left out: [Hang] stands for going there. *)
Fixpoint modNext (fuel : nat) (m : module) (ls : list iline) : res module :=
  match fuel with
  | O => Hang
  | S fuel =>
    ls <- modSkip ls ;;
    let '(l, q) := next ls in
    w <- item l 0 ;;
    let k := toLower w in
    if k =b "require" then (if 0 <=? len m.(m_required) then Err else Hang)
    else if k =b "replace" then
      (if 0 <? len m.(m_replace) then Err
       else '(rs, r) <- parseReplace m.(m_replace) ls ;; modNext fuel (mkMod m.(m_path) m.(m_required) rs m.(m_acls)) r)
    else if k =b "acls" then
      (if negb (len m.(m_acls) =? 0) then Err
       else '(acls, r) <- parseACLs m.(m_acls) ls ;; modNext fuel (mkMod m.(m_path) m.(m_required) m.(m_replace) acls) r)
    else if l.(l_eof) then Ok m else Err
  end.
(** module.go:ParseModule 56-73 and Validate 31-36, which the lexer's Parse calls at the end. *)
Definition parseModule (ls : list iline) : res module :=
  let '(l, q) := next ls in
  _ <- ok_if (negb (len l.(l_items) <? 3)) ;;
  w0 <- item l 0 ;;
  _ <- ok_if (w0 =b "module") ;;
  w1 <- item l 1 ;;
  _ <- commentOrEOL l 2 ;;
  m <- modNext (S (S (length ls))) (mkMod w1 [] [] []) q ;;
  _ <- ValidModuleName m.(m_path) ;;
  Ok m.

(** localreplace.go:FindNext 61-79 *)
Fixpoint localNext (fuel : nat) (have : list replace) (ls : list iline) : res (list replace) :=
  match fuel with
  | O => Hang
  | S fuel =>
    ls <- modSkip ls ;;
    let '(l, q) := next ls in
    w <- item l 0 ;;
    if toLower w =b "replace" then
      (if 0 <? len have then Err else '(rs, r) <- parseReplace have ls ;; localNext fuel rs r)
    else if l.(l_eof) then Ok have else Err
  end.
(** localreplace.go:Validate 140-164 of a file that is not a test's.  [root] is the schema the check is made
    against, None is nil; [dir_ok] is os.Stat, IsDir and FindClawFile of the directory.  The imports are looked
    up by their names, not by their paths. *)
Fixpoint localValidate (root : option file) (dir_ok : bytes -> bool) (rs : list replace) : res unit :=
  match rs with
  | [] => Ok tt
  | r :: q =>
    match root with
    | None => Panic
    | Some f =>
      _ <- ok_if (imported f r.(rp_from)) ;;
      _ <- ok_if (dir_ok r.(rp_to)) ;;
      localValidate root dir_ok q
    end
  end.
Definition parseLocalReplace (root : option file) (dir_ok : bytes -> bool) (ls : list iline) : res (list replace) :=
  rs <- localNext (S (S (length ls))) [] ls ;;
  _ <- localValidate root dir_ok rs ;;
  Ok rs.

(** ** claw.work *)
(** work.go:Work 19-24 *)
Record work := mkWork { wk_repo : bytes; wk_vendor : bytes }.
(** work.go:skipLinesWithComments 59-70.  Where the comment is at the end of the file it stays read. *)
Fixpoint workSkip (ls : list iline) : list iline :=
  match ls with
  | [] => []
  | l :: q =>
    match l.(l_items) with
    | w :: _ => if isComment w then (if l.(l_eof) then q else workSkip q) else ls
    | [] => ls
    end
  end.
(** work.go:commentOrEOL 150-164: past the end is fine. *)
Definition workEnd (l : iline) (from : nat) : res unit :=
  if (length l.(l_items) <=? from)%nat then Ok tt else commentOrEOL l from.
(** work.go:ParseVendorDir 117-134 *)
Definition parseVendorDir (ls : list iline) : res (bytes * list iline) :=
  let '(l, q) := next ls in
  _ <- ok_if (negb (len l.(l_items) <? 3)) ;;
  w0 <- item l 0 ;;
  _ <- ok_if (w0 =b "vendorDir") ;;
  w1 <- item l 1 ;;
  _ <- workEnd l 2 ;;
  Ok (w1, q).
(** work.go:FindNext 95-114 *)
Fixpoint workNext (fuel : nat) (w : work) (ls : list iline) : res work :=
  match fuel with
  | O => Hang
  | S fuel =>
    let ls := workSkip ls in
    let '(l, q) := next ls in
    if l.(l_eof) then Ok w
    else
      w0 <- item l 0 ;;
      if toLower w0 =b "vendordir" then
        (if negb (bytes_eqb w.(wk_vendor) []) then Err
         else '(d, r) <- parseVendorDir ls ;; workNext fuel (mkWork w.(wk_repo) d) r)
      else Err
  end.
(** work.go:Validate 27-41; filepath.IsAbs is a first slash. *)
Definition workValidate (w : work) : res unit :=
  _ <- ok_if (negb (bytes_eqb w.(wk_repo) [])) ;;
  _ <- ok_if (negb (bytes_eqb w.(wk_vendor) [])) ;;
  _ <- ok_if (negb (containsSub (lit "//") w.(wk_repo))) ;;
  ok_if (negb (hasPrefix (lit "/") w.(wk_vendor))).
(** work.go:ParseRepo 73-92, Parse 167-176 *)
Definition parseWork (ls : list iline) : res work :=
  let '(l, q) := next (workSkip ls) in
  _ <- ok_if (negb (len l.(l_items) <? 3)) ;;
  w0 <- item l 0 ;;
  _ <- ok_if (w0 =b "repo") ;;
  w1 <- item l 1 ;;
  _ <- workEnd l 2 ;;
  w <- workNext (S (S (length ls))) (mkWork w1 []) q ;;
  _ <- workValidate w ;;
  Ok w.
(** work.go:ValidateModuleInRepo 44-52 *)
Definition ValidateModuleInRepo (m repo : bytes) : res unit :=
  _ <- ok_if (hasPrefix repo m) ;;
  if (length repo <? length m)%nat then
    match nth_error m (length repo) with Some c => ok_if (c =? 47) | None => Panic end
  else Ok tt.
(** work.go:FindWork 181-209: the directories from the start up to the root, each with what reading its claw.work
    gives: None is not there, an error is another failure. *)
Fixpoint FindWork (dirs : list (bytes * option (res (list iline)))) : res (work * bytes) :=
  match dirs with
  | [] => Err
  | (_, None) :: q => FindWork q
  | (d, Some c) :: _ => ls <- c ;; w <- parseWork ls ;; Ok (w, d)
  end.
End Tables.

(** ** Access lists *)
(** vendor.go:checkACLPermission 474-502 *)
Definition aclAllows (current acl : bytes) : bool :=
  (acl =b "*") || (acl =b "public") || bytes_eqb acl current ||
  (hasSuffix acl (lit "/*") && hasPrefix (trimSuffix acl (lit "/*")) current).
Definition checkACLPermission (current : bytes) (target : module) : res unit :=
  _ <- ok_if (negb (len target.(m_acls) =? 0)) ;;
  ok_if (existsb (aclAllows current) target.(m_acls)).
(** vendor.go:validateACLs 460-472: the module files of the packages, None is nil. *)
Fixpoint validateACLs (current : bytes) (mods : list (option module)) : res unit :=
  match mods with
  | [] => Ok tt
  | None :: q => validateACLs current q
  | Some m :: q => _ <- checkACLPermission current m ;; validateACLs current q
  end.

(** ** Writing claw.mod *)
Section Write.
(** fmt's %d *)
Variable dec : Z -> bytes.
Definition lf : bytes := [10].
Definition verText (v : version) : bytes := lit "v" ++ dec v.(v_major) ++ lit "." ++ dec v.(v_minor) ++ lit "." ++ dec v.(v_patch).
(** imports.go:Version.IsZero 445-450 *)
Definition verZero (v : version) : bool := (v.(v_major) =? 0) && (v.(v_minor) =? 0) && (v.(v_patch) =? 0).
Definition requireText (r : require) : bytes :=
  lit "    " ++ r.(rq_path) ++
  (if negb (verZero r.(rq_version)) then lit " " ++ verText r.(rq_version)
   else if negb (bytes_eqb r.(rq_id) []) then lit " " ++ r.(rq_id) else []) ++ lf.
Definition replaceText (r : replace) : bytes := lit "    " ++ r.(rp_from) ++ lit " => " ++ r.(rp_to) ++ lf.
(** vendor.go:serializeModule 618-658 *)
Definition serializeModule (m : module) : bytes :=
  lit "module " ++ m.(m_path) ++ lf ++ lf ++
  (match m.(m_required) with [] => [] | rs => lit "require (" ++ lf ++ flat_map requireText rs ++ lit ")" ++ lf ++ lf end) ++
  (match m.(m_replace) with [] => [] | rs => lit "replace (" ++ lf ++ flat_map replaceText rs ++ lit ")" ++ lf ++ lf end) ++
  (match m.(m_acls) with [] => [] | acls => lit "acls (" ++ lf ++ flat_map (fun a => lit "    " ++ a ++ lf) acls ++ lit ")" ++ lf end).
End Write.
