(** What claw.mod and claw.work say: docs/modules/modules.md. *)
From Coq Require Import ZArith List Bool String.
Import ListNotations.
From Verif.Model Require Import Base Utf8 Field Idl ClawMod.
From Verif.Spec Require Import Text ClawText Idl IdlText.
Local Open Scope Z_scope.

(** A line with the words [ws], then the end of the line or a comment. *)
Definition shows (l : iline) (ws : list bytes) : Prop :=
  exists tl, l.(l_items) = ws ++ tl /\ ((exists e, tl = [e]) \/ exists w q, tl = w :: q /\ starts (lit "//") w).
(** Some of the lines, in their order. *)
Inductive among {A} : list A -> list A -> Prop :=
| am_nil l : among [] l
| am_take a s l : among s l -> among (a :: s) (a :: l)
| am_skip a s l : among s l -> among s (a :: l).
Definition replace_line (l : iline) (r : replace) : Prop := shows l [r.(rp_from); lit "=>"; r.(rp_to)].

(** ** The text of a claw.mod *)
(** Lines of comment: the slashes are a word of their own. *)
Definition mod_comment (l : iline) : Prop := exists q, says l (lit "//" :: q).
Inductive replace_text : list iline -> list replace -> Prop :=
| rt o ls rs c : line_says o [lit "replace"; lit "("] ->
    Forall2 (fun l r => line_says l [r.(rp_from); lit "=>"; r.(rp_to)] /\ r.(rp_from) <> lit ")") ls rs -> rs <> [] -> line_says c [lit ")"] ->
    replace_text (o :: ls ++ [c]) rs.
(** The replacements and the access list, each at most once and in any order: what was there before and is behind. *)
Inductive mod_body : list replace -> list bytes -> list iline -> list replace -> list bytes -> Prop :=
| mb_end cs rs acls : Forall mod_comment cs -> mod_body rs acls cs rs acls
| mb_replace cs b rs ls acls rs' acls' : Forall mod_comment cs -> replace_text b rs -> mod_body rs acls ls rs' acls' ->
    mod_body [] acls (cs ++ b ++ ls) rs' acls'
| mb_public cs l ls rs rs' acls' : Forall mod_comment cs -> line_says l [lit "acls"; lit "="; lit "public"] -> mod_body rs [lit "*"] ls rs' acls' ->
    mod_body rs [] (cs ++ l :: ls) rs' acls'.
(** The path of a module: names with slashes between them; the last one is the name of a package. *)
Definition module_path (p : bytes) : Prop :=
  (exists d b, p = d ++ b /\ pname b /\ (d = [] \/ exists d', d = d' ++ [47])) /\ ~ (exists a b, p = a ++ lit "//" ++ b).
Inductive module_text : list iline -> module -> Prop :=
| mt l ls p rs acls : line_says l [lit "module"; p] -> module_path p -> mod_body [] [] ls rs acls ->
    module_text (l :: ls) (mkMod p [] rs acls).

(** ** The access rule of docs/modules/modules.md *)
(** An entry is the name of a package, or ends with a slash and a star for the packages underneath, or is the star
    of acls = public. *)
Definition entry_admits (acl current : bytes) : Prop :=
  acl = lit "*" \/ acl = current \/ exists p q, acl = p ++ lit "/*" /\ current = p ++ lit "/" ++ q.
(** What is admitted: the entry without the slash and the star need only be a prefix of the characters. *)
Definition entry_admits_loosely (acl current : bytes) : Prop :=
  acl = lit "*" \/ acl = lit "public" \/ acl = current \/ exists p q, acl = p ++ lit "/*" /\ current = p ++ q.

(** ** claw.work *)
(** The same package or one underneath. *)
Definition within (repo p : bytes) : Prop := p = repo \/ exists q, p = repo ++ lit "/" ++ q.
Definition work_comment (l : iline) : Prop := exists w q, says l (w :: q) /\ starts (lit "//") w.
Inductive work_text : list iline -> work -> Prop :=
| wt cs l cs' l' cs'' repo dir : Forall work_comment cs -> line_says l [lit "repo"; repo] -> Forall work_comment cs' ->
    line_says l' [lit "vendorDir"; dir] -> Forall work_comment cs'' ->
    ~ (exists a b, repo = a ++ lit "//" ++ b) -> ~ starts (lit "/") dir ->
    work_text (cs ++ l :: cs' ++ l' :: cs'') (mkWork repo dir).
