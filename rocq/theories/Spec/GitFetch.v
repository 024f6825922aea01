(** What the documentation and the comments say of fetching packages: docs/modules/modules.md and git.go. *)
From Coq Require Import ZArith List Bool String.
Import ListNotations.
From Verif.Model Require Import Base Utf8 Field Idl ClawMod GitFetch.
From Verif.Spec Require Import ClawText.
Local Open Scope Z_scope.

(** ** Names of commits *)
Definition hex_digit (d c : Z) : Prop := (0 <= d < 10 /\ c = 48 + d) \/ (10 <= d < 16 /\ c = 87 + d).
(** [v] is [h] in lower case hexadecimal digits. *)
Inductive hex_of : bytes -> bytes -> Prop :=
| hx_nil : hex_of [] []
| hx_cons hi lo a b h v : hex_digit hi a -> hex_digit lo b -> hex_of h v -> hex_of (16 * hi + lo :: h) (a :: b :: v).
(** The name of a commit is a hash of twenty bytes. *)
Definition a_hash (h : bytes) : Prop := length h = 20%nat /\ Forall (fun b => 0 <= b < 256) h.
Definition commit_name (h v : bytes) : Prop := a_hash h /\ hex_of h v.
(** A semantic version: v, a number, a dot, a number, a dot, a number. *)
Definition number (s : bytes) : Prop := s <> [] /\ Forall (fun c => 48 <= c <= 57) s.
Definition semantic (v : bytes) : Prop := exists a b c, v = lit "v" ++ a ++ lit "." ++ b ++ lit "." ++ c /\ number a /\ number b /\ number c.
(** No commit: the hash of zeros only. *)
Definition no_hash : bytes := repeat 0 20.

(** ** Where a package lies *)
(** A part of a path. *)
Definition part (s : bytes) : Prop := ~ In 47 s.
(** The package at [dir] inside the repository [name] of [user] at [host]; [dir] is empty for the repository itself. *)
Inductive lies (pkg host user name dir : bytes) : Prop :=
| lies_top : part host -> part user -> part name -> dir = [] -> pkg = host ++ lit "/" ++ user ++ lit "/" ++ name -> lies pkg host user name dir
| lies_in : part host -> part user -> part name -> pkg = host ++ lit "/" ++ user ++ lit "/" ++ name ++ lit "/" ++ dir -> lies pkg host user name dir.

(** The entries of a directory hold exactly one schema, the text [b], and no redirect. *)
Definition ends_with (e s : bytes) : Prop := exists a, s = a ++ e.
Definition one_schema (es : list (bytes * option bytes)) (b : bytes) : Prop :=
  exists p n q, es = p ++ (n, Some b) :: q /\ ends_with (lit ".claw") n /\
    Forall (fun e => ~ ends_with (lit ".claw") (fst e)) (p ++ q) /\ ~ In (lit "global.replace") (map fst es).
(** The entries hold a redirect with the text [b]. *)
Definition redirects (es : list (bytes * option bytes)) (b : bytes) : Prop :=
  exists p q, es = p ++ (lit "global.replace", Some b) :: q /\ ~ In (lit "global.replace") (map fst p).

Section World.
Variable openRepo : bytes -> bytes -> bytes -> option repo.
(** What a text of global.replace says. *)
Variable says : bytes -> bytes -> Prop.
(** Tags live under refs/tags/; the commit at the head can be checked out by its name. *)
Definition sane (r : repo) : Prop :=
  (forall ts n h, r.(r_tags) = Some ts -> In (n, h) ts -> starts (lit "refs/tags/") n) /\
  (forall h t, r.(r_head) = Some (h, t) -> a_hash h /\ r.(r_checkout) h = Some t).
Definition sane_world : Prop := forall host user name r, openRepo host user name = Some r -> sane r.

(** The directory of a package at a commit, [full] being the name of the commit: the one asked for, or that at the head
    where no version is asked for. *)
Inductive at_commit (pkg version full : bytes) (es : list (bytes * option bytes)) : Prop :=
| at_named host user name dir r h t : lies pkg host user name dir -> openRepo host user name = Some r ->
    commit_name h version -> full = version -> r.(r_checkout) h = Some t -> t dir = Some es -> at_commit pkg version full es
| at_head host user name dir r h t : lies pkg host user name dir -> openRepo host user name = Some r ->
    version = [] -> r.(r_head) = Some (h, t) -> commit_name h full -> t dir = Some es -> at_commit pkg version full es.
(** A package at a commit is the text [b], behind [n] redirects. *)
Inductive is_text : nat -> bytes -> bytes -> bytes -> bytes -> Prop :=
| it_here pkg version full es b : at_commit pkg version full es -> one_schema es b -> is_text 0 pkg version full b
| it_moved n pkg version full es g to b : at_commit pkg version full es -> redirects es g -> says g to ->
    is_text n to full full b -> is_text (S n) pkg version full b.
End World.

(** ** Specifications of packages *)
Definition blank (c : Z) : Prop := 9 <= c <= 13 \/ c = 32.
(** Text that does not begin or end with white space. *)
Definition trimmed (s : bytes) : Prop := s <> [] /\ (forall c q, s = c :: q -> ~ blank c) /\ (forall c q, s = q ++ [c] -> ~ blank c).

(** ** Versions of git *)
Definition at_least (v : version) (major minor : Z) : Prop := major < v.(v_major) \/ (v.(v_major) = major /\ minor <= v.(v_minor)).
