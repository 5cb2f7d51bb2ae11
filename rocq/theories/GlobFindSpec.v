(** GlobFindSpec.v -- which files kwiversys::Glob::FindFiles has to list. *)
From Coq Require Import List Ascii Bool Arith.
Import ListNotations.
From Verif Require Import Base RegexModel PathModel GlobModel GlobSpec.

Definition selects (p name : str) : Prop := exists its, glob_text p its /\ glob_match its name.
(** An entry of a directory other than itself and its parent. *)
Definition entry (w : gfs) (node : nat) (name : str) (e : ent) : Prop := exists l, g_ents w node = Some l /\ In (name, e) l /\ name <> L "." /\ name <> L "..".
Definition dir_of (e : ent) : option nat := match e with EFile => None | EDir d | ELink d => Some d end.
(** A way down from one directory to another: where each step starts, the name
    it takes and whether that name is a link. *)
Inductive trail (w : gfs) : nat -> list (nat * str * bool) -> nat -> Prop :=
| tr_nil a : trail w a [] a
| tr_dir a name d s b : entry w a name (EDir d) -> trail w d s b -> trail w a ((a, name, false) :: s) b
| tr_link a name d s b : entry w a name (ELink d) -> trail w d s b -> trail w a ((a, name, true) :: s) b.
(** The directories at which links are taken. *)
Definition turns (s : list (nat * str * bool)) : list nat := flat_map (fun x : nat * str * bool => if snd x then [fst (fst x)] else []) s.
Definition trail_text (s : list (nat * str * bool)) : str := flat_map (fun x : nat * str * bool => snd (fst x) ++ L "/") s.
(** Links are followed only if asked for, and at no directory twice. *)
Definition allowed (o : gopts) (s : list (nat * str * bool)) : Prop := NoDup (turns s) /\ (o_links o = false -> turns s = []).
Inductive found_deep (w : gfs) (o : gopts) (p : str) (pre : str) (node : nat) : str -> Prop :=
| fd_file s b name e : trail w node s b -> allowed o s -> entry w b name e -> e = EFile \/ (o_links o = false /\ exists d, e = ELink d) -> selects p name -> found_deep w o p pre node (pre ++ trail_text s ++ name)
| fd_dir s b name k c : o_recurse_list_dirs o = true -> trail w node (s ++ [(b, name, k)]) c -> allowed o (s ++ [(b, name, k)]) -> found_deep w o p pre node (pre ++ trail_text s ++ name).
(** [pre] is the text of the directory [node], ending in a slash. *)
Inductive found (w : gfs) (o : gopts) : list str -> str -> nat -> str -> Prop :=
| fo_last p pre node name e : o_recurse o = false -> entry w node name e -> o_list_dirs o = true \/ e = EFile -> selects p name -> found w o [p] pre node (pre ++ name)
| fo_deep p pre node path : o_recurse o = true -> found_deep w o p pre node path -> found w o [p] pre node path
| fo_more p q ps pre node name e d path : entry w node name e -> dir_of e = Some d -> selects p name -> found w o (q :: ps) (pre ++ name ++ L "/") d path -> found w o (p :: q :: ps) pre node path.
(** Names have no NUL. *)
Definition wf_names (w : gfs) : Prop := forall node l name e, g_ents w node = Some l -> In (name, e) l -> ~ In NUL name.
(** There are finitely many directories below [node], and real directories are
    not nested in themselves. *)
Definition finite_below (w : gfs) (node : nat) : Prop := exists (dom : list nat) (rank : nat -> nat), In node dom /\
  (forall a name e d, In a dom -> entry w a name e -> dir_of e = Some d -> In d dom) /\ (forall a name d, entry w a name (EDir d) -> rank d < rank a).
(** Where the directory to start from ends: at the last slash before the first
    wildcard (characters after a backslash and the first one do not count). *)
Definition unescaped (s : str) (i : nat) : Prop := 0 < i /\ nth_error s (i - 1) <> Some "\"%char.
Definition wild_at (s : str) (i : nat) : Prop := unescaped s i /\ (nth_error s i = Some "["%char \/ nth_error s i = Some "?"%char \/ nth_error s i = Some "*"%char).
Definition slash_at (s : str) (i : nat) : Prop := unescaped s i /\ nth_error s i = Some slash /\ forall j, j < i -> ~ wild_at s j.
Definition fixed_part (s : str) (k : nat) : Prop := (slash_at s k /\ forall j, slash_at s j -> j <= k) \/ (k = 0 /\ forall j, ~ slash_at s j).
(** The directory text FindFiles starts from. *)
Definition start_dir (s : str) (k : nat) : str := if k =? 0 then L "/" else firstn k s ++ L "/".
Definition absolute (cwd e : str) : str := if file_is_full_path e then e else cwd ++ L "/" ++ e.
