(** SearchSpec.v -- what a search promises. *)
From Verif Require Import Base ConfigModel PathModel PathSpec SearchModel.

(** The first of the candidates that is acceptable. *)
Inductive first_of (ok : str -> bool) : list str -> option str -> Prop :=
| fo_none : first_of ok [] None
| fo_here c l : ok c = true -> first_of ok (c :: l) (Some c)
| fo_next c l r : ok c = false -> first_of ok l r -> first_of ok (c :: l) r.

(** A file in a directory: exactly one slash between when the directory ends with none. *)
Definition in_dir (d name : str) : str := (if match rev d with c :: _ => Ascii.eqb c "/" | [] => false end then d else d ++ L "/") ++ name.

(** The directories searched: those of PATH, then the caller's. *)
Definition search_dirs (e : penv) (user : list str) (no_system : bool) (dirs : list str) : Prop :=
  if no_system then dirs = user else exists sys, get_path e (L "PATH") = Some sys /\ dirs = sys ++ user.
Definition library_files (d name : str) : list str :=
  map (fun suf => in_dir d (L "lib" ++ name ++ suf)) [L ".so"; L ".a"; L ".sl"; L ".dylib"; L ".dll"].

(** The answer for the candidate found: its collapsed path; nothing: the empty string. *)
Definition answer (fuel : nat) (e : penv) (r : option str) : option str :=
  match r with Some c => collapse_full_path fuel e c None | None => Some [] end.

(** LocateFileInDir: the ends of a list of directory names, shortest first. *)
Fixpoint ends_of (names : list str) : list (list str) :=
  match names with [] => [] | n :: r => ends_of r ++ [n :: r] end.
(** A directory text with "/" after it unless it is empty or ends with a separator. *)
Definition slashed_dir (d : str) : str :=
  d ++ (if match rev d with [] => true | c :: _ => Ascii.eqb c "/" || Ascii.eqb c "\" end then [] else L "/").
(** Where it looks when given [t]: in [t] if that is a directory, else in its parent. *)
Definition looks_in (e : penv) (t d : str) : Prop :=
  (e_isdir e t = true /\ d = t) \/ (e_isdir e t = false /\ get_filename_path e t = Some d).

(** SplitProgramFromArgs: [prog] is known as a file or as a program in the path. *)
Definition known (ex : str -> bool) (fp : str -> str) (prog : str) : Prop := ex prog = true \/ fp prog <> [].
(** Trailing blanks removed. *)
Definition trimmed (p q : str) : Prop := exists k, p = q ++ repeat " "%char k /\ q <> [] /\ last q "000"%char <> " "%char.
(** Each name with a slash after it. *)
Definition below (names : list str) : str := concat (map (fun n => n ++ L "/") names).
(** Looking for [base] below [d], in the directories [d]/s for s in the list, one after the other. *)
Inductive tries (e : penv) (base d : str) : list (list str) -> option str -> Prop :=
| tr_none : tries e base d [] None
| tr_here s l d' : looks_in e (slashed_dir d ++ below s) d' -> e_exists e (slashed_dir d' ++ base) = true -> tries e base d (s :: l) (Some (slashed_dir d' ++ base))
| tr_next s l d' r : looks_in e (slashed_dir d ++ below s) d' -> e_exists e (slashed_dir d' ++ base) = false -> tries e base d l r -> tries e base d (s :: l) r.
