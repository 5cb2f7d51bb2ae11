(** TransModel.v -- the table of directory names kept as the user calls them:
    SystemTools::AddTranslationPath, AddKeepPath and ClassInitialize
    (vital/kwiversys/SystemTools.cxx 3458-3497, 5330-5391), over the file system of
    TreeModel.v.  CheckTranslationPath and CollapseFullPath are in PathModel.v. *)
From Coq Require Import Ascii String List Bool Arith.
Import ListNotations.
From Verif Require Import Base PathModel TreeModel.

(** The name of a place without links: what realpath(3) and getcwd(3) give. *)
Definition text (l : place) : str := match l with [] => [slash] | _ => flat_map (fun n => slash :: n) l end.
(** The environment with the contents of TranslationMap. *)
Definition with_table (e : penv) (t : smap str) : penv := mkPenv (e_home e) (e_pw e) (e_cwd e) (e_var e) (e_exists e) (e_isdir e) t.
Section Trans.
Variable e : penv.
Variable f : fsys.
Variable cwd : place.
(** Paths that realpath refuses (permissions, lengths). *)
Variable refused : str -> bool.
(** realpath(3): everything on the way and at the end exists. *)
Definition sys_realpath (p : str) : option str :=
  if refused p then None
  else match resolve f cwd true p with
       | inl l => match at_place f l with Some _ => Some (text l) | None => None end
       | inr _ => None
       end.
(** SystemTools.cxx 319-349: without an error message the path itself stands for what
    could not be resolved. *)
Definition realpath (p : str) : str := match sys_realpath p with Some r => r | None => p end.
(** 3477-3484 *)
Definition end_slash (p : str) : str := match rev p with [] => p | c :: _ => if Ascii.eqb c slash then p else p ++ [slash] end.
(** 3458-3490; None: ConvertToUnixSlashes did not end. *)
Definition add_translation (t : smap str) (a b : str) : option (smap str) :=
  match convert_to_unix_slashes e a, convert_to_unix_slashes e b with
  | Some pa, Some pb =>
      if file_is_directory f cwd pa then
        if (file_is_full_path pb && match find_sub (L "..") pb with None => true | Some _ => false end)%bool then
          let pa := end_slash pa in
          let pb := end_slash pb in
          if str_eqb pa pb then Some t
          else Some (if shas pa t then t else sset pa pb t)            (* std::map::insert *)
        else Some t
      else Some t
  | _, _ => None
  end.
(** 3492-3497 *)
Definition add_keep (fuel : nat) (t : smap str) (dir : str) : option (smap str) :=
  match collapse_full_path fuel (with_table e t) dir None with
  | Some p => add_translation t (realpath p) dir
  | None => None
  end.
(** 5369-5381: the loop; the last pair for which the mapping works. *)
Fixpoint shorten (fuel : nat) (cwd_str pwd_str : str) (changed : option (str * str)) : option (option (str * str)) :=
  match fuel with
  | O => None
  | S n =>
      if (str_eqb cwd_str (realpath pwd_str) && negb (str_eqb cwd_str pwd_str))%bool then
        match get_filename_path e pwd_str, get_filename_path e cwd_str with
        | Some p, Some c => shorten n c p (Some (cwd_str, pwd_str))
        | _, _ => None
        end
      else Some changed
  end.
(** 5330-5391; [pwd] is $PWD, [getcwd] what getcwd gives. *)
Definition class_initialize (fuel : nat) (pwd getcwd : option str) : option (smap str) :=
  match add_keep fuel [] (L "/tmp/") with
  | None => None
  | Some t =>
      match pwd, getcwd with
      | Some p, Some c =>
          match shorten fuel c p None with
          | None => None
          | Some (Some ((_ :: _) as a, (_ :: _) as b)) => add_translation t a b
          | Some _ => Some t
          end
      | _, _ => Some t
      end
  end.
End Trans.
