(** CopyModel.v -- SystemTools::SameFile, FileExists, MakeDirectory, FilesDiffer,
    CopyFileAlways, CopyFileIfDifferent, CopyAFile and CopyADirectory
    (vital/kwiversys/SystemTools.cxx), over the file system of TreeModel.v.

    One process, no hard links, one device.  What the system refuses is given by
    [deny], any function of call and place.  Modes are not modelled: chmod(2) only
    succeeds or fails. *)
From Coq Require Import List Ascii String Bool Arith.
Import ListNotations.
From Verif Require Import Base PathModel TreeModel.

(** access(R_OK); open for reading; opendir; open of an existing file for writing;
    creation of a file; mkdir; unlink; chmod. *)
Inductive ccall := CAccess | CRead | COpen | CWrite | CCreate | CMkdir | CRemove | CChmod.
(** [dsize]: st_size of a directory.  [rerr]: bytes that can be read from the file at a
    place before reading fails.  [werr]: bytes that can be written to it. *)
Record disk := Disk { deny : ccall -> place -> bool; dsize : place -> nat; rerr : place -> option nat; werr : place -> option nat }.
Definition put (f : fsys) (l : place) (k : kind) : fsys := (l, k) :: drop f l.
Definition limit (n : option nat) (d : str) : str := match n with None => d | Some k => firstn k d end.
Definition BLOCK : nat := 64 * 64.
Section Copy.
Variable e : penv.
Variable k : disk.
Variable cwd : place.

(** SystemTools.cxx 1186-1199: SameFile; one device, so the inode is the place. *)
Definition same_file (f : fsys) (a b : str) : bool :=
  match resolve f cwd true a, resolve f cwd true b with
  | inl x, inl y => match at_place f x with Some _ => if place_dec x y then true else false | None => false end
  | _, _ => false
  end.
(** 1211-1232: FileExists, access(R_OK). *)
Definition file_exists (f : fsys) (p : str) : bool :=
  match resolve f cwd true p with
  | inl l => match at_place f l with Some _ => negb (deny k CAccess l) | None => false end
  | inr _ => false
  end.
(** mkdir(2): slashes at the end are dropped (not all of "/"), a link in the last name is not followed. *)
Inductive mkres := MkOk | MkExist | MkOther.
Definition sys_mkdir (f : fsys) (p : str) : fsys * mkres :=
  match resolve f cwd false (match no_trailing p with [] => p | q => q end) with
  | inr _ => (f, MkOther)
  | inl l => match at_place f l with
             | Some _ => (f, MkExist)
             | None => if deny k CMkdir l then (f, MkOther) else (put f l KDir, MkOk)
             end
  end.
(** 747-753: the texts before each slash. *)
Fixpoint tops (pre s : str) : list str :=
  match s with [] => [] | c :: r => if Ascii.eqb c slash then pre :: tops (pre ++ [c]) r else tops (pre ++ [c]) r end.
(** 733-772: MakeDirectory; None: ConvertToUnixSlashes did not end. *)
Definition make_directory (f : fsys) (path : str) : option (fsys * bool) :=
  if file_exists f path then Some (f, file_is_directory f cwd path)
  else match path with
  | [] => Some (f, false)
  | _ => match convert_to_unix_slashes e path with
         | None => None
         | Some dir =>
             let f1 := fold_left (fun f t => fst (sys_mkdir f t)) (tops [] dir) f in
             let '(f2, r) := sys_mkdir f1 dir in
             Some (f2, match r with MkOther => false | _ => true end)
         end
  end.

(** stat(2): what is there, and st_size. *)
Definition st_size (f : fsys) (l : place) : option nat :=
  match at_place f l with Some KDir => Some (dsize k l) | Some (KFile d) => Some (length d) | _ => None end.
Definition sys_stat (f : fsys) (p : str) : option nat := match resolve f cwd true p with inl l => st_size f l | inr _ => None end.
(** An ifstream on a path: the bytes that reading delivers, and where; a directory can be opened
    but not read (libstdc++ opens with open(2), and read(2) fails with EISDIR). *)
Definition open_in (f : fsys) (p : str) : option (place * str) :=
  match resolve f cwd true p with
  | inl l => if deny k CRead l then None
             else match at_place f l with Some (KFile d) => Some (l, limit (rerr k l) d) | Some KDir => Some (l, []) | _ => None end
  | inr _ => None
  end.
(** 2337-2372: blocks are compared; [nleft] bytes remain. *)
Fixpoint blocks_differ (fuel nleft : nat) (a b : str) : bool :=
  match fuel with
  | O => true
  | S n =>
      if Nat.eqb nleft 0 then false
      else
        let nnext := Nat.min nleft BLOCK in
        let x := firstn nnext a in
        let y := firstn nnext b in
        if (negb (Nat.eqb (length x) nnext) || negb (Nat.eqb (length y) nnext))%bool then true
        else if negb (str_eqb x y) then true
        else blocks_differ n (nleft - nnext) (skipn nnext a) (skipn nnext b)
  end.
(** 2265-2376: FilesDiffer. *)
Definition files_differ (f : fsys) (source destination : str) : bool :=
  match sys_stat f source, sys_stat f destination with
  | Some n, Some m =>
      if negb (Nat.eqb n m) then true
      else if Nat.eqb n 0 then false
      else match open_in f source, open_in f destination with
           | Some (_, a), Some (_, b) => blocks_differ (S n) n a b
           | _, _ => true
           end
  | _, _ => true
  end.

(** 2758-2798: RemoveFile, with this disk's refusals. *)
Definition rm_file (f : fsys) (p : str) : fsys := fst (remove_file (fun _ l => deny k CRemove l) cwd f p).
(** An ofstream with trunc: the place that is opened, now an empty file; [true]: it was there before. *)
Definition open_out (f : fsys) (p : str) : option (fsys * place * bool) :=
  match resolve f cwd true p with
  | inl l => match at_place f l with
             | Some (KFile _) => if deny k CWrite l then None else Some (put f l (KFile []), l, true)
             | None => if deny k CCreate l then None else Some (put f l (KFile []), l, false)
             | _ => None
             end
  | inr _ => None
  end.
(** 2461-2472: while(fin) read a block, write it. *)
Fixpoint copy_loop (fuel : nat) (src out : str) : str :=
  match fuel with
  | O => out
  | S n =>
      match firstn BLOCK src with
      | [] => out
      | x => if Nat.ltb (length x) BLOCK then out ++ x else copy_loop n (skipn BLOCK src) (out ++ x)
      end
  end.
(** 4824-4852: SetPermissions: access(F_OK) and chmod. *)
Definition set_permissions (f : fsys) (p : str) : bool :=
  match resolve f cwd true p with
  | inl l => match at_place f l with Some _ => negb (deny k CChmod l) | None => false end
  | inr _ => false
  end.
(** 2407-2424: the name of the file to write, and the directory to make. *)
Definition target (f : fsys) (source destination : str) : option (str * str) :=
  if (file_exists f destination && file_is_directory f cwd destination)%bool then
    match convert_to_unix_slashes e destination with
    | Some d => Some (d ++ [slash] ++ get_filename_name source, destination)
    | None => None
    end
  else match get_filename_path e destination with
       | Some d => Some (destination, d)
       | None => None
       end.
(** 2381-2494: CopyFileAlways; None: a path function did not end.  An open file keeps its
    bytes when its name is removed, and loses them when it is opened again with trunc. *)
Definition copy_file_always (f : fsys) (source destination : str) : option (fsys * bool) :=
  if same_file f source destination then Some (f, true)
  else
    let perms := match sys_stat f source with Some _ => true | None => false end in
    if file_is_directory f cwd source then
      match make_directory f destination with
      | None => None
      | Some (f1, _) => Some (f1, if perms then set_permissions f1 destination else true)
      end
    else
      match target f source destination with
      | None => None
      | Some (real_destination, destination_dir) =>
          match make_directory f destination_dir with
          | None => None
          | Some (f1, _) =>
              match open_in f1 source with
              | None => Some (f1, false)
              | Some (s, d) =>
                  let f2 := rm_file f1 real_destination in
                  match open_out f2 real_destination with
                  | None => Some (f2, false)
                  | Some (f3, w, old) =>
                      let d := if (old && if place_dec s w then true else false)%bool then [] else d in
                      let out := copy_loop (S (length d)) d [] in
                      let done := limit (werr k w) out in
                      let f4 := put f3 w (KFile done) in
                      if Nat.ltb (length done) (length out) then Some (f4, false)
                      else Some (f4, if perms then set_permissions f4 real_destination else true)
                  end
              end
          end
      end.
(** 2230-2260: CopyFileIfDifferent. *)
Definition copy_file_if_different (f : fsys) (source destination : str) : option (fsys * bool) :=
  if file_is_directory f cwd destination then
    match convert_to_unix_slashes e destination with
    | None => None
    | Some d =>
        if files_differ f source (d ++ [slash] ++ get_filename_name source) then copy_file_always f source destination
        else Some (f, true)
    end
  else if files_differ f source destination then copy_file_always f source destination
  else Some (f, true).
(** 2497-2508: CopyAFile. *)
Definition copy_a_file (f : fsys) (source destination : str) (always : bool) : option (fsys * bool) :=
  if always then copy_file_always f source destination else copy_file_if_different f source destination.
(** 2515-2560: CopyADirectory; None: a path function did not end, or the recursion went deeper
    than [fuel]. *)
Fixpoint copy_a_directory (fuel : nat) (f : fsys) (source destination : str) (always : bool) : option (fsys * bool) :=
  match fuel with
  | O => None
  | S fuel' =>
      let files := load (fun _ l => deny k COpen l) cwd f source in
      match make_directory f destination with
      | None => None
      | Some (f1, false) => Some (f1, false)
      | Some (f1, true) =>
          let fix entries (f : fsys) (files : list str) : option (fsys * bool) :=
            match files with
            | [] => Some (f, true)
            | x :: rest =>
                if (str_eqb x (L ".") || str_eqb x (L ".."))%bool then entries f rest
                else
                  let full := source ++ [slash] ++ x in
                  match (if file_is_directory f cwd full
                         then copy_a_directory fuel' f full (destination ++ [slash] ++ x) always
                         else copy_a_file f full destination always) with
                  | None => None
                  | Some (f', true) => entries f' rest
                  | Some (f', false) => Some (f', false)
                  end
            end in
          entries f1 files
      end
  end.
End Copy.
