(** PyToolModel.v -- the feature tracking tool:
    vital/bindings/python/vital/bin/maptk_track_features.py 104-327.

    The file system is a map from path names to files and directories, with
    refusals given; the three algorithms answer as they like, depending on all
    they were asked before (their answers given by [oracle]), may raise, and do
    not touch the files of the tool.  Logging is left out.  The text of a track
    set is what write_track_file makes of it (C48); it refuses a set without
    tracks (track_set_io.cxx 108-113). *)
From Coq Require Import Ascii ZArith List Bool Arith.
Import ListNotations.
From Verif Require Import Base ConfigModel RegexModel PyConfModel PyPathModel.

Inductive node := File (text : str) | Dir.
Definition fs := smap node.
Definition is_file (w : fs) (p : str) : bool := match sfind p w with Some (File _) => true | _ => false end.
Definition is_dir (w : fs) (p : str) : bool := match sfind p w with Some Dir => true | _ => false end.

Section Tool.
Variables img tset : Type.
(** What the algorithms were asked, and their answers ([None]: an exception). *)
Inductive event :=
| ELoad (path : str) (r : option img)
| EConvert (i : img) (r : option img)
| ETrack (prev : tset) (frame : nat) (i : img) (mask : option img) (r : option tset).
Record oracle := mkOracle {
  o_load : list event -> str -> option img;
  o_convert : list event -> img -> option img;
  o_track : list event -> tset -> nat -> img -> option img -> option tset }.
(** What the operating system refuses. *)
Record refusals := mkRef { r_read : str -> bool; r_write : str -> bool; r_mkdir : str -> bool }.
Variable o : oracle.
Variable rf : refusals.
Variable empty_set : tset.
Variable tracks_text : tset -> option str.        (* None: no tracks *)
Variable fhome : str -> option str.
Variable cwd : str.

(** 108-124. *)
Record tool := mkTool { t_images : option str; t_masks : option str; t_invert : bool; t_multi : bool; t_out : option str }.
Definition tool0 : tool := mkTool None None false false None.
(** Python truth of a str or None. *)
Definition given (p : option str) : option str := match p with Some (_ :: _) => p | _ => None end.
Definition or_empty (p : option str) : str := match p with Some s => s | None => [] end.

(** 185-215: abspath(expanduser(p)) of what is not empty. *)
Definition full (p : str) : str := py_abspath cwd (py_expanduser fhome p).
Definition full_opt (p : option str) : option str := match given p with Some s => Some (full s) | None => p end.
Definition K_images := L "image_list_file". Definition K_masks := L "mask_list_file". Definition K_invert := L "invert_masks".
Definition K_multi := L "expect_multichannel_masks". Definition K_out := L "output_tracks_file".
Definition set_configuration (s : pst) (x : nat) (t : tool) : pres tool :=
  match pc_get s x K_images (t_images t) with
  | PRet im =>
    match pc_get s x K_masks (t_masks t) with
    | PRet mk =>
      match pc_get_bool s x K_invert (Some (t_invert t)) with
      | PRet inv =>
        match pc_get_bool s x K_multi (Some (t_multi t)) with
        | PRet mu =>
          match pc_get s x K_out (t_out t) with
          | PRet out => PRet (mkTool (full_opt im) (full_opt mk) inv mu (full_opt out))
          | PRaise e => PRaise e | PBad => PBad
          end
        | PRaise e => PRaise e | PBad => PBad
        end
      | PRaise e => PRaise e | PBad => PBad
      end
    | PRaise e => PRaise e | PBad => PBad
    end
  | PRaise e => PRaise e | PBad => PBad
  end.
(** 126-176: the five values; the descriptions and the sub-blocks of the
    algorithms are left out. *)
Definition bool_text (b : bool) : str := if b then L "true" else L "false".
Definition get_configuration (t : tool) : list pcop :=
  [PcNew (L "track_features"); PcSet 0 K_images (or_empty (t_images t)) None; PcSet 0 K_masks (or_empty (t_masks t)) None;
   PcSet 0 K_invert (bool_text (t_invert t)) None; PcSet 0 K_multi (bool_text (t_multi t)) None; PcSet 0 K_out (or_empty (t_out t)) None].
(** 217-243; [algos_ok]: the three check_config calls. *)
Definition validate (w : fs) (t : tool) (algos_ok : bool) : bool :=
  match given (t_images t) with
  | None => false
  | Some im =>
    if negb (is_file w im) then false
    else match given (t_out t) with
         | None => false
         | Some _ => match given (t_masks t) with Some m => if negb (is_file w m) then false else algos_ok | None => algos_ok end
         end
  end.

(** readlines: after each newline; a last line without one counts if not empty. *)
Fixpoint lines_of (cur : str) (s : str) : list str :=        (* cur: reversed *)
  match s with
  | [] => match cur with [] => [] | _ => [rev cur] end
  | c :: r => if Ascii.eqb c (ascii_of_nat 10) then rev (c :: cur) :: lines_of [] r else lines_of (c :: cur) r
  end.
Definition read_list (text : str) : list str := map (strip is_space) (lines_of [] text).
Definition open_read (w : fs) (p : str) : option str :=
  match sfind p w with Some (File t) => if r_read rf p then None else Some t | _ => None end.
(** What a run of track_images leaves: the files, the calls, and how it ended. *)
Inductive outcome := ReturnsNone | ReturnsFalse | Raises.
(** 275-288: the frames from number [i] on. *)
Fixpoint frames (h : list event) (i : nat) (tracks : tset) (l : list (str * option str)) : list event * option tset :=
  match l with
  | [] => (h, Some tracks)
  | (path, mask) :: rest =>
    let r := o_load o h path in
    let h := h ++ [ELoad path r] in
    match r with
    | None => (h, None)
    | Some im =>
      let r := o_convert o h im in
      let h := h ++ [EConvert im r] in
      match r with
      | None => (h, None)
      | Some im =>
        let go h m :=
          let r := o_track o h tracks i im m in
          let h := h ++ [ETrack tracks i im m r] in
          match r with None => (h, None) | Some ts => frames h (S i) ts rest end in
        match mask with
        | None => go h None
        | Some mp =>
          let r := o_load o h mp in
          let h := h ++ [ELoad mp r] in
          match r with
          | None => (h, None)
          | Some mi =>
            let r := o_convert o h mi in
            let h := h ++ [EConvert mi r] in
            match r with None => (h, None) | Some mi => go h (Some mi) end
          end
        end
      end
    end
  end.
(** 245-291. *)
Definition track_images (w : fs) (h : list event) (t : tool) : fs * list event * outcome :=
  match open_read w (or_empty (t_images t)) with
  | None => (w, h, Raises)
  | Some text =>
    let paths := read_list text in
    let go w masks :=        (* masks: None, or the list *)
      match t_out t with
      | None => (w, h, Raises)
      | Some out =>
        let dir := py_dirname out in
        let made :=
          if is_dir w dir then Some w
          else if r_mkdir rf dir || shas dir w || negb (is_dir w (py_dirname dir)) then None else Some (sset dir Dir w) in
        match made with
        | None => (w, h, Raises)
        | Some w =>
          if r_write rf out || is_dir w out then (w, h, Raises)
          else
            let w := sset out (File []) w in
            let mp := match masks with Some ((_ :: _) as ms) => map Some ms | _ => map (fun _ => None) paths end in
            match frames h 0 empty_set (combine paths mp) with
            | (h, None) => (w, h, Raises)
            | (h, Some ts) =>
              match tracks_text ts with
              | None => (w, h, Raises)
              | Some text => (sset out (File text) w, h, ReturnsNone)
              end
            end
        end
      end in
    match given (t_masks t) with
    | None => go w None
    | Some m =>
      match open_read w m with
      | None => (w, h, Raises)
      | Some mt =>
        let ms := read_list mt in
        if negb (Nat.eqb (length paths) (length ms)) then (w, h, ReturnsFalse) else go w (Some ms)
      end
    end
  end.

(** 294-323: the exit code; an exception ends Python with 1.  [conf]: --config
    was not given, could not be read, or the block read from it; [wrote]:
    --output-config was given, and whether write succeeded. *)
Inductive conf_arg := NoConf | BadConf | Conf (s : pst) (x : nat).
Definition cli_main (w : fs) (conf : conf_arg) (wrote : option bool) (algos_ok : bool) : fs * list event * nat :=
  match (match conf with NoConf => PRet tool0 | BadConf => PRaise NullPointer | Conf s x => set_configuration s x tool0 end) with
  | PRet t =>
    match wrote with
    | Some true => (w, [], 0)
    | Some false => (w, [], 1)
    | None =>
      if validate w t algos_ok then
        match track_images w [] t with
        | (w, h, Raises) => (w, h, 1)
        | (w, h, ReturnsNone) | (w, h, ReturnsFalse) => (w, h, 2)
        end
      else (w, [], 1)
    end
  | _ => (w, [], 1)
  end.
End Tool.
