(** TrackIoModel.v -- vital/io/track_set_io.cxx, operators << and >> of
    vital/types/feature.cxx, color.h and vital/io/eigen_io.h.
    The text and the parsing of doubles (operator<< with the default precision
    of 6 digits, operator>>) are parameters [show] and [scan].  Not modelled: the
    checks of paths and the creation of directories; the file is its text. *)
From Coq Require Import List ZArith Bool.
Import ListNotations.
From Verif Require Import Base Numbers Stream ParserModel TrackModel.
Local Open Scope Z_scope.

Section Io.
Variable D : Type.
Variable show : D -> str.
(** scan s, s not starting with white space: (value, failed, text left) *)
Variable scan : str -> D * bool * str.
(** istream >> double; None: the variable is not assigned *)
Definition extract_d (s : stream) : option D * stream :=
  if s_fail s then (None, s)
  else match drop_while is_space (s_rest s) with
  | [] => (None, mkS [] true)
  | t => let '(d, f, r) := scan t in (Some d, mkS r f)
  end.
(** color.h 47-62 *)
Record color := mkColor { c_r : Z; c_g : Z; c_b : Z }.
(** feature.h 98-190 (covariance left out: it is not written) *)
Record feature := mkFeature { f_x : D; f_y : D; f_mag : D; f_scale : D; f_angle : D; f_color : color }.
(** color.h 83-91 *)
Definition color_text (c : color) : str := dec (c_r c) ++ L " " ++ dec (c_g c) ++ L " " ++ dec (c_b c).
(** Eigen's default IOFormat: the coefficients of a row, right aligned to the
    widest one and separated by a blank. *)
Definition pad (w : nat) (s : str) : str := repeat " "%char (w - length s) ++ s.
Definition row_text (x y : D) : str :=
  let w := Nat.max (length (show x)) (length (show y)) in pad w (show x) ++ L " " ++ pad w (show y).
(** feature.cxx 42-54 *)
Definition feature_text (f : feature) : str :=
  row_text (f_x f) (f_y f) ++ L " " ++ show (f_mag f) ++ L " " ++ show (f_scale f) ++ L " " ++ show (f_angle f) ++ L " " ++ color_text (f_color f).
(** track_set_io.cxx 139-150: None is the dereference of a null feature *)
Definition state_line (id : Z) (s : state (option feature)) : option str :=
  match snd s with
  | Some f => Some (dec id ++ L " " ++ dec (frame_of s) ++ L " " ++ feature_text f ++ ["010"%char])
  | None => None
  end.
Fixpoint track_text (id : Z) (h : list (state (option feature))) : option str :=
  match h with
  | [] => Some []
  | s :: r => match state_line id s, track_text id r with Some a, Some b => Some (a ++ b) | _, _ => None end
  end.
Fixpoint tracks_text (ts : list (track (option feature))) : option str :=
  match ts with
  | [] => Some []
  | t :: r => match track_text (t_id t) (t_history t), tracks_text r with Some a, Some b => Some (a ++ b) | _, _ => None end
  end.
(** track_set_io.cxx 110-153 *)
Inductive wout := Written (s : str) | NoTracks | NullFeature.
Definition write_tracks (ts : list (track (option feature))) : wout :=
  match ts with
  | [] => NoTracks
  | _ => match tracks_text ts with Some s => Written s | None => NullFeature end
  end.

(** A feature as read: the members copied from local variables that were not
    assigned are None (indeterminate). *)
Record rfeature := mkR { r_x : D; r_y : D; r_mag : option D; r_scale : option D; r_angle : option D; r_color : color }.
Definition uchar (z : Z) : Z := z mod 256.
Definition or_else (o : option Z) (d : Z) : Z := match o with Some z => z | None => d end.
(** color.h 94-105 *)
Definition extract_color (s : stream) : color * stream :=
  let '(r, s1) := extract_i32 s in let '(g, s2) := extract_i32 s1 in let '(b, s3) := extract_i32 s2 in
  (mkColor (uchar (or_else r 255)) (uchar (or_else g 255)) (uchar (or_else b 255)), s3).
(** feature.cxx 110-134; the Eigen extraction (eigen_io.h 60-76) throws: None *)
Definition extract_feature (s : stream) : option (rfeature * stream) :=
  let '(x, s1) := extract_d s in
  if s_fail s1 then None else
  let '(y, s2) := extract_d s1 in
  if s_fail s2 then None else
  match x, y with
  | Some x, Some y =>
    let '(m, s3) := extract_d s2 in let '(sc, s4) := extract_d s3 in let '(an, s5) := extract_d s4 in
    let '(c, s6) := extract_color s5 in
    Some (mkR x y m sc an c, s6)
  | _, _ => None
  end.
(** track_set_io.cxx 79-104.  [Invalid]: the exception invalid_data of the
    feature extraction; [Indeterminate]: a local variable used unassigned. *)
Inductive rout := Tracks (ts : list (track rfeature)) | Invalid | Indeterminate.
Fixpoint read_lines (ls : list str) (tracks : list (track rfeature)) (tmap : list (Z * nat)) : rout :=
  match ls with
  | [] => Tracks tracks
  | line :: rest =>
    let '(tid, s1) := extract_i64 (open_str line) in
    let '(fid, s2) := extract_i64 s1 in
    match extract_feature s2 with
    | None => Invalid
    | Some (feat, _) =>
      match tid, fid with
      | Some tid, Some fid =>
        let '(tracks1, tmap1, i) :=
          match m_find Z.compare tid tmap with
          | None => (tracks ++ [mkTrack [] tid], m_set Z.compare tid (length tracks) tmap, length tracks)
          | Some i => (tracks, tmap, i)
          end in
        match nth_error tracks1 i with
        | Some t => read_lines rest (lupd tracks1 i (fst (append_state t (fid, feat)))) tmap1
        | None => Indeterminate
        end
      | _, _ => Indeterminate
      end
    end
  end.
Definition read_tracks (text : str) : rout := read_lines (lines_of text) [] [].
End Io.
Arguments mkFeature {D}. Arguments f_x {D}. Arguments f_y {D}. Arguments f_mag {D}. Arguments f_scale {D}. Arguments f_angle {D}. Arguments f_color {D}.
Arguments mkR {D}. Arguments r_x {D}. Arguments r_y {D}. Arguments r_mag {D}. Arguments r_scale {D}. Arguments r_angle {D}. Arguments r_color {D}.
Arguments extract_d {D}. Arguments feature_text {D}. Arguments write_tracks {D}. Arguments read_tracks {D}. Arguments read_lines {D}. Arguments Tracks {D}.
Arguments Invalid {D}. Arguments Indeterminate {D}. Arguments extract_feature {D}. Arguments row_text {D}. Arguments state_line {D}. Arguments track_text {D}. Arguments tracks_text {D}.
