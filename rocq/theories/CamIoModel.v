(** CamIoModel.v -- stream operators of vital/types/camera.cxx,
    camera_intrinsics.cxx, rotation.cxx, similarity.cxx, landmark.cxx,
    vital/io/eigen_io.h, and vital/io/camera_io.cxx, camera_map_io.cxx.
    As in TrackIoModel the text and the parsing of a floating point number
    are parameters [show] and [scan] (cameras print with 12 digits, the other
    types with the precision of the stream).  Numbers are reals (see GeomModel). *)
From Coq Require Import List ZArith Bool Reals.
Import ListNotations.
From Verif Require Import Base Numbers Stream TrackIoModel GeomModel CameraModel PathModel.
Local Open Scope Z_scope.

Section CamIo.
Context {D : Type}.
Variable show : D -> str.
Variable scan : str -> D * bool * str.
Definition newline : ascii := "010"%char.
(** Eigen's default IOFormat: all coefficients right aligned to the widest one of
    the matrix, a blank between columns and a newline between rows. *)
Definition widest (rows : list (list D)) : nat := fold_right Nat.max 0%nat (map (fun d => length (show d)) (concat rows)).
Fixpoint sep_by (sep : str) (l : list str) : str := match l with [] => [] | [a] => a | a :: r => a ++ sep ++ sep_by sep r end.
Definition matrix_text (rows : list (list D)) : str :=
  sep_by [newline] (map (fun row => sep_by (L " ") (map (fun d => pad (widest rows) (show d)) row)) rows).
(** eigen_io.h 58-76: >> of a fixed size matrix with [n] coefficients; None: the
    exception invalid_data. *)
Fixpoint read_coefs (n : nat) (s : stream) : option (list D * stream) :=
  match n with
  | O => Some ([], s)
  | S n =>
    let '(d, s1) := extract_d scan s in
    if s_fail s1 then None else
    match d with
    | None => None
    | Some d => match read_coefs n s1 with Some (l, s2) => Some (d :: l, s2) | None => None end
    end
  end.
(** eigen_io.h with M = Eigen::Dynamic = -1 (VectorXd): the loop over i < M does nothing. *)
Definition read_dynamic (s : stream) : option (list D * stream) := Some ([], s).

(** landmark.h 125-190, without the covariance (never written). *)
Record landmark := mkLandmark { l_loc : D * D * D; l_scale : D; l_normal : D * D * D; l_color : color; l_obs : Z }.
Definition col3 (v : D * D * D) : list (list D) := let '(a, b, c) := v in [[a]; [b]; [c]].
(** landmark.cxx 95-107 *)
Definition landmark_text (m : landmark) : str :=
  matrix_text (col3 (l_loc m)) ++ L " " ++ show (l_scale m) ++ L " " ++ matrix_text (col3 (l_normal m)) ++ L " " ++ color_text (l_color m) ++ L " " ++ dec (l_obs m).
(** landmark.cxx 110-135.  None: invalid_data.  The scale is always assigned
    when the normal is read without exception; the number of observations is
    None when it is copied from an unassigned variable. *)
Record rlandmark := mkRL { rl_loc : D * D * D; rl_scale : D; rl_normal : D * D * D; rl_color : color; rl_obs : option Z }.
Definition triple (l : list D) : option (D * D * D) := match l with [a; b; c] => Some (a, b, c) | _ => None end.
Definition extract_landmark (s : stream) : option (rlandmark * stream) :=
  match read_coefs 3 s with
  | None => None
  | Some (loc, s1) =>
    let '(sc, s2) := extract_d scan s1 in
    match read_coefs 3 s2 with
    | None => None
    | Some (nrm, s3) =>
      let '(c, s4) := extract_color s3 in
      let '(o, s5) := extract_u32 s4 in
      match triple loc, sc, triple nrm with
      | Some loc, Some sc, Some nrm => Some (mkRL loc sc nrm c o, s5)
      | _, _, _ => None
      end
    end
  end.
End CamIo.

(** ---- with real numbers ---- *)
Section Real.
Variable show : R -> str.
Variable scan : str -> R * bool * str.
Definition rows3 (m : m3) : list (list R) := [[m00 m; m01 m; m02 m]; [m10 m; m11 m; m12 m]; [m20 m; m21 m; m22 m]].
Definition mat_of (l : list R) : option m3 := match l with [a; b; c; d; e; f; g; h; i] => Some (M3 a b c d e f g h i) | _ => None end.
Definition vec_of (l : list R) : option v3 := match l with [a; b; c] => Some (V3 a b c) | _ => None end.
Definition two_nl : str := [newline; newline].
(** camera.cxx 88-97 and camera_intrinsics.cxx 294-301: a zero as place holder. *)
Definition placeholder (d : list R) : list R := match d with [] => [0%R] | _ => d end.
(** camera.cxx 85-104 *)
Definition camera_text (c : camera) : str :=
  matrix_text show (rows3 (k_matrix (c_intr c))) ++ two_nl ++ matrix_text show (rows3 (qmat (c_rot c))) ++ two_nl ++
  matrix_text show [[x3 (c_translation c); y3 (c_translation c); z3 (c_translation c)]] ++ two_nl ++
  matrix_text show [placeholder (k_dist (c_intr c))] ++ [newline].
(** camera.cxx 139-159; d has no rows, so the test for a single zero is false. *)
Definition extract_camera (s : stream) : option (camera * stream) :=
  match read_coefs scan 9 s with
  | None => None
  | Some (k, s1) => match read_coefs scan 9 s1 with
    | None => None
    | Some (r, s2) => match read_coefs scan 3 s2 with
      | None => None
      | Some (t, s3) => match read_dynamic s3 with
        | None => None
        | Some (d, s4) => match mat_of k, mat_of r, vec_of t with
          | Some k, Some r, Some t => Some (set_translation (Cam (V3 0 0 0) (quat_of_mat r) (k_of_matrix k d)) t, s4)
          | _, _, _ => None
          end
        end
      end
    end
  end.
(** camera_intrinsics.cxx 291-311 *)
Definition intrinsics_text (k : intrinsics) : str :=
  matrix_text show (rows3 (k_matrix k)) ++ two_nl ++ concat (map (fun d => show d ++ L " ") (placeholder (k_dist k))) ++ [newline].
(** camera_intrinsics.cxx 314-329 *)
Definition extract_intrinsics (s : stream) : option (intrinsics * stream) :=
  match read_coefs scan 9 s with
  | None => None
  | Some (k, s1) => match read_dynamic s1 with
    | None => None
    | Some (d, s2) => match mat_of k with Some k => Some (k_of_matrix k d, s2) | None => None end
    end
  end.
(** rotation.cxx 229-235: coeffs() is x, y, z, w, a column. *)
Definition rotation_text (q : quat) : str := matrix_text show [[qx q]; [qy q]; [qz q]; [qw q]].
(** rotation.cxx 239-248 *)
Definition extract_rotation (s : stream) : option (quat * stream) :=
  match read_coefs scan 4 s with Some ([a; b; c; d], s1) => Some (rotation_of_vec4 a b c d, s1) | _ => None end.
(** similarity.cxx 116-122 *)
Definition similarity_text (t : similarity) : str :=
  show (s_scale t) ++ L " " ++ rotation_text (s_rot t) ++ L " " ++ matrix_text show [[x3 (s_trans t)]; [y3 (s_trans t)]; [z3 (s_trans t)]].
(** similarity.cxx 126-138; the scale is assigned whenever the rotation is read without exception. *)
Definition extract_similarity (s : stream) : option (similarity * stream) :=
  let '(sc, s1) := extract_d scan s in
  match extract_rotation s1 with
  | None => None
  | Some (ro, s2) => match read_coefs scan 3 s2 with
    | None => None
    | Some (tr, s3) => match sc, vec_of tr with Some sc, Some tr => Some (Sim sc ro tr, s3) | _, _ => None end
    end
  end.

(** ---- files ---- *)
(** What a path is to camera_io.cxx: FileExists false, a directory, a file that
    can not be opened, a file and its text. *)
Inductive node := Missing | Directory | Unreadable | File (text : str).
Definition files := str -> node.
(** camera_io.cxx 49-75 *)
Inductive kread := KCamera (c : camera) | KNotFound | KNotRead | KInvalid.
Definition read_krtd (w : files) (path : str) : kread :=
  match w path with
  | Missing | Directory => KNotFound
  | Unreadable => KNotRead
  | File text => match extract_camera (open_str text) with Some (c, _) => KCamera c | None => KInvalid end
  end.
(** camera_io.cxx 79-89 *)
Definition krtd_path (image_file camera_dir : str) : str := camera_dir ++ L "/" ++ get_filename_without_last_extension image_file ++ L ".krtd".
(** camera_map_io.cxx 41-74.  The order in which cameras[fid] (which inserts a null
    pointer) and read_krtd_file(...) are evaluated is unspecified before C++17:
    [lhs_first] chooses.  A map from frame to camera, None for a null pointer,
    in the order of the frames. *)
Inductive kmap := KMap (m : list (nat * option camera)) | KPathNotExists | KNoneFound | KError (e : kread).
Fixpoint read_each (lhs_first : bool) (w : files) (dir : str) (imgs : list str) (fid : nat) (acc : list (nat * option camera)) : kmap :=
  match imgs with
  | [] => match acc with [] => KNoneFound | _ => KMap acc end
  | i :: r =>
    match read_krtd w (krtd_path i dir) with
    | KCamera c => read_each lhs_first w dir r (S fid) (acc ++ [(fid, Some c)])
    | KNotFound => read_each lhs_first w dir r (S fid) (if lhs_first then acc ++ [(fid, None)] else acc)
    | e => KError e
    end
  end.
Definition read_krtd_files (lhs_first : bool) (w : files) (imgs : list str) (dir : str) : kmap :=
  match w dir with Missing => KPathNotExists | _ => read_each lhs_first w dir imgs 0 [] end.
(** camera_io.cxx 92-123.  [opens]: std::ofstream can open the path; [mkdir_ok]:
    the directory of the path exists or was made.  The stream is not looked at. *)
Inductive kwrite := KWritten (w : files) | KIsDirectory | KNoDirectory.
Definition write_krtd (opens : str -> bool) (mkdir_ok : bool) (w : files) (c : camera) (path : str) : kwrite :=
  match w path with
  | Directory => KIsDirectory
  | _ => if negb mkdir_ok then KNoDirectory
         else if opens path then KWritten (fun p => if str_eqb p path then File (camera_text c) else w p) else KWritten w
  end.
End Real.
Arguments mkLandmark {D}. Arguments mkRL {D}.
