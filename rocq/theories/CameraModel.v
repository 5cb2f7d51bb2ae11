(** CameraModel.v -- vital/types/camera_intrinsics.{h,cxx} and camera.{h,cxx}.
    Arithmetic is exact (see GeomModel).  A division by zero that the code can
    reach is an explicit outcome only where stated; elsewhere it is a
    hypothesis of the theorems. *)
From Coq Require Import Reals List Bool.
From Verif Require Import GeomModel.
Import ListNotations.
Local Open Scope R_scope.

(** camera_intrinsics.h 139-225: simple_camera_intrinsics. *)
Record intrinsics := Intr { k_f : R; k_pp : v2; k_aspect : R; k_skew : R; k_dist : list R }.
(** camera_intrinsics.h 146-152: the default constructor. *)
Definition intr_default : intrinsics := Intr 1 (V2 0 0) 1 0 [].
(** d.rows() > n *)
Definition more (d : list R) (n : nat) : bool := Nat.ltb n (length d).
Definition dn (d : list R) (n : nat) : R := nth n d 0.

(** camera_intrinsics.cxx 49-60: as_matrix. *)
Definition k_matrix (k : intrinsics) : m3 := M3 (k_f k) (k_skew k) (x2 (k_pp k)) 0 (k_f k / k_aspect k) (y2 (k_pp k)) 0 0 1.
(** camera_intrinsics.cxx 235-245: from a calibration matrix. *)
Definition k_of_matrix (m : m3) (d : list R) : intrinsics := Intr (m00 m) (V2 (m02 m) (m12 m)) (m00 m / m11 m) (m01 m) d.

(** camera_intrinsics.cxx 110-137: radial_distortion_scale. *)
Definition radial_scale (r2 : R) (d : list R) : R :=
  let scale := 1 in
  if more d 0 then
    let scale := scale + r2 * dn d 0 in
    if more d 1 then
      let r4 := r2 * r2 in
      let scale := scale + r4 * dn d 1 in
      if more d 4 then
        let r6 := r2 * r4 in
        let scale := scale + r6 * dn d 4 in
        if more d 7 then scale / (1 + r2 * dn d 5 + r4 * dn d 6 + r6 * dn d 7) else scale
      else scale
    else scale
  else scale.
(** camera_intrinsics.cxx 146-166: distortion_scale_offset. *)
Definition scale_offset (p : v2) (d : list R) : R * v2 :=
  let xx := x2 p * x2 p in let yy := y2 p * y2 p in let r2 := xx + yy in
  let scale := radial_scale r2 d in
  if more d 3 then
    let two_xy := 2 * x2 p * y2 p in
    (scale, V2 (dn d 2 * two_xy + dn d 3 * (r2 + 2 * xx)) (dn d 3 * two_xy + dn d 2 * (r2 + 2 * yy)))
  else (scale, V2 0 0).
(** camera_intrinsics.cxx 170-200: radial_distortion_deriv. *)
Definition radial_deriv (r2 : R) (d : list R) : R :=
  let deriv := 0 in
  if more d 0 then
    let deriv := deriv + dn d 0 in
    if more d 1 then
      let deriv := deriv + 2 * dn d 1 * r2 in
      if more d 4 then
        let r4 := r2 * r2 in
        let deriv := deriv + 3 * dn d 4 * r4 in
        if more d 7 then
          let r6 := r4 * r2 in
          let a1 := 1 / (dn d 5 * r2 + dn d 6 * r4 + dn d 7 * r6 + 1) in
          let a2 := dn d 5 + 2 * dn d 6 * r2 + 3 * dn d 7 * r4 in
          let deriv := deriv - a2 * a1 * (dn d 0 * r2 + dn d 1 * r4 + dn d 4 * r6 + 1) in
          deriv * a1
        else deriv
      else deriv
    else deriv
  else deriv.
(** A 2x2 matrix. *)
Record m2 := M2 { j00 : R; j01 : R; j10 : R; j11 : R }.
(** camera_intrinsics.cxx 204-230: distortion_jacobian (both tangential diagonal
    terms are added to J(0,0), as in the code). *)
Definition jacobian (p : v2) (d : list R) : m2 :=
  let xx := x2 p * x2 p in let yy := y2 p * y2 p in let xy := x2 p * y2 p in let r2 := xx + yy in
  let d_scale := 2 * radial_deriv r2 d in
  let scale := radial_scale r2 d in
  let j := M2 (d_scale * xx + scale) (d_scale * xy) (d_scale * xy) (d_scale * yy + scale) in
  if more d 3 then
    let axy := 2 * (dn d 2 * x2 p + dn d 3 * y2 p) in
    let ay := 2 * dn d 2 * y2 p in
    let ax := 2 * dn d 3 * x2 p in
    M2 (j00 j + (ay + 3 * ax) + (3 * ay + ax)) (j01 j + axy) (j10 j + axy) (j11 j)
  else j.
(** camera_intrinsics.cxx 249-258: distort. *)
Definition distort (k : intrinsics) (p : v2) : v2 :=
  let '(scale, offset) := scale_offset p (k_dist k) in V2 (scale * x2 p + x2 offset) (scale * y2 p + y2 offset).
(** camera_intrinsics.cxx 262-287: undistort.  [solve] is Eigen's ldlt().solve. *)
Fixpoint undistort_loop (solve : m2 -> v2 -> v2) (d : list R) (target : v2) (fuel : nat) (p : v2) : v2 :=
  match fuel with
  | O => p
  | S n =>
      let '(scale, offset) := scale_offset p d in
      let j := jacobian p d in
      let residual := V2 (x2 p * scale + x2 offset - x2 target) (y2 p * scale + y2 offset - y2 target) in
      if Rlt_dec (Rmax (Rabs (x2 residual)) (Rabs (y2 residual))) (/ 10 ^ 12) then p
      else let s := solve j residual in undistort_loop solve d target n (V2 (x2 p - x2 s) (y2 p - y2 s))
  end.
Definition undistort (solve : m2 -> v2 -> v2) (k : intrinsics) (q : v2) : v2 := undistort_loop solve (k_dist k) q 5 q.
(** camera_intrinsics.cxx 64-75: map of normalized image coordinates. *)
Definition k_map (k : intrinsics) (p : v2) : v2 :=
  let pt := distort k p in
  V2 (x2 pt * k_f k + y2 pt * k_skew k + x2 (k_pp k)) (y2 pt * k_f k / k_aspect k + y2 (k_pp k)).
(** camera_intrinsics.cxx 79-85: map of a point in camera coordinates. *)
Definition k_map3 (k : intrinsics) (p : v3) : v2 := k_map k (V2 (x3 p / z3 p) (y3 p / z3 p)).
(** camera_intrinsics.cxx 89-99: unmap. *)
Definition k_unmap (solve : m2 -> v2 -> v2) (k : intrinsics) (p : v2) : v2 :=
  let px := x2 p - x2 (k_pp k) in let py := y2 p - y2 (k_pp k) in
  let y := py * k_aspect k / k_f k in
  let x := (px - y * k_skew k) / k_f k in
  undistort solve k (V2 x y).

(** camera.h 120-262: simple_camera (the covariance of the center is carried
    along only). *)
Record camera := Cam { c_center : v3; c_rot : quat; c_intr : intrinsics }.
(** camera.h 174-175: translation. *)
Definition c_translation (c : camera) : v3 := vneg (qrot (c_rot c) (c_center c)).
(** camera.h 206-209: set_translation. *)
Definition set_translation (c : camera) (t : v3) : camera := Cam (vneg (qrot (qinv (c_rot c)) t)) (c_rot c) (c_intr c).
(** camera.h 135-142 and 217-223: a null intrinsics pointer is replaced by the
    default intrinsics. *)
Definition or_default (k : option intrinsics) : intrinsics := match k with Some k => k | None => intr_default end.
Definition set_intrinsics (c : camera) (k : option intrinsics) : camera := Cam (c_center c) (c_rot c) (or_default k).
(** camera.cxx 53-64: as_matrix, a 3x4 matrix: the 3x3 block and last column. *)
Definition c_matrix (c : camera) : m3 * v3 :=
  let k := k_matrix (c_intr c) in (mmul k (qmat (c_rot c)), mvec k (c_translation c)).
(** camera.cxx 68-73: project. *)
Definition project (c : camera) (p : v3) : v2 := k_map3 (c_intr c) (qrot (c_rot c) (vsub p (c_center c))).
(** camera.cxx 77-82: depth. *)
Definition depth (c : camera) (p : v3) : R := z3 (qrot (c_rot c) (vsub p (c_center c))).
(** camera.cxx 107-136: look_at; [None]: the x axis has length zero and the
    division makes the rotation NaN (the code only logs a warning). *)
Definition look_at (c : camera) (stare up : v3) : option camera :=
  let up := normalized up in
  let z := normalized (vsub stare (c_center c)) in
  let x := vneg (cross up z) in
  let x_mag := norm x in
  if Req_EM_T x_mag 0 then None else
  let x := vdiv x x_mag in
  let y := normalized (cross z x) in
  let r := M3 (x3 x) (y3 x) (z3 x) (x3 y) (y3 y) (z3 y) (x3 z) (y3 z) (z3 z) in
  Some (Cam (c_center c) (quat_of_mat r) (c_intr c)).
