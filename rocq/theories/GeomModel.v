(** GeomModel.v -- vital/types/rotation.{h,cxx}, similarity.{h,cxx},
    homography.cxx, homography_f2f.cxx, essential_matrix.cxx.

    Arithmetic is exact: double and float are the real numbers of Coq's
    standard library (no rounding, overflow or NaN).  Eigen's fixed-size
    matrices are records; the Eigen functions used (products, quaternion
    operations, inverse, conversions between quaternions, matrices and
    angle-axis form) are transcribed from Eigen 3 and are library code. *)
From Coq Require Import Reals ZArith Bool.
Local Open Scope R_scope.

(** ---- Eigen: vectors and 3x3 matrices ---- *)
Record v2 := V2 { x2 : R; y2 : R }.
Record v3 := V3 { x3 : R; y3 : R; z3 : R }.
Record m3 := M3 { m00 : R; m01 : R; m02 : R; m10 : R; m11 : R; m12 : R; m20 : R; m21 : R; m22 : R }.
Definition vadd (a b : v3) : v3 := V3 (x3 a + x3 b) (y3 a + y3 b) (z3 a + z3 b).
Definition vsub (a b : v3) : v3 := V3 (x3 a - x3 b) (y3 a - y3 b) (z3 a - z3 b).
Definition vneg (a : v3) : v3 := V3 (- x3 a) (- y3 a) (- z3 a).
Definition vscale (k : R) (a : v3) : v3 := V3 (k * x3 a) (k * y3 a) (k * z3 a).
Definition vdiv (a : v3) (k : R) : v3 := V3 (x3 a / k) (y3 a / k) (z3 a / k).
Definition dot (a b : v3) : R := x3 a * x3 b + y3 a * y3 b + z3 a * z3 b.
Definition cross (a b : v3) : v3 := V3 (y3 a * z3 b - z3 a * y3 b) (z3 a * x3 b - x3 a * z3 b) (x3 a * y3 b - y3 a * x3 b).
Definition norm (a : v3) : R := sqrt (dot a a).
(** Eigen: normalized() leaves a zero vector as it is (3.3 and later). *)
Definition normalized (a : v3) : v3 := if Rlt_dec 0 (dot a a) then vdiv a (norm a) else a.
Definition mvec (m : m3) (v : v3) : v3 :=
  V3 (m00 m * x3 v + m01 m * y3 v + m02 m * z3 v) (m10 m * x3 v + m11 m * y3 v + m12 m * z3 v) (m20 m * x3 v + m21 m * y3 v + m22 m * z3 v).
Definition mmul (a b : m3) : m3 :=
  M3 (m00 a * m00 b + m01 a * m10 b + m02 a * m20 b) (m00 a * m01 b + m01 a * m11 b + m02 a * m21 b) (m00 a * m02 b + m01 a * m12 b + m02 a * m22 b)
     (m10 a * m00 b + m11 a * m10 b + m12 a * m20 b) (m10 a * m01 b + m11 a * m11 b + m12 a * m21 b) (m10 a * m02 b + m11 a * m12 b + m12 a * m22 b)
     (m20 a * m00 b + m21 a * m10 b + m22 a * m20 b) (m20 a * m01 b + m21 a * m11 b + m22 a * m21 b) (m20 a * m02 b + m21 a * m12 b + m22 a * m22 b).
Definition mid : m3 := M3 1 0 0 0 1 0 0 0 1.
Definition mscale (k : R) (m : m3) : m3 :=
  M3 (k * m00 m) (k * m01 m) (k * m02 m) (k * m10 m) (k * m11 m) (k * m12 m) (k * m20 m) (k * m21 m) (k * m22 m).
Definition mdiv (m : m3) (k : R) : m3 :=
  M3 (m00 m / k) (m01 m / k) (m02 m / k) (m10 m / k) (m11 m / k) (m12 m / k) (m20 m / k) (m21 m / k) (m22 m / k).
Definition transpose (m : m3) : m3 := M3 (m00 m) (m10 m) (m20 m) (m01 m) (m11 m) (m21 m) (m02 m) (m12 m) (m22 m).
Definition det (m : m3) : R :=
  m00 m * (m11 m * m22 m - m12 m * m21 m) - m01 m * (m10 m * m22 m - m12 m * m20 m) + m02 m * (m10 m * m21 m - m11 m * m20 m).
Definition adjugate (m : m3) : m3 :=
  M3 (m11 m * m22 m - m12 m * m21 m) (m02 m * m21 m - m01 m * m22 m) (m01 m * m12 m - m02 m * m11 m)
     (m12 m * m20 m - m10 m * m22 m) (m00 m * m22 m - m02 m * m20 m) (m02 m * m10 m - m00 m * m12 m)
     (m10 m * m21 m - m11 m * m20 m) (m01 m * m20 m - m00 m * m21 m) (m00 m * m11 m - m01 m * m10 m).
(** Eigen: NumTraits<double>::dummy_precision(). *)
Definition dummy_precision : R := / 10 ^ 12.

(** ---- Eigen: quaternions ---- *)
Record quat := Q { qw : R; qx : R; qy : R; qz : R }.
Definition qvec (q : quat) : v3 := V3 (qx q) (qy q) (qz q).
Definition qmul (a b : quat) : quat :=
  Q (qw a * qw b - qx a * qx b - qy a * qy b - qz a * qz b)
    (qw a * qx b + qx a * qw b + qy a * qz b - qz a * qy b)
    (qw a * qy b + qy a * qw b + qz a * qx b - qx a * qz b)
    (qw a * qz b + qz a * qw b + qx a * qy b - qy a * qx b).
Definition qnorm2 (q : quat) : R := qx q * qx q + qy q * qy q + qz q * qz q + qw q * qw q.
Definition qinv (q : quat) : quat :=
  if Rlt_dec 0 (qnorm2 q) then Q (qw q / qnorm2 q) (- qx q / qnorm2 q) (- qy q / qnorm2 q) (- qz q / qnorm2 q) else Q 0 0 0 0.
(** Eigen: _transformVector. *)
Definition qrot (q : quat) (v : v3) : v3 :=
  let uv := cross (qvec q) v in let uv := vadd uv uv in
  vadd (vadd v (vscale (qw q) uv)) (cross (qvec q) uv).
(** Eigen: toRotationMatrix. *)
Definition qmat (q : quat) : m3 :=
  let tx := 2 * qx q in let ty := 2 * qy q in let tz := 2 * qz q in
  let twx := tx * qw q in let twy := ty * qw q in let twz := tz * qw q in
  let txx := tx * qx q in let txy := ty * qx q in let txz := tz * qx q in
  let tyy := ty * qy q in let tyz := tz * qy q in let tzz := tz * qz q in
  M3 (1 - (tyy + tzz)) (txy - twz) (txz + twy) (txy + twz) (1 - (txx + tzz)) (tyz - twx) (txz - twy) (tyz + twx) (1 - (txx + tyy)).
(** Eigen: Quaternion from a 3x3 matrix. *)
Definition quat_of_mat (m : m3) : quat :=
  let t := m00 m + m11 m + m22 m in
  if Rlt_dec 0 t then
    let t := sqrt (t + 1) in let w := / 2 * t in let t := / 2 / t in
    Q w ((m21 m - m12 m) * t) ((m02 m - m20 m) * t) ((m10 m - m01 m) * t)
  else
    let i1 := if Rlt_dec (m00 m) (m11 m) then true else false in
    if (if Rlt_dec (if i1 then m11 m else m00 m) (m22 m) then true else false) then
      let t := sqrt (m22 m - m00 m - m11 m + 1) in let z := / 2 * t in let t := / 2 / t in
      Q ((m10 m - m01 m) * t) ((m02 m + m20 m) * t) ((m12 m + m21 m) * t) z
    else if i1 then
      let t := sqrt (m11 m - m22 m - m00 m + 1) in let y := / 2 * t in let t := / 2 / t in
      Q ((m02 m - m20 m) * t) ((m01 m + m10 m) * t) y ((m21 m + m12 m) * t)
    else
      let t := sqrt (m00 m - m11 m - m22 m + 1) in let x := / 2 * t in let t := / 2 / t in
      Q ((m21 m - m12 m) * t) x ((m10 m + m01 m) * t) ((m20 m + m02 m) * t).
(** Eigen: Quaternion from AngleAxis. *)
Definition quat_of_angle_axis (angle : R) (axis : v3) : quat :=
  let ha := / 2 * angle in Q (cos ha) (sin ha * x3 axis) (sin ha * y3 axis) (sin ha * z3 axis).
(** std::atan2. *)
Definition atan2 (y x : R) : R :=
  if Rlt_dec 0 x then atan (y / x)
  else if Rlt_dec x 0 then (if Rle_dec 0 y then atan (y / x) + PI else atan (y / x) - PI)
  else if Rlt_dec 0 y then PI / 2 else if Rlt_dec y 0 then - (PI / 2) else 0.

(** ---- rotation_<T>: the quaternion q_ ---- *)
(** rotation.cxx 57-72: from a Rodrigues vector. *)
Definition rotation_of_rodrigues (rvec : v3) : quat :=
  let mag := norm rvec in
  if Req_EM_T mag 0 then Q 1 0 0 0 else quat_of_angle_axis mag (vdiv rvec mag).
(** rotation.cxx 75-81: from angle and axis. *)
Definition rotation_of_angle_axis (angle : R) (axis : v3) : quat := quat_of_angle_axis angle (normalized axis).
(** rotation.cxx 84-106: from yaw, pitch and roll. *)
Definition rotation_of_ypr (yaw pitch roll : R) : quat :=
  let inv_root_two := 1 / sqrt 2 in
  let ned2enu := Q 0 inv_root_two inv_root_two 0 in
  let hx := / 2 * - roll in let hy := / 2 * - pitch in let hz := / 2 * - yaw in
  qmul (qmul (qmul (Q (cos hx) (sin hx) 0 0) (Q (cos hy) 0 (sin hy) 0)) (Q (cos hz) 0 0 (sin hz))) ned2enu.
(** rotation.h 71-73: from a 4-vector; Eigen reads it as x, y, z, w. *)
Definition rotation_of_vec4 (a b c d : R) : quat := Q d a b c.
(** rotation.cxx 131-144: axis(). *)
Definition axis (q : quat) : v3 :=
  let mag := norm (qvec q) in if Req_EM_T mag 0 then V3 0 0 1 else vdiv (qvec q) mag.
(** rotation.cxx 148-171: angle(). *)
Definition angle (q : quat) : R :=
  let a := 2 * atan2 (norm (qvec q)) (qw q) in
  let a := if Rle_dec PI a then a - 2 * PI else a in
  if Rle_dec a (- PI) then a + 2 * PI else a.
(** rotation.cxx 175-186: rodrigues(). *)
Definition rodrigues (q : quat) : v3 := if Req_EM_T (angle q) 0 then V3 0 0 0 else vscale (angle q) (axis q).
(** rotation.cxx 190-202: get_yaw_pitch_roll. *)
Definition get_ypr (q : quat) : R * R * R :=
  let m := qmat q in
  let cos_p := sqrt (m12 m * m12 m + m22 m * m22 m) in
  (atan2 (m00 m) (m01 m), atan2 (m02 m) cos_p, atan2 (- m12 m) (- m22 m)).
(** rotation.cxx 252-260: interpolate_rotation. *)
Definition interpolate (a b : quat) (f : R) : quat :=
  let c := qmul (qinv a) b in qmul a (rotation_of_angle_axis (angle c * f) (axis c)).
(** rotation.cxx 264-274: interpolated_rotations; what is appended. *)
Definition interpolated (a b : quat) (n : nat) : list quat :=
  List.map (fun i => interpolate a b (INR i / INR (n + 1))) (List.seq 1 n).

(** ---- similarity_<T> ---- *)
Record similarity := Sim { s_scale : R; s_rot : quat; s_trans : v3 }.
(** similarity.h 60-63: the default constructor. *)
Definition sim_id : similarity := Sim 1 (Q 1 0 0 0) (V3 0 0 0).
(** similarity.cxx 106-112: transforming a vector. *)
Definition sim_apply (s : similarity) (p : v3) : v3 := vadd (vscale (s_scale s) (qrot (s_rot s) p)) (s_trans s).
(** similarity.cxx 94-102: composition. *)
Definition sim_mul (a b : similarity) : similarity :=
  Sim (s_scale a * s_scale b) (qmul (s_rot a) (s_rot b)) (sim_apply a (s_trans b)).
(** similarity.h 105-111: inverse. *)
Definition sim_inv (s : similarity) : similarity :=
  let k := 1 / s_scale s in let r := qinv (s_rot s) in Sim k r (vscale (- k) (qrot r (s_trans s))).
(** A 4x4 matrix by blocks: upper left, upper right, bottom row. *)
Record m4 := M4 { b_rot : m3; b_trans : v3; b_row : v3; b_corner : R }.
Definition m4vec (m : m4) (p : v3) (w : R) : v3 * R :=
  (vadd (mvec (b_rot m) p) (vscale w (b_trans m)), dot (b_row m) p + b_corner m * w).
(** similarity.cxx 81-90: to a 4x4 matrix. *)
Definition sim_mat (s : similarity) : m4 := M4 (mscale (s_scale s) (qmat (s_rot s))) (s_trans s) (V3 0 0 0) 1.
(** similarity.cxx 46-77: from a 4x4 matrix.  The members that the early
    returns leave unset are [None] (scale_ is set on the second one; rot_ has a
    default constructor and is the identity). *)
Record partial_sim := PSim { p_scale : option R; p_rot : quat; p_trans : option v3 }.
Definition sim_of_mat (m : m4) : partial_sim :=
  if Req_EM_T (x3 (b_row m)) 0 then if Req_EM_T (y3 (b_row m)) 0 then if Req_EM_T (z3 (b_row m)) 0 then if Req_EM_T (b_corner m) 1 then
    let d := det (b_rot m) in
    if Rle_dec d 0 then PSim (Some d) (Q 1 0 0 0) None
    else let k := Rpower d (1 / 3) in PSim (Some k) (quat_of_mat (mdiv (b_rot m) k)) (Some (b_trans m))
  else PSim None (Q 1 0 0 0) None else PSim None (Q 1 0 0 0) None else PSim None (Q 1 0 0 0) None else PSim None (Q 1 0 0 0) None.

(** ---- homography_<T> and f2f_homography ---- *)
(** homography.cxx 51-63: h_map_point; [None] is point_maps_to_infinity. *)
Definition hmap (h : m3) (p : v2) : option v2 :=
  let o := mvec h (V3 (x2 p) (y2 p) 1) in
  if Rle_dec (Rabs (z3 o)) dummy_precision then None else Some (V2 (x3 o / z3 o) (y3 o / z3 o)).
(** homography.cxx 262-268: operator*. *)
Definition hmul (a b : m3) : m3 := mmul a b.
(** homography.cxx 154-165: normalize. *)
Definition hnormalize (h : m3) : m3 := if Rle_dec dummy_precision (Rabs (m22 h)) then mdiv h (m22 h) else h.
(** homography.cxx 170-184: inverse, with Eigen's computeInverseWithCheck (the
    threshold is dummy_precision on |det|); [None] is non_invertible_matrix. *)
Definition hinv (h : m3) : option m3 :=
  if Rlt_dec dummy_precision (Rabs (det h)) then Some (mscale (1 / det h) (adjugate h)) else None.
Record f2f := F2F { f_h : m3; f_from : Z; f_to : Z }.
(** homography_f2f.cxx 46-52. *)
Definition f2f_id (frame : Z) : f2f := F2F mid frame frame.
(** homography_f2f.cxx 99-104. *)
Definition f2f_inv (h : f2f) : option f2f := match hinv (f_h h) with Some i => Some (F2F i (f_to h) (f_from h)) | None => None end.
(** homography_f2f.cxx 107-118; [None] is invalid_matrix_operation. *)
Definition f2f_mul (a b : f2f) : option f2f :=
  if Z.eqb (f_from a) (f_to b) then Some (F2F (mmul (f_h a) (f_h b)) (f_from b) (f_to a)) else None.

(** ---- essential_matrix_<T>: rot_ and trans_ ---- *)
Record essential := Ess { e_rot : quat; e_trans : v3 }.
(** essential_matrix.cxx 84-91. *)
Definition essential_of (r : quat) (t : v3) : essential := Ess r (normalized t).
(** essential_matrix.cxx 186-196: compute_matrix. *)
Definition t_cross (t : v3) : m3 := M3 0 (- z3 t) (y3 t) (z3 t) 0 (- x3 t) (- y3 t) (x3 t) 0.
Definition essential_mat (e : essential) : m3 := mmul (t_cross (e_trans e)) (qmat (e_rot e)).
(** essential_matrix.cxx 49-57 and 199-209: twisted rotation. *)
Definition twisted (e : essential) : quat := qmul (rotation_of_vec4 (x3 (e_trans e)) (y3 (e_trans e)) (z3 (e_trans e)) 0) (e_rot e).
(** essential_matrix.cxx 63-81: from a matrix.  Eigen's JacobiSVD is library
    code: [u] and [v] are the orthogonal factors it returns. *)
Definition essential_w : m3 := M3 0 (-1) 0 1 0 0 0 0 1.
Definition essential_of_svd (u v : m3) : essential :=
  let r := mmul (mmul u essential_w) (transpose v) in
  let r := if Rlt_dec (det r) 0 then mscale (-1) r else r in
  Ess (quat_of_mat r) (V3 (m02 u) (m12 u) (m22 u)).
