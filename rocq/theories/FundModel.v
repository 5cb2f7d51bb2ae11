(** FundModel.v -- vital/types/fundamental_matrix.cxx, in exact arithmetic (see
    GeomModel.v).  Eigen's JacobiSVD is library code: [u], [v] are the
    orthogonal factors and [s0], [s1], [s2] the singular values it returns. *)
From Coq Require Import Reals.
From Verif Require Import GeomModel.
Local Open Scope R_scope.

(** The singular values as a diagonal matrix (asDiagonal()). *)
Definition sdiag (a b c : R) : m3 := M3 a 0 0 0 b 0 0 0 c.
(** fundamental_matrix.cxx 49-63: construction by projection.  [None]: the
    division S /= S.norm() is by zero and all entries are NaN. *)
Definition fundamental_of_svd (u v : m3) (s0 s1 s2 : R) : option m3 :=
  let s2 := 0 in
  let n := sqrt (s0 * s0 + s1 * s1 + s2 * s2) in
  if Req_EM_T n 0 then None
  else Some (mmul (mmul u (sdiag (s0 / n) (s1 / n) (s2 / n))) (transpose v)).
