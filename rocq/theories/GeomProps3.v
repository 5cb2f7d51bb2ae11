(** GeomProps3.v -- C72: conversions between the forms of a rotation; C73:
    interpolation of rotations.

    Specification: the rotation by the angle a about the unit vector u takes v
    to  v cos a + (u x v) sin a + u (u.v) (1 - cos a)  (Rodrigues' formula). *)
From Coq Require Import Reals Lra Lia ZArith Bool List.
From Verif Require Import GeomModel GeomProofs.
Local Open Scope R_scope.

Definition turn (a : R) (u v : v3) : v3 := vadd (vadd (vscale (cos a) v) (vscale (sin a) (cross u v))) (vscale ((1 - cos a) * dot u v) u).
(** Two quaternions of the same rotation. *)
Definition same (p q : quat) : Prop := p = q \/ p = qneg q.

Lemma same_mat p q : same p q -> qmat p = qmat q.
Proof. intros [->| ->]; auto. apply qmat_neg. Qed.

(** C72: a quaternion and its rotation matrix determine each other (the
    quaternion up to sign). *)
Theorem C72_matrix :
  (forall q, unit_q q -> rotation_matrix (qmat q) /\ same (quat_of_mat (qmat q)) q) /\
  (forall m, rotation_matrix m -> unit_q (quat_of_mat m) /\ qmat (quat_of_mat m) = m) /\
  (forall q v, qrot q v = mvec (qmat q) v) /\
  (forall p q, unit_q p -> unit_q q -> unit_q (qmul p q) /\ qmat (qmul p q) = mmul (qmat p) (qmat q)) /\
  (forall q, unit_q q -> qmat (qinv q) = transpose (qmat q)).
Proof.
  assert (F : forall m, rotation_matrix m -> unit_q (quat_of_mat m) /\ qmat (quat_of_mat m) = m) by (intros m H; apply and_comm; apply fits_mat, quat_of_mat_fits; auto).
  split; [|split; [exact F|split; [apply qrot_mat|split]]].
  - intros q U. split; [apply qmat_rotation; auto|]. destruct (F _ (qmat_rotation q U)) as (A & B). apply qmat_inj; auto.
  - intros p q Hp Hq. split; [apply unit_qmul|apply qmat_mul]; auto.
  - intros q U. rewrite qinv_unit by auto. destruct q. un. f_equal; ring.
Qed.
Print Assumptions C72_matrix.
Example C72_matrix_example : unit_q (Q 0 0 (3/5) (4/5)) /\ rotation_matrix (M3 0 1 0 0 0 1 1 0 0).
Proof. split; [un; lra|split; un; [f_equal; ring|ring]]. Qed.

(** ---- angle and axis ---- *)
Lemma cos_half a : cos a = cos (/ 2 * a) * cos (/ 2 * a) - sin (/ 2 * a) * sin (/ 2 * a).
Proof. rewrite <- cos_plus. f_equal. field. Qed.
Lemma sin_half a : sin a = 2 * (sin (/ 2 * a) * cos (/ 2 * a)).
Proof. replace a with (2 * (/ 2 * a)) at 1 by field. rewrite sin_2a. ring. Qed.
Lemma trig1 a : cos a * cos a + sin a * sin a = 1.
Proof. pose proof (sin2_cos2 a) as H. unfold Rsqr in H. lra. Qed.
Lemma quat_angle_unit a u : dot u u = 1 -> unit_q (quat_of_angle_axis a u).
Proof.
  intro H. unfold quat_of_angle_axis. destruct u as [x y z]. pose proof (trig1 (/ 2 * a)) as T. set (c := cos (/ 2 * a)) in *. set (s := sin (/ 2 * a)) in *. clearbody c s. un.
  replace (c * c + _ + _ + _) with (c * c + s * s * (x * x + y * y + z * z)) by ring. rewrite H. lra.
Qed.
Lemma quat_angle_turn a u v : dot u u = 1 -> qrot (quat_of_angle_axis a u) v = turn a u v.
Proof.
  intro H. rewrite qrot_mat, qmat_h by (apply quat_angle_unit; auto). unfold turn, quat_of_angle_axis. rewrite (cos_half a), (sin_half a). pose proof (trig1 (/ 2 * a)) as T. set (c := cos (/ 2 * a)) in *. set (s := sin (/ 2 * a)) in *. clearbody c s.
  destruct u as [x y z], v as [p q r]. unfold hmat. un.
  assert (C : c * c = 1 - s * s) by lra.
  assert (X : forall k, s * s * k * (x * x + y * y + z * z) = s * s * k) by (intro k; rewrite H; ring).
  replace (1 - (c * c - s * s)) with (2 * (s * s)) by lra.
  pose proof (X p). pose proof (X q). pose proof (X r). f_equal; lra.
Qed.
(** C72: building from an angle and an axis of any non zero length, or from a
    Rodrigues vector, gives the unit quaternion of that rotation. *)
Theorem C72_from_angle_axis : forall a u, u <> V3 0 0 0 ->
  unit_q (rotation_of_angle_axis a u) /\ forall v, qrot (rotation_of_angle_axis a u) v = turn a (vdiv u (norm u)) v.
Proof.
  intros a u N. pose proof (normalized_dot u N) as D. unfold rotation_of_angle_axis. split; [apply quat_angle_unit; auto|]. intro v. rewrite quat_angle_turn by auto. f_equal.
  unfold normalized. pose proof (dot_pos u). destruct (Rlt_dec 0 (dot u u)) as [L|L]; auto. exfalso. apply N. apply norm_0. unfold norm. replace (dot u u) with 0 by lra. apply sqrt_0.
Qed.
Print Assumptions C72_from_angle_axis.
Lemma norm_zero : norm (V3 0 0 0) = 0.
Proof. unfold norm. replace (dot (V3 0 0 0) (V3 0 0 0)) with 0 by (un; ring). apply sqrt_0. Qed.
Lemma vdiv_dot u : norm u <> 0 -> dot (vdiv u (norm u)) (vdiv u (norm u)) = 1.
Proof.
  intro N. replace (dot (vdiv u (norm u)) (vdiv u (norm u))) with (dot u u / (norm u * norm u)) by (destruct u; un; field; auto). rewrite norm_sq. field. rewrite <- norm_sq. intro X. apply Rmult_integral in X. tauto.
Qed.
Theorem C72_from_rodrigues : forall r,
  unit_q (rotation_of_rodrigues r) /\ (r = V3 0 0 0 -> rotation_of_rodrigues r = Q 1 0 0 0) /\
  (r <> V3 0 0 0 -> forall v, qrot (rotation_of_rodrigues r) v = turn (norm r) (vdiv r (norm r)) v).
Proof.
  intro r. unfold rotation_of_rodrigues. destruct (Req_EM_T (norm r) 0) as [E|E].
  - split; [un; lra|]. split; auto. intro N. elim N. apply norm_0. auto.
  - split; [apply quat_angle_unit, vdiv_dot; auto|]. split; [intros ->; elim E; apply norm_zero|]. intros _ v. apply quat_angle_turn, vdiv_dot; auto.
Qed.
Print Assumptions C72_from_rodrigues.

(** C72: the angle is in (-pi, pi], the axis is a unit vector, and turning by
    that angle about that axis is the rotation. *)
Lemma norm_vscale k v : norm (vscale k v) = Rabs k * norm v.
Proof.
  unfold norm. replace (dot (vscale k v) (vscale k v)) with (k * k * dot v v) by (destruct v; un; ring). rewrite sqrt_mult; [|apply Rle_0_sqr|apply dot_pos]. f_equal. apply sqrt_Rsqr_abs.
Qed.
Theorem C72_angle_axis : forall q, unit_q q ->
  - PI < angle q <= PI /\ dot (axis q) (axis q) = 1 /\ (forall v, qrot q v = turn (angle q) (axis q) v) /\
  same (rotation_of_angle_axis (angle q) (axis q)) q /\ same (rotation_of_rodrigues (rodrigues q)) q /\
  norm (rodrigues q) = Rabs (angle q) /\ rodrigues q = vscale (angle q) (axis q).
Proof.
  intros q U. pose proof (axis_dot q) as AD. pose proof (angle_axis_rebuild q U) as RB. pose proof PI_RGT_0.
  assert (RS : rodrigues q = vscale (angle q) (axis q)). { unfold rodrigues. destruct (Req_EM_T (angle q) 0) as [E|E]; auto. rewrite E. destruct (axis q). un. f_equal; ring. }
  assert (NR : norm (rodrigues q) = Rabs (angle q)) by (rewrite RS, norm_vscale, (unit_dot _ AD); ring).
  split. { destruct (unit_polar q U) as (t & Ht & Hw & Hn). destruct (angle_polar q t Ht Hw Hn) as [[X ->]|[X ->]]; lra. }
  split; auto. split; [|split; [exact RB|split; [|split; auto]]].
  - intro v. rewrite <- quat_angle_turn by auto. unfold rotation_of_angle_axis in RB. rewrite normalized_unit in RB by auto. destruct RB as [-> | ->]; auto. rewrite qrot_neg. auto.
  - unfold rotation_of_angle_axis in RB. rewrite normalized_unit in RB by auto.
    unfold rotation_of_rodrigues. rewrite NR. destruct (Req_EM_T (Rabs (angle q)) 0) as [E|E].
    + assert (Z : angle q = 0). { destruct (Req_dec (angle q) 0); auto. elim (Rabs_no_R0 _ H0); auto. } rewrite Z in RB. unfold quat_of_angle_axis in RB. rewrite Rmult_0_r, cos_0, sin_0 in RB. rewrite !Rmult_0_l in RB. exact RB.
    + rewrite RS. replace (quat_of_angle_axis (Rabs (angle q)) (vdiv (vscale (angle q) (axis q)) (Rabs (angle q)))) with (quat_of_angle_axis (angle q) (axis q)); [exact RB|].
      unfold quat_of_angle_axis. destruct (Rcase_abs (angle q)) as [L|L].
      * rewrite Rabs_left by auto. rewrite <- Ropp_mult_distr_r, cos_neg, sin_neg. destruct (axis q) as [x y z]. un. f_equal; field; lra.
      * rewrite Rabs_right in * by auto. destruct (axis q) as [x y z]. un. f_equal; field; lra.
Qed.
Print Assumptions C72_angle_axis.
(** C72: angle and axis read back what an angle in [0, pi] and axis were. *)
Theorem C72_angle_axis_readback : forall a u, u <> V3 0 0 0 -> 0 < a <= PI ->
  angle (rotation_of_angle_axis a u) = a /\ axis (rotation_of_angle_axis a u) = vdiv u (norm u) /\
  (norm u = a -> rodrigues (rotation_of_rodrigues u) = u).
Proof.
  intros a u N A. pose proof PI_RGT_0. assert (NN : norm u <> 0) by (intro X; apply N, norm_0; auto). pose proof (norm_pos u) as NP. pose proof (vdiv_dot u NN) as VD.
  assert (NE : normalized u = vdiv u (norm u)). { unfold normalized. destruct (Rlt_dec 0 (dot u u)) as [L|L]; auto. exfalso. apply NN. unfold norm. pose proof (dot_pos u). replace (dot u u) with 0 by lra. apply sqrt_0. }
  unfold rotation_of_angle_axis. rewrite NE. set (d := vdiv u (norm u)) in *.
  assert (S : 0 < sin (/ 2 * a)) by (apply sin_gt_0; lra).
  assert (QV : qvec (quat_of_angle_axis a d) = vscale (sin (/ 2 * a)) d) by (destruct d; reflexivity).
  assert (QN : norm (qvec (quat_of_angle_axis a d)) = sin (/ 2 * a)) by (rewrite QV, norm_vscale, (unit_dot _ VD), Rabs_right by lra; ring).
  assert (E1 : angle (quat_of_angle_axis a d) = a).
  { destruct (angle_polar (quat_of_angle_axis a d) (/ 2 * a)) as [[X ->]|[X ->]]; auto; lra. }
  assert (E2 : axis (quat_of_angle_axis a d) = d).
  { unfold axis. rewrite QN, QV. destruct (Req_EM_T (sin (/ 2 * a)) 0) as [Z|Z]; [lra|]. clearbody d. destruct d. un. f_equal; field; auto. }
  split; auto. split; auto. intro Na. unfold rotation_of_rodrigues. rewrite Na. destruct (Req_EM_T a 0); [lra|]. rewrite <- Na at 2. fold d. unfold rodrigues. rewrite E1, E2. destruct (Req_EM_T a 0); [lra|].
  unfold d. rewrite Na. destruct u. un. f_equal; field; lra.
Qed.
Print Assumptions C72_angle_axis_readback.
Example C72_angle_axis_example : V3 0 0 5 <> V3 0 0 0 /\ 0 < 1 <= PI.
Proof. split; [intro E; injection E; lra|]. pose proof PI2_1. lra. Qed.

(** ---- yaw, pitch, roll ---- *)
Definition rot_x (a : R) : m3 := M3 1 0 0 0 (cos a) (- sin a) 0 (sin a) (cos a).
Definition rot_y (a : R) : m3 := M3 (cos a) 0 (sin a) 0 1 0 (- sin a) 0 (cos a).
Definition rot_z (a : R) : m3 := M3 (cos a) (- sin a) 0 (sin a) (cos a) 0 0 0 1.
(** East-north-up from north-east-down: swap the first two, negate the third. *)
Definition ned_enu : m3 := M3 0 1 0 1 0 0 0 0 (-1).
Lemma axis_quats a : qmat (Q (cos (/ 2 * a)) (sin (/ 2 * a)) 0 0) = rot_x a /\ qmat (Q (cos (/ 2 * a)) 0 (sin (/ 2 * a)) 0) = rot_y a /\ qmat (Q (cos (/ 2 * a)) 0 0 (sin (/ 2 * a))) = rot_z a.
Proof. unfold rot_x, rot_y, rot_z. rewrite (cos_half a), (sin_half a). pose proof (trig1 (/ 2 * a)). un. repeat split; f_equal; lra. Qed.
Lemma half_sqrt2 : 1 / sqrt 2 * (1 / sqrt 2) = / 2.
Proof. pose proof (sqrt_lt_R0 2 ltac:(lra)). replace (1 / sqrt 2 * (1 / sqrt 2)) with (/ (sqrt 2 * sqrt 2)) by (field; lra). rewrite sqrt_sqrt by lra. reflexivity. Qed.
(** C72: the rotation of yaw, pitch and roll is Rx(-roll) Ry(-pitch) Rz(-yaw)
    after the change from east-north-up to north-east-down. *)
Theorem C72_ypr_matrix : forall y p r, unit_q (rotation_of_ypr y p r) /\
  qmat (rotation_of_ypr y p r) = mmul (mmul (mmul (rot_x (- r)) (rot_y (- p))) (rot_z (- y))) ned_enu.
Proof.
  intros y p r. unfold rotation_of_ypr. pose proof half_sqrt2 as S. set (k := 1 / sqrt 2) in *. clearbody k.
  assert (U : forall a, unit_q (Q (cos (/ 2 * a)) (sin (/ 2 * a)) 0 0) /\ unit_q (Q (cos (/ 2 * a)) 0 (sin (/ 2 * a)) 0) /\ unit_q (Q (cos (/ 2 * a)) 0 0 (sin (/ 2 * a)))) by (intro a; pose proof (trig1 (/ 2 * a)); un; repeat split; lra).
  assert (UN : unit_q (Q 0 k k 0)) by (un; lra).
  assert (QN : qmat (Q 0 k k 0) = ned_enu) by (unfold ned_enu; un; f_equal; lra).
  pose proof (U (- r)) as (U1 & _). pose proof (U (- p)) as (_ & U2 & _). pose proof (U (- y)) as (_ & _ & U3).
  assert (U12 := unit_qmul _ _ U1 U2). assert (U123 := unit_qmul _ _ U12 U3).
  split; [apply unit_qmul; auto|]. rewrite !qmat_mul by auto. rewrite QN.
  rewrite (proj1 (axis_quats (- r))), (proj1 (proj2 (axis_quats (- p)))), (proj2 (proj2 (axis_quats (- y)))). reflexivity.
Qed.
Print Assumptions C72_ypr_matrix.
Lemma ypr_entries y p r : let m := qmat (rotation_of_ypr y p r) in
  m00 m = cos p * sin y /\ m01 m = cos p * cos y /\ m02 m = sin p /\ m12 m = cos p * - sin r /\ m22 m = cos p * - cos r.
Proof.
  cbn zeta. rewrite (proj2 (C72_ypr_matrix y p r)). unfold rot_x, rot_y, rot_z, ned_enu. rewrite !cos_neg, !sin_neg.
  set (cp := cos p). set (sp := sin p). set (cy := cos y). set (sy := sin y). set (cr := cos r). set (sr := sin r). clearbody cp sp cy sy cr sr.
  rewrite !mmul_assoc. replace (mmul (M3 cy (- - sy) 0 (- sy) cy 0 0 0 1) (M3 0 1 0 1 0 0 0 0 (-1))) with (M3 sy cy 0 cy (- sy) 0 0 0 (-1)) by (unfold mmul; cbn [m00 m01 m02 m10 m11 m12 m20 m21 m22]; f_equal; ring).
  replace (mmul (M3 cp 0 (- sp) 0 1 0 (- - sp) 0 cp) (M3 sy cy 0 cy (- sy) 0 0 0 (-1))) with (M3 (cp * sy) (cp * cy) sp cy (- sy) 0 (sp * sy) (sp * cy) (- cp)) by (unfold mmul; cbn [m00 m01 m02 m10 m11 m12 m20 m21 m22]; f_equal; ring).
  unfold mmul; cbn [m00 m01 m02 m10 m11 m12 m20 m21 m22]. repeat split; ring.
Qed.
(** C72: yaw, pitch and roll are read back for |pitch| < pi/2. *)
Theorem C72_ypr_readback : forall y p r, - PI < y <= PI -> - (PI / 2) < p < PI / 2 -> - PI < r <= PI ->
  get_ypr (rotation_of_ypr y p r) = (y, p, r).
Proof.
  intros y p r Hy Hp Hr. pose proof PI_RGT_0. destruct (ypr_entries y p r) as (E0 & E1 & E2 & E3 & E4). unfold get_ypr. rewrite E0, E1, E2, E3, E4.
  assert (C : 0 < cos p) by (apply cos_gt_0; lra).
  replace (cos p * - sin r * (cos p * - sin r) + cos p * - cos r * (cos p * - cos r)) with (cos p * cos p).
  2:{ transitivity (cos p * cos p * (cos r * cos r + sin r * sin r)); [rewrite trig1; ring|ring]. }
  rewrite sqrt_square by lra. replace (- (cos p * - sin r)) with (cos p * sin r) by ring. replace (- (cos p * - cos r)) with (cos p * cos r) by ring.
  rewrite !atan2_polar by auto. pose proof (atan2_polar 1 p ltac:(lra) ltac:(lra)) as A. rewrite !Rmult_1_l in A. rewrite A. reflexivity.
Qed.
Print Assumptions C72_ypr_readback.
Lemma polar_form x y : 0 < x * x + y * y -> exists t, - PI < t <= PI /\ x = sqrt (x * x + y * y) * cos t /\ y = sqrt (x * x + y * y) * sin t.
Proof.
  intro H. set (s := sqrt (x * x + y * y)). assert (S : 0 < s) by (apply sqrt_lt_R0; auto). assert (SS : s * s = x * x + y * y) by (apply sqrt_sqrt; lra). clearbody s. pose proof PI_RGT_0.
  assert (Q : (x / s) * (x / s) + (y / s) * (y / s) = 1). { replace (x / s * (x / s) + y / s * (y / s)) with ((x * x + y * y) / (s * s)) by (field; lra). rewrite SS. field. lra. }
  assert (B : -1 <= x / s <= 1) by (split; nra). pose proof (acos_bound (x / s)) as AB. pose proof (cos_acos _ B) as CA. pose proof (sin_acos _ B) as SA.
  assert (SB : sqrt (1 - Rsqr (x / s)) = Rabs (y / s)). { rewrite <- sqrt_Rsqr_abs. f_equal. unfold Rsqr. lra. }
  rewrite SB in SA. assert (Ex : forall c, x / s = c -> x = s * c) by (intros c <-; field; lra). assert (Ey : forall c, y / s = c -> y = s * c) by (intros c <-; field; lra).
  destruct (Rle_lt_dec 0 y) as [L|L].
  - exists (acos (x / s)). split; [lra|]. split; [apply Ex; auto|]. apply Ey. rewrite SA. rewrite Rabs_right; auto. apply Rle_ge. apply Rmult_le_pos; auto. left. apply Rinv_0_lt_compat. auto.
  - exists (- acos (x / s)). assert (Y : y / s < 0). { unfold Rdiv. assert (0 < / s) by (apply Rinv_0_lt_compat; auto). nra. } split.
    + split; [|lra]. destruct (Req_dec (acos (x / s)) PI) as [E|E]; [|lra]. exfalso. rewrite E, sin_PI in SA. rewrite Rabs_left in SA by auto. lra.
    + rewrite cos_neg, sin_neg. split; [apply Ex; auto|]. apply Ey. rewrite SA. rewrite Rabs_left by auto. ring.
Qed.
Lemma rotation_fill m n : rotation_matrix m -> rotation_matrix n -> m00 m = m00 n -> m01 m = m01 n -> m02 m = m02 n -> m12 m = m12 n -> m22 m = m22 n -> m00 m * m00 m + m01 m * m01 m <> 0 -> m = n.
Proof.
  intros Hm Hn E0 E1 E2 E3 E4 D.
  assert (F : forall k, rotation_matrix k -> m10 k * m00 k + m11 k * m01 k = - (m12 k * m02 k) /\ m00 k * m11 k - m01 k * m10 k = m22 k /\ m20 k * m00 k + m21 k * m01 k = - (m22 k * m02 k) /\ m01 k * m20 k - m00 k * m21 k = m12 k).
  { intros k Hk. pose proof (rotation_adj k Hk) as A. destruct Hk as [O _]. pose proof (f_equal m10 O) as O1. pose proof (f_equal m20 O) as O2. pose proof (f_equal m22 A) as A1. pose proof (f_equal m21 A) as A2. destruct k. un. repeat split; lra. }
  destruct (F m Hm) as (A1 & A2 & A3 & A4), (F n Hn) as (B1 & B2 & B3 & B4). clear F Hm Hn. destruct m as [a b c d e f g h i], n as [a' b' c' d' e' f' g' h' i']. cbn [m00 m01 m02 m10 m11 m12 m20 m21 m22] in *. subst a' b' c' f' i'.
  assert (X : forall u v, (a * a + b * b) * u = (a * a + b * b) * v -> u = v) by (intros u v H; apply (Rmult_eq_reg_l (a * a + b * b)); auto).
  f_equal; apply X.
  - transitivity (a * (d * a + e * b) - b * (a * e - b * d)); [ring|]. transitivity (a * (d' * a + e' * b) - b * (a * e' - b * d')); [|ring]. rewrite A1, A2, B1, B2. reflexivity.
  - transitivity (b * (d * a + e * b) + a * (a * e - b * d)); [ring|]. transitivity (b * (d' * a + e' * b) + a * (a * e' - b * d')); [|ring]. rewrite A1, A2, B1, B2. reflexivity.
  - transitivity (a * (g * a + h * b) + b * (b * g - a * h)); [ring|]. transitivity (a * (g' * a + h' * b) + b * (b * g' - a * h')); [|ring]. rewrite A3, A4, B3, B4. reflexivity.
  - transitivity (b * (g * a + h * b) - a * (b * g - a * h)); [ring|]. transitivity (b * (g' * a + h' * b) - a * (b * g' - a * h')); [|ring]. rewrite A3, A4, B3, B4. reflexivity.
Qed.
(** C72: and every rotation away from gimbal lock is rebuilt from the yaw, pitch
    and roll read from it. *)
Theorem C72_ypr_rebuild : forall q, unit_q q -> Rabs (m02 (qmat q)) <> 1 ->
  let '(y, p, r) := get_ypr q in same (rotation_of_ypr y p r) q /\ - PI < y <= PI /\ - (PI / 2) < p < PI / 2 /\ - PI < r <= PI.
Proof.
  intros q U G. pose proof (qmat_rotation q U) as Rm. pose proof PI_RGT_0 as P. unfold get_ypr. set (m := qmat q) in *.
  assert (Row : m00 m * m00 m + m01 m * m01 m + m02 m * m02 m = 1) by (destruct Rm as [O _]; apply (f_equal m00) in O; un; lra).
  assert (Col : m02 m * m02 m + m12 m * m12 m + m22 m * m22 m = 1) by (pose proof (rotation_cols m Rm) as O; apply (f_equal m22) in O; un; lra).
  assert (NZ : 0 < m12 m * m12 m + m22 m * m22 m).
  { pose proof (Rle_0_sqr (m12 m)). pose proof (Rle_0_sqr (m22 m)). unfold Rsqr in *. destruct (Req_dec (m12 m * m12 m + m22 m * m22 m) 0) as [Z|Z]; [|lra]. exfalso. apply G.
    assert (X : Rsqr (m02 m) = Rsqr 1) by (unfold Rsqr; lra). apply Rsqr_eq_abs_0 in X. rewrite X. apply Rabs_R1. }
  set (cp := sqrt (m12 m * m12 m + m22 m * m22 m)). assert (CP : 0 < cp) by (apply sqrt_lt_R0; auto). assert (CC : cp * cp = m12 m * m12 m + m22 m * m22 m) by (apply sqrt_sqrt; lra).
  destruct (polar_form (m01 m) (m00 m)) as (y & Hy & Y1 & Y2); [lra|]. replace (m01 m * m01 m + m00 m * m00 m) with (m12 m * m12 m + m22 m * m22 m) in Y1, Y2 by lra. fold cp in Y1, Y2.
  destruct (polar_form (- m22 m) (- m12 m)) as (r & Hr & R1 & R2); [lra|]. replace (- m22 m * - m22 m + - m12 m * - m12 m) with (m12 m * m12 m + m22 m * m22 m) in R1, R2 by ring. fold cp in R1, R2.
  destruct (polar_form cp (m02 m)) as (p & Hp & P1 & P2); [rewrite CC; pose proof (Rle_0_sqr (m02 m)); unfold Rsqr in *; lra|]. replace (cp * cp + m02 m * m02 m) with 1 in P1, P2 by lra. rewrite sqrt_1, Rmult_1_l in P1, P2.
  assert (Hp' : - (PI / 2) < p < PI / 2).
  { split.
    - destruct (Rlt_le_dec (- (PI / 2)) p); auto. exfalso. assert (cos p <= 0); [|lra]. rewrite <- cos_neg. apply cos_le_0; lra.
    - destruct (Rlt_le_dec p (PI / 2)); auto. exfalso. assert (cos p <= 0); [|lra]. apply cos_le_0; lra. }
  clearbody cp. rewrite Y1, Y2, R1, R2, P1, P2. pose proof (atan2_polar 1 p ltac:(lra) Hp) as A. rewrite !Rmult_1_l in A. rewrite A. rewrite !atan2_polar by lra.
  split; [|auto]. destruct (C72_ypr_matrix y p r) as (U' & _). apply qmat_inj; auto. fold m. destruct (ypr_entries y p r) as (E0 & E1 & E2 & E3 & E4).
  apply rotation_fill; auto; try (apply qmat_rotation; auto); rewrite ?E0, ?E1, ?E2, ?E3, ?E4; rewrite <- ?P1; try lra.
  replace (cp * sin y * (cp * sin y) + cp * cos y * (cp * cos y)) with (cp * cp * (cos y * cos y + sin y * sin y)) by ring. rewrite trig1, Rmult_1_r. intro X. apply Rmult_integral in X. lra.
Qed.
Print Assumptions C72_ypr_rebuild.
Example C72_ypr_example : - PI < 3 <= PI /\ - (PI / 2) < 1 < PI / 2 /\ unit_q (Q 1 0 0 0) /\ Rabs (m02 (qmat (Q 1 0 0 0))) <> 1.
Proof.
  assert (3 < PI). { assert (X := PI_ineq 3). unfold tg_alt, PI_tg in X. cbn in X. lra. } repeat split; try lra; [un; lra|]. un. rewrite Rabs_right; lra.
Qed.
(** At gimbal lock (pitch = pi/2) neither direction holds: yaw and roll are
    lost and the rotation rebuilt from them is another one. *)
Theorem C72_gimbal_lock_refuted : exists y p r, - PI < y <= PI /\ - (PI / 2) <= p <= PI / 2 /\ - PI < r <= PI /\
  let '(y', p', r') := get_ypr (rotation_of_ypr y p r) in y' <> y /\ ~ same (rotation_of_ypr y' p' r') (rotation_of_ypr y p r).
Proof.
  pose proof PI_RGT_0 as P. exists (PI / 2), (PI / 2), 0. split; [lra|]. split; [lra|]. split; [lra|].
  destruct (ypr_entries (PI / 2) (PI / 2) 0) as (E0 & E1 & E2 & E3 & E4). unfold get_ypr. rewrite E0, E1, E2, E3, E4. rewrite cos_PI2, sin_PI2, !Rmult_0_l, Ropp_0.
  rewrite ?Rplus_0_l, ?Rmult_0_l, ?Rplus_0_l, sqrt_0.
  assert (Z : atan2 0 0 = 0) by (unfold atan2; destruct (Rlt_dec 0 0); [lra|reflexivity]).
  assert (Z1 : atan2 1 0 = PI / 2) by (unfold atan2; destruct (Rlt_dec 0 0); [lra|]; destruct (Rlt_dec 0 1); [reflexivity|lra]).
  rewrite Z, Z1. split; [lra|]. intro S. apply same_mat in S. rewrite (proj2 (C72_ypr_matrix 0 (PI / 2) 0)), (proj2 (C72_ypr_matrix (PI / 2) (PI / 2) 0)) in S.
  unfold rot_x, rot_y, rot_z, ned_enu in S. rewrite ?Ropp_0 in S. rewrite !cos_neg, !sin_neg, cos_PI2, sin_PI2, cos_0, sin_0 in S. rewrite ?Ropp_0 in S.
  change (M3 1 0 0 0 1 0 0 0 1) with mid in S. rewrite !mmul_id_l, !mmul_assoc in S. apply (f_equal m10) in S. unfold mmul, mid in S. cbn [m00 m01 m02 m10 m11 m12 m20 m21 m22] in S. ring_simplify in S. lra.
Qed.
Print Assumptions C72_gimbal_lock_refuted.
(** The 4-vector constructor is documented as (w, i, j, k) but reads (i, j, k,
    w): the documented identity (1,0,0,0) is a half turn about x. *)
Theorem C72_vec4_order_refuted : rotation_of_vec4 1 0 0 0 <> Q 1 0 0 0 /\ (forall v, qrot (rotation_of_vec4 1 0 0 0) v = V3 (x3 v) (- y3 v) (- z3 v)) /\
  (forall v, qrot (rotation_of_vec4 0 0 0 1) v = v).
Proof. unfold rotation_of_vec4. split; [intro E; injection E; lra|]. split; intro v; destruct v; un; f_equal; ring. Qed.
Print Assumptions C72_vec4_order_refuted.

(** ---- C73: interpolation ---- *)
Lemma quat_angle_plus a b u : dot u u = 1 -> qmul (quat_of_angle_axis a u) (quat_of_angle_axis b u) = quat_of_angle_axis (a + b) u.
Proof.
  intro H. unfold quat_of_angle_axis. rewrite Rmult_plus_distr_l, cos_plus, sin_plus. set (c := cos (/ 2 * a)). set (s := sin (/ 2 * a)). set (c' := cos (/ 2 * b)). set (s' := sin (/ 2 * b)). clearbody c s c' s'.
  destruct u as [x y z]. un. f_equal; try ring. transitivity (c * c' - s * s' * (x * x + y * y + z * z)); [ring|rewrite H; ring].
Qed.
(** The step from a to b: a turn about the axis of a^-1 b. *)
Definition step (a b : quat) (f : R) : quat := rotation_of_angle_axis (angle (qmul (qinv a) b) * f) (axis (qmul (qinv a) b)).
Lemma step_plus a b f g : qmul (step a b f) (step a b g) = step a b (f + g).
Proof. unfold step, rotation_of_angle_axis. rewrite normalized_unit by apply axis_dot. rewrite quat_angle_plus by apply axis_dot. f_equal. ring. Qed.
Lemma step_0 a b : step a b 0 = Q 1 0 0 0.
Proof. unfold step, rotation_of_angle_axis, quat_of_angle_axis. rewrite !Rmult_0_r, cos_0, sin_0, !Rmult_0_l. reflexivity. Qed.
Lemma step_unit a b f : unit_q (step a b f).
Proof. unfold step, rotation_of_angle_axis. rewrite normalized_unit by apply axis_dot. apply quat_angle_unit, axis_dot. Qed.
(** C73: fraction 0 gives the first rotation, fraction 1 the second, every
    fraction gives a rotation, and between fractions f and f + g lies the turn
    by g times the angle of a^-1 b (at most half a turn) about its axis. *)
Theorem C73_interpolate : forall a b, unit_q a -> unit_q b ->
  interpolate a b 0 = a /\ same (interpolate a b 1) b /\ (forall f, unit_q (interpolate a b f)) /\
  (forall f g v, qrot (interpolate a b (f + g)) v = qrot (interpolate a b f) (turn (g * angle (qmul (qinv a) b)) (axis (qmul (qinv a) b)) v)) /\
  Rabs (angle (qmul (qinv a) b)) <= PI.
Proof.
  intros a b Ha Hb. assert (Uc : unit_q (qmul (qinv a) b)) by (apply unit_qmul; auto; apply unit_qinv; auto).
  assert (E : forall f, interpolate a b f = qmul a (step a b f)) by reflexivity.
  split; [rewrite E, step_0; apply qmul_1_r|]. split.
  { rewrite E. unfold step. rewrite Rmult_1_r. destruct (angle_axis_rebuild _ Uc) as [-> | ->].
    - left. rewrite <- qmul_assoc, qinv_r by auto. apply qmul_1_l.
    - right. replace (qmul a (qneg (qmul (qinv a) b))) with (qneg (qmul (qmul a (qinv a)) b)) by (generalize (qinv a); intro i; destruct a, i, b; un; f_equal; ring). rewrite qinv_r, qmul_1_l by auto. reflexivity. }
  split; [intro f; rewrite E; apply unit_qmul; auto; apply step_unit|]. split.
  - intros f g v. rewrite !E, <- step_plus, <- qmul_assoc. rewrite qrot_mul; [|apply unit_qmul; auto; apply step_unit|apply step_unit]. f_equal. unfold step, rotation_of_angle_axis. rewrite normalized_unit by apply axis_dot.
    rewrite quat_angle_turn by apply axis_dot. f_equal. ring.
  - pose proof PI_RGT_0. destruct (C72_angle_axis _ Uc) as (B & _). apply Rabs_le. lra.
Qed.
Print Assumptions C73_interpolate.
(** C73: interpolated_rotations appends n rotations that divide the way from a
    to b into n + 1 equal steps: one and the same rotation, applied i times to
    a, gives the i-th of them, and applied n + 1 times gives b. *)
Theorem C73_interpolated : forall a b n, unit_q a -> unit_q b ->
  length (interpolated a b n) = n /\
  exists s, unit_q s /\
    (forall v, qrot s v = turn (angle (qmul (qinv a) b) / INR (n + 1)) (axis (qmul (qinv a) b)) v) /\
    (forall i, (i < n)%nat -> nth_error (interpolated a b n) i = Some (Nat.iter (i + 1) (fun r => qmul r s) a)) /\
    same (Nat.iter (n + 1) (fun r => qmul r s) a) b.
Proof.
  intros a b n Ha Hb. split; [unfold interpolated; rewrite map_length, seq_length; auto|].
  assert (NZ : INR (n + 1) <> 0) by (apply not_0_INR; lia).
  exists (step a b (/ INR (n + 1))). split; [apply step_unit|].
  assert (It : forall k, Nat.iter k (fun r => qmul r (step a b (/ INR (n + 1)))) a = interpolate a b (INR k / INR (n + 1))).
  { induction k as [|k IH].
    - cbn [Nat.iter nat_rect]. replace (INR 0 / INR (n + 1)) with 0 by (cbn; field; auto). symmetry. apply (C73_interpolate a b Ha Hb).
    - change (Nat.iter (S k) ?f ?x) with (f (Nat.iter k f x)). cbn beta. rewrite IH. change (interpolate a b (INR k / INR (n + 1))) with (qmul a (step a b (INR k / INR (n + 1)))). rewrite qmul_assoc, step_plus.
      change (qmul a (step a b ?f)) with (interpolate a b f). f_equal. rewrite S_INR. field. auto. }
  split; [|split].
  - intro v. unfold step, rotation_of_angle_axis. rewrite normalized_unit by apply axis_dot. apply quat_angle_turn, axis_dot.
  - intros i Hi. rewrite It. unfold interpolated. rewrite (map_nth_error _ i (seq 1 n) (d := S i)); [f_equal; f_equal; f_equal; f_equal; lia|].
    rewrite (nth_error_nth' _ 0%nat) by (rewrite seq_length; auto). rewrite seq_nth by auto. reflexivity.
  - rewrite It. replace (INR (n + 1) / INR (n + 1)) with 1 by (field; auto). apply (C73_interpolate a b Ha Hb).
Qed.
Print Assumptions C73_interpolated.
Example C73_example : unit_q (Q (3/5) 0 (4/5) 0) /\ unit_q (Q 0 0 (3/5) (-4/5)) /\ length (interpolated (Q 1 0 0 0) (Q 0 0 0 1) 3) = 3%nat.
Proof. split; [un; lra|]. split; [un; lra|]. reflexivity. Qed.
