(** GeomProofs.v -- algebra of rotations, similarities and homographies. *)
From Coq Require Import Reals Lra Lia ZArith Bool.
From Verif Require Import GeomModel.
Local Open Scope R_scope.

Definition unit_q (q : quat) : Prop := qw q * qw q + qx q * qx q + qy q * qy q + qz q * qz q = 1.
Definition qneg (q : quat) : quat := Q (- qw q) (- qx q) (- qy q) (- qz q).
Definition rotation_matrix (m : m3) : Prop := mmul m (transpose m) = mid /\ det m = 1.

Ltac geo := repeat match goal with q : quat |- _ => destruct q | v : v3 |- _ => destruct v | m : m3 |- _ => destruct m | v : v2 |- _ => destruct v end.
Ltac un := unfold unit_q, qnorm2, qneg, qmul, qrot, qmat, qvec, cross, vadd, vsub, vneg, vscale, vdiv, mvec, mmul, mscale, mdiv, transpose, det, adjugate, mid, dot in *;
  cbn [qw qx qy qz x3 y3 z3 x2 y2 m00 m01 m02 m10 m11 m12 m20 m21 m22] in *.

Lemma unit_norm2 q : unit_q q -> qnorm2 q = 1.
Proof. intro H. un. lra. Qed.
Lemma qinv_unit q : unit_q q -> qinv q = Q (qw q) (- qx q) (- qy q) (- qz q).
Proof.
  intro H. unfold qinv. rewrite (unit_norm2 q H). destruct (Rlt_dec 0 1) as [L|L]; [|lra]. f_equal; field.
Qed.
Lemma unit_qmul a b : unit_q a -> unit_q b -> unit_q (qmul a b).
Proof.
  intros H1 H2. destruct a as [qw0 qx0 qy0 qz0], b as [qw1 qx1 qy1 qz1]. un.
  match goal with |- ?l = 1 => replace l with ((qw0 * qw0 + qx0 * qx0 + qy0 * qy0 + qz0 * qz0) * (qw1 * qw1 + qx1 * qx1 + qy1 * qy1 + qz1 * qz1)) by ring end. rewrite H1, H2. ring.
Qed.
Lemma unit_qinv q : unit_q q -> unit_q (qinv q).
Proof. intro H. rewrite qinv_unit by auto. geo. un. lra. Qed.
Lemma qinv_l q : unit_q q -> qmul (qinv q) q = Q 1 0 0 0.
Proof. intro H. rewrite qinv_unit by auto. geo. un. f_equal; try ring. lra. Qed.
Lemma qinv_r q : unit_q q -> qmul q (qinv q) = Q 1 0 0 0.
Proof. intro H. rewrite qinv_unit by auto. geo. un. f_equal; try ring. lra. Qed.
Lemma qinv_inv q : unit_q q -> qinv (qinv q) = q.
Proof. intro H. rewrite (qinv_unit (qinv q)) by (apply unit_qinv; auto). rewrite qinv_unit by auto. geo. cbn. f_equal; ring. Qed.
Lemma qmul_assoc a b c : qmul (qmul a b) c = qmul a (qmul b c).
Proof. geo. un. f_equal; ring. Qed.
Lemma qmul_1_l q : qmul (Q 1 0 0 0) q = q.
Proof. geo. un. f_equal; ring. Qed.
Lemma qmul_1_r q : qmul q (Q 1 0 0 0) = q.
Proof. geo. un. f_equal; ring. Qed.
(** Rotating is the matrix product, for every quaternion. *)
Lemma qrot_mat q v : qrot q v = mvec (qmat q) v.
Proof. geo. un. f_equal; ring. Qed.
(** The homogeneous form of the matrix: the same for unit quaternions. *)
Definition hmat (q : quat) : m3 :=
  let w := qw q in let x := qx q in let y := qy q in let z := qz q in
  M3 (w*w+x*x-y*y-z*z) (2*x*y-2*w*z) (2*x*z+2*w*y) (2*x*y+2*w*z) (w*w-x*x+y*y-z*z) (2*y*z-2*w*x) (2*x*z-2*w*y) (2*y*z+2*w*x) (w*w-x*x-y*y+z*z).
Lemma qmat_h q : unit_q q -> qmat q = hmat q.
Proof. intro H. geo. unfold hmat. un. f_equal; try ring; lra. Qed.
Lemma hmat_mul a b : hmat (qmul a b) = mmul (hmat a) (hmat b).
Proof. geo. unfold hmat. un. f_equal; ring. Qed.
Lemma mvec_mmul a b v : mvec (mmul a b) v = mvec a (mvec b v).
Proof. geo. un. f_equal; ring. Qed.
Lemma qmat_mul a b : unit_q a -> unit_q b -> qmat (qmul a b) = mmul (qmat a) (qmat b).
Proof. intros H1 H2. rewrite !qmat_h by (auto using unit_qmul). apply hmat_mul. Qed.
Lemma qrot_mul a b v : unit_q a -> unit_q b -> qrot (qmul a b) v = qrot a (qrot b v).
Proof. intros H1 H2. rewrite !qrot_mat, qmat_mul by auto. apply mvec_mmul. Qed.
Lemma qrot_add q u v : qrot q (vadd u v) = vadd (qrot q u) (qrot q v).
Proof. geo. un. f_equal; ring. Qed.
Lemma qrot_scale q k v : qrot q (vscale k v) = vscale k (qrot q v).
Proof. geo. un. f_equal; ring. Qed.
Lemma qrot_1 v : qrot (Q 1 0 0 0) v = v.
Proof. geo. un. f_equal; ring. Qed.
Lemma hmat_orth q : mmul (hmat q) (transpose (hmat q)) = mscale (qnorm2 q * qnorm2 q) mid.
Proof. geo. unfold hmat. un. f_equal; ring. Qed.
Lemma hmat_det q : det (hmat q) = qnorm2 q * qnorm2 q * qnorm2 q.
Proof. geo. unfold hmat. un. ring. Qed.
Lemma qmat_rotation q : unit_q q -> rotation_matrix (qmat q).
Proof.
  intro H. rewrite qmat_h by auto. split; [rewrite hmat_orth, unit_norm2 by auto; un; f_equal; ring|rewrite hmat_det, unit_norm2 by auto; ring].
Qed.
Lemma hmat_dot q u v : dot (mvec (hmat q) u) (mvec (hmat q) v) = qnorm2 q * qnorm2 q * dot u v.
Proof. geo. unfold hmat. un. ring. Qed.
Lemma qrot_dot q u v : unit_q q -> dot (qrot q u) (qrot q v) = dot u v.
Proof. intro H. rewrite !qrot_mat, qmat_h, hmat_dot, unit_norm2 by auto. ring. Qed.
Lemma qmat_neg q : qmat (qneg q) = qmat q.
Proof. geo. un. f_equal; ring. Qed.
Lemma qrot_neg q v : qrot (qneg q) v = qrot q v.
Proof. geo. un. f_equal; ring. Qed.

(** ---- matrices ---- *)
Lemma mmul_assoc a b c : mmul (mmul a b) c = mmul a (mmul b c).
Proof. geo. un. f_equal; ring. Qed.
Lemma adj_l m : mmul (adjugate m) m = mscale (det m) mid.
Proof. geo. un. f_equal; ring. Qed.
Lemma adj_r m : mmul m (adjugate m) = mscale (det m) mid.
Proof. geo. un. f_equal; ring. Qed.
Lemma mmul_id_l m : mmul mid m = m.
Proof. geo. un. f_equal; ring. Qed.
Lemma mmul_id_r m : mmul m mid = m.
Proof. geo. un. f_equal; ring. Qed.
Lemma mscale_1 m : mscale 1 m = m.
Proof. geo. un. f_equal; ring. Qed.
Lemma rotation_adj m : rotation_matrix m -> adjugate m = transpose m.
Proof.
  intros [H1 H2]. rewrite <- (mmul_id_r (adjugate m)). rewrite <- H1. rewrite <- mmul_assoc, adj_l, H2, mscale_1. apply mmul_id_l.
Qed.
Lemma rotation_cols m : rotation_matrix m -> mmul (transpose m) m = mid.
Proof. intro H. rewrite <- rotation_adj by auto. rewrite adj_l. destruct H as [_ ->]. apply mscale_1. Qed.
Lemma rotation_transpose m : rotation_matrix m -> rotation_matrix (transpose m).
Proof. intro H. split; [rewrite <- (rotation_cols m H); geo; reflexivity|]. destruct H as [_ H]. rewrite <- H. geo. un. ring. Qed.

(** A quaternion whose products of coefficients are the right combinations of
    the matrix entries. *)
Definition fits (q : quat) (m : m3) : Prop :=
  4 * (qw q * qw q) = 1 + m00 m + m11 m + m22 m /\ 4 * (qx q * qx q) = 1 + m00 m - m11 m - m22 m /\
  4 * (qy q * qy q) = 1 - m00 m + m11 m - m22 m /\ 4 * (qz q * qz q) = 1 - m00 m - m11 m + m22 m /\
  4 * (qw q * qx q) = m21 m - m12 m /\ 4 * (qw q * qy q) = m02 m - m20 m /\ 4 * (qw q * qz q) = m10 m - m01 m /\
  4 * (qx q * qy q) = m01 m + m10 m /\ 4 * (qx q * qz q) = m02 m + m20 m /\ 4 * (qy q * qz q) = m12 m + m21 m.
Lemma fits_mat q m : fits q m -> qmat q = m /\ unit_q q.
Proof.
  intros (H1 & H2 & H3 & H4 & H5 & H6 & H7 & H8 & H9 & H10). geo. un. split; [f_equal; lra|lra].
Qed.
Lemma ratio4 s a b : s <> 0 -> 4 * (a * (/ 2 / s) * (b * (/ 2 / s))) = a * b / (s * s).
Proof. intro H. field. auto. Qed.
Lemma ratio4h s b : s <> 0 -> 4 * (/ 2 * s * (b * (/ 2 / s))) = b.
Proof. intro H. field. auto. Qed.
Lemma div_eq a b c : c <> 0 -> a = b * c -> a / c = b.
Proof. intros H ->. field. auto. Qed.
Lemma quat_of_mat_fits m : rotation_matrix m -> fits (quat_of_mat m) m.
Proof.
  intro H. pose proof (rotation_adj m H) as HA. pose proof (rotation_cols m H) as HC. destruct H as [HR HD].
  destruct m as [a00 a01 a02 a10 a11 a12 a20 a21 a22]. unfold adjugate, transpose, mmul, mid in HA, HC, HR. cbn [m00 m01 m02 m10 m11 m12 m20 m21 m22] in HA, HC, HR.
  injection HA as A0 A1 A2 A3 A4 A5 A6 A7 A8. injection HC as C0 C1 C2 C3 C4 C5 C6 C7 C8. injection HR as R0 R1 R2 R3 R4 R5 R6 R7 R8. clear HD.
  unfold quat_of_mat. cbn [m00 m01 m02 m10 m11 m12 m20 m21 m22].
  destruct (Rlt_dec 0 (a00 + a11 + a22)) as [L|L].
  - assert (P : 0 < a00 + a11 + a22 + 1) by lra. pose proof (sqrt_lt_R0 _ P) as S0. pose proof (sqrt_sqrt _ (Rlt_le _ _ P)) as S. set (s := sqrt (a00 + a11 + a22 + 1)) in *. clearbody s.
    assert (N : s <> 0) by lra. unfold fits. cbn [qw qx qy qz m00 m01 m02 m10 m11 m12 m20 m21 m22].
    rewrite !ratio4, !ratio4h by auto. rewrite S. assert (N' : a00 + a11 + a22 + 1 <> 0) by lra.
    repeat apply conj; try reflexivity; try (apply div_eq; [exact N'|]); lra.
  - destruct (Rlt_dec a00 a11) as [L1|L1].
    + destruct (Rlt_dec a11 a22) as [L2|L2].
      * assert (P : 0 < a22 - a00 - a11 + 1) by lra. pose proof (sqrt_lt_R0 _ P) as S0. pose proof (sqrt_sqrt _ (Rlt_le _ _ P)) as S. set (s := sqrt (a22 - a00 - a11 + 1)) in *. clearbody s.
        assert (N : s <> 0) by lra. unfold fits. cbn [qw qx qy qz m00 m01 m02 m10 m11 m12 m20 m21 m22].
        rewrite ?ratio4, ?ratio4h, ?(Rmult_comm (_ * (/ 2 / s)) (/ 2 * s)), ?ratio4h by auto. rewrite S. assert (N' : a22 - a00 - a11 + 1 <> 0) by lra.
        repeat apply conj; try reflexivity; try (apply div_eq; [exact N'|]); lra.
      * assert (P : 0 < a11 - a22 - a00 + 1) by lra. pose proof (sqrt_lt_R0 _ P) as S0. pose proof (sqrt_sqrt _ (Rlt_le _ _ P)) as S. set (s := sqrt (a11 - a22 - a00 + 1)) in *. clearbody s.
        assert (N : s <> 0) by lra. unfold fits. cbn [qw qx qy qz m00 m01 m02 m10 m11 m12 m20 m21 m22].
        rewrite ?ratio4, ?ratio4h, ?(Rmult_comm (_ * (/ 2 / s)) (/ 2 * s)), ?ratio4h by auto. rewrite S. assert (N' : a11 - a22 - a00 + 1 <> 0) by lra.
        repeat apply conj; try reflexivity; try (apply div_eq; [exact N'|]); lra.
    + destruct (Rlt_dec a00 a22) as [L2|L2].
      * assert (P : 0 < a22 - a00 - a11 + 1) by lra. pose proof (sqrt_lt_R0 _ P) as S0. pose proof (sqrt_sqrt _ (Rlt_le _ _ P)) as S. set (s := sqrt (a22 - a00 - a11 + 1)) in *. clearbody s.
        assert (N : s <> 0) by lra. unfold fits. cbn [qw qx qy qz m00 m01 m02 m10 m11 m12 m20 m21 m22].
        rewrite ?ratio4, ?ratio4h, ?(Rmult_comm (_ * (/ 2 / s)) (/ 2 * s)), ?ratio4h by auto. rewrite S. assert (N' : a22 - a00 - a11 + 1 <> 0) by lra.
        repeat apply conj; try reflexivity; try (apply div_eq; [exact N'|]); lra.
      * assert (P : 0 < a00 - a11 - a22 + 1) by lra. pose proof (sqrt_lt_R0 _ P) as S0. pose proof (sqrt_sqrt _ (Rlt_le _ _ P)) as S. set (s := sqrt (a00 - a11 - a22 + 1)) in *. clearbody s.
        assert (N : s <> 0) by lra. unfold fits. cbn [qw qx qy qz m00 m01 m02 m10 m11 m12 m20 m21 m22].
        rewrite ?ratio4, ?ratio4h, ?(Rmult_comm (_ * (/ 2 / s)) (/ 2 * s)), ?ratio4h by auto. rewrite S. assert (N' : a00 - a11 - a22 + 1 <> 0) by lra.
        repeat apply conj; try reflexivity; try (apply div_eq; [exact N'|]); lra.
Qed.
(** Two unit quaternions with the same matrix are equal up to sign. *)
Lemma qmat_inj p q : unit_q p -> unit_q q -> qmat p = qmat q -> p = q \/ p = qneg q.
Proof.
  intros Up Uq E. destruct p as [a b c d], q as [w x y z]. un. injection E as E0 E1 E2 E3 E4 E5 E6 E7 E8.
  assert (Faa : a * a = w * w) by lra. assert (Fbb : b * b = x * x) by lra. assert (Fcc : c * c = y * y) by lra. assert (Fdd : d * d = z * z) by lra.
  assert (Fab : a * b = w * x) by lra. assert (Fac : a * c = w * y) by lra. assert (Fad : a * d = w * z) by lra.
  assert (Fbc : b * c = x * y) by lra. assert (Fbd : b * d = x * z) by lra. assert (Fcd : c * d = y * z) by lra.
  set (k := a * w + b * x + c * y + d * z).
  assert (K : k * k = 1).
  { replace (k * k) with (a * a * (w * w) + b * b * (x * x) + c * c * (y * y) + d * d * (z * z) + 2 * (a * b * (w * x)) + 2 * (a * c * (w * y)) + 2 * (a * d * (w * z)) + 2 * (b * c * (x * y)) + 2 * (b * d * (x * z)) + 2 * (c * d * (y * z))) by (unfold k; ring).
    rewrite Faa, Fbb, Fcc, Fdd, Fab, Fac, Fad, Fbc, Fbd, Fcd.
    replace (_ + _) with ((w * w + x * x + y * y + z * z) * (w * w + x * x + y * y + z * z)) by ring. rewrite Uq. ring. }
  assert (Z : (a - k * w) * (a - k * w) + (b - k * x) * (b - k * x) + (c - k * y) * (c - k * y) + (d - k * z) * (d - k * z) = 0).
  { replace (_ + _) with ((a * a + b * b + c * c + d * d) - 2 * k * k + k * k * (w * w + x * x + y * y + z * z)) by (unfold k; ring). rewrite Up, Uq. lra. }
  assert (Sq : forall u, 0 <= u * u) by (intro u; apply Rle_0_sqr).
  pose proof (Sq (a - k * w)). pose proof (Sq (b - k * x)). pose proof (Sq (c - k * y)). pose proof (Sq (d - k * z)).
  assert (Z0 : forall u, u * u = 0 -> u = 0) by (intros u Hu; apply Rmult_integral in Hu; tauto).
  assert (Za : a - k * w = 0) by (apply Z0; lra). assert (Zb : b - k * x = 0) by (apply Z0; lra). assert (Zc : c - k * y = 0) by (apply Z0; lra). assert (Zd : d - k * z = 0) by (apply Z0; lra).
  assert (D : (k - 1) * (k + 1) = 0) by lra. apply Rmult_integral in D. destruct D as [D|D].
  - left. replace k with 1 in * by lra. f_equal; lra.
  - right. assert (Ek : k = -1) by lra. rewrite Ek in *. f_equal; lra.
Qed.

(** ---- atan2 ---- *)
Lemma atan2_polar r t : 0 < r -> - PI < t <= PI -> atan2 (r * sin t) (r * cos t) = t.
Proof.
  intros Hr [H1 H2]. pose proof PI_RGT_0 as P. unfold atan2.
  assert (T : forall u, cos u <> 0 -> r * sin u / (r * cos u) = tan u) by (intros u Hu; unfold tan; field; split; lra).
  destruct (Rtotal_order t (- (PI / 2))) as [L|[E|L]].
  - assert (C : cos t < 0). { replace t with (- (- t)) by lra. rewrite cos_neg. apply cos_lt_0; lra. }
    assert (S : sin t < 0). { replace t with (- (- t)) by lra. rewrite sin_neg. assert (0 < sin (- t)) by (apply sin_gt_0; lra). lra. }
    destruct (Rlt_dec 0 (r * cos t)) as [X|X]; [nra|]. destruct (Rlt_dec (r * cos t) 0) as [Y|Y]; [|nra]. destruct (Rle_dec 0 (r * sin t)) as [Z|Z]; [nra|].
    rewrite T by lra. replace (tan t) with (tan (t + PI)). + rewrite atan_tan by lra. lra.
    + unfold tan. rewrite neg_cos, neg_sin. field. lra.
  - subst t. rewrite cos_neg, sin_neg, cos_PI2, sin_PI2. rewrite Rmult_0_r. destruct (Rlt_dec 0 0); [lra|]. destruct (Rlt_dec 0 (r * - (1))); [lra|]. destruct (Rlt_dec (r * - (1)) 0); lra.
  - destruct (Rtotal_order t (PI / 2)) as [M|[E|M]].
    + assert (C : 0 < cos t) by (apply cos_gt_0; lra). destruct (Rlt_dec 0 (r * cos t)) as [X|X]; [|nra]. rewrite T by lra. apply atan_tan. lra.
    + subst t. rewrite cos_PI2, sin_PI2, Rmult_0_r. destruct (Rlt_dec 0 0); [lra|]. destruct (Rlt_dec 0 (r * 1)); lra.
    + assert (C : cos t < 0) by (apply cos_lt_0; lra). assert (S : 0 <= sin t) by (apply sin_ge_0; lra).
      destruct (Rlt_dec 0 (r * cos t)) as [X|X]; [nra|]. destruct (Rlt_dec (r * cos t) 0) as [Y|Y]; [|nra]. destruct (Rle_dec 0 (r * sin t)) as [Z|Z]; [|nra].
      rewrite T by lra. replace (tan t) with (tan (t - PI)). * rewrite atan_tan by lra. lra.
      * unfold tan. replace (cos t) with (cos (t - PI + PI)) by (f_equal; lra). replace (sin t) with (sin (t - PI + PI)) by (f_equal; lra). rewrite neg_cos, neg_sin. field. replace (t - PI) with (- (PI - t)) by lra. rewrite cos_neg. replace (PI - t) with (- t + PI) by lra. rewrite neg_cos, cos_neg. lra.
Qed.
(** ---- axis and angle of a unit quaternion ---- *)
Lemma dot_pos v : 0 <= dot v v.
Proof. destruct v as [x y z]. un. pose proof (Rle_0_sqr x). pose proof (Rle_0_sqr y). pose proof (Rle_0_sqr z). unfold Rsqr in *. lra. Qed.
Lemma norm_sq v : norm v * norm v = dot v v.
Proof. apply sqrt_sqrt. apply dot_pos. Qed.
Lemma norm_pos v : 0 <= norm v.
Proof. apply sqrt_pos. Qed.
Lemma norm_0 v : norm v = 0 -> v = V3 0 0 0.
Proof.
  intro H. pose proof (norm_sq v) as E. rewrite H in E. destruct v as [x y z]. un. pose proof (Rle_0_sqr x). pose proof (Rle_0_sqr y). pose proof (Rle_0_sqr z). unfold Rsqr in *.
  assert (Z0 : forall u, u * u = 0 -> u = 0) by (intros u Hu; apply Rmult_integral in Hu; tauto). f_equal; apply Z0; lra.
Qed.
Lemma unit_dot v : dot v v = 1 -> norm v = 1.
Proof. unfold norm. intros ->. apply sqrt_1. Qed.
Lemma normalized_unit v : dot v v = 1 -> normalized v = v.
Proof. intro H. unfold normalized. rewrite H. destruct (Rlt_dec 0 1); [|lra]. rewrite (unit_dot v H). geo. un. f_equal; field. Qed.
Lemma normalized_dot v : v <> V3 0 0 0 -> dot (normalized v) (normalized v) = 1.
Proof.
  intro H. assert (N : norm v <> 0) by (intro X; apply norm_0 in X; auto). pose proof (norm_sq v) as S. unfold normalized. pose proof (dot_pos v).
  destruct (Rlt_dec 0 (dot v v)) as [L|L]; [|exfalso; apply N; assert (dot v v = 0) by lra; unfold norm; rewrite H1; apply sqrt_0].
  replace (dot (vdiv v (norm v)) (vdiv v (norm v))) with (dot v v / (norm v * norm v)) by (destruct v; un; field; auto). rewrite S. field. lra.
Qed.
(** The polar form of a unit quaternion. *)
Lemma unit_polar q : unit_q q -> exists t, 0 <= t <= PI /\ qw q = cos t /\ norm (qvec q) = sin t.
Proof.
  intro U. exists (acos (qw q)). pose proof (norm_sq (qvec q)) as N. pose proof (norm_pos (qvec q)) as N0. pose proof (acos_bound (qw q)).
  assert (W : qw q * qw q + norm (qvec q) * norm (qvec q) = 1) by (rewrite N; destruct q; un; lra).
  assert (B : -1 <= qw q <= 1) by (split; nra). split; [lra|]. rewrite cos_acos by lra. split; auto. rewrite sin_acos by lra.
  apply Rsqr_inj; auto; [apply sqrt_pos|]. rewrite Rsqr_sqrt; unfold Rsqr; nra.
Qed.
Lemma angle_polar q t : 0 <= t <= PI -> qw q = cos t -> norm (qvec q) = sin t -> (t <= PI / 2 /\ angle q = 2 * t) \/ (PI / 2 < t /\ angle q = 2 * t - 2 * PI).
Proof.
  intros Ht Hw Hn. pose proof PI_RGT_0. unfold angle. rewrite Hw, Hn.
  assert (E : atan2 (sin t) (cos t) = t). { pose proof (atan2_polar 1 t Rlt_0_1 ltac:(lra)) as X. rewrite !Rmult_1_l in X. exact X. }
  rewrite E. destruct (Rle_dec PI (2 * t)) as [L|L].
  - destruct (Rle_dec (2 * t - 2 * PI) (- PI)) as [M|M]; [left|right]; split; lra.
  - destruct (Rle_dec (2 * t) (- PI)) as [M|M]; [lra|]. left. lra.
Qed.
Lemma axis_dot q : dot (axis q) (axis q) = 1.
Proof.
  unfold axis. destruct (Req_EM_T (norm (qvec q)) 0) as [E|E]; [un; ring|].
  replace (dot (vdiv (qvec q) (norm (qvec q))) (vdiv (qvec q) (norm (qvec q)))) with (dot (qvec q) (qvec q) / (norm (qvec q) * norm (qvec q))) by (destruct (qvec q); un; field; auto).
  rewrite norm_sq. field. intro X. apply E. unfold norm. rewrite X. apply sqrt_0.
Qed.
Lemma axis_scale q : vscale (norm (qvec q)) (axis q) = qvec q.
Proof.
  unfold axis. destruct (Req_EM_T (norm (qvec q)) 0) as [E|E].
  - rewrite E, (norm_0 _ E). un. f_equal; ring.
  - destruct (qvec q). un. f_equal; field; auto.
Qed.
Lemma angle_axis_rebuild q : unit_q q -> rotation_of_angle_axis (angle q) (axis q) = q \/ rotation_of_angle_axis (angle q) (axis q) = qneg q.
Proof.
  intro U. destruct (unit_polar q U) as (t & Ht & Hw & Hn). unfold rotation_of_angle_axis. rewrite normalized_unit by apply axis_dot.
  pose proof (axis_scale q) as AS. rewrite Hn in AS. unfold quat_of_angle_axis. destruct (angle_polar q t Ht Hw Hn) as [[_ ->]|[_ ->]].
  - left. replace (/ 2 * (2 * t)) with t by field. destruct q as [w x y z]. destruct (axis _) as [u v s]. un. injection AS as <- <- <-. subst w. reflexivity.
  - right. replace (/ 2 * (2 * t - 2 * PI)) with (- (PI - t)) by field. rewrite cos_neg, sin_neg, Rtrigo_facts.cos_pi_minus, Rtrigo_facts.sin_pi_minus.
    destruct q as [w x y z]. destruct (axis _) as [u v s]. un. injection AS as <- <- <-. subst w. f_equal; ring.
Qed.
