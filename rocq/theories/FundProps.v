(** FundProps.v -- C114: fundamental matrices. *)
From Coq Require Import Reals Lra.
From Verif Require Import GeomModel GeomProofs GeomProps2 FundModel.
Local Open Scope R_scope.

(** ---- specification ---- *)
(** Squared Frobenius norm and distance. *)
Definition frob2 (m : m3) : R :=
  m00 m * m00 m + m01 m * m01 m + m02 m * m02 m + m10 m * m10 m + m11 m * m11 m + m12 m * m12 m + m20 m * m20 m + m21 m * m21 m + m22 m * m22 m.
Definition mminus (a b : m3) : m3 :=
  M3 (m00 a - m00 b) (m01 a - m01 b) (m02 a - m02 b) (m10 a - m10 b) (m11 a - m11 b) (m12 a - m12 b) (m20 a - m20 b) (m21 a - m21 b) (m22 a - m22 b).
Definition dist2 (a b : m3) : R := frob2 (mminus a b).
(** A fundamental matrix: singular, of unit norm. *)
Definition fundamental (m : m3) : Prop := det m = 0 /\ frob2 m = 1.
(** A singular value decomposition of m. *)
Definition is_svd (m u v : m3) (s0 s1 s2 : R) : Prop :=
  orthogonal u /\ orthogonal v /\ 0 <= s2 <= s1 /\ s1 <= s0 /\ m = mmul (mmul u (sdiag s0 s1 s2)) (transpose v).

(** ---- Frobenius norm ---- *)
Definition tr (m : m3) : R := m00 m + m11 m + m22 m.
Definition inner (a b : m3) : R := tr (mmul (transpose a) b).
Lemma frob_tr m : frob2 m = inner m m.
Proof. unfold inner, tr, frob2. geo. un. ring. Qed.
Lemma tr_comm a b : tr (mmul a b) = tr (mmul b a).
Proof. unfold tr. geo. un. ring. Qed.
Lemma frob_left u m : orthogonal u -> frob2 (mmul u m) = frob2 m.
Proof.
  intros [_ H]. rewrite !frob_tr. unfold inner. rewrite transpose_mmul. f_equal.
  rewrite mmul_assoc, <- (mmul_assoc (transpose u)), H, mmul_id_l. reflexivity.
Qed.
Lemma frob_transpose m : frob2 (transpose m) = frob2 m.
Proof. unfold frob2. geo. un. ring. Qed.
Lemma orth_transpose u : orthogonal u -> orthogonal (transpose u).
Proof. intros [A B]. split; rewrite transpose_transpose; assumption. Qed.
Lemma frob_right m v : orthogonal v -> frob2 (mmul m (transpose v)) = frob2 m.
Proof. intros H. rewrite <- frob_transpose, transpose_mmul, transpose_transpose, frob_left by exact H. apply frob_transpose. Qed.
Lemma frob_svd u v a b c : orthogonal u -> orthogonal v -> frob2 (mmul (mmul u (sdiag a b c)) (transpose v)) = a * a + b * b + c * c.
Proof. intros Hu Hv. rewrite frob_right, frob_left by assumption. unfold frob2, sdiag. cbn [m00 m01 m02 m10 m11 m12 m20 m21 m22]. ring. Qed.
Lemma det_svd u v a b c : det (mmul (mmul u (sdiag a b c)) (transpose v)) = det u * det v * (a * b * c).
Proof. rewrite !det_mmul, det_transpose. unfold sdiag. replace (det (M3 a 0 0 0 b 0 0 0 c)) with (a * b * c); [ring|]. un. ring. Qed.
Lemma frob_pos m : 0 <= frob2 m.
Proof.
  unfold frob2. pose proof (Rle_0_sqr (m00 m)); pose proof (Rle_0_sqr (m01 m)); pose proof (Rle_0_sqr (m02 m)); pose proof (Rle_0_sqr (m10 m)); pose proof (Rle_0_sqr (m11 m)); pose proof (Rle_0_sqr (m12 m)); pose proof (Rle_0_sqr (m20 m)); pose proof (Rle_0_sqr (m21 m)); pose proof (Rle_0_sqr (m22 m)). unfold Rsqr in *. lra.
Qed.
Lemma frob_zero m : frob2 m = 0 -> m = M3 0 0 0 0 0 0 0 0 0.
Proof.
  unfold frob2. pose proof (Rle_0_sqr (m00 m)); pose proof (Rle_0_sqr (m01 m)); pose proof (Rle_0_sqr (m02 m)); pose proof (Rle_0_sqr (m10 m)); pose proof (Rle_0_sqr (m11 m)); pose proof (Rle_0_sqr (m12 m)); pose proof (Rle_0_sqr (m20 m)); pose proof (Rle_0_sqr (m21 m)); pose proof (Rle_0_sqr (m22 m)). unfold Rsqr in *.
  intros E. assert (forall x, x * x = 0 -> x = 0) as Z. { intros x Hx. apply Rmult_integral in Hx. lra. }
  destruct m as [a b c d e f g h i]; cbn [m00 m01 m02 m10 m11 m12 m20 m21 m22] in *. f_equal; apply Z; lra.
Qed.

(** ---- kernel of a singular matrix ---- *)
Lemma dot_pos a : 0 <= dot a a.
Proof. destruct a as [x y z]. unfold dot. cbn [x3 y3 z3]. pose proof (Rle_0_sqr x); pose proof (Rle_0_sqr y); pose proof (Rle_0_sqr z). unfold Rsqr in *. lra. Qed.
Lemma dot_zero a : dot a a = 0 -> a = V3 0 0 0.
Proof.
  destruct a as [x y z]. unfold dot. cbn [x3 y3 z3]. pose proof (Rle_0_sqr x); pose proof (Rle_0_sqr y); pose proof (Rle_0_sqr z). unfold Rsqr in *.
  intros E. assert (forall x, x * x = 0 -> x = 0) as Z. { intros t Ht. apply Rmult_integral in Ht. lra. } f_equal; apply Z; lra.
Qed.
Lemma zero_dec (a : v3) : a = V3 0 0 0 \/ 0 < dot a a.
Proof. destruct (Req_dec (dot a a) 0) as [E|E]; [left; apply dot_zero; exact E|right; pose proof (dot_pos a); lra]. Qed.
Definition row0 (m : m3) := V3 (m00 m) (m01 m) (m02 m).
Definition row1 (m : m3) := V3 (m10 m) (m11 m) (m12 m).
Definition row2 (m : m3) := V3 (m20 m) (m21 m) (m22 m).
Lemma mvec_rows m w : mvec m w = V3 (dot (row0 m) w) (dot (row1 m) w) (dot (row2 m) w).
Proof. unfold row0, row1, row2. geo. un. reflexivity. Qed.
(** Something orthogonal to a given vector. *)
Lemma perp (a : v3) : exists w, 0 < dot w w /\ dot a w = 0.
Proof.
  destruct a as [x y z]. destruct (Req_dec x 0) as [->|Nx].
  - exists (V3 1 0 0). unfold dot; cbn [x3 y3 z3]. split; [lra|ring].
  - exists (V3 (- y) x 0). unfold dot; cbn [x3 y3 z3]. split; [|ring]. pose proof (Rle_0_sqr y). assert (0 < x * x) by (destruct (Rtotal_order x 0) as [L|[L|L]]; nra). unfold Rsqr in *. lra.
Qed.
(** A vector parallel to a (nonzero) one is orthogonal to what that is. *)
Lemma parallel_dot a b w : cross a b = V3 0 0 0 -> 0 < dot a a -> dot a w = 0 -> dot b w = 0.
Proof.
  intros C P H. assert (dot a a * dot b w = dot a b * dot a w + dot (cross a b) (cross a w)) as E. { geo. un. ring. }
  rewrite C, H in E. assert (dot (V3 0 0 0) (cross a w) = 0) as Z. { generalize (cross a w). intros q. geo. un. ring. } rewrite Z in E.
  assert (dot a a * dot b w = 0) as E' by lra. apply Rmult_integral in E'. lra.
Qed.
Lemma kernel m : det m = 0 -> exists w, dot w w = 1 /\ mvec m w = V3 0 0 0.
Proof.
  intros D. enough (exists w, 0 < dot w w /\ dot (row0 m) w = 0 /\ dot (row1 m) w = 0 /\ dot (row2 m) w = 0) as (w & P & A & B & C).
  { exists (vscale (/ sqrt (dot w w)) w). assert (0 < sqrt (dot w w)) as Ps by (apply sqrt_lt_R0; exact P). split.
    - replace (dot (vscale (/ sqrt (dot w w)) w) (vscale (/ sqrt (dot w w)) w)) with (/ sqrt (dot w w) * / sqrt (dot w w) * dot w w) by (generalize (sqrt (dot w w)); intros k; geo; un; ring).
      rewrite <- (sqrt_def (dot w w)) at 3 by lra. field. lra.
    - rewrite mvec_rows. generalize dependent (/ sqrt (dot w w)). intros k.
      assert (forall a, dot a w = 0 -> dot a (vscale k w) = 0) as K. { intros a Ha. replace (dot a (vscale k w)) with (k * dot a w) by (clear; geo; un; ring). rewrite Ha. ring. }
      rewrite (K _ A), (K _ B), (K _ C). reflexivity. }
  set (a := row0 m). set (b := row1 m). set (c := row2 m).
  assert (dot a (cross b c) = 0) as Dt. { unfold a, b, c, row0, row1, row2. rewrite <- D. clear. geo. un. ring. }
  assert (forall p q, dot p (cross p q) = 0 /\ dot q (cross p q) = 0) as Cr. { clear. intros p q. geo. un. split; ring. }
  destruct (zero_dec (cross b c)) as [Zbc|Pbc].
  2:{ exists (cross b c). split; [exact Pbc|]. split; [exact Dt|]. apply Cr. }
  destruct (zero_dec (cross a b)) as [Zab|Pab].
  2:{ exists (cross a b). split; [exact Pab|]. split; [apply Cr|]. split; [apply Cr|]. rewrite <- Dt. clear. geo. un. ring. }
  destruct (zero_dec (cross a c)) as [Zac|Pac].
  2:{ exists (cross a c). split; [exact Pac|]. split; [apply Cr|]. split; [|apply Cr]. transitivity (- dot a (cross b c)); [clear; geo; un; ring|rewrite Dt; ring]. }
  destruct (zero_dec a) as [Za|Pa].
  - rewrite Za. destruct (zero_dec b) as [Zb|Pb].
    + rewrite Zb. destruct (perp c) as (w & P & H). exists w. split; [exact P|]. split; [|split; [|exact H]]; geo; un; ring.
    + destruct (perp b) as (w & P & H). exists w. split; [exact P|]. split; [clear; geo; un; ring|]. split; [exact H|]. exact (parallel_dot b c w Zbc Pb H).
  - destruct (perp a) as (w & P & H). exists w. split; [exact P|]. split; [exact H|]. split; [exact (parallel_dot a b w Zab Pa H)|exact (parallel_dot a c w Zac Pa H)].
Qed.
Lemma cauchy a w : dot w w = 1 -> dot a w * dot a w <= dot a a.
Proof.
  intros H. assert (dot a a * dot w w = dot a w * dot a w + dot (cross a w) (cross a w)) as E by (clear; geo; un; ring).
  pose proof (dot_pos (cross a w)). rewrite H in E. lra.
Qed.
Lemma frob_vec m w : dot w w = 1 -> dot (mvec m w) (mvec m w) <= frob2 m.
Proof.
  intros H. rewrite mvec_rows. pose proof (cauchy (row0 m) w H). pose proof (cauchy (row1 m) w H). pose proof (cauchy (row2 m) w H).
  unfold dot at 1. cbn [x3 y3 z3]. replace (frob2 m) with (dot (row0 m) (row0 m) + dot (row1 m) (row1 m) + dot (row2 m) (row2 m)); [lra|]. unfold frob2, row0, row1, row2, dot. cbn [x3 y3 z3]. ring.
Qed.
Lemma orth_dot u w : orthogonal u -> dot (mvec u w) (mvec u w) = dot w w.
Proof.
  intros [_ H]. transitivity (dot w (mvec (mmul (transpose u) u) w)); [clear; geo; un; ring|]. rewrite H. clear. geo. un. ring.
Qed.
Lemma mvec_mmul a b w : mvec (mmul a b) w = mvec a (mvec b w).
Proof. geo. un. f_equal; ring. Qed.
(** A singular matrix is at least the smallest singular value away. *)
Lemma far m u v s0 s1 s2 x : is_svd m u v s0 s1 s2 -> det x = 0 -> s2 * s2 <= dist2 m x.
Proof.
  intros (Hu & Hv & H2 & H1 & ->) D. destruct (kernel x D) as (w & W1 & W2).
  eapply Rle_trans; [|apply (frob_vec _ w W1)].
  assert (mvec (mminus (mmul (mmul u (sdiag s0 s1 s2)) (transpose v)) x) w = mvec (mmul (mmul u (sdiag s0 s1 s2)) (transpose v)) w) as ->.
  { generalize (mmul (mmul u (sdiag s0 s1 s2)) (transpose v)). intros q. transitivity (vsub (mvec q w) (mvec x w)); [clear; unfold mminus; geo; un; f_equal; ring|]. rewrite W2. generalize (mvec q w). intros z. clear. geo. un. f_equal; ring. }
  rewrite !mvec_mmul, orth_dot by exact Hu. pose proof (orth_dot (transpose v) w (orth_transpose v Hv)) as E. rewrite W1 in E.
  destruct (mvec (transpose v) w) as [y0 y1 y2]. unfold dot, mvec, sdiag in *. cbn [x3 y3 z3 m00 m01 m02 m10 m11 m12 m20 m21 m22] in *.
  assert (s2 * s2 <= s1 * s1) by nra. assert (s2 * s2 <= s0 * s0) by nra.
  pose proof (Rle_0_sqr y0); pose proof (Rle_0_sqr y1); unfold Rsqr in *. 
  replace (s2 * s2) with (s2 * s2 * (y0 * y0 + y1 * y1 + y2 * y2)) by (rewrite E; ring).
  assert (s2 * s2 * (y0 * y0) <= s0 * s0 * (y0 * y0)) by (apply Rmult_le_compat_r; lra).
  assert (s2 * s2 * (y1 * y1) <= s1 * s1 * (y1 * y1)) by (apply Rmult_le_compat_r; lra). nra.
Qed.
Lemma inner_expand m x t : dist2 m (mscale t x) = frob2 m - 2 * t * inner m x + t * t * frob2 x.
Proof. unfold dist2, mminus, inner, tr, frob2. geo. un. ring. Qed.

(** The matrix made from any nonzero matrix is singular and of unit norm, and no
    singular matrix of unit norm is closer to the matrix it was made from. *)
Theorem C114_closest : forall m u v s0 s1 s2, is_svd m u v s0 s1 s2 -> m <> M3 0 0 0 0 0 0 0 0 0 ->
  exists f, fundamental_of_svd u v s0 s1 s2 = Some f /\ fundamental f /\ forall x, fundamental x -> dist2 m f <= dist2 m x.
Proof.
  intros m u v s0 s1 s2 H Nz. pose proof H as (Hu & Hv & H2 & H1 & Em).
  assert (0 < s0) as P0. { destruct (Req_dec s0 0) as [Z|]; [|lra]. exfalso. apply Nz. apply frob_zero. rewrite Em, frob_svd by assumption. assert (s1 = 0) by lra. assert (s2 = 0) by lra. subst. ring. }
  unfold fundamental_of_svd. set (n := sqrt (s0 * s0 + s1 * s1 + 0 * 0)).
  assert (n * n = s0 * s0 + s1 * s1) as Hn. { unfold n. rewrite sqrt_def; [ring|nra]. }
  assert (0 < n) as Pn. { unfold n. apply sqrt_lt_R0. nra. }
  destruct (Req_EM_T n 0) as [Z|_]; [lra|]. eexists. split; [reflexivity|]. set (f := mmul (mmul u (sdiag (s0 / n) (s1 / n) (0 / n))) (transpose v)).
  assert (frob2 f = 1) as F1. { unfold f. rewrite frob_svd by assumption. replace (s0 / n * (s0 / n) + s1 / n * (s1 / n) + 0 / n * (0 / n)) with ((s0 * s0 + s1 * s1) / (n * n)) by (field; lra). rewrite <- Hn. field. lra. }
  split; [split; [|exact F1]|].
  - unfold f. rewrite det_svd. field. lra.
  - intros x [Dx Fx].
    assert (inner m f = n) as If.
    { unfold inner. rewrite Em. unfold f. rewrite !transpose_mmul, transpose_transpose.
      replace (mmul (mmul v (mmul (transpose (sdiag s0 s1 s2)) (transpose u))) (mmul (mmul u (sdiag (s0 / n) (s1 / n) (0 / n))) (transpose v)))
        with (mmul (mmul v (mmul (transpose (sdiag s0 s1 s2)) (sdiag (s0 / n) (s1 / n) (0 / n)))) (transpose v)).
      - rewrite tr_comm, <- mmul_assoc, (proj2 Hv), mmul_id_l. unfold tr, sdiag, mmul, transpose. cbn [m00 m01 m02 m10 m11 m12 m20 m21 m22].
        transitivity ((s0 * s0 + s1 * s1) / n); [field; lra|]. rewrite <- Hn. field. lra.
      - rewrite !mmul_assoc. f_equal. f_equal. rewrite <- !mmul_assoc. f_equal. rewrite (proj2 Hu). symmetry. rewrite mmul_id_l. reflexivity. }
    assert (inner m x <= n) as Ix.
    { pose proof (far m u v s0 s1 s2 (mscale (inner m x) x) H) as Fr. rewrite inner_expand, Fx in Fr.
      assert (det (mscale (inner m x) x) = 0) as Dz. { generalize (inner m x). intros k. transitivity (k * k * k * det x); [clear; geo; un; ring|rewrite Dx; ring]. }
      specialize (Fr Dz). rewrite Em in Fr at 1. rewrite frob_svd in Fr by assumption.
      assert (inner m x * inner m x <= n * n) as Q by (rewrite Hn; lra). nra. }
    assert (forall y, dist2 m y = dist2 m (mscale 1 y)) as S1 by (intros y; rewrite mscale_1; reflexivity).
    rewrite (S1 f), (S1 x), !inner_expand, Fx, F1, If. lra.
Qed.
Print Assumptions C114_closest.
(** Up to scale it is the closest singular matrix of all: rescaled, its distance
    is the smallest singular value, and no singular matrix is closer. *)
Theorem C114_projection : forall m u v s0 s1 s2 f, is_svd m u v s0 s1 s2 -> fundamental_of_svd u v s0 s1 s2 = Some f ->
  exists k, 0 < k /\ dist2 m (mscale k f) = s2 * s2 /\ forall x, det x = 0 -> dist2 m (mscale k f) <= dist2 m x.
Proof.
  intros m u v s0 s1 s2 f H E. pose proof H as (Hu & Hv & H2 & H1 & Em). unfold fundamental_of_svd in E. set (n := sqrt (s0 * s0 + s1 * s1 + 0 * 0)) in *.
  destruct (Req_EM_T n 0) as [Z|Nn]; [discriminate|]. injection E as <-. exists n.
  assert (0 < n) as Pn by (pose proof (sqrt_pos (s0 * s0 + s1 * s1 + 0 * 0)); fold n in H0; lra). split; [exact Pn|].
  enough (dist2 m (mscale n (mmul (mmul u (sdiag (s0 / n) (s1 / n) (0 / n))) (transpose v))) = s2 * s2) as Q.
  { split; [exact Q|]. intros x Dx. rewrite Q. exact (far m u v s0 s1 s2 x H Dx). }
  rewrite <- mscale_mmul_l, <- mscale_mmul_r.
  replace (mscale n (sdiag (s0 / n) (s1 / n) (0 / n))) with (sdiag s0 s1 0) by (unfold mscale, sdiag; cbn [m00 m01 m02 m10 m11 m12 m20 m21 m22]; f_equal; field; lra).
  rewrite Em. unfold dist2. replace (mminus (mmul (mmul u (sdiag s0 s1 s2)) (transpose v)) (mmul (mmul u (sdiag s0 s1 0)) (transpose v))) with (mmul (mmul u (sdiag 0 0 s2)) (transpose v)).
  - rewrite frob_svd by assumption. ring.
  - clear. unfold sdiag, mminus. geo. un. f_equal; ring.
Qed.
Print Assumptions C114_projection.
(** A matrix that is singular already is only scaled; a fundamental matrix is
    left alone, whatever decomposition is used. *)
Theorem C114_idempotent : forall m u v s0 s1 s2 f, is_svd m u v s0 s1 s2 -> fundamental_of_svd u v s0 s1 s2 = Some f -> det m = 0 ->
  f = mscale (/ sqrt (frob2 m)) m /\ (fundamental m -> f = m).
Proof.
  intros m u v s0 s1 s2 f H E Dm. pose proof H as (Hu & Hv & H2 & H1 & Em).
  assert (s2 = 0) as ->.
  { destruct (Req_dec s2 0) as [|N0]; [assumption|]. exfalso. rewrite Em, det_svd in Dm. pose proof (orth_det u Hu). pose proof (orth_det v Hv).
    assert (0 < s0 * s1 * s2) as P by (apply Rmult_lt_0_compat; [apply Rmult_lt_0_compat|]; lra). destruct H0 as [X|X], H3 as [Y|Y]; rewrite X, Y in Dm; lra. }
  unfold fundamental_of_svd in E. assert (frob2 m = s0 * s0 + s1 * s1 + 0 * 0) as Fm by (rewrite Em, frob_svd by assumption; ring).
  rewrite <- Fm in E. destruct (Req_EM_T (sqrt (frob2 m)) 0) as [Z|Nn]; [discriminate|]. injection E as <-.
  assert (mmul (mmul u (sdiag (s0 / sqrt (frob2 m)) (s1 / sqrt (frob2 m)) (0 / sqrt (frob2 m)))) (transpose v) = mscale (/ sqrt (frob2 m)) m) as Q.
  { generalize (sqrt (frob2 m)) Nn. intros n N0. rewrite Em. rewrite <- mscale_mmul_l, <- mscale_mmul_r. f_equal. f_equal. unfold mscale, sdiag; cbn [m00 m01 m02 m10 m11 m12 m20 m21 m22]; f_equal; field; exact N0. }
  rewrite Q. split; [reflexivity|]. intros [_ F1]. rewrite F1, sqrt_1, Rinv_1. apply mscale_1.
Qed.
Print Assumptions C114_idempotent.
(** "find closest fundamental matrix" gives no matrix for the zero matrix. *)
Theorem C114_zero_refuted : forall u v s0 s1 s2, is_svd (M3 0 0 0 0 0 0 0 0 0) u v s0 s1 s2 -> fundamental_of_svd u v s0 s1 s2 = None.
Proof.
  intros u v s0 s1 s2 (Hu & Hv & H2 & H1 & Em). apply (f_equal frob2) in Em. rewrite frob_svd in Em by assumption. unfold frob2 in Em. cbn [m00 m01 m02 m10 m11 m12 m20 m21 m22] in Em.
  assert (s0 = 0) by nra. assert (s1 = 0) by nra. subst. unfold fundamental_of_svd. replace (0 * 0 + 0 * 0 + 0 * 0) with 0 by ring. rewrite sqrt_0. destruct (Req_EM_T 0 0); [reflexivity|lra].
Qed.
Print Assumptions C114_zero_refuted.
(** ---- the hypotheses are met ---- *)
Example C114_ex1 : is_svd (M3 0 3 0 4 0 0 0 0 1) (M3 0 1 0 1 0 0 0 0 1) mid 4 3 1 /\
  fundamental_of_svd (M3 0 1 0 1 0 0 0 0 1) mid 4 3 1 = Some (M3 0 (3/5) 0 (4/5) 0 0 0 0 0) /\ fundamental (M3 0 (3/5) 0 (4/5) 0 0 0 0 0).
Proof.
  split; [|split].
  - unfold is_svd, orthogonal, sdiag. split; [split; un; f_equal; ring|]. split; [split; un; f_equal; ring|]. split; [lra|]. split; [lra|]. un. f_equal; ring.
  - unfold fundamental_of_svd. replace (4 * 4 + 3 * 3 + 0 * 0) with (5 * 5) by ring. rewrite sqrt_square by lra. destruct (Req_EM_T 5 0); [lra|]. f_equal. unfold sdiag. un. f_equal; field.
  - unfold fundamental, frob2. un. split; field.
Qed.
