(** CameraProps.v -- C53: camera projection and intrinsics; C74: look_at. *)
From Coq Require Import Reals Lra Lia List Bool Arith.
From Verif Require Import GeomModel GeomProofs CameraModel.
Import ListNotations.
Local Open Scope R_scope.

(** Specification: the calibration matrix form of a distortion-free camera. *)
Definition calibrate (k : intrinsics) (p : v2) : v2 := V2 (k_f k * x2 p + k_skew k * y2 p + x2 (k_pp k)) (k_f k / k_aspect k * y2 p + y2 (k_pp k)).
(** Specification: the rational Brown-Conrady distortion with k1 k2 p1 p2 k3 k4
    k5 k6; coefficients that are not given are zero. *)
Definition brown (d : list R) (p : v2) : v2 :=
  let c i := nth i d 0 in let x := x2 p in let y := y2 p in let r := x ^ 2 + y ^ 2 in
  let s := (1 + c 0%nat * r + c 1%nat * r ^ 2 + c 4%nat * r ^ 3) / (1 + c 5%nat * r + c 6%nat * r ^ 2 + c 7%nat * r ^ 3) in
  V2 (x * s + 2 * c 2%nat * x * y + c 3%nat * (r + 2 * x ^ 2)) (y * s + c 2%nat * (r + 2 * y ^ 2) + 2 * c 3%nat * x * y).

(** C53: mapping is the calibration matrix after distortion, and distortion is
    the Brown-Conrady model for 0, 1, 2, 4, 5 or at least 8 coefficients. *)
Theorem C53_map : forall k p,
  k_map k p = calibrate k (distort k p) /\
  (k_dist k = [] -> distort k p = p) /\
  (In (length (k_dist k)) [0; 1; 2; 4; 5; 8]%nat -> distort k p = brown (k_dist k) p).
Proof.
  intros k [x y]. split; [unfold k_map, calibrate; f_equal; unfold Rdiv; ring|]. split.
  - intro E. unfold distort, scale_offset. rewrite E. cbn. f_equal; ring.
  - intro H. unfold distort, scale_offset, radial_scale, brown, dn, more. cbn [x2 y2]. destruct (k_dist k) as [|d0 [|d1 [|d2 [|d3 [|d4 [|d5 [|d6 [|d7 [|d8 l]]]]]]]]]; cbn [length] in H; cbn [length Nat.ltb Nat.leb nth x2 y2]; cbn [In] in H; try (exfalso; lia); try (f_equal; field; fail).
    f_equal; unfold Rdiv; replace (1 + (x * x + y * y) * d5 + (x * x + y * y) * (x * x + y * y) * d6 + (x * x + y * y) * ((x * x + y * y) * (x * x + y * y)) * d7) with (1 + d5 * (x ^ 2 + y ^ 2) + d6 * (x ^ 2 + y ^ 2) ^ 2 + d7 * (x ^ 2 + y ^ 2) ^ 3) by ring; ring.
Qed.
Print Assumptions C53_map.
Example C53_map_example : k_map (Intr 100 (V2 320 240) 2 3 []) (V2 1 2) = V2 426 340 /\ distort (Intr 1 (V2 0 0) 1 0 [1; 0; 1; 0]) (V2 1 2) = V2 10 25.
Proof. split; [unfold k_map, distort, scale_offset|unfold distort, scale_offset]; cbn; unfold radial_scale, more, dn; cbn; f_equal; field. Qed.

(** C53: unmapping and mapping are inverse for a camera without distortion. *)
Lemma loop_none solve q n : undistort_loop solve [] q (S n) q = q.
Proof.
  cbn [undistort_loop]. change (scale_offset q []) with (1, V2 0 0). cbn [x2 y2].
  replace (x2 q * 1 + 0 - x2 q) with 0 by ring. replace (y2 q * 1 + 0 - y2 q) with 0 by ring. rewrite Rabs_R0, Rmax_left by lra.
  destruct (Rlt_dec 0 (/ 10 ^ 12)) as [L|L]; auto. elim L. apply Rinv_0_lt_compat, pow_lt. lra.
Qed.
Lemma undistort_none solve k q : k_dist k = [] -> undistort solve k q = q.
Proof. intro E. unfold undistort. rewrite E. apply loop_none. Qed.
Theorem C53_unmap : forall solve k p, k_dist k = [] -> k_f k <> 0 -> k_aspect k <> 0 ->
  k_unmap solve k (k_map k p) = p /\ k_map k (k_unmap solve k p) = p.
Proof.
  intros solve k p E F A. assert (D : forall q, distort k q = q) by (intro q; apply (C53_map k q); auto). unfold k_unmap. rewrite !undistort_none by auto. unfold k_map. rewrite !D. destruct p as [x y]. cbn [x2 y2]. split; f_equal; field; auto.
Qed.
Print Assumptions C53_unmap.
(** C53: with distortion, the result of undistort solves the distortion equation
    to within 1e-12 in each coordinate, unless all five steps were used up; so
    map(unmap(p)) is p up to 1e-12 of the calibration scale. *)
Definition close (a b : v2) (e : R) : Prop := Rabs (x2 a - x2 b) < e /\ Rabs (y2 a - y2 b) < e.
Fixpoint newton (solve : m2 -> v2 -> v2) (k : intrinsics) (q : v2) (n : nat) : v2 :=
  match n with
  | O => q
  | S n => let p := newton solve k q n in let s := solve (jacobian p (k_dist k)) (V2 (x2 (distort k p) - x2 q) (y2 (distort k p) - y2 q)) in V2 (x2 p - x2 s) (y2 p - y2 s)
  end.
Lemma distort_eq k p : distort k p = V2 (x2 p * fst (scale_offset p (k_dist k)) + x2 (snd (scale_offset p (k_dist k)))) (y2 p * fst (scale_offset p (k_dist k)) + y2 (snd (scale_offset p (k_dist k)))).
Proof. unfold distort. destruct (scale_offset p (k_dist k)) as [s o]. cbn [fst snd]. f_equal; ring. Qed.
Lemma loop_step solve k q fuel : forall i,
  (exists n, (i <= n < i + fuel)%nat /\ undistort_loop solve (k_dist k) q fuel (newton solve k q i) = newton solve k q n /\ close (distort k (newton solve k q n)) q (/ 10 ^ 12) /\
      forall m, (i <= m < n)%nat -> ~ close (distort k (newton solve k q m)) q (/ 10 ^ 12)) \/
  (undistort_loop solve (k_dist k) q fuel (newton solve k q i) = newton solve k q (i + fuel) /\ forall m, (i <= m < i + fuel)%nat -> ~ close (distort k (newton solve k q m)) q (/ 10 ^ 12)).
Proof.
  induction fuel as [|n IH]; intro i.
  - right. cbn [undistort_loop]. rewrite Nat.add_0_r. split; auto. intros; lia.
  - cbn [undistort_loop]. destruct (scale_offset (newton solve k q i) (k_dist k)) as [sc off] eqn:S. pose proof (distort_eq k (newton solve k q i)) as DE. rewrite S in DE. cbn [fst snd] in DE. cbn [x2 y2].
    assert (EX : x2 (newton solve k q i) * sc + x2 off = x2 (distort k (newton solve k q i))) by (rewrite DE; reflexivity).
    assert (EY : y2 (newton solve k q i) * sc + y2 off = y2 (distort k (newton solve k q i))) by (rewrite DE; reflexivity). rewrite EX, EY.
    destruct (Rlt_dec _ _) as [L|L].
    + left. exists i. apply Rmax_Rlt in L. split; [lia|]. split; auto. split; [exact L|]. intros; lia.
    + assert (NC : ~ close (distort k (newton solve k q i)) q (/ 10 ^ 12)) by (intro C; apply L; apply Rmax_lub_lt; apply C).
      change (V2 (x2 (newton solve k q i) - _) _) with (newton solve k q (Datatypes.S i)). destruct (IH (Datatypes.S i)) as [(m & Hm & E1 & E2 & E3)|(E1 & E2)].
      * left. exists m. split; [lia|]. split; auto. split; auto. intros l Hl. destruct (Nat.eq_dec l i) as [->|]; auto. apply E3. lia.
      * right. split; [rewrite E1; f_equal; lia|]. intros m Hm. destruct (Nat.eq_dec m i) as [->|]; auto. apply E2. lia.
Qed.
Theorem C53_undistort : forall solve k q,
  close (distort k (undistort solve k q)) q (/ 10 ^ 12) \/
  (undistort solve k q = newton solve k q 5 /\ forall n, (n < 5)%nat -> ~ close (distort k (newton solve k q n)) q (/ 10 ^ 12)).
Proof.
  intros solve k q. unfold undistort. change q with (newton solve k q 0) at 2 4. destruct (loop_step solve k q 5 0) as [(n & Hn & -> & C & _)|(E1 & E2)]; auto. right. split; auto. intros n Hn. apply E2. lia.
Qed.
Print Assumptions C53_undistort.
Theorem C53_unmap_error : forall solve k p, k_f k <> 0 -> k_aspect k <> 0 ->
  (exists n, (n < 5)%nat /\ let q := V2 (((x2 p - x2 (k_pp k)) - (y2 p - y2 (k_pp k)) * k_aspect k / k_f k * k_skew k) / k_f k) ((y2 p - y2 (k_pp k)) * k_aspect k / k_f k) in
      close (distort k (newton solve k q n)) q (/ 10 ^ 12)) ->
  Rabs (x2 (k_map k (k_unmap solve k p)) - x2 p) <= (Rabs (k_f k) + Rabs (k_skew k)) * / 10 ^ 12 /\
  Rabs (y2 (k_map k (k_unmap solve k p)) - y2 p) <= Rabs (k_f k / k_aspect k) * / 10 ^ 12.
Proof.
  intros solve k p F A (n & Hn & C). unfold k_unmap. cbn zeta in C. set (q := V2 _ _) in *.
  assert (X : close (distort k (undistort solve k q)) q (/ 10 ^ 12)) by (destruct (C53_undistort solve k q) as [H|(_ & H)]; auto; elim (H n Hn C)).
  rewrite (proj1 (C53_map k _)). set (u := distort k (undistort solve k q)) in *. clearbody u. destruct X as (X & Y). assert (EP : 0 < / 10 ^ 12) by (apply Rinv_0_lt_compat, pow_lt; lra). set (e := / 10 ^ 12) in *. clearbody e.
  assert (Px : x2 p = k_f k * x2 q + k_skew k * y2 q + x2 (k_pp k)) by (unfold q; cbn [x2 y2]; field; auto).
  assert (Py : y2 p = k_f k / k_aspect k * y2 q + y2 (k_pp k)) by (unfold q; cbn [x2 y2]; field; auto).
  unfold calibrate. cbn [x2 y2]. split.
  - replace (k_f k * x2 u + k_skew k * y2 u + x2 (k_pp k) - x2 p) with (k_f k * (x2 u - x2 q) + k_skew k * (y2 u - y2 q)) by (rewrite Px; ring).
    eapply Rle_trans; [apply Rabs_triang|]. rewrite !Rabs_mult. pose proof (Rabs_pos (k_f k)). pose proof (Rabs_pos (k_skew k)). rewrite Rmult_plus_distr_r. apply Rplus_le_compat; apply Rmult_le_compat_l; lra.
  - replace (k_f k / k_aspect k * y2 u + y2 (k_pp k) - y2 p) with (k_f k / k_aspect k * (y2 u - y2 q)) by (rewrite Py; ring). rewrite Rabs_mult. apply Rmult_le_compat_l; [apply Rabs_pos|lra].
Qed.
Print Assumptions C53_unmap_error.
Example C53_unmap_error_example : forall solve, exists n, (n < 5)%nat /\ close (distort (Intr 1 (V2 0 0) 1 0 [5; 7; 1; 2]) (newton solve (Intr 1 (V2 0 0) 1 0 [5; 7; 1; 2]) (V2 0 0) n)) (V2 0 0) (/ 10 ^ 12).
Proof.
  intro solve. exists 0%nat. split; [lia|]. cbn [newton]. unfold distort, scale_offset, close. cbn [k_dist more length Nat.ltb Nat.leb x2 y2]. assert (EP : 0 < / 10 ^ 12) by (apply Rinv_0_lt_compat, pow_lt; lra).
  split; match goal with |- Rabs ?t < _ => replace t with 0 by ring end; rewrite Rabs_R0; auto.
Qed.

(** C53: the calibration matrix and the intrinsics determine each other, for
    non zero focal length and aspect ratio. *)
Theorem C53_calibration_matrix :
  (forall k d, k_f k <> 0 -> k_aspect k <> 0 -> k_of_matrix (k_matrix k) d = Intr (k_f k) (k_pp k) (k_aspect k) (k_skew k) d) /\
  (forall m d, m00 m <> 0 -> m11 m <> 0 -> m10 m = 0 -> m20 m = 0 -> m21 m = 0 -> m22 m = 1 -> k_matrix (k_of_matrix m d) = m).
Proof.
  split.
  - intros [f [px py] a s l] d F A. unfold k_of_matrix, k_matrix. cbn in *. f_equal. field. auto.
  - intros [a b c d e f g h i] l F G H1 H2 H3 H4. unfold k_of_matrix, k_matrix. cbn in *. subst. f_equal. field. auto.
Qed.
Print Assumptions C53_calibration_matrix.
Example C53_calibration_example : k_of_matrix (M3 100 3 320 0 50 240 0 0 1) [] = Intr 100 (V2 320 240) 2 3 [].
Proof. unfold k_of_matrix. cbn. f_equal. field. Qed.
(** A calibration matrix of another scale is not normalised: the entry (2,2) is
    ignored, so K and 2K, the same projective camera, give other intrinsics. *)
Theorem C53_unnormalised_matrix_refuted : exists m, m22 m = 2 /\ m00 m <> 0 /\ k_of_matrix m [] <> k_of_matrix (mdiv m 2) [].
Proof. exists (M3 2 0 0 0 2 0 0 0 2). cbn. split; auto. split; [lra|]. unfold k_of_matrix. cbn. intro E. injection E as E _ _. lra. Qed.
Print Assumptions C53_unnormalised_matrix_refuted.

(** C53: translation and center determine each other. *)
Theorem C53_translation : forall c t, unit_q (c_rot c) ->
  c_translation (set_translation c t) = t /\ set_translation c (c_translation c) = c /\
  (forall p, vadd (qrot (c_rot c) p) (c_translation c) = qrot (c_rot c) (vsub p (c_center c))).
Proof.
  intros [c q k] t U. cbn [c_rot] in U. unfold c_translation, set_translation. cbn [c_center c_rot c_intr].
  assert (N : forall r v, qrot r (vneg v) = vneg (qrot r v)). { intros r v. replace (vneg v) with (vscale (-1) v) by (destruct v; un; f_equal; ring). rewrite qrot_scale. generalize (qrot r v). intros [a b d]. unfold vscale, vneg. cbn [x3 y3 z3]. f_equal; ring. }
  assert (NN : forall v, vneg (vneg v) = v) by (intros [a b d]; unfold vneg; cbn [x3 y3 z3]; f_equal; ring).
  assert (Ui := unit_qinv q U). split; [|split].
  - rewrite N, NN, <- qrot_mul by auto. rewrite qinv_r, qrot_1 by auto. reflexivity.
  - rewrite N, NN, <- qrot_mul by auto. rewrite qinv_l, qrot_1 by auto. reflexivity.
  - intro p. replace (vsub p c) with (vadd p (vneg c)) by reflexivity. rewrite qrot_add, N. reflexivity.
Qed.
Print Assumptions C53_translation.
(** C53: for a distortion-free camera and a point off the image plane, the
    projection is the perspective division of the 3x4 matrix times (p, 1); the
    third coordinate is the depth. *)
Definition apply34 (m : m3 * v3) (p : v3) : v3 := vadd (mvec (fst m) p) (snd m).
Theorem C53_project : forall c p, unit_q (c_rot c) ->
  z3 (apply34 (c_matrix c) p) = depth c p /\
  (k_dist (c_intr c) = [] -> depth c p <> 0 -> apply34 (c_matrix c) p = V3 (x2 (project c p) * depth c p) (y2 (project c p) * depth c p) (depth c p)) /\
  project c p = calibrate (c_intr c) (distort (c_intr c) (V2 (x3 (qrot (c_rot c) (vsub p (c_center c))) / depth c p) (y3 (qrot (c_rot c) (vsub p (c_center c))) / depth c p))).
Proof.
  intros c p U. destruct (C53_translation c (V3 0 0 0) U) as (_ & _ & T).
  assert (E : apply34 (c_matrix c) p = mvec (k_matrix (c_intr c)) (qrot (c_rot c) (vsub p (c_center c)))).
  { unfold apply34, c_matrix. cbn [fst snd]. rewrite mvec_mmul, <- qrot_mat, <- T. generalize (k_matrix (c_intr c)) (qrot (c_rot c) p) (c_translation c). intros [a b c0 d e f g h i] [x y z] [x' y' z']. unfold mvec, vadd. cbn [m00 m01 m02 m10 m11 m12 m20 m21 m22 x3 y3 z3]. f_equal; ring. }
  rewrite E. unfold depth, project, k_map3. rewrite (proj1 (C53_map (c_intr c) _)). set (v := qrot (c_rot c) (vsub p (c_center c))). clearbody v.
  split; [unfold mvec, k_matrix; cbn [m00 m01 m02 m10 m11 m12 m20 m21 m22 x3 y3 z3]; ring|]. split; [|reflexivity].
  intros D Z. rewrite (proj1 (proj2 (C53_map (c_intr c) _)) D). unfold calibrate, mvec, k_matrix. cbn [m00 m01 m02 m10 m11 m12 m20 m21 m22 x3 y3 z3 x2 y2]. unfold Rdiv. f_equal; [field; auto| |ring].
  rewrite Rmult_plus_distr_r. replace (k_f (c_intr c) * / k_aspect (c_intr c) * (y3 v * / z3 v) * z3 v) with (k_f (c_intr c) * / k_aspect (c_intr c) * y3 v * (/ z3 v * z3 v)) by ring. rewrite Rinv_l by auto. ring.
Qed.
Print Assumptions C53_project.
(** C53: cameras built without intrinsics have the default ones. *)
Theorem C53_default_intrinsics : forall c, c_intr (set_intrinsics c None) = Intr 1 (V2 0 0) 1 0 [] /\ (forall k, c_intr (set_intrinsics c (Some k)) = k) /\
  (forall p, k_map intr_default p = p) /\ k_matrix intr_default = mid.
Proof.
  intro c. split; auto. split; auto. split; [intros [x y]|].
  - rewrite (proj1 (C53_map intr_default _)). rewrite (proj1 (proj2 (C53_map intr_default _)) eq_refl). unfold calibrate, intr_default. cbn. f_equal; field.
  - unfold k_matrix, intr_default, mid. cbn. f_equal. field.
Qed.
Print Assumptions C53_default_intrinsics.
Example C53_project_example : let c := Cam (V3 0 0 (-4)) (Q 1 0 0 0) (Intr 100 (V2 320 240) 1 0 []) in unit_q (c_rot c) /\ depth c (V3 2 4 0) = 4 /\ project c (V3 2 4 0) = V2 370 340.
Proof.
  cbn zeta. split; [cbn [c_rot]; unfold unit_q; cbn [qw qx qy qz]; lra|]. unfold project, depth. cbn [c_rot c_center c_intr]. replace (qrot _ _) with (V3 2 4 4) by (rewrite qrot_1; unfold vsub; cbn; f_equal; ring). split; [reflexivity|].
  unfold k_map3. rewrite (proj1 (C53_map _ _)), (proj1 (proj2 (C53_map (Intr 100 (V2 320 240) 1 0 []) _)) eq_refl). unfold calibrate. cbn. f_equal; field.
Qed.

(** ---- C74: look_at ---- *)
Lemma cross_dot_l a b : dot a (cross a b) = 0.
Proof. destruct a as [a1 a2 a3], b as [b1 b2 b3]. un. ring. Qed.
Lemma cross_dot_r a b : dot b (cross a b) = 0.
Proof. destruct a as [a1 a2 a3], b as [b1 b2 b3]. un. ring. Qed.
Lemma cross_sq a b : dot (cross a b) (cross a b) = dot a a * dot b b - dot a b * dot a b.
Proof. destruct a as [a1 a2 a3], b as [b1 b2 b3]. un. ring. Qed.
Lemma dot_comm a b : dot a b = dot b a.
Proof. destruct a as [a1 a2 a3], b as [b1 b2 b3]. un. ring. Qed.
Lemma rows_rotation x y z : dot x x = 1 -> dot z z = 1 -> dot x z = 0 -> y = cross z x ->
  rotation_matrix (M3 (x3 x) (y3 x) (z3 x) (x3 y) (y3 y) (z3 y) (x3 z) (y3 z) (z3 z)).
Proof.
  intros X Z XZ Y. assert (YX : dot x y = 0) by (subst y; apply cross_dot_r). assert (YZ : dot y z = 0) by (subst y; rewrite dot_comm; apply cross_dot_l).
  assert (YY : dot y y = 1) by (subst y; rewrite cross_sq, Z, X, (dot_comm z x), XZ; ring).
  split.
  - destruct x as [a b c], y as [d e f], z as [g h i]. unfold dot in *. cbn [x3 y3 z3] in *. unfold mmul, transpose, mid. cbn [m00 m01 m02 m10 m11 m12 m20 m21 m22]. f_equal; lra.
  - transitivity (dot (cross z x) y); [destruct x as [a b c], y as [d e f], z as [g h i]; unfold det, dot, cross; cbn [m00 m01 m02 m10 m11 m12 m20 m21 m22 x3 y3 z3]; ring|]. rewrite <- Y. exact YY.
Qed.
Lemma vdiv_dot_gen u k : k <> 0 -> dot (vdiv u k) (vdiv u k) = dot u u / (k * k).
Proof. intro N. destruct u as [a b c]. unfold dot, vdiv. cbn [x3 y3 z3]. field. auto. Qed.
Lemma vdiv_norm_dot u : norm u <> 0 -> dot (vdiv u (norm u)) (vdiv u (norm u)) = 1.
Proof. intro N. rewrite vdiv_dot_gen by auto. rewrite norm_sq. field. rewrite <- norm_sq. intro X. apply Rmult_integral in X. tauto. Qed.
Lemma normalized_scale v : vscale (norm v) (normalized v) = v.
Proof.
  unfold normalized. pose proof (dot_pos v). destruct (Rlt_dec 0 (dot v v)) as [L|L].
  - assert (N : norm v <> 0) by (intro E; apply norm_0 in E; subst v; unfold dot in L; cbn [x3 y3 z3] in L; lra). destruct v as [v1 v2 v3']. unfold vscale, vdiv. cbn [x3 y3 z3]. f_equal; field; auto.
  - assert (E : norm v = 0) by (unfold norm; replace (dot v v) with 0 by lra; apply sqrt_0). pose proof (norm_0 _ E) as ->. rewrite E. unfold vscale. cbn [x3 y3 z3]. f_equal; ring.
Qed.
Lemma cross_scale a b u v : cross (vscale a u) (vscale b v) = vscale (a * b) (cross u v).
Proof. destruct u as [u1 u2 u3], v as [v1 v2 v3']. unfold cross, vscale. cbn [x3 y3 z3]. f_equal; ring. Qed.
Lemma norm_of_0 v : v = V3 0 0 0 -> norm v = 0.
Proof. intros ->. unfold norm. replace (dot _ _) with 0 by (unfold dot; cbn [x3 y3 z3]; ring). apply sqrt_0. Qed.
(** C74: looking at a point.  It is defined exactly when the up direction and
    the direction to the point are not parallel (both non zero); then only the
    rotation changes, the point is straight ahead at its distance, the up
    direction is seen vertical and upwards (image y grows downwards), and the
    point projects to the principal point, whatever the distortion. *)
Theorem C74_look_at : forall c stare up,
  (look_at c stare up = None <-> cross up (vsub stare (c_center c)) = V3 0 0 0) /\
  (forall c', look_at c stare up = Some c' ->
     c_center c' = c_center c /\ c_intr c' = c_intr c /\ unit_q (c_rot c') /\
     qrot (c_rot c') (vsub stare (c_center c)) = V3 0 0 (norm (vsub stare (c_center c))) /\ 0 < depth c' stare /\
     x3 (qrot (c_rot c') up) = 0 /\ y3 (qrot (c_rot c') up) < 0 /\ project c' stare = k_pp (c_intr c)).
Proof.
  intros c stare up. set (d := vsub stare (c_center c)).
  pose proof (normalized_scale up) as Eu. pose proof (normalized_scale d) as Ed. set (u := normalized up) in *. set (z := normalized d) in *.
  assert (CR : cross up d = vscale (norm up * norm d) (cross u z)) by (rewrite <- Eu at 1; rewrite <- Ed at 1; apply cross_scale).
  assert (Z0 : forall v, vneg v = V3 0 0 0 -> v = V3 0 0 0) by (intros [a b e] E; unfold vneg in E; cbn [x3 y3 z3] in E; injection E as E1 E2 E3; f_equal; lra).
  assert (Nn : norm (vneg (cross u z)) = norm (cross u z)) by (unfold norm; f_equal; destruct (cross u z) as [w1 w2 w3]; unfold dot, vneg; cbn [x3 y3 z3]; ring).
  assert (K : norm (cross u z) = 0 <-> cross up d = V3 0 0 0).
  { split; intro E.
    - rewrite CR, (norm_0 _ E). unfold vscale. cbn [x3 y3 z3]. f_equal; ring.
    - destruct (Req_dec (norm up * norm d) 0) as [P|P].
      + apply Rmult_integral in P. destruct P as [P|P]; apply norm_0 in P.
        * apply norm_of_0. unfold u. rewrite P. unfold normalized. destruct (Rlt_dec 0 (dot (V3 0 0 0) (V3 0 0 0))) as [L|L]; [unfold dot in L; cbn [x3 y3 z3] in L; lra|]. unfold cross. cbn [x3 y3 z3]. f_equal; ring.
        * apply norm_of_0. unfold z. rewrite P. unfold normalized. destruct (Rlt_dec 0 (dot (V3 0 0 0) (V3 0 0 0))) as [L|L]; [unfold dot in L; cbn [x3 y3 z3] in L; lra|]. unfold cross. cbn [x3 y3 z3]. f_equal; ring.
      + apply norm_of_0. rewrite CR in E. set (k := norm up * norm d) in *. clearbody k. destruct (cross u z) as [a b e]. unfold vscale in E. cbn [x3 y3 z3] in E. injection E as E1 E2 E3. apply Rmult_integral in E1, E2, E3. f_equal; tauto. }
  unfold look_at. fold d. fold z. fold u. rewrite Nn. destruct (Req_EM_T (norm (cross u z)) 0) as [E|E].
  { split; [tauto|]. discriminate. }
  split; [split; [discriminate|tauto]|]. intros c' H. injection H as <-. cbn [c_center c_intr c_rot]. split; auto. split; auto.
  assert (NU : up <> V3 0 0 0). { intro X. apply E. apply K. rewrite X. unfold cross. cbn [x3 y3 z3]. f_equal; ring. }
  assert (ND : d <> V3 0 0 0). { intro X. apply E. apply K. rewrite X. unfold cross. cbn [x3 y3 z3]. f_equal; ring. }
  assert (UU : dot u u = 1) by (apply normalized_dot; auto). assert (ZZ : dot z z = 1) by (apply normalized_dot; auto).
  set (n := norm (cross u z)) in *. assert (NP : 0 < n) by (pose proof (norm_pos (cross u z)); fold n in H; lra).
  set (x := vdiv (vneg (cross u z)) n). assert (XX : dot x x = 1). { unfold x. rewrite <- Nn. apply vdiv_norm_dot. rewrite Nn. exact E. }
  assert (XZ : dot x z = 0). { unfold x. transitivity (- (dot z (cross u z)) / n); [destruct (cross u z) as [w1 w2 w3], z as [z1 z2 z3']; unfold dot, vdiv, vneg; cbn [x3 y3 z3]; field; lra|]. rewrite cross_dot_r. field. lra. }
  assert (XU : dot x u = 0). { unfold x. transitivity (- (dot u (cross u z)) / n); [destruct (cross u z) as [w1 w2 w3], u as [u1 u2 u3]; unfold dot, vdiv, vneg; cbn [x3 y3 z3]; field; lra|]. rewrite cross_dot_l. field. lra. }
  assert (YY : dot (cross z x) (cross z x) = 1) by (rewrite cross_sq, ZZ, XX, (dot_comm z x), XZ; ring).
  rewrite (normalized_unit _ YY). set (y := cross z x) in *.
  assert (NSQ : n * n = 1 - dot u z * dot u z) by (unfold n; rewrite norm_sq, cross_sq, UU, ZZ; ring).
  assert (YU : dot y u = - n).
  { assert (T : n * dot y u = - (n * n)).
    { rewrite NSQ. unfold y, x. transitivity (dot u z * dot u z - dot u u * dot z z); [|rewrite UU, ZZ; ring]. clear - NP. destruct u as [a b e], z as [f g h]. unfold dot, cross, vdiv, vneg. cbn [x3 y3 z3]. field. lra. }
    apply (Rmult_eq_reg_l n); lra. }
  pose proof (rows_rotation x y z XX ZZ XZ eq_refl) as RM. destruct (fits_mat _ _ (quat_of_mat_fits _ RM)) as (QM & QU). set (q := quat_of_mat _) in *. clearbody q.
  assert (MV : forall v, qrot q v = V3 (dot x v) (dot y v) (dot z v)) by (intro v; rewrite qrot_mat, QM; reflexivity).
  assert (DD : qrot q d = V3 0 0 (norm d)).
  { rewrite <- Ed at 1. rewrite qrot_scale, MV, XZ, ZZ. replace (dot y z) with 0 by (unfold y; rewrite dot_comm; symmetry; apply cross_dot_l). unfold vscale. cbn [x3 y3 z3]. f_equal; ring. }
  assert (PD : 0 < norm d). { pose proof (norm_pos d). assert (norm d <> 0) by (intro X; apply ND, norm_0; auto). lra. }
  assert (PU : 0 < norm up). { pose proof (norm_pos up). assert (norm up <> 0) by (intro X; apply NU, norm_0; auto). lra. }
  split; auto. split; auto. split; [unfold depth; cbn [c_rot c_center]; fold d; rewrite DD; cbn [z3]; auto|].
  assert (QUP : qrot q up = vscale (norm up) (V3 0 (- n) (dot z u))) by (rewrite <- Eu at 1; rewrite qrot_scale, MV, XU, YU; reflexivity).
  split; [rewrite QUP; unfold vscale; cbn [x3]; ring|]. split; [rewrite QUP; unfold vscale; cbn [y3]; nra|].
  unfold project. cbn [c_intr c_rot c_center]. fold d. rewrite DD. unfold k_map3. cbn [x3 y3 z3]. replace (0 / norm d) with 0 by (field; lra).
  rewrite (proj1 (C53_map (c_intr c) _)). replace (distort (c_intr c) (V2 0 0)) with (V2 0 0).
  - unfold calibrate. cbn [x2 y2]. destruct (k_pp (c_intr c)) as [p1 p2]. cbn [x2 y2]. f_equal; ring.
  - unfold distort, scale_offset. cbn [x2 y2]. destruct (more (k_dist (c_intr c)) 3); cbn [x2 y2]; f_equal; ring.
Qed.
Print Assumptions C74_look_at.
Example C74_example : exists c', look_at (Cam (V3 0 0 0) (Q 1 0 0 0) intr_default) (V3 3 4 0) (V3 0 0 1) = Some c'.
Proof.
  destruct (look_at _ _ _) as [c'|] eqn:E; [eauto|]. apply (proj1 (C74_look_at _ _ _)) in E. unfold cross, vsub in E. cbn [c_center x3 y3 z3] in E. injection E as E1 E2 E3. lra.
Qed.
(** Looking along the up direction (e.g. straight down with the default up) is
    accepted with a warning only and gives no rotation (NaN). *)
Theorem C74_parallel_refuted : exists c stare, stare <> c_center c /\ look_at c stare (V3 0 0 1) = None.
Proof.
  exists (Cam (V3 0 0 10) (Q 1 0 0 0) intr_default), (V3 0 0 0). split; [cbn [c_center]; intro E; injection E; lra|]. apply C74_look_at. unfold cross, vsub. cbn [c_center x3 y3 z3]. f_equal; ring.
Qed.
Print Assumptions C74_parallel_refuted.
