(** GeomProps2.v -- C52: similarities; C75: essential matrices. *)
From Coq Require Import Reals Lra Lia ZArith Bool.
From Verif Require Import GeomModel GeomProofs.
Local Open Scope R_scope.

(** Specification: a similarity is the map p |-> k R p + t with R a rotation
    matrix (orthogonal, determinant 1). *)
Definition rigid (s : similarity) : Prop := unit_q (s_rot s).
Definition sim_map (k : R) (r : m3) (t : v3) (p : v3) : v3 := vadd (vscale k (mvec r p)) t.

(** C52: applying a similarity is that map, with a genuine rotation matrix. *)
Theorem C52_apply : forall s, rigid s ->
  rotation_matrix (qmat (s_rot s)) /\
  (forall p, sim_apply s p = sim_map (s_scale s) (qmat (s_rot s)) (s_trans s) p) /\
  (forall p q, dot (vsub (sim_apply s p) (sim_apply s q)) (vsub (sim_apply s p) (sim_apply s q)) = s_scale s * s_scale s * dot (vsub p q) (vsub p q)).
Proof.
  intros [k r t] H. unfold rigid in H. cbn [s_scale s_rot s_trans] in *. split; [apply qmat_rotation; auto|]. split.
  - intro p. unfold sim_apply, sim_map. cbn [s_scale s_rot s_trans]. rewrite qrot_mat. reflexivity.
  - intros p q. unfold sim_apply. cbn [s_scale s_rot s_trans].
    replace (vsub (vadd (vscale k (qrot r p)) t) (vadd (vscale k (qrot r q)) t)) with (vscale k (qrot r (vsub p q))) by (replace (vsub p q) with (vadd p (vscale (-1) q)) by (destruct p, q; un; f_equal; ring); rewrite qrot_add, qrot_scale; generalize (qrot r p) (qrot r q); intros [u1 u2 u3] [w1 w2 w3]; destruct t as [t1 t2 t3]; unfold vsub, vadd, vscale; cbn [x3 y3 z3]; f_equal; ring).
    rewrite <- (qrot_dot r (vsub p q) (vsub p q) H). generalize (qrot r (vsub p q)). intro v. destruct v. un. ring.
Qed.
Print Assumptions C52_apply.
Example C52_apply_example : rigid (Sim 2 (Q 0 0 0 1) (V3 1 2 3)) /\ sim_apply (Sim 2 (Q 0 0 0 1) (V3 1 2 3)) (V3 1 1 1) = V3 (-1) 0 5.
Proof. unfold rigid, sim_apply. cbn [s_scale s_rot s_trans]. un. split; [ring|f_equal; ring]. Qed.

(** C52: composition acts as application one after the other. *)
Theorem C52_compose : forall a b p, rigid a -> rigid b -> rigid (sim_mul a b) /\ sim_apply (sim_mul a b) p = sim_apply a (sim_apply b p).
Proof.
  intros [ka ra ta] [kb rb tb] p Ha Hb. unfold rigid, sim_mul, sim_apply in *. cbn [s_scale s_rot s_trans] in *. split; [apply unit_qmul; auto|].
  rewrite qrot_mul by auto. rewrite qrot_add, qrot_scale. generalize (qrot rb p). intro v. generalize (qrot ra v) (qrot ra tb). intros; geo; un; f_equal; ring.
Qed.
Print Assumptions C52_compose.

(** C52: the group laws. *)
Lemma sim_eta a b : s_scale a = s_scale b -> s_rot a = s_rot b -> s_trans a = s_trans b -> a = b.
Proof. destruct a, b. cbn. congruence. Qed.
Theorem C52_group : forall a b c, rigid a -> rigid b -> rigid c ->
  sim_mul (sim_mul a b) c = sim_mul a (sim_mul b c) /\ sim_mul a sim_id = a /\ sim_mul sim_id a = a /\ (forall p, sim_apply sim_id p = p) /\
  (s_scale a <> 0 -> rigid (sim_inv a) /\ sim_mul a (sim_inv a) = sim_id /\ sim_mul (sim_inv a) a = sim_id /\
     (forall p, sim_apply (sim_inv a) (sim_apply a p) = p) /\ (forall p, sim_apply a (sim_apply (sim_inv a) p) = p)).
Proof.
  intros a b c Ha Hb Hc.
  assert (Id : forall p, sim_apply sim_id p = p) by (intros [x y z]; unfold sim_apply, sim_id; cbn [s_scale s_rot s_trans]; un; f_equal; ring).
  split; [|split; [|split; [|split; [exact Id|]]]].
  - apply sim_eta.
    + cbn [sim_mul s_scale]. ring.
    + cbn [sim_mul s_rot]. apply qmul_assoc.
    + change (sim_apply (sim_mul a b) (s_trans c) = sim_apply a (sim_apply b (s_trans c))). apply C52_compose; auto.
  - apply sim_eta; cbn [sim_mul sim_id s_scale s_rot s_trans]; [ring|apply qmul_1_r|]. unfold sim_apply. destruct a as [k q [x y z]]. cbn [s_scale s_rot s_trans]. un. f_equal; ring.
  - apply sim_eta; cbn [sim_mul sim_id s_scale s_rot s_trans]; [ring|apply qmul_1_l|]. apply Id.
  - intro N. assert (U : rigid (sim_inv a)) by (unfold rigid, sim_inv; cbn [s_rot]; apply unit_qinv; auto).
    assert (T1 : sim_apply (sim_inv a) (s_trans a) = V3 0 0 0).
    { unfold sim_apply, sim_inv. cbn [s_scale s_rot s_trans]. generalize (qrot (qinv (s_rot a)) (s_trans a)). intros [x y z]. un. f_equal; ring. }
    assert (T2 : sim_apply a (s_trans (sim_inv a)) = V3 0 0 0).
    { unfold sim_apply, sim_inv. cbn [s_scale s_rot s_trans]. rewrite qrot_scale, <- qrot_mul by (auto; apply unit_qinv; auto). rewrite qinv_r, qrot_1 by auto. destruct (s_trans a) as [x y z]. un. f_equal; field; auto. }
    assert (L : sim_mul (sim_inv a) a = sim_id).
    { apply sim_eta; [cbn [sim_mul sim_inv sim_id s_scale]; field; auto|cbn [sim_mul sim_inv sim_id s_rot]; apply qinv_l; auto|exact T1]. }
    assert (Rr : sim_mul a (sim_inv a) = sim_id).
    { apply sim_eta; [cbn [sim_mul sim_inv sim_id s_scale]; field; auto|cbn [sim_mul sim_inv sim_id s_rot]; apply qinv_r; auto|exact T2]. }
    split; auto. split; auto. split; auto. split; intro p.
    + rewrite <- (proj2 (C52_compose _ _ p U Ha)), L. apply Id.
    + rewrite <- (proj2 (C52_compose _ _ p Ha U)), Rr. apply Id.
Qed.
Print Assumptions C52_group.
Example C52_group_example : rigid (Sim 2 (Q 0 0 0 1) (V3 1 2 3)) /\ s_scale (Sim 2 (Q 0 0 0 1) (V3 1 2 3)) <> 0 /\ rigid (Sim (-1) (Q (3/5) (4/5) 0 0) (V3 1 2 3)).
Proof. unfold rigid. cbn [s_scale s_rot]. un. repeat split; lra. Qed.
(** Without unit quaternions (the quaternion constructor does not normalise)
    composition is not application one after the other. *)
Theorem C52_compose_nonunit_refuted : exists a b p, sim_apply (sim_mul a b) p <> sim_apply a (sim_apply b p).
Proof.
  exists (Sim 1 (Q 0 2 0 0) (V3 0 0 0)), (Sim 1 (Q 0 2 0 0) (V3 0 0 0)), (V3 0 1 0). unfold sim_mul, sim_apply. cbn [s_scale s_rot s_trans].
  replace (qmul (Q 0 2 0 0) (Q 0 2 0 0)) with (Q (-4) 0 0 0) by (un; f_equal; ring).
  replace (qrot (Q (-4) 0 0 0) (V3 0 1 0)) with (V3 0 1 0) by (un; f_equal; ring). replace (qrot (Q 0 2 0 0) (V3 0 1 0)) with (V3 0 (-7) 0) by (un; f_equal; ring).
  replace (vadd (vscale 1 (V3 0 (-7) 0)) (V3 0 0 0)) with (V3 0 (-7) 0) by (un; f_equal; ring). replace (qrot (Q 0 2 0 0) (V3 0 (-7) 0)) with (V3 0 49 0) by (un; f_equal; ring).
  unfold vadd, vscale. cbn [x3 y3 z3]. intro E. injection E as _ E. lra.
Qed.
Print Assumptions C52_compose_nonunit_refuted.

(** C52: the 4x4 matrix acts on homogeneous points as the similarity. *)
Theorem C52_matrix_action : forall s p, m4vec (sim_mat s) p 1 = (sim_apply s p, 1).
Proof.
  intros [k q t] p. unfold m4vec, sim_mat, sim_apply. cbn [s_scale s_rot s_trans b_rot b_trans b_row b_corner]. rewrite qrot_mat. generalize (qmat q). intro m. f_equal; [|destruct p; un; ring].
  destruct m, p, t. un. f_equal; ring.
Qed.
Print Assumptions C52_matrix_action.

(** C52: reading a similarity from a matrix: for k R with k > 0 and R a rotation
    matrix, the scale is k and the rotation is a unit quaternion for R. *)
Lemma cube_root k : 0 < k -> Rpower (k * k * k) (1 / 3) = k.
Proof.
  intro H. replace (k * k * k) with (Rpower k 3).
  - rewrite Rpower_mult. replace (3 * (1 / 3)) with 1 by field. apply Rpower_1. auto.
  - replace 3 with (INR 3) by (cbn; lra). rewrite Rpower_pow by auto. ring.
Qed.
Lemma mdiv_mscale k m : k <> 0 -> mdiv (mscale k m) k = m.
Proof. intro H. destruct m. un. f_equal; field; auto. Qed.
Theorem C52_from_matrix : forall k r t, 0 < k -> rotation_matrix r ->
  exists q, sim_of_mat (M4 (mscale k r) t (V3 0 0 0) 1) = PSim (Some k) q (Some t) /\ unit_q q /\ qmat q = r.
Proof.
  intros k r t K Hr. unfold sim_of_mat. cbn [b_rot b_trans b_row b_corner x3 y3 z3]. destruct (Req_EM_T 0 0); [|lra]. destruct (Req_EM_T 1 1); [|lra].
  assert (D : det (mscale k r) = k * k * k). { destruct Hr as [_ E]. transitivity (k * k * k * det r); [destruct r; un; ring|rewrite E; ring]. }
  rewrite D. destruct (Rle_dec (k * k * k) 0) as [L|L]; [assert (0 < k * k * k) by (repeat apply Rmult_lt_0_compat; auto); lra|].
  rewrite cube_root, mdiv_mscale by lra. exists (quat_of_mat r). split; auto. apply and_comm. apply fits_mat. apply quat_of_mat_fits. auto.
Qed.
Print Assumptions C52_from_matrix.
Theorem C52_matrix_roundtrip : forall s, rigid s -> 0 < s_scale s ->
  exists q, sim_of_mat (sim_mat s) = PSim (Some (s_scale s)) q (Some (s_trans s)) /\ (q = s_rot s \/ q = qneg (s_rot s)) /\
  (forall p, sim_apply (Sim (s_scale s) q (s_trans s)) p = sim_apply s p).
Proof.
  intros s H K. destruct (C52_from_matrix (s_scale s) (qmat (s_rot s)) (s_trans s) K (qmat_rotation _ H)) as (q & E & U & M). exists q. split; auto.
  assert (D : q = s_rot s \/ q = qneg (s_rot s)) by (apply qmat_inj; auto). split; auto. intro p. unfold sim_apply. cbn [s_scale s_rot s_trans]. destruct D as [->| ->]; auto. rewrite qrot_neg. reflexivity.
Qed.
Print Assumptions C52_matrix_roundtrip.
Example C52_matrix_example : rotation_matrix (M3 (-1) 0 0 0 (-1) 0 0 0 1).
Proof. split; un; [f_equal; ring|ring]. Qed.
(** A matrix whose last row is not (0,0,0,1) or whose block has determinant <= 0
    is not reported to the caller: the object keeps uninitialised members.  A
    reflection is such a matrix, and so is a similarity with negative scale. *)
Theorem C52_rejected_matrix_refuted :
  (forall m, (b_row m <> V3 0 0 0 \/ b_corner m <> 1) -> p_scale (sim_of_mat m) = None /\ p_trans (sim_of_mat m) = None) /\
  (forall m, b_row m = V3 0 0 0 -> b_corner m = 1 -> det (b_rot m) <= 0 -> p_scale (sim_of_mat m) = Some (det (b_rot m)) /\ p_trans (sim_of_mat m) = None) /\
  (exists s, rigid s /\ s_scale s <> 0 /\ p_trans (sim_of_mat (sim_mat s)) = None).
Proof.
  assert (A : forall m, b_row m = V3 0 0 0 -> b_corner m = 1 -> det (b_rot m) <= 0 -> p_scale (sim_of_mat m) = Some (det (b_rot m)) /\ p_trans (sim_of_mat m) = None).
  { intros m E1 E2 D. unfold sim_of_mat. rewrite E1, E2. cbn [x3 y3 z3]. destruct (Req_EM_T 0 0); [|lra]. destruct (Req_EM_T 1 1); [|lra]. destruct (Rle_dec (det (b_rot m)) 0); [|lra]. auto. }
  split; [|split; [exact A|]].
  - intros m H. unfold sim_of_mat. destruct (Req_EM_T (x3 (b_row m)) 0) as [E1|]; [|auto]. destruct (Req_EM_T (y3 (b_row m)) 0) as [E2|]; [|auto]. destruct (Req_EM_T (z3 (b_row m)) 0) as [E3|]; [|auto].
    destruct (Req_EM_T (b_corner m) 1) as [E4|]; [|auto]. exfalso. destruct H as [H|H]; [apply H|auto]. destruct (b_row m) as [x y z]. cbn [x3 y3 z3] in *. subst. reflexivity.
  - exists (Sim (-1) (Q 1 0 0 0) (V3 0 0 0)). split; [unfold rigid; cbn [s_rot]; un; lra|]. split; [cbn; lra|]. apply A; cbn [sim_mat b_row b_corner b_rot s_scale s_rot]; auto. un. lra.
Qed.
Print Assumptions C52_rejected_matrix_refuted.

(** ---- C75: essential matrices ---- *)
(** C75: the matrix is [t]x R with t of unit length, so v^T E u = v . (t x R u);
    its determinant is 0 and E E^T has the eigenvalues 1, 1, 0
    (E E^T = I - t t^T). *)
Definition outer (a b : v3) : m3 := M3 (x3 a * x3 b) (x3 a * y3 b) (x3 a * z3 b) (y3 a * x3 b) (y3 a * y3 b) (y3 a * z3 b) (z3 a * x3 b) (z3 a * y3 b) (z3 a * z3 b).
Definition msub (a b : m3) : m3 := M3 (m00 a - m00 b) (m01 a - m01 b) (m02 a - m02 b) (m10 a - m10 b) (m11 a - m11 b) (m12 a - m12 b) (m20 a - m20 b) (m21 a - m21 b) (m22 a - m22 b).
Lemma t_cross_vec t v : mvec (t_cross t) v = cross t v.
Proof. unfold t_cross. destruct t, v. un. f_equal; ring. Qed.
Theorem C75_matrix : forall r t, unit_q r -> t <> V3 0 0 0 ->
  let e := essential_of r t in
  dot (e_trans e) (e_trans e) = 1 /\ vscale (norm t) (e_trans e) = t /\
  (forall u v, dot v (mvec (essential_mat e) u) = dot v (cross (e_trans e) (qrot r u))) /\
  det (essential_mat e) = 0 /\
  mmul (essential_mat e) (transpose (essential_mat e)) = msub mid (outer (e_trans e) (e_trans e)).
Proof.
  intros r t U N e. assert (D : dot (e_trans e) (e_trans e) = 1) by (apply normalized_dot; auto).
  split; auto. split.
  { unfold e, essential_of. cbn [e_trans]. unfold normalized. pose proof (dot_pos t). assert (NZ : norm t <> 0) by (intro X; apply norm_0 in X; auto).
    destruct (Rlt_dec 0 (dot t t)) as [L|L]; [destruct t; un; f_equal; field; auto|]. exfalso. apply NZ. unfold norm. replace (dot t t) with 0 by lra. apply sqrt_0. }
  split. { intros u v. unfold essential_mat. rewrite mvec_mmul, t_cross_vec, <- qrot_mat. reflexivity. }
  unfold essential_mat. change (e_rot e) with r. destruct (qmat_rotation r U) as [O _]. set (R := qmat r) in *. clearbody R. clearbody e. set (s := e_trans e) in *. clearbody s.
  split. { transitivity (det (t_cross s) * det R); [destruct s, R; unfold t_cross; un; ring|]. replace (det (t_cross s)) with 0 by (destruct s; unfold t_cross; un; ring). ring. }
  replace (transpose (mmul (t_cross s) R)) with (mmul (transpose R) (transpose (t_cross s))) by (destruct s, R; unfold t_cross; un; f_equal; ring).
  rewrite mmul_assoc, <- (mmul_assoc R), O, mmul_id_l. destruct s as [x y z]. unfold t_cross, msub, outer. un. f_equal; lra.
Qed.
Print Assumptions C75_matrix.
(** C75: the twisted rotation with the same translation gives the matrix -E, and
    twisting twice gives the rotation back up to sign. *)
Theorem C75_twisted : forall r t, unit_q r -> t <> V3 0 0 0 ->
  let e := essential_of r t in
  unit_q (twisted e) /\ essential_mat (Ess (twisted e) (e_trans e)) = mscale (-1) (essential_mat e) /\
  essential_mat (Ess (e_rot e) (vneg (e_trans e))) = mscale (-1) (essential_mat e) /\
  twisted (Ess (twisted e) (e_trans e)) = qneg (e_rot e).
Proof.
  intros r t U N e. assert (D : dot (e_trans e) (e_trans e) = 1) by (apply normalized_dot; auto). assert (Ue : unit_q (e_rot e)) by exact U. clearbody e.
  destruct e as [q s]. cbn [e_rot e_trans] in *. unfold twisted. cbn [e_rot e_trans]. unfold rotation_of_vec4.
  assert (Ut : unit_q (Q 0 (x3 s) (y3 s) (z3 s))) by (destruct s; un; lra).
  split; [apply unit_qmul; auto|]. split; [|split].
  - unfold essential_mat. cbn [e_rot e_trans]. rewrite qmat_mul by auto. rewrite <- mmul_assoc.
    replace (mmul (t_cross s) (qmat (Q 0 (x3 s) (y3 s) (z3 s)))) with (mscale (-1) (t_cross s)); [generalize (qmat q) (t_cross s); intros; geo; un; f_equal; ring|].
    rewrite qmat_h by auto. destruct s as [x y z]. unfold t_cross, hmat. un.
    assert (X : forall k, k * (x * x + y * y + z * z) = k) by (intro k; rewrite D; ring).
    pose proof (X x). pose proof (X y). pose proof (X z). f_equal; lra.
  - unfold essential_mat. cbn [e_rot e_trans]. generalize (qmat q). intro m. destruct m, s. unfold t_cross. un. f_equal; ring.
  - rewrite <- qmul_assoc. replace (qmul (Q 0 (x3 s) (y3 s) (z3 s)) (Q 0 (x3 s) (y3 s) (z3 s))) with (Q (-1) 0 0 0); [destruct q; un; f_equal; ring|]. destruct s as [x y z]. un. f_equal; try ring. lra.
Qed.
Print Assumptions C75_twisted.
Example C75_example : unit_q (Q (3/5) 0 (4/5) 0) /\ V3 0 3 4 <> V3 0 0 0 /\ e_trans (essential_of (Q (3/5) 0 (4/5) 0) (V3 0 3 4)) = V3 0 (3/5) (4/5).
Proof.
  split; [un; lra|]. split; [intro E; injection E; lra|]. unfold essential_of. cbn [e_trans]. unfold normalized, norm. replace (dot (V3 0 3 4) (V3 0 3 4)) with (5 * 5) by (un; ring).
  destruct (Rlt_dec 0 (5 * 5)); [|lra]. rewrite sqrt_square by lra. un. f_equal; field.
Qed.

(** C75: an essential matrix read from a matrix: for every singular value
    decomposition U diag(s,s,0) V^T of the matrix the result is a rotation and a
    unit translation whose essential matrix is plus or minus matrix/s. *)
Definition orthogonal (m : m3) : Prop := mmul m (transpose m) = mid /\ mmul (transpose m) m = mid.
Definition diag (a b c : R) : m3 := M3 a 0 0 0 b 0 0 0 c.
Lemma det_mmul a b : det (mmul a b) = det a * det b.
Proof. geo. un. ring. Qed.
Lemma det_transpose a : det (transpose a) = det a.
Proof. geo. un. ring. Qed.
Lemma transpose_mmul a b : transpose (mmul a b) = mmul (transpose b) (transpose a).
Proof. geo. un. f_equal; ring. Qed.
Lemma transpose_transpose a : transpose (transpose a) = a.
Proof. geo. reflexivity. Qed.
Lemma mscale_mmul_l k a b : mmul (mscale k a) b = mscale k (mmul a b).
Proof. geo. un. f_equal; ring. Qed.
Lemma mscale_mmul_r k a b : mmul a (mscale k b) = mscale k (mmul a b).
Proof. geo. un. f_equal; ring. Qed.
Lemma mscale_mscale k l a : mscale k (mscale l a) = mscale (k * l) a.
Proof. geo. un. f_equal; ring. Qed.
Lemma transpose_mscale k a : transpose (mscale k a) = mscale k (transpose a).
Proof. geo. reflexivity. Qed.
Lemma orth_det m : orthogonal m -> det m = 1 \/ det m = -1.
Proof.
  intros [H _]. assert (E : det m * det m = 1) by (rewrite <- (det_transpose m) at 2; rewrite <- det_mmul, H; un; ring).
  assert (X : (det m - 1) * (det m + 1) = 0) by lra. apply Rmult_integral in X. lra.
Qed.
Lemma cross_conj u : orthogonal u -> mmul (t_cross (V3 (m02 u) (m12 u) (m22 u))) u = mscale (det u) (mmul u (t_cross (V3 0 0 1))).
Proof.
  intros [H _]. assert (P : mmul (transpose u) (mmul (t_cross (V3 (m02 u) (m12 u) (m22 u))) u) = mscale (det u) (t_cross (V3 0 0 1))) by (destruct u; unfold t_cross; un; f_equal; ring).
  rewrite <- mscale_mmul_r, <- P, <- (mmul_assoc u), H, mmul_id_l. reflexivity.
Qed.
Theorem C75_from_matrix : forall m u v s, orthogonal u -> orthogonal v -> s <> 0 -> m = mmul (mmul u (diag s s 0)) (transpose v) ->
  let e := essential_of_svd u v in
  unit_q (e_rot e) /\ dot (e_trans e) (e_trans e) = 1 /\ exists sign, (sign = 1 \/ sign = -1) /\ essential_mat e = mscale (sign / s) m.
Proof.
  intros m u v s Hu Hv Hs Hm e. set (r0 := mmul (mmul u essential_w) (transpose v)).
  assert (W : mmul essential_w (transpose essential_w) = mid) by (unfold essential_w; un; f_equal; ring).
  assert (O0 : mmul r0 (transpose r0) = mid).
  { unfold r0. rewrite !transpose_mmul, transpose_transpose, (mmul_assoc (mmul u essential_w)), <- (mmul_assoc (transpose v)), (proj2 Hv), mmul_id_l, (mmul_assoc u), <- (mmul_assoc essential_w), W, mmul_id_l. apply Hu. }
  assert (D0 : det r0 = det u * det v). { unfold r0. rewrite !det_mmul, det_transpose. replace (det essential_w) with 1 by (unfold essential_w; un; ring). ring. }
  set (sg := if Rlt_dec (det r0) 0 then -1 else 1).
  assert (Er : exists r, e = Ess (quat_of_mat r) (V3 (m02 u) (m12 u) (m22 u)) /\ r = mscale sg r0 /\ rotation_matrix r /\ (sg = 1 \/ sg = -1)).
  { unfold e, essential_of_svd. fold r0. eexists. split; [reflexivity|]. unfold sg. pose proof (orth_det u Hu). pose proof (orth_det v Hv). destruct (Rlt_dec (det r0) 0) as [L|L].
    - split; auto. split; [|auto]. split.
      + rewrite transpose_mscale, mscale_mmul_l, mscale_mmul_r, O0. unfold mscale, mid. cbn [m00 m01 m02 m10 m11 m12 m20 m21 m22]. f_equal; ring.
      + transitivity (- det r0); [destruct r0; un; ring|]. rewrite D0 in *. destruct H as [Xu|Xu], H0 as [Xv|Xv]; rewrite Xu, Xv in *; lra.
    - split; [rewrite mscale_1; auto|]. split; [|auto]. split; auto. rewrite D0 in *. destruct H as [Xu|Xu], H0 as [Xv|Xv]; rewrite Xu, Xv in *; lra. }
  destruct Er as (r & Ee & Er & Rr & Sg). destruct (fits_mat _ _ (quat_of_mat_fits r Rr)) as (Qm & Qu). rewrite Ee. cbn [e_rot e_trans]. split; auto.
  split. { destruct Hu as [_ Hc]. apply (f_equal m22) in Hc. destruct u. un. lra. }
  exists (- sg * det u). split. { pose proof (orth_det u Hu). destruct Sg as [Sg|Sg], H as [X|X]; rewrite Sg, X; [right|left|left|right]; ring. }
  unfold essential_mat. cbn [e_rot e_trans]. rewrite Qm, Er. rewrite mscale_mmul_r. unfold r0. rewrite <- !mmul_assoc, cross_conj by auto. rewrite !mscale_mmul_l, (mmul_assoc u).
  replace (mmul (t_cross (V3 0 0 1)) essential_w) with (mscale (-1 / s) (diag s s 0)) by (unfold t_cross, essential_w, diag; un; f_equal; field; auto).
  rewrite mscale_mmul_r, mscale_mmul_l, <- Hm, !mscale_mscale. f_equal. field. auto.
Qed.
Print Assumptions C75_from_matrix.
Example C75_from_matrix_example : orthogonal (M3 0 1 0 1 0 0 0 0 1) /\ orthogonal mid /\ mmul (mmul (M3 0 1 0 1 0 0 0 0 1) (diag 3 3 0)) (transpose mid) = M3 0 3 0 3 0 0 0 0 0.
Proof.
  unfold orthogonal, diag. split; [split; un; f_equal; ring|]. split; [split; un; f_equal; ring|].
  replace (mmul (M3 0 1 0 1 0 0 0 0 1) (M3 3 0 0 0 3 0 0 0 0)) with (M3 0 3 0 3 0 0 0 0 0) by (unfold mmul; cbn [m00 m01 m02 m10 m11 m12 m20 m21 m22]; f_equal; ring).
  replace (transpose mid) with mid by reflexivity. apply mmul_id_r.
Qed.
