(** GeomProps.v -- C51: homographies.

    Specification: [image h p q w] says that the matrix takes the homogeneous
    point (p, 1) to w times (q, 1). *)
From Coq Require Import Reals Lra Lia ZArith Bool.
From Verif Require Import GeomModel GeomProofs.
Local Open Scope R_scope.

Definition weight (h : m3) (p : v2) : R := m20 h * x2 p + m21 h * y2 p + m22 h.
Definition image (h : m3) (p q : v2) (w : R) : Prop :=
  m00 h * x2 p + m01 h * y2 p + m02 h = w * x2 q /\
  m10 h * x2 p + m11 h * y2 p + m12 h = w * y2 q /\
  m20 h * x2 p + m21 h * y2 p + m22 h = w.
Definition eps : R := / 10 ^ 12.

Lemma eps_pos : 0 < eps.
Proof. unfold eps. apply Rinv_0_lt_compat. apply pow_lt. lra. Qed.
Lemma big_nonzero w : eps < Rabs w -> w <> 0.
Proof. pose proof eps_pos. intros L E. subst w. rewrite Rabs_R0 in L. lra. Qed.
Lemma image_weight h p q w : image h p q w -> w = weight h p.
Proof. intros (_ & _ & E). symmetry. exact E. Qed.
Lemma hmap_unfold h p : hmap h p = if Rle_dec (Rabs (weight h p)) eps then None
  else Some (V2 ((m00 h * x2 p + m01 h * y2 p + m02 h) / weight h p) ((m10 h * x2 p + m11 h * y2 p + m12 h) / weight h p)).
Proof. unfold hmap, weight, eps, dummy_precision. cbn [mvec x3 y3 z3]. rewrite !Rmult_1_r. reflexivity. Qed.

(** C51: mapping a point is the perspective division by the third coordinate,
    and is refused exactly when that coordinate is within 1e-12 of zero. *)
Theorem C51_map : forall h p,
  (forall q, hmap h p = Some q <-> exists w, eps < Rabs w /\ image h p q w) /\
  (hmap h p = None <-> Rabs (weight h p) <= eps).
Proof.
  intros h p. rewrite hmap_unfold. destruct (Rle_dec (Rabs (weight h p)) eps) as [L|L].
  - split; [|tauto]. intro q. split; [discriminate|]. intros (w & H & I). rewrite (image_weight _ _ _ _ I) in H. lra.
  - assert (G : eps < Rabs (weight h p)) by lra. pose proof (big_nonzero _ G) as N. split; [|split; [discriminate|lra]]. intro q. split.
    + intro E. injection E as <-. exists (weight h p). split; auto. unfold image. cbn [x2 y2]. repeat split; try reflexivity; field; auto.
    + intros (w & H & I). pose proof (image_weight _ _ _ _ I) as E. subst w. destruct I as (I1 & I2 & _). f_equal. destruct q as [qx qy]. cbn [x2 y2] in *. rewrite I1, I2. f_equal; field; auto.
Qed.
Print Assumptions C51_map.
Lemma image_some h p q w : image h p q w -> eps < Rabs w -> hmap h p = Some q.
Proof. intros I L. apply (proj1 (C51_map h p)). eauto. Qed.
Lemma some_image h p q : hmap h p = Some q -> image h p q (weight h p) /\ eps < Rabs (weight h p).
Proof. intro H. apply (proj1 (C51_map h p)) in H. destruct H as (w & L & I). rewrite <- (image_weight _ _ _ _ I). auto. Qed.
Lemma small_none h p : Rabs (weight h p) <= eps -> hmap h p = None.
Proof. apply (C51_map h p). Qed.
Example C51_map_example : hmap (M3 2 0 1 0 2 3 0 0 2) (V2 4 6) = Some (V2 (9 / 2) (15 / 2)) /\ hmap (M3 1 0 0 0 1 0 1 0 0) (V2 0 7) = None.
Proof.
  split.
  - apply (image_some _ _ _ 2); [unfold image; cbn; repeat split; field|]. rewrite Rabs_right by lra. unfold eps. assert (1 < 10 ^ 12) by (cbn; lra). apply Rle_lt_trans with (/ 1); [|lra]. apply Rinv_le_contravar; lra.
  - apply small_none. unfold weight; cbn [m20 m21 m22 x2 y2]. replace (1 * 0 + 0 * 7 + 0) with 0 by ring. rewrite Rabs_R0. pose proof eps_pos. lra.
Qed.

(** C51: a composition maps a point where mapping twice does, except that it is
    refused when the product of the two weights is within 1e-12 of zero. *)
Lemma image_mul a b p q r wa wb : image b p q wb -> image a q r wa -> image (hmul a b) p r (wa * wb).
Proof.
  intros (B1 & B2 & B3) (A1 & A2 & A3). destruct a as [a0 a1 a2 a3 a4 a5 a6 a7 a8], b as [b0 b1 b2 b3 b4 b5 b6 b7 b8], p as [p0 p1], q as [q0 q1], r as [r0 r1].
  unfold image, hmul, mmul in *. cbn [m00 m01 m02 m10 m11 m12 m20 m21 m22 x2 y2] in *. repeat split.
  - replace (wa * wb * r0) with (wb * (wa * r0)) by ring. rewrite <- A1. transitivity (a0 * (wb * q0) + a1 * (wb * q1) + a2 * wb); [rewrite <- B1, <- B2, <- B3; ring|ring].
  - replace (wa * wb * r1) with (wb * (wa * r1)) by ring. rewrite <- A2. transitivity (a3 * (wb * q0) + a4 * (wb * q1) + a5 * wb); [rewrite <- B1, <- B2, <- B3; ring|ring].
  - replace (wa * wb) with (wb * wa) by ring. rewrite <- A3. transitivity (a6 * (wb * q0) + a7 * (wb * q1) + a8 * wb); [rewrite <- B1, <- B2, <- B3; ring|ring].
Qed.
Lemma weight_mul a b p q wb : image b p q wb -> weight (hmul a b) p = weight a q * wb.
Proof.
  intros (B1 & B2 & B3). unfold weight, hmul, mmul. cbn [m20 m21 m22].
  transitivity (m20 a * (wb * x2 q) + m21 a * (wb * y2 q) + m22 a * wb); [rewrite <- B1, <- B2, <- B3; ring|ring].
Qed.
Theorem C51_compose : forall a b p q, hmap b p = Some q ->
  (forall r, hmap a q = Some r -> hmap (hmul a b) p = Some r \/ (hmap (hmul a b) p = None /\ Rabs (weight a q * weight b p) <= eps)) /\
  (hmap (hmul a b) p = None <-> Rabs (weight a q * weight b p) <= eps).
Proof.
  intros a b p q H. apply some_image in H. destruct H as (I & L). pose proof (weight_mul a b p q _ I) as W. split.
  - intros r Hr. apply some_image in Hr. destruct Hr as (J & M). pose proof (image_mul _ _ _ _ _ _ _ I J) as K.
    destruct (Rle_lt_dec (Rabs (weight a q * weight b p)) eps) as [S|S].
    + right. split; auto. apply small_none. rewrite W. auto.
    + left. apply (image_some _ _ _ _ K). auto.
  - rewrite (proj2 (C51_map (hmul a b) p)). rewrite W. tauto.
Qed.
Print Assumptions C51_compose.
Lemma eps_half : eps < / 2.
Proof. unfold eps. apply Rinv_lt_contravar; [|cbn; lra]. apply Rmult_lt_0_compat; cbn; lra. Qed.
Example C51_compose_example : exists q r, hmap (M3 1 0 2 0 1 0 0 0 1) (V2 0 0) = Some q /\ hmap (M3 1 0 0 0 1 0 1 0 0) q = Some r /\
  hmap (hmul (M3 1 0 0 0 1 0 1 0 0) (M3 1 0 2 0 1 0 0 0 1)) (V2 0 0) = Some r.
Proof.
  pose proof eps_half. exists (V2 2 0), (V2 1 0). split; [|split].
  - apply (image_some _ _ _ 1); [unfold image; cbn; repeat split; ring|]. rewrite Rabs_R1. lra.
  - apply (image_some _ _ _ 2); [unfold image; cbn; repeat split; ring|]. rewrite Rabs_right; lra.
  - apply (image_some _ _ _ 2); [unfold image; cbn; repeat split; ring|]. rewrite Rabs_right; lra.
Qed.
(** The unconditional law fails: two steps that both succeed can compose to a
    homography that refuses the point, although every entry is harmless. *)
Theorem C51_compose_refuted : exists a b p q r, hmap b p = Some q /\ hmap a q = Some r /\ hmap (hmul a b) p = None.
Proof.
  set (k := / 10 ^ 7). assert (K : 0 < k) by (apply Rinv_0_lt_compat, pow_lt; lra).
  assert (KK : k * k <= eps). { unfold k, eps. rewrite <- Rinv_mult. apply Rinv_le_contravar; cbn; lra. }
  assert (E : eps < k). { unfold k, eps. apply Rinv_lt_contravar; [|cbn; lra]. apply Rmult_lt_0_compat; apply pow_lt; lra. }
  exists (mscale k mid), (mscale k mid), (V2 1 1), (V2 1 1), (V2 1 1). clearbody k.
  assert (I : image (mscale k mid) (V2 1 1) (V2 1 1) k) by (unfold image; cbn; repeat split; ring).
  assert (S : hmap (mscale k mid) (V2 1 1) = Some (V2 1 1)) by (apply (image_some _ _ _ _ I); rewrite Rabs_right; lra).
  repeat split; auto. apply small_none. rewrite (weight_mul _ _ _ _ _ I). rewrite <- (image_weight _ _ _ _ I). rewrite Rabs_right; [auto|]. apply Rle_ge, Rmult_le_pos; lra.
Qed.
Print Assumptions C51_compose_refuted.

(** C51: the inverse exists exactly when |det| > 1e-12; it is the two-sided
    matrix inverse and maps every image back (refusing only if the forward
    weight is at least 1e12). *)
Lemma mmul_mscale_l k a b : mmul (mscale k a) b = mscale k (mmul a b).
Proof. geo. un. f_equal; ring. Qed.
Lemma mmul_mscale_r k a b : mmul a (mscale k b) = mscale k (mmul a b).
Proof. geo. un. f_equal; ring. Qed.
Lemma hinv_both h i : hinv h = Some i -> mmul i h = mid /\ mmul h i = mid.
Proof.
  unfold hinv. destruct (Rlt_dec dummy_precision (Rabs (det h))) as [L|L]; [|discriminate]. intro E. injection E as <-.
  pose proof (big_nonzero _ L) as N. rewrite mmul_mscale_l, mmul_mscale_r, adj_l, adj_r. unfold mscale, mid. cbn [m00 m01 m02 m10 m11 m12 m20 m21 m22]. split; f_equal; field; auto.
Qed.
Theorem C51_inverse : forall h,
  (hinv h = None <-> Rabs (det h) <= eps) /\
  (forall i, hinv h = Some i -> mmul i h = mid /\ mmul h i = mid /\
     forall p q, hmap h p = Some q -> (Rabs (weight h p) < 10 ^ 12 -> hmap i q = Some p) /\ (10 ^ 12 <= Rabs (weight h p) -> hmap i q = None)).
Proof.
  intro h. split.
  - unfold hinv, eps. destruct (Rlt_dec dummy_precision (Rabs (det h))) as [L|L]; unfold dummy_precision in L; split; intro H; auto; try discriminate; lra.
  - intros i Hi. destruct (hinv_both h i Hi) as (L & Rr). split; [auto|split; [auto|]]. intros p q Hq. apply some_image in Hq. destruct Hq as (I & W).
    set (w := weight h p) in *. pose proof (big_nonzero _ W) as N.
    assert (J : image i q p (/ w)).
    { assert (V : mvec i (mvec h (V3 (x2 p) (y2 p) 1)) = V3 (x2 p) (y2 p) 1) by (rewrite <- mvec_mmul, L; un; f_equal; ring).
      assert (Vh : mvec h (V3 (x2 p) (y2 p) 1) = vscale w (V3 (x2 q) (y2 q) 1)).
      { destruct I as (I1 & I2 & I3). unfold mvec, vscale. cbn [x3 y3 z3]. f_equal; [rewrite <- I1|rewrite <- I2|transitivity w; [rewrite <- I3|]]; ring. }
      rewrite Vh in V. unfold mvec, vscale in V. cbn [x3 y3 z3] in V. injection V as V1 V2 V3. unfold image. repeat split; apply (Rmult_eq_reg_l w); auto.
      - transitivity (x2 p); [rewrite <- V1; ring|field; auto]. - transitivity (y2 p); [rewrite <- V2; ring|field; auto]. - transitivity 1; [rewrite <- V3; ring|field; auto]. }
    assert (P : 0 < Rabs w) by (pose proof eps_pos; lra). assert (T : 0 < 10 ^ 12) by (apply pow_lt; lra). split; intro B.
    + apply (image_some _ _ _ _ J). unfold eps. rewrite Rabs_inv. apply Rinv_lt_contravar; auto. apply Rmult_lt_0_compat; auto.
    + apply small_none. rewrite <- (image_weight _ _ _ _ J), Rabs_inv. unfold eps. apply Rinv_le_contravar; auto.
Qed.
Print Assumptions C51_inverse.
Example C51_inverse_example : exists i, hinv (M3 2 0 1 0 2 3 0 0 2) = Some i /\ hmap i (V2 (9 / 2) (15 / 2)) = Some (V2 4 6).
Proof.
  pose proof eps_half. destruct (hinv (M3 2 0 1 0 2 3 0 0 2)) as [i|] eqn:E.
  - exists i. split; auto. destruct (C51_inverse (M3 2 0 1 0 2 3 0 0 2)) as (_ & X). destruct (X i E) as (_ & _ & Y). apply (Y (V2 4 6)); [apply C51_map_example|].
    unfold weight. cbn [m20 m21 m22 x2 y2]. rewrite Rabs_right by lra. cbn; lra.
  - apply (proj1 (C51_inverse _)) in E. unfold det in E. cbn [m00 m01 m02 m10 m11 m12 m20 m21 m22] in E. rewrite Rabs_right in E; lra.
Qed.

(** C51: normalising gives a matrix whose last entry is 1 unless that entry was
    within 1e-12 of zero (then nothing changes), and the same map wherever
    both accept the point. *)
Theorem C51_normalize : forall h,
  (eps <= Rabs (m22 h) -> m22 (hnormalize h) = 1 /\ mscale (m22 h) (hnormalize h) = h) /\
  (Rabs (m22 h) < eps -> hnormalize h = h) /\
  hnormalize (hnormalize h) = hnormalize h /\
  (forall p q r, hmap h p = Some q -> hmap (hnormalize h) p = Some r -> q = r).
Proof.
  intro h. pose proof eps_pos as EP.
  assert (A : eps <= Rabs (m22 h) -> m22 h <> 0) by (intros H E; rewrite E, Rabs_R0 in H; lra).
  assert (P1 : eps <= Rabs (m22 h) -> m22 (hnormalize h) = 1 /\ mscale (m22 h) (hnormalize h) = h).
  { intro H. pose proof (A H). unfold hnormalize. destruct (Rle_dec dummy_precision (Rabs (m22 h))) as [L|L]; [|elim L; exact H].
    destruct h as [h0 h1 h2 h3 h4 h5 h6 h7 h8]. un. split; [field; auto|f_equal; field; auto]. }
  assert (P2 : Rabs (m22 h) < eps -> hnormalize h = h).
  { intro H. unfold hnormalize. destruct (Rle_dec dummy_precision (Rabs (m22 h))) as [L|L]; [unfold dummy_precision in L; unfold eps in H; lra|auto]. }
  split; [auto|split; [auto|split]].
  - destruct (Rle_lt_dec eps (Rabs (m22 h))) as [L|L]; [|rewrite (P2 L); apply (P2 L)]. destruct (P1 L) as (E & _). unfold hnormalize at 1. rewrite E.
    destruct (Rle_dec dummy_precision (Rabs 1)); auto. generalize (hnormalize h). intro m. destruct m. un. f_equal; field.
  - intros p q r Hq Hr. destruct (Rle_lt_dec eps (Rabs (m22 h))) as [L|L]; [|rewrite (P2 L) in Hr; congruence]. destruct (P1 L) as (_ & E). pose proof (A L) as N.
    apply some_image in Hr. destruct Hr as (I & W). set (w := weight (hnormalize h) p) in *. apply some_image in Hq. destruct Hq as (J & V).
    assert (K : image h p r (m22 h * w)).
    { destruct I as (I1 & I2 & I3). rewrite <- E at 1. unfold image. replace (m22 h * w * x2 r) with (m22 h * (w * x2 r)) by ring. replace (m22 h * w * y2 r) with (m22 h * (w * y2 r)) by ring. rewrite <- I1, <- I2, <- I3.
      generalize (m22 h) (hnormalize h). intros k m. destruct m. un. repeat split; ring. }
    pose proof (image_weight _ _ _ _ K) as X. rewrite X in K. destruct J as (J1 & J2 & _), K as (K1 & K2 & _). pose proof (big_nonzero _ V) as NW. destruct q as [q0 q1], r as [r0 r1]. cbn [x2 y2] in *.
    f_equal; apply (Rmult_eq_reg_l (weight h p)); auto; [rewrite <- J1, <- K1|rewrite <- J2, <- K2]; reflexivity.
Qed.
Print Assumptions C51_normalize.
Example C51_normalize_example : hnormalize (M3 2 0 1 0 2 3 0 0 2) = M3 1 0 (1 / 2) 0 1 (3 / 2) 0 0 1.
Proof.
  pose proof eps_half. unfold hnormalize. cbn [m22]. rewrite Rabs_right by lra. destruct (Rle_dec dummy_precision 2) as [L|L]; [|elim L; unfold eps in H; unfold dummy_precision; lra].
  un. f_equal; field.
Qed.

(** C51: frame-to-frame homographies compose exactly when the frames chain; the
    result goes from the first frame to the last, by the matrix product. *)
Theorem C51_f2f_compose : forall a b,
  (f_from a = f_to b <-> exists c, f2f_mul a b = Some c) /\
  (forall c, f2f_mul a b = Some c -> f_from c = f_from b /\ f_to c = f_to a /\ f_h c = mmul (f_h a) (f_h b)).
Proof.
  intros a b. unfold f2f_mul. destruct (Z.eqb_spec (f_from a) (f_to b)) as [E|E].
  - split; [split; eauto|]. intros c H. injection H as <-. auto.
  - split; [split; [tauto|intros (c & H); discriminate]|]. discriminate.
Qed.
Print Assumptions C51_f2f_compose.
Theorem C51_f2f_laws : forall a b c,
  (forall ab bc, f2f_mul a b = Some ab -> f2f_mul b c = Some bc -> exists r, f2f_mul ab c = Some r /\ f2f_mul a bc = Some r) /\
  f2f_mul a (f2f_id (f_from a)) = Some a /\ f2f_mul (f2f_id (f_to a)) a = Some a /\
  (forall i, f2f_inv a = Some i -> f_from i = f_to a /\ f_to i = f_from a /\ f2f_mul i a = Some (f2f_id (f_from a)) /\ f2f_mul a i = Some (f2f_id (f_to a))) /\
  (f2f_inv a = None <-> Rabs (det (f_h a)) <= eps).
Proof.
  intros [ha fa ta] [hb fb tb] [hc fc tc]. unfold f2f_mul, f2f_inv, f2f_id. cbn [f_h f_from f_to]. rewrite !Z.eqb_refl. refine (conj _ (conj _ (conj _ (conj _ _)))).
  - intros ab bc H1 H2. destruct (Z.eqb_spec fa tb) as [E1|]; [|discriminate]. destruct (Z.eqb_spec fb tc) as [E2|]; [|discriminate]. injection H1 as <-. injection H2 as <-. cbn [f_h f_from f_to]. subst.
    rewrite !Z.eqb_refl. eexists. split; [reflexivity|]. rewrite mmul_assoc. reflexivity.
  - replace (mmul ha mid) with ha by (destruct ha; un; f_equal; ring). reflexivity.
  - replace (mmul mid ha) with ha by (destruct ha; un; f_equal; ring). reflexivity.
  - intros i H. destruct (hinv ha) as [hi|] eqn:E; [|discriminate]. injection H as <-. cbn [f_h f_from f_to]. rewrite !Z.eqb_refl. destruct (hinv_both _ _ E) as (-> & ->). auto.
  - rewrite <- (proj1 (C51_inverse ha)). destruct (hinv ha); split; intro; auto; discriminate.
Qed.
Print Assumptions C51_f2f_laws.
Example C51_f2f_example : f2f_mul (F2F (M3 1 0 2 0 1 0 0 0 1) 5 9) (F2F (M3 1 0 3 0 1 0 0 0 1) 4 5) = Some (F2F (M3 1 0 5 0 1 0 0 0 1) 4 9) /\
  f2f_mul (F2F mid 5 9) (F2F mid 4 6) = None.
Proof. unfold f2f_mul. cbn [f_from f_to f_h Z.eqb Pos.eqb]. split; auto. un. f_equal. f_equal. f_equal; ring. Qed.
