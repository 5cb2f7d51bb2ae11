(** CameraProps2.v -- C54: the matrix used by undistort's Newton step compared
    with the derivative of the distortion. *)
From Coq Require Import Reals Lra Lia List Bool Arith.
From Verif Require Import GeomModel CameraModel.
Import ListNotations.
Local Open Scope R_scope.

(** The denominator of the rational model (it exists from 8 coefficients on). *)
Definition denom (d : list R) (r : R) : R := 1 + r * dn d 5 + r * r * dn d 6 + r * (r * r) * dn d 7.
Definition regular (d : list R) (r : R) : Prop := (8 <= length d)%nat -> denom d r <> 0.
(** The partial derivatives of the distortion, as limits. *)
Definition dist_x (k : intrinsics) (x y : R) : R := x2 (distort k (V2 x y)).
Definition dist_y (k : intrinsics) (x y : R) : R := y2 (distort k (V2 x y)).

Lemma dl_eq f g x l m : derivable_pt_lim f x l -> (forall t, f t = g t) -> l = m -> derivable_pt_lim g x m.
Proof. intros H E <-. apply (derivable_pt_lim_ext f); auto. Qed.
Lemma dl_const c x : derivable_pt_lim (fun _ => c) x 0.
Proof. apply derivable_pt_lim_const. Qed.
Lemma dl_id x : derivable_pt_lim (fun t => t) x 1.
Proof. apply derivable_pt_lim_id. Qed.
Lemma dl_plus f g x a b : derivable_pt_lim f x a -> derivable_pt_lim g x b -> derivable_pt_lim (fun t => f t + g t) x (a + b).
Proof. apply derivable_pt_lim_plus. Qed.
Lemma dl_mult f g x a b : derivable_pt_lim f x a -> derivable_pt_lim g x b -> derivable_pt_lim (fun t => f t * g t) x (a * g x + f x * b).
Proof. apply derivable_pt_lim_mult. Qed.
Lemma dl_div f g x a b : derivable_pt_lim f x a -> derivable_pt_lim g x b -> g x <> 0 -> derivable_pt_lim (fun t => f t / g t) x ((a * g x - b * f x) / Rsqr (g x)).
Proof. apply derivable_pt_lim_div. Qed.
Lemma dl_comp f g x a b : derivable_pt_lim g x a -> derivable_pt_lim f (g x) b -> derivable_pt_lim (fun t => f (g t)) x (b * a).
Proof. apply derivable_pt_lim_comp. Qed.
Lemma poly3 a b c x : derivable_pt_lim (fun t => 1 + t * a + t * t * b + t * (t * t) * c) x (a + 2 * b * x + 3 * c * (x * x)).
Proof.
  eapply dl_eq; [apply dl_plus; [apply dl_plus; [apply dl_plus; [apply (dl_const 1)|apply dl_mult; [apply dl_id|apply (dl_const a)]]|apply dl_mult; [apply dl_mult; apply dl_id|apply (dl_const b)]]|apply dl_mult; [apply dl_mult; [apply dl_id|apply dl_mult; apply dl_id]|apply (dl_const c)]]|reflexivity|]. cbn beta. ring.
Qed.
Lemma poly3_0 n x : (forall t, radial_scale t n = 1) -> derivable_pt_lim (fun t => radial_scale t n) x 0.
Proof. intro H. apply (dl_eq (fun _ => 1) _ x 0 0); [apply dl_const|intro t; rewrite H; auto|auto]. Qed.

(** C54: radial_distortion_deriv is the derivative of radial_distortion_scale. *)
Lemma more_iff d n : more d n = true <-> (n < length d)%nat.
Proof. unfold more. apply Nat.ltb_lt. Qed.
Theorem C54_radial : forall d r, regular d r -> derivable_pt_lim (fun t => radial_scale t d) r (radial_deriv r d).
Proof.
  intros d r H. unfold radial_scale, radial_deriv. destruct (more d 0) eqn:M0; [|apply dl_const]. destruct (more d 1) eqn:M1.
  2:{ eapply dl_eq; [apply (poly3 (dn d 0) 0 0)|intro t; cbn beta; ring|ring]. }
  destruct (more d 4) eqn:M4.
  2:{ eapply dl_eq; [apply (poly3 (dn d 0) (dn d 1) 0)|intro t; cbn beta; ring|ring]. }
  destruct (more d 7) eqn:M7.
  2:{ eapply dl_eq; [apply (poly3 (dn d 0) (dn d 1) (dn d 4))|intro t; cbn beta; ring|ring]. }
  assert (N : denom d r <> 0) by (apply H; apply more_iff in M7; lia). unfold denom in N.
  eapply dl_eq; [apply (dl_div (fun t => 1 + t * dn d 0 + t * t * dn d 1 + t * (t * t) * dn d 4) (fun t => 1 + t * dn d 5 + t * t * dn d 6 + t * (t * t) * dn d 7)); [apply poly3|apply poly3|exact N]|intro t; reflexivity|].
  cbn beta. unfold Rsqr. replace (dn d 5 * r + dn d 6 * (r * r) + dn d 7 * (r * r * r) + 1) with (1 + r * dn d 5 + r * r * dn d 6 + r * (r * r) * dn d 7) by ring. field. exact N.
Qed.
Print Assumptions C54_radial.

(** C54: the off-diagonal entries of the matrix are the partial derivatives; the
    diagonal entries are off by one and the same amount e in opposite
    directions: the tangential term of the second entry is added to the first. *)
Definition tangential_error (d : list R) (p : v2) : R := if Nat.ltb 3 (length d) then 6 * nth 2 d 0 * y2 p + 2 * nth 3 d 0 * x2 p else 0.
Lemma sum_sq_x x y : derivable_pt_lim (fun t => t * t + y * y) x (2 * x).
Proof. eapply dl_eq; [apply dl_plus; [apply dl_mult; apply dl_id|apply (dl_const (y * y))]|reflexivity|]. cbn beta. ring. Qed.
Lemma sum_sq_y x y : derivable_pt_lim (fun t => x * x + t * t) y (2 * y).
Proof. eapply dl_eq; [apply dl_plus; [apply (dl_const (x * x))|apply dl_mult; apply dl_id]|reflexivity|]. cbn beta. ring. Qed.
Theorem C54_jacobian : forall k x y, regular (k_dist k) (x * x + y * y) ->
  let j := jacobian (V2 x y) (k_dist k) in let e := tangential_error (k_dist k) (V2 x y) in
  derivable_pt_lim (fun t => dist_x k t y) x (j00 j - e) /\
  derivable_pt_lim (fun t => dist_x k x t) y (j01 j) /\
  derivable_pt_lim (fun t => dist_y k t y) x (j10 j) /\
  derivable_pt_lim (fun t => dist_y k x t) y (j11 j + e).
Proof.
  intros k x y H j e. pose proof (C54_radial _ _ H) as D. set (d := k_dist k) in *.
  assert (Rx : derivable_pt_lim (fun t => radial_scale (t * t + y * y) d) x (radial_deriv (x * x + y * y) d * (2 * x))) by (apply (dl_comp (fun r => radial_scale r d) (fun t => t * t + y * y)); [apply sum_sq_x|exact D]).
  assert (Ry : derivable_pt_lim (fun t => radial_scale (x * x + t * t) d) y (radial_deriv (x * x + y * y) d * (2 * y))) by (apply (dl_comp (fun r => radial_scale r d) (fun t => x * x + t * t)); [apply sum_sq_y|exact D]).
  assert (Quad : forall a b c u, derivable_pt_lim (fun t => a + b * t + c * (t * t)) u (b + 2 * c * u)).
  { intros a b c u. eapply dl_eq; [apply dl_plus; [apply dl_plus; [apply (dl_const a)|apply dl_mult; [apply (dl_const b)|apply dl_id]]|apply dl_mult; [apply (dl_const c)|apply dl_mult; apply dl_id]]|reflexivity|]. cbn beta. ring. }
  unfold j, e, jacobian, tangential_error, dist_x, dist_y, distort, scale_offset. fold d. change (Nat.ltb 3 (length d)) with (more d 3). cbn [x2 y2 j00 j01 j10 j11]. fold (dn d 2). fold (dn d 3).
  destruct (more d 3); cbn [x2 y2 j00 j01 j10 j11]; repeat apply conj.
  - eapply dl_eq; [apply dl_plus; [apply dl_mult; [exact Rx|apply dl_id]|apply (Quad (dn d 3 * (y * y)) (dn d 2 * 2 * y) (3 * dn d 3))]|intro t; cbn beta; ring|cbn beta; ring].
  - eapply dl_eq; [apply dl_plus; [apply dl_mult; [exact Ry|apply (dl_const x)]|apply (Quad (3 * dn d 3 * (x * x)) (dn d 2 * 2 * x) (dn d 3))]|intro t; cbn beta; ring|cbn beta; ring].
  - eapply dl_eq; [apply dl_plus; [apply dl_mult; [exact Rx|apply (dl_const y)]|apply (Quad (3 * dn d 2 * (y * y)) (dn d 3 * 2 * y) (dn d 2))]|intro t; cbn beta; ring|cbn beta; ring].
  - eapply dl_eq; [apply dl_plus; [apply dl_mult; [exact Ry|apply dl_id]|apply (Quad (dn d 2 * (x * x)) (dn d 3 * 2 * x) (3 * dn d 2))]|intro t; cbn beta; ring|cbn beta; ring].
  - eapply dl_eq; [apply dl_mult; [exact Rx|apply dl_id]|intro t; cbn beta; ring|cbn beta; ring].
  - eapply dl_eq; [apply dl_mult; [exact Ry|apply (dl_const x)]|intro t; cbn beta; ring|cbn beta; ring].
  - eapply dl_eq; [apply dl_mult; [exact Rx|apply (dl_const y)]|intro t; cbn beta; ring|cbn beta; ring].
  - eapply dl_eq; [apply dl_mult; [exact Ry|apply dl_id]|intro t; cbn beta; ring|cbn beta; ring].
Qed.
Print Assumptions C54_jacobian.
(** C54: so without tangential coefficients the matrix is the Jacobian. *)
Theorem C54_radial_only : forall k x y, regular (k_dist k) (x * x + y * y) -> ((length (k_dist k) <= 3)%nat \/ (nth 2 (k_dist k) 0 = 0 /\ nth 3 (k_dist k) 0 = 0)) ->
  let j := jacobian (V2 x y) (k_dist k) in
  derivable_pt_lim (fun t => dist_x k t y) x (j00 j) /\ derivable_pt_lim (fun t => dist_x k x t) y (j01 j) /\
  derivable_pt_lim (fun t => dist_y k t y) x (j10 j) /\ derivable_pt_lim (fun t => dist_y k x t) y (j11 j).
Proof.
  intros k x y H T j. destruct (C54_jacobian k x y H) as (A & B & C & D). fold j in A, B, C, D. assert (Z : tangential_error (k_dist k) (V2 x y) = 0).
  { unfold tangential_error. destruct (Nat.ltb_spec 3 (length (k_dist k))) as [L|L]; auto. destruct T as [T|(-> & ->)]; [lia|ring]. }
  rewrite Z, Rminus_0_r in A. rewrite Z, Rplus_0_r in D. auto.
Qed.
Print Assumptions C54_radial_only.
(** With a tangential coefficient it is not: already with only p1 = 1, at (0,1),
    both diagonal entries differ from the partial derivatives. *)
Theorem C54_jacobian_refuted : exists k x y, regular (k_dist k) (x * x + y * y) /\ ~ derivable_pt_lim (fun t => dist_x k t y) x (j00 (jacobian (V2 x y) (k_dist k))) /\
  ~ derivable_pt_lim (fun t => dist_y k x t) y (j11 (jacobian (V2 x y) (k_dist k))).
Proof.
  exists (Intr 1 (V2 0 0) 1 0 [0; 0; 1; 0]), 0, 1. assert (H : regular (k_dist (Intr 1 (V2 0 0) 1 0 [0; 0; 1; 0])) (0 * 0 + 1 * 1)) by (intro L; cbn in L; lia). split; auto.
  destruct (C54_jacobian _ 0 1 H) as (A & _ & _ & D). assert (E : tangential_error (k_dist (Intr 1 (V2 0 0) 1 0 [0; 0; 1; 0])) (V2 0 1) = 6) by (unfold tangential_error; cbn; ring). rewrite E in A, D.
  split; intro X; [pose proof (uniqueness_limite _ _ _ _ A X)|pose proof (uniqueness_limite _ _ _ _ D X)]; lra.
Qed.
Print Assumptions C54_jacobian_refuted.
Example C54_example : regular [1; 2; 3; 4; 5; 1; 1; 1] (1 * 1 + 1 * 1) /\ j01 (jacobian (V2 1 2) [1; 1; 1; 1]) = 50.
Proof. split; [intros _; unfold denom, dn; cbn; lra|]. unfold jacobian, radial_deriv, dn, more. cbn. ring. Qed.
