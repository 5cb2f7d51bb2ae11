(** Facts about the double operations used by GeoModel.v. *)
From Coq Require Import ZArith Reals Bool Lia Lra.
From Flocq Require Import Core.Core IEEE754.BinarySingleNaN.
From Verif Require Import GeoModel.
Open Scope R_scope.

Notation fexp64 := (SpecFloat.fexp 53 1024).
Notation RN := (round radix2 fexp64 ZnearestE).
Notation fmt := (generic_format radix2 fexp64).
Lemma fexp64_FLT : fexp64 = FLT_exp (-1074) 53. Proof. reflexivity. Qed.
#[global] Instance fexp64_valid : Valid_exp fexp64. Proof. rewrite fexp64_FLT. apply FLT_exp_valid. reflexivity. Qed.

(** A number m * 2^e with |m| <= 2^53 and e >= -1074 is a double value. *)
Lemma fmt_intro (m e : Z) : (Z.abs m <= 2 ^ 53)%Z -> (-1074 <= e)%Z -> fmt (IZR m * bpow radix2 e).
Proof.
  intros Hm He. destruct (Z.eq_dec (Z.abs m) (2 ^ 53)) as [E|N].
  - assert (K : fmt (bpow radix2 (53 + e))). { apply generic_format_bpow. unfold SpecFloat.fexp, SpecFloat.emin. lia. }
    rewrite bpow_plus in K. change (bpow radix2 53) with (IZR (2 ^ 53)) in K. destruct (Z.abs_eq_or_opp m) as [A|A]; rewrite A in E; [rewrite E; exact K|].
    replace m with (- 2 ^ 53)%Z by lia. rewrite opp_IZR, Ropp_mult_distr_l_reverse. apply generic_format_opp. exact K.
  - rewrite fexp64_FLT. apply generic_format_FLT. apply (FLT_spec radix2 (-1074) 53 _ (Float radix2 m e)); [reflexivity| |exact He]. change (Z.abs m < 2 ^ 53)%Z. lia.
Qed.
Lemma fmt_int (m : Z) : (Z.abs m <= 2 ^ 53)%Z -> fmt (IZR m).
Proof. intro H. replace (IZR m) with (IZR m * bpow radix2 0) by (simpl; ring). apply fmt_intro; lia. Qed.
Lemma RN_int (m : Z) : (Z.abs m <= 2 ^ 53)%Z -> RN (IZR m) = IZR m.
Proof. intro H. apply round_generic; [typeclasses eauto|]. apply fmt_int. auto. Qed.
Lemma small_lt (m : Z) x : Rabs x <= IZR m -> (m <= 2 ^ 62)%Z -> Rabs x < bpow radix2 1024.
Proof. intros H Hm. apply Rle_lt_trans with (1 := H). apply Rle_lt_trans with (IZR (2 ^ 62)); [apply IZR_le; auto|]. change (IZR (2 ^ 62)) with (bpow radix2 62). apply bpow_lt. reflexivity. Qed.

Lemma dint_val (z : Z) : (Z.abs z <= 2 ^ 53)%Z -> B2R (dint z) = IZR z /\ is_finite (dint z) = true.
Proof.
  intro H. unfold dint. generalize (binary_normalize_correct 53 1024 dbl_prec_gt_0 dbl_prec_lt_emax mode_NE z 0 false). cbv zeta.
  assert (E : F2R (Float radix2 z 0) = IZR z) by (unfold F2R; simpl; ring). rewrite E. cbn [round_mode]. rewrite RN_int by auto.
  rewrite Rlt_bool_true; [tauto|]. apply (small_lt (2 ^ 53)); [|lia]. rewrite <- abs_IZR. apply IZR_le. auto.
Qed.

(** Comparison with a constant, for any double. *)
Lemma dle_l (z : Z) x : (Z.abs z <= 2 ^ 53)%Z -> is_finite x = true -> dle (dint z) x = true <-> IZR z <= B2R x.
Proof. intros H F. destruct (dint_val z H) as (E & F'). unfold dle. rewrite Bleb_correct by auto. rewrite E. destruct (Rle_bool_spec (IZR z) (B2R x)); split; intro; auto; try discriminate. lra. Qed.
Lemma dle_r (z : Z) x : (Z.abs z <= 2 ^ 53)%Z -> is_finite x = true -> dle x (dint z) = true <-> B2R x <= IZR z.
Proof. intros H F. destruct (dint_val z H) as (E & F'). unfold dle. rewrite Bleb_correct by auto. rewrite E. destruct (Rle_bool_spec (B2R x) (IZR z)); split; intro; auto; try discriminate. lra. Qed.
Lemma dlt_r (z : Z) x : (Z.abs z <= 2 ^ 53)%Z -> is_finite x = true -> dlt x (dint z) = true <-> B2R x < IZR z.
Proof. intros H F. destruct (dint_val z H) as (E & F'). unfold dlt. rewrite Bltb_correct by auto. rewrite E. destruct (Rlt_bool_spec (B2R x) (IZR z)); split; intro; auto; try discriminate. lra. Qed.

(** Equality of doubles is an equivalence on the non-NaN ones. *)
Lemma deq_finite x y : is_finite x = true -> is_finite y = true -> deq x y = true <-> B2R x = B2R y.
Proof. intros F1 F2. unfold deq. rewrite Beqb_correct by auto. destruct (Req_bool_spec (B2R x) (B2R y)); split; intro; auto; try discriminate. Qed.
Lemma deq_sym x y : deq x y = deq y x.
Proof. unfold deq, Beqb, SpecFloat.SFeqb. assert (K := Bcompare_swap _ _ x y). unfold Bcompare in K. rewrite K. destruct (SpecFloat.SFcompare (B2SF x) (B2SF y)) as [[]|]; reflexivity. Qed.
Lemma deq_fin_l x y : deq x y = true -> is_finite x = true -> is_finite y = true.
Proof. destruct x as [|[]| |[]], y as [|[]| |[]]; try reflexivity; discriminate. Qed.
Lemma deq_trans x y z : deq x y = true -> deq y z = true -> deq x z = true.
Proof.
  intros H1 H2. destruct (is_finite x) eqn:F.
  - assert (Fy := deq_fin_l _ _ H1 F). assert (Fz := deq_fin_l _ _ H2 Fy). apply deq_finite in H1, H2; auto. apply deq_finite; auto. congruence.
  - destruct x as [s|s| |s]; try discriminate F; [|discriminate H1]. destruct y as [t|t| |t]; destruct s; try discriminate H1; destruct t; try discriminate H1; exact H2.
Qed.
Lemma deq_refl x : deq x x = negb (is_nan x). Proof. apply Beqb_refl. Qed.

(** Addition, when the rounded sum does not overflow. *)
Lemma dplus_val x (z : Z) : is_finite x = true -> (Z.abs z <= 2 ^ 53)%Z -> Rabs (RN (B2R x + IZR z)) < bpow radix2 1024 ->
  B2R (dplus x (dint z)) = RN (B2R x + IZR z) /\ is_finite (dplus x (dint z)) = true.
Proof.
  intros F H B. destruct (dint_val z H) as (E & F'). unfold dplus. generalize (Bplus_correct 53 1024 _ _ mode_NE x (dint z) F F'). rewrite E. cbn [round_mode].
  rewrite Rlt_bool_true by exact B. tauto.
Qed.
Lemma ddiv_val x (z : Z) : is_finite x = true -> z <> 0%Z -> (Z.abs z <= 2 ^ 53)%Z -> Rabs (RN (B2R x / IZR z)) < bpow radix2 1024 ->
  B2R (ddiv x (dint z)) = RN (B2R x / IZR z) /\ is_finite (ddiv x (dint z)) = true.
Proof.
  intros F N H B. destruct (dint_val z H) as (E & F'). unfold ddiv. generalize (Bdiv_correct 53 1024 _ _ mode_NE x (dint z)). rewrite E. intro K. specialize (K (not_0_IZR _ N)). cbn [round_mode] in K.
  rewrite Rlt_bool_true in K by exact B. destruct K as (K1 & K2 & _). split; auto. rewrite K2. exact F.
Qed.
