(** MD5Table.v -- the 64 constants of MD5.c are the integer parts of
    4294967296 * abs(sin(i)). *)
From Coq Require Import ZArith List Bool Reals Lia Lra Factorial.
From Verif Require Import MD5Model MD5Spec.
Import ListNotations.
Local Open Scope R_scope.

(** ---- enclosures: an interval [lo, hi] of integers, in units of 2^-100 ---- *)
Definition u : Z := 100.
Definition one : Z := Z.shiftl 1 u.
Lemma one_pos : (0 < one)%Z. Proof. reflexivity. Qed.
Definition inside (x : R) (i : Z * Z) : Prop := IZR (fst i) <= x * IZR one <= IZR (snd i).
Definition iadd (i j : Z * Z) : Z * Z := (fst i + fst j, snd i + snd j)%Z.
Definition iopp (i : Z * Z) : Z * Z := (- snd i, - fst i)%Z.
(** product: the extreme corner products, rounded outwards. *)
Definition imul (i j : Z * Z) : Z * Z :=
  let a := (fst i * fst j)%Z in let b := (fst i * snd j)%Z in let c := (snd i * fst j)%Z in let d := (snd i * snd j)%Z in
  (Z.min (Z.min a b) (Z.min c d) / one, - ((- Z.max (Z.max a b) (Z.max c d)) / one))%Z.
Lemma inside_add x y i j : inside x i -> inside y j -> inside (x + y) (iadd i j).
Proof. unfold inside, iadd. cbn [fst snd]. rewrite !plus_IZR. intros. lra. Qed.
Lemma inside_opp x i : inside x i -> inside (- x) (iopp i).
Proof. unfold inside, iopp. cbn [fst snd]. rewrite !opp_IZR. intros. lra. Qed.
Lemma div_le (a : Z) : IZR (a / one) * IZR one <= IZR a.
Proof. rewrite <- mult_IZR. apply IZR_le. pose proof (Z.mul_div_le a one one_pos). lia. Qed.
Lemma corner a b c d x y : a <= x <= b -> c <= y <= d -> Rmin (Rmin (a * c) (a * d)) (Rmin (b * c) (b * d)) <= x * y <= Rmax (Rmax (a * c) (a * d)) (Rmax (b * c) (b * d)).
Proof.
  intros H K. assert (Rmin (a * c) (a * d) <= a * y <= Rmax (a * c) (a * d)) as A.
  { destruct (Rle_lt_dec 0 a).
    - pose proof (Rmult_le_compat_l a c y r (proj1 K)). pose proof (Rmult_le_compat_l a y d r (proj2 K)). pose proof (Rmin_l (a*c) (a*d)). pose proof (Rmax_r (a*c) (a*d)). lra.
    - pose proof (Rmult_le_compat_neg_l a c y ltac:(lra) (proj1 K)). pose proof (Rmult_le_compat_neg_l a y d ltac:(lra) (proj2 K)). pose proof (Rmin_r (a*c) (a*d)). pose proof (Rmax_l (a*c) (a*d)). lra. }
  assert (Rmin (b * c) (b * d) <= b * y <= Rmax (b * c) (b * d)) as B.
  { destruct (Rle_lt_dec 0 b).
    - pose proof (Rmult_le_compat_l b c y r (proj1 K)). pose proof (Rmult_le_compat_l b y d r (proj2 K)). pose proof (Rmin_l (b*c) (b*d)). pose proof (Rmax_r (b*c) (b*d)). lra.
    - pose proof (Rmult_le_compat_neg_l b c y ltac:(lra) (proj1 K)). pose proof (Rmult_le_compat_neg_l b y d ltac:(lra) (proj2 K)). pose proof (Rmin_r (b*c) (b*d)). pose proof (Rmax_l (b*c) (b*d)). lra. }
  assert (Rmin (a * y) (b * y) <= x * y <= Rmax (a * y) (b * y)) as C.
  { rewrite (Rmult_comm a y), (Rmult_comm b y), (Rmult_comm x y). destruct (Rle_lt_dec 0 y).
    - pose proof (Rmult_le_compat_l y a x r (proj1 H)). pose proof (Rmult_le_compat_l y x b r (proj2 H)). pose proof (Rmin_l (y*a) (y*b)). pose proof (Rmax_r (y*a) (y*b)). lra.
    - pose proof (Rmult_le_compat_neg_l y a x ltac:(lra) (proj1 H)). pose proof (Rmult_le_compat_neg_l y x b ltac:(lra) (proj2 H)). pose proof (Rmin_r (y*a) (y*b)). pose proof (Rmax_l (y*a) (y*b)). lra. }
  split.
  - eapply Rle_trans; [|apply C]. apply Rmin_glb; [eapply Rle_trans; [apply Rmin_l|apply A]|eapply Rle_trans; [apply Rmin_r|apply B]].
  - eapply Rle_trans; [apply C|]. apply Rmax_lub; [eapply Rle_trans; [apply A|apply Rmax_l]|eapply Rle_trans; [apply B|apply Rmax_r]].
Qed.
Lemma IZR_min a b : IZR (Z.min a b) = Rmin (IZR a) (IZR b).
Proof. unfold Rmin. destruct (Rle_dec (IZR a) (IZR b)) as [H|H]; [apply le_IZR in H; rewrite Z.min_l by exact H; reflexivity|]. f_equal. apply Z.min_r. apply le_IZR. lra. Qed.
Lemma IZR_max a b : IZR (Z.max a b) = Rmax (IZR a) (IZR b).
Proof. unfold Rmax. destruct (Rle_dec (IZR a) (IZR b)) as [H|H]; [apply le_IZR in H; rewrite Z.max_r by exact H; reflexivity|]. f_equal. apply Z.max_l. apply le_IZR. lra. Qed.
Lemma inside_mul x y i j : inside x i -> inside y j -> inside (x * y) (imul i j).
Proof.
  unfold inside, imul. cbn [fst snd]. intros H K. assert (0 < IZR one) as P by (apply IZR_lt; reflexivity). pose proof (corner _ _ _ _ _ _ H K) as C. rewrite <- !mult_IZR, <- !IZR_min, <- !IZR_max in C.
  set (m := Z.min _ _) in *. set (M := Z.max _ _) in *. pose proof (div_le m) as D. pose proof (div_le (- M)) as E. rewrite opp_IZR in E. rewrite opp_IZR.
  split; apply (Rmult_le_reg_r (IZR one) _ _ P); lra.
Qed.

(** ---- sin 1 and cos 1 from their series ---- *)
(** sum of (-1)^i / (2i+e)! as a fraction num / (2n+e)! *)
Fixpoint fct (n : nat) : Z := match n with O => 1%Z | S m => (Z.of_nat n * fct m)%Z end.
Lemma fct_pos n : (0 < fct n)%Z. Proof. induction n; cbn [fct]; lia. Qed.
Lemma fct_fact n : INR (fact n) = IZR (fct n).
Proof. induction n as [|n IH]; [reflexivity|]. change (fact (S n)) with (S n * fact n)%nat. cbn [fct]. rewrite mult_INR, mult_IZR, IH, INR_IZR_INZ. reflexivity. Qed.
Fixpoint snum (e : nat) (n : nat) : Z :=
  match n with
  | O => 1%Z
  | S m => (snum e m * (Z.of_nat (2 * n + e) * Z.of_nat (2 * n + e - 1)) + (if Nat.even n then 1 else -1))%Z
  end.
Lemma sgn n : (-1) ^ n = IZR (if Nat.even n then 1 else -1).
Proof. induction n as [|n IH]; [reflexivity|]. rewrite Nat.even_succ, <- Nat.negb_even. cbn [pow]. rewrite IH. destruct (Nat.even n); cbn [negb]; ring. Qed.
Lemma series (term : nat -> R) e : (e <= 1)%nat -> (forall i, term i = (-1) ^ i * (1 / INR (fact (2 * i + e)))) -> forall n, sum_f_R0 term n = IZR (snum e n) / IZR (fct (2 * n + e)).
Proof.
  intros He Ht. induction n as [|n IH].
  - cbn [sum_f_R0 snum]. rewrite Ht, fct_fact. cbn [pow Nat.mul Nat.add]. unfold Rdiv. ring.
  - cbn [sum_f_R0]. rewrite IH, Ht, fct_fact, sgn. cbn [snum]. set (s := IZR (if Nat.even (S n) then 1 else -1)%Z).
    replace (2 * S n + e)%nat with (S (S (2 * n + e))) by lia. cbn [fct]. rewrite plus_IZR, !mult_IZR. fold s. replace (S (S (2 * n + e)) - 1)%nat with (S (2 * n + e)) by lia.
    assert (0 < IZR (fct (2 * n + e))) by (apply IZR_lt, fct_pos). assert (0 < IZR (Z.of_nat (S (S (2 * n + e))))) by (apply IZR_lt; lia). assert (0 < IZR (Z.of_nat (S (2 * n + e)))) by (apply IZR_lt; lia).
    field. lra.
Qed.
Lemma frac_inside x a b c d : (0 < b)%Z -> (0 < d)%Z -> IZR a / IZR b <= x <= IZR c / IZR d -> inside x (a * one / b, - ((- (c * one)) / d))%Z.
Proof.
  intros B D [H K]. unfold inside. cbn [fst snd]. assert (0 < IZR b) as Pb by (apply IZR_lt; exact B). assert (0 < IZR d) as Pd by (apply IZR_lt; exact D). assert (0 < IZR one) as P by (apply IZR_lt; reflexivity). split.
  - assert (IZR (a * one / b) * IZR b <= IZR a * IZR one) as X by (rewrite <- !mult_IZR; apply IZR_le; pose proof (Z.mul_div_le (a * one) b B); lia).
    apply (Rmult_le_reg_r (IZR b) _ _ Pb). assert (IZR a <= x * IZR b) as Y by (apply (Rmult_le_compat_r (IZR b)) in H; [|lra]; replace (IZR a / IZR b * IZR b) with (IZR a) in H by (field; lra); exact H). apply (Rmult_le_compat_r (IZR one)) in Y; lra.
  - assert (IZR (- (c * one) / d) * IZR d <= - (IZR c * IZR one)) as X by (rewrite <- !mult_IZR, <- opp_IZR; apply IZR_le; pose proof (Z.mul_div_le (- (c * one)) d D); lia).
    rewrite opp_IZR. apply (Rmult_le_reg_r (IZR d) _ _ Pd). assert (x * IZR d <= IZR c) as Y by (apply (Rmult_le_compat_r (IZR d)) in K; [|lra]; replace (IZR c / IZR d * IZR d) with (IZR c) in K by (field; lra); exact K). apply (Rmult_le_compat_r (IZR one)) in Y; lra.
Qed.
Definition s1 : Z * Z := (snum 1 15 * one / fct 31, - ((- (snum 1 16 * one)) / fct 33))%Z.
Definition c1 : Z * Z := (snum 0 15 * one / fct 30, - ((- (snum 0 16 * one)) / fct 32))%Z.
Lemma sin1 : inside (sin 1) s1.
Proof.
  destruct (pre_sin_bound 1 7 ltac:(lra) ltac:(lra)) as [A B]. unfold sin_approx in A, B. rewrite (series (sin_term 1) 1 ltac:(lia)) in A, B by (intros i; unfold sin_term; rewrite pow1; reflexivity).
  apply frac_inside; [apply fct_pos|apply fct_pos|]. split; [exact A|exact B].
Qed.
Lemma cos1 : inside (cos 1) c1.
Proof.
  destruct (pre_cos_bound 1 7 ltac:(lra) ltac:(lra)) as [A B]. unfold cos_approx in A, B. rewrite (series (cos_term 1) 0 ltac:(lia)) in A, B by (intros i; unfold cos_term; rewrite pow1, Nat.add_0_r; reflexivity).
  apply frac_inside; [apply fct_pos|apply fct_pos|]. split; [exact A|exact B].
Qed.

(** ---- all of them ---- *)
(** The integer part of 2^32 |x| is t, if the enclosure says so. *)
Definition pinned (t : Z) (i : Z * Z) : bool :=
  let ok lo hi := (t * Z.shiftl 1 68 <=? lo)%Z && (hi <? (t + 1) * Z.shiftl 1 68)%Z in ok (fst i) (snd i) || ok (- snd i)%Z (- fst i)%Z.
Lemma Int_part_is x t : IZR t <= x < IZR t + 1 -> Int_part x = t.
Proof. intros [A B]. unfold Int_part. assert (up x = t + 1)%Z as -> by (symmetry; apply tech_up; rewrite plus_IZR; lra). lia. Qed.
Lemma pinned_ok x t i : (0 <= t)%Z -> inside x i -> pinned t i = true -> Int_part (4294967296 * Rabs x) = t.
Proof.
  intros Ht H P. apply Int_part_is. unfold inside in H. assert (IZR one = 4294967296 * IZR (Z.shiftl 1 68)) as E by (change (IZR one = IZR 4294967296 * IZR (Z.shiftl 1 68)); rewrite <- mult_IZR; reflexivity).
  assert (0 < IZR (Z.shiftl 1 68)) as P28 by (apply IZR_lt; reflexivity). set (q := IZR (Z.shiftl 1 68)) in *. rewrite E in H.
  assert (0 <= IZR t) as Rt by (apply IZR_le; exact Ht).
  unfold pinned in P. apply orb_true_iff in P. destruct P as [P|P]; apply andb_true_iff in P; destruct P as [P1 P2]; apply Z.leb_le in P1; apply Z.ltb_lt in P2; apply IZR_le in P1; apply IZR_lt in P2; rewrite ?opp_IZR in P1, P2; rewrite mult_IZR in P1, P2; rewrite plus_IZR in P2; fold q in P1, P2.
  - assert (0 <= x). { apply (Rmult_le_reg_r (4294967296 * q)); [lra|]. rewrite Rmult_0_l. pose proof (Rmult_le_pos _ _ Rt (Rlt_le _ _ P28)). lra. }
    rewrite Rabs_right by lra. split; [apply (Rmult_le_reg_r q); [exact P28|lra]|apply (Rmult_lt_reg_r q); [exact P28|lra]].
  - assert (x <= 0). { apply (Rmult_le_reg_r (4294967296 * q)); [lra|]. rewrite Rmult_0_l. pose proof (Rmult_le_pos _ _ Rt (Rlt_le _ _ P28)). lra. }
    rewrite Rabs_left1 by lra. split; [apply (Rmult_le_reg_r q); [exact P28|lra]|apply (Rmult_lt_reg_r q); [exact P28|lra]].
Qed.
Definition table : list Z := map (fun o => match o with SET _ _ _ _ _ _ _ ti => ti end) round_ops.
Fixpoint check (ts : list Z) (s c : Z * Z) : bool :=
  match ts with
  | [] => true
  | t :: r => let s' := iadd (imul s c1) (imul c s1) in let c' := iadd (imul c c1) (iopp (imul s s1)) in
              (0 <=? t)%Z && pinned t s' && check r s' c'
  end.
Lemma check_ok ts : forall n s c, inside (sin (INR n)) s -> inside (cos (INR n)) c -> check ts s c = true -> forall i, (i < length ts)%nat -> nth i ts 0%Z = sine (S n + i).
Proof.
  induction ts as [|t r IH]; intros n s c Is Ic K i Hi; [cbn in Hi; lia|]. cbn [check] in K. apply andb_true_iff in K. destruct K as [K Kr]. apply andb_true_iff in K. destruct K as [K0 K].
  assert (inside (sin (INR (S n))) (iadd (imul s c1) (imul c s1))) as Is'. { rewrite S_INR, sin_plus. apply inside_add; apply inside_mul; auto using sin1, cos1. }
  assert (inside (cos (INR (S n))) (iadd (imul c c1) (iopp (imul s s1)))) as Ic'. { rewrite S_INR, cos_plus. apply inside_add; [apply inside_mul; auto using cos1|apply inside_opp, inside_mul; auto using sin1]. }
  destruct i as [|i].
  - cbn [nth]. rewrite Nat.add_0_r. symmetry. eapply pinned_ok; [apply Z.leb_le; exact K0|exact Is'|exact K].
  - cbn [nth length] in *. replace (S n + S i)%nat with (S (S n) + i)%nat by lia. eapply IH; [exact Is'|exact Ic'|exact Kr|lia].
Qed.
Lemma table_ok : check table (0, 0)%Z (one, one) = true.
Proof. vm_compute. reflexivity. Qed.
Theorem C118_table : forall n, (1 <= n <= 64)%nat -> nth (n - 1) table 0%Z = sine n.
Proof.
  intros n Hn. rewrite (check_ok table 0 (0, 0)%Z (one, one)); [f_equal; lia| | |exact table_ok|change (length table) with 64%nat; lia].
  - cbn [INR]. rewrite sin_0. unfold inside. cbn [fst snd]. lra.
  - cbn [INR]. rewrite cos_0. unfold inside. cbn [fst snd]. lra.
Qed.
Print Assumptions C118_table.
