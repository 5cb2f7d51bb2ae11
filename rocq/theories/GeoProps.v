(** C56 (geo_lat_lon) and C79 (latlon_zone), over IEEE doubles. *)
From Coq Require Import ZArith Reals Bool Lia Lra.
From Flocq Require Import Core.Core IEEE754.BinarySingleNaN.
From Verif Require Import GeoModel GeoProofs.
Open Scope R_scope.

(** C56: a location is valid exactly when both coordinates are finite numbers,
    latitude in [-90, 90], longitude in [-180, 360] (so no NaN or infinity). *)
Lemma not_fin_dle x z : (Z.abs z <= 2 ^ 53)%Z -> is_finite x = false -> dle x (dint z) = true -> x = B754_infinity true.
Proof. intros H. destruct (dint_val z H) as (_ & F). destruct x as [|[]| |]; try discriminate; auto. destruct (dint z); discriminate. Qed.
Lemma not_fin_dle' x z : (Z.abs z <= 2 ^ 53)%Z -> is_finite x = false -> dle (dint z) x = true -> x = B754_infinity false.
Proof. intros H. destruct (dint_val z H) as (_ & F). destruct x as [|[]| |]; try discriminate; auto; destruct (dint z) as [ | | |[]]; discriminate. Qed.
Lemma in_range a b x : (Z.abs a <= 2 ^ 53)%Z -> (Z.abs b <= 2 ^ 53)%Z ->
  (dle (dint a) x && dle x (dint b))%bool = true <-> is_finite x = true /\ IZR a <= B2R x <= IZR b.
Proof.
  intros Ha Hb. rewrite andb_true_iff. destruct (is_finite x) eqn:F.
  - rewrite dle_l, dle_r by auto. tauto.
  - split; [|intros (? & _); discriminate]. intros (H1 & H2). apply not_fin_dle in H2; auto. apply not_fin_dle' in H1; auto. congruence.
Qed.
Theorem C56_valid : forall g, is_valid g = true <->
  (is_finite (g_lat g) = true /\ -90 <= B2R (g_lat g) <= 90) /\ (is_finite (g_lon g) = true /\ -180 <= B2R (g_lon g) <= 360).
Proof.
  intro g. unfold is_valid. rewrite <- (in_range (-90) 90), <- (in_range (-180) 360) by lia.
  destruct (dle (dint (-90)) (g_lat g) && dle (g_lat g) (dint 90))%bool; cbn [negb]; [|intuition discriminate].
  destruct (dle (dint (-180)) (g_lon g) && dle (g_lon g) (dint 360))%bool; cbn [negb]; intuition discriminate.
Qed.
(** The default location is empty; a location is empty exactly when both
    coordinates are 444, and an empty location is never valid. *)
Theorem C56_empty :
  is_empty geo_default = true /\
  (forall g, is_empty g = true <-> (is_finite (g_lat g) = true /\ B2R (g_lat g) = 444) /\ (is_finite (g_lon g) = true /\ B2R (g_lon g) = 444)) /\
  (forall g, is_empty g = true -> is_valid g = false).
Proof.
  assert (K : forall x, deq INVALID x = true <-> is_finite x = true /\ B2R x = 444).
  { intro x. destruct (dint_val 444 ltac:(lia)) as (E & F). unfold INVALID. split.
    - intro H. assert (Fx := deq_fin_l _ _ H F). split; auto. apply deq_finite in H; auto. rewrite <- H. exact E.
    - intros (Fx & Ex). apply deq_finite; auto. rewrite E, Ex. reflexivity. }
  assert (P : forall g, is_empty g = true <-> (is_finite (g_lat g) = true /\ B2R (g_lat g) = 444) /\ (is_finite (g_lon g) = true /\ B2R (g_lon g) = 444)).
  { intro g. unfold is_empty, get_latitude, get_longitude. rewrite andb_true_iff, !K. tauto. }
  destruct (dint_val 444 ltac:(lia)) as (E & F).
  refine (conj _ (conj P _)); [apply P; cbn [geo_default g_lat g_lon]; auto|].
  intros g H. apply P in H. destruct (is_valid g) eqn:V; auto. apply C56_valid in V. lra.
Qed.
(** Setters and getters; the constructor. *)
Theorem C56_access : forall g l lat lon,
  get_latitude (set_latitude g l) = l /\ get_longitude (set_latitude g l) = get_longitude g /\
  get_longitude (set_longitude g l) = l /\ get_latitude (set_longitude g l) = get_latitude g /\
  get_latitude (geo_make lat lon) = lat /\ get_longitude (geo_make lat lon) = lon.
Proof. repeat split. Qed.
(** Equality: symmetric and transitive; reflexive exactly without NaN; between
    finite locations it is equality of the numbers (so -0 equals 0); it respects
    validity and emptiness. *)
Theorem C56_equality :
  (forall a b, geo_eq a b = geo_eq b a) /\
  (forall a b c, geo_eq a b = true -> geo_eq b c = true -> geo_eq a c = true) /\
  (forall a, geo_eq a a = true <-> is_nan (g_lat a) = false /\ is_nan (g_lon a) = false) /\
  (forall a b, is_finite (g_lat a) = true -> is_finite (g_lon a) = true -> is_finite (g_lat b) = true -> is_finite (g_lon b) = true ->
     geo_eq a b = true <-> B2R (g_lat a) = B2R (g_lat b) /\ B2R (g_lon a) = B2R (g_lon b)) /\
  (forall a b, geo_eq a b = true -> is_valid a = is_valid b /\ is_empty a = is_empty b) /\
  (forall a b, geo_ne a b = negb (geo_eq a b)).
Proof.
  unfold geo_eq, get_latitude, get_longitude. refine (conj _ (conj _ (conj _ (conj _ (conj _ _))))).
  - intros a b. rewrite (deq_sym (g_lat b)), (deq_sym (g_lon b)). reflexivity.
  - intros a b c H1 H2. apply andb_true_iff in H1, H2. apply andb_true_iff. destruct H1, H2. split; eapply deq_trans; eauto.
  - intro a. rewrite andb_true_iff, !deq_refl, !negb_true_iff. tauto.
  - intros a b F1 F2 F3 F4. rewrite andb_true_iff, !deq_finite by auto. intuition congruence.
  - intros a b H. apply andb_true_iff in H. destruct H as (H1 & H2).
    assert (E1 : forall x y, deq x y = true -> is_finite x = is_finite y /\ (is_finite x = true -> B2R x = B2R y)).
    { intros x y H. assert (H' := H). rewrite deq_sym in H'. split; [|intro F; apply deq_finite; auto; eapply deq_fin_l; eauto]. destruct (is_finite x) eqn:Fx; [symmetry; eapply deq_fin_l; eauto|]. destruct (is_finite y) eqn:Fy; auto. rewrite (deq_fin_l _ _ H' Fy) in Fx. discriminate. }
    destruct (E1 _ _ H1) as (A1 & A2), (E1 _ _ H2) as (B1 & B2). destruct C56_empty as (_ & EM & _).
    assert (BT : forall x y, (x = true <-> y = true) -> x = y) by (intros [] []; intuition congruence).
    split; apply BT; [rewrite !C56_valid|rewrite !EM]; rewrite <- A1, <- B1; split; intros ((X1 & X2) & (Y1 & Y2)); rewrite ?(A2 X1), ?(B2 Y1) in *; auto.
  - reflexivity.
Qed.
Example C56_example : is_valid (geo_make (dint 42) (dint (-73))) = true /\ is_valid (geo_make (dint 91) (dint 0)) = false /\ is_empty (geo_make (dint 444) (dint 10)) = false /\ geo_eq (geo_make B754_nan (dint 1)) (geo_make B754_nan (dint 1)) = false.
Proof. vm_compute. auto. Qed.
Print Assumptions C56_valid.
Print Assumptions C56_empty.
Print Assumptions C56_access.
Print Assumptions C56_equality.

(** ---- C79 ---- *)
Lemma fmt_decomp (x : R) : fmt x -> x <> 0 -> exists m e, x = IZR m * bpow radix2 e /\ (-1074 <= e)%Z /\ e = Z.max (mag radix2 x - 53) (-1074) /\ Rabs x < bpow radix2 (53 + e).
Proof.
  intros Fx N. exists (Ztrunc (scaled_mantissa radix2 fexp64 x)), (cexp radix2 fexp64 x). split; [exact Fx|]. unfold cexp.
  assert (E : fexp64 (mag radix2 x) = Z.max (mag radix2 x - 53) (-1074)) by reflexivity. rewrite E. split; [lia|]. split; [reflexivity|].
  apply Rlt_le_trans with (bpow radix2 (mag radix2 x)); [apply bpow_mag_gt|]. apply bpow_le. lia.
Qed.
Lemma fmt_dbl (x : dbl) : fmt (B2R x). Proof. apply generic_format_B2R. Qed.
Lemma pow_IZR (n : Z) : (0 <= n)%Z -> bpow radix2 n = IZR (2 ^ n). Proof. intro H. symmetry. apply (IZR_Zpower radix2). auto. Qed.

(** One pass of the loop is exact above -2^55. *)
Lemma step_exact (lon : dbl) : is_finite lon = true -> - bpow radix2 55 <= B2R lon < -180 ->
  B2R (dplus lon (dint 360)) = B2R lon + 360 /\ is_finite (dplus lon (dint 360)) = true.
Proof.
  intros F (Lo & Hi). set (x := B2R lon) in *. assert (N : x <> 0) by lra. destruct (fmt_decomp x (fmt_dbl lon) N) as (m & e & Ex & He & Ee & Ab).
  assert (Ax : Rabs x = - x) by (apply Rabs_left; lra).
  assert (M : (mag radix2 x <= 56)%Z). { apply mag_le_bpow; auto. rewrite Ax. apply Rle_lt_trans with (bpow radix2 55); [lra|apply bpow_lt; reflexivity]. }
  assert (E3 : (e <= 3)%Z) by lia. assert (E360 : 360 = IZR (45 * 2 ^ (3 - e)) * bpow radix2 e).
  { rewrite mult_IZR, <- pow_IZR by lia. rewrite Rmult_assoc, <- bpow_plus. replace (3 - e + e)%Z with 3%Z by lia. simpl. lra. }
  assert (Fs : fmt (x + 360)).
  { set (K := (45 * 2 ^ (3 - e))%Z) in *. replace (x + 360) with (IZR (m + K) * bpow radix2 e) by (rewrite plus_IZR; lra). apply fmt_intro; auto.
    apply le_IZR. rewrite abs_IZR. apply Rmult_le_reg_r with (bpow radix2 e); [apply bpow_gt_0|]. change (IZR (2 ^ 53)) with (bpow radix2 53). rewrite <- bpow_plus.
    assert (Pe := bpow_gt_0 radix2 e). rewrite <- (Rabs_pos_eq (bpow radix2 e)) at 1 by lra. rewrite <- Rabs_mult. replace (IZR (m + K) * bpow radix2 e) with (x + 360) by (rewrite plus_IZR; lra).
    apply Rle_trans with (Rabs x); [|lra]. rewrite Ax. apply Rabs_le. lra. }
  assert (R1 : RN (x + 360) = x + 360) by (apply round_generic; [typeclasses eauto|exact Fs]).
  destruct (dplus_val lon 360 F ltac:(lia)) as (D1 & D2); [|fold x in D1; rewrite R1 in D1; auto]. fold x. rewrite R1. apply (small_lt (2 ^ 56)); [|lia]. apply Rabs_le. change (IZR (2 ^ 56)) with (bpow radix2 56).
  assert (bpow radix2 55 <= bpow radix2 56) by (apply bpow_le; lia). assert (180 < bpow radix2 56) by (simpl; lra). lra.
Qed.
Lemma wrap_lemma : forall n (lon : dbl), is_finite lon = true -> - bpow radix2 55 <= B2R lon -> -180 - 360 * INR n <= B2R lon ->
  exists l k, wrap_up n lon = Some l /\ is_finite l = true /\ (0 <= k)%Z /\ B2R l = B2R lon + 360 * IZR k /\ -180 <= B2R l /\ (-180 <= B2R lon -> k = 0%Z) /\ (B2R lon < -180 -> B2R l < 180).
Proof.
  induction n as [|n IH]; intros lon F Lo H.
  - cbn [wrap_up]. change (INR 0) with 0 in H. assert (D : dlt lon (dint (-180)) = false). { destruct (dlt lon (dint (-180))) eqn:E; auto. apply dlt_r in E; try lia; auto. lra. }
    rewrite D. exists lon, 0%Z. repeat apply conj; auto; try lia; try (intro; exfalso; lra); lra.
  - cbn [wrap_up]. destruct (dlt lon (dint (-180))) eqn:E.
    + apply dlt_r in E; try lia; auto. destruct (step_exact lon F (conj Lo E)) as (E1 & F1). rewrite S_INR in H.
      destruct (IH (dplus lon (dint 360)) F1 ltac:(lra) ltac:(lra)) as (l & k & W & Fl & Hk & El & L1 & L2 & L3). exists l, (k + 1)%Z. rewrite plus_IZR. repeat apply conj; auto; try lia; try lra.
      intro. destruct (Rlt_le_dec (B2R (dplus lon (dint 360))) (-180)) as [A|A]; [auto|]. rewrite (L2 A) in El. lra.
    + exists lon, 0%Z. assert (~ B2R lon < -180). { intro A. apply (dlt_r (-180) lon) in A; try lia; auto. congruence. } repeat apply conj; auto; try lia; try (intro; exfalso; lra); lra.
Qed.
Lemma wrap_more : forall n m lon l, wrap_up n lon = Some l -> (n <= m)%nat -> wrap_up m lon = Some l.
Proof.
  induction n as [|n IH]; intros [|m] lon l; cbn [wrap_up]; intros H L; try lia; auto; destruct (dlt lon (dint (-180))); auto; try discriminate. apply IH; auto. lia.
Qed.

(** Dividing a double by 6 never rounds up to an integer. *)
Lemma div6 (y : R) (q : Z) : fmt y -> 0 <= y -> (1 <= q < 2 ^ 50)%Z -> y < 6 * IZR q -> RN (y / 6) < IZR q.
Proof.
  intros Fy Py Hq H. assert (Pq : 1 <= IZR q) by (apply IZR_le; lia). set (p := (mag radix2 (IZR q) : Z)).
  assert (Mq : bpow radix2 (p - 1) <= IZR q < bpow radix2 p).
  { unfold p. destruct (mag radix2 (IZR q)) as (pp & Hp). cbn [mag_val] in *. rewrite <- (Rabs_pos_eq (IZR q)) by lra. apply Hp. lra. }
  assert (Hp1 : (1 <= p)%Z). { apply (mag_ge_bpow radix2 (IZR q) 1). rewrite Rabs_pos_eq by lra. simpl. lra. }
  assert (Hp2 : (p <= 50)%Z). { apply mag_le_bpow; [lra|]. rewrite Rabs_pos_eq by lra. rewrite pow_IZR by lia. apply IZR_lt. lia. }
  set (s := bpow radix2 (p - 53)). assert (Ps : 0 < s) by apply bpow_gt_0. set (f := IZR q - s).
  assert (Ef : f = IZR (q * 2 ^ (53 - p) - 1) * s). { unfold f. rewrite minus_IZR, mult_IZR, <- pow_IZR by lia. unfold s. rewrite Rmult_minus_distr_r, Rmult_assoc, <- bpow_plus. replace (53 - p + (p - 53))%Z with 0%Z by lia. simpl. lra. }
  assert (Q53 : (q * 2 ^ (53 - p) < 2 ^ 53)%Z). { apply lt_IZR. rewrite mult_IZR, <- pow_IZR by lia. change (IZR (2 ^ 53)) with (bpow radix2 53). replace 53%Z with (p + (53 - p))%Z at 2 by lia. rewrite bpow_plus. apply Rmult_lt_compat_r; [apply bpow_gt_0|lra]. }
  assert (0 < 2 ^ (53 - p))%Z by (apply Z.pow_pos_nonneg; lia).
  assert (Ff : fmt f). { rewrite Ef. apply fmt_intro; [|lia]. nia. }
  assert (Lf : f < IZR q) by (unfold f; lra).
  destruct (Rle_lt_dec (y / 6) f) as [C|C]; [apply Rle_lt_trans with f; auto; rewrite <- (round_generic radix2 fexp64 ZnearestE f Ff); apply round_le; auto; typeclasses eauto|].
  (* y is a multiple of 4s *)
  assert (P1 : bpow radix2 (p - 1) = 4503599627370496 * s). { unfold s. replace (p - 1)%Z with (52 + (p - 53))%Z by lia. rewrite bpow_plus. simpl. lra. }
  assert (P2 : bpow radix2 (p + 1) = 4 * bpow radix2 (p - 1)). { replace (p + 1)%Z with (2 + (p - 1))%Z by lia. rewrite bpow_plus. simpl. lra. }
  assert (Ny : y <> 0). { intro E. unfold f in C. rewrite E in C. lra. }
  destruct (fmt_decomp y Fy Ny) as (m & e & Ey & He & Ee & _).
  assert (My : (p + 2 <= mag radix2 y)%Z). { apply mag_ge_bpow. rewrite Rabs_pos_eq by lra. replace (p + 2 - 1)%Z with (p + 1)%Z by lia. unfold f in C. lra. }
  assert (Ht : (p - 51 <= e)%Z) by lia. set (t := (p - 51)%Z) in *.
  assert (Ey' : y = IZR (m * 2 ^ (e - t)) * bpow radix2 t). { rewrite mult_IZR, <- pow_IZR by lia. rewrite Rmult_assoc, <- bpow_plus. replace (e - t + t)%Z with e by lia. exact Ey. }
  assert (E6 : 6 * IZR q = IZR (6 * q * 2 ^ (- t)) * bpow radix2 t). { rewrite !mult_IZR, <- pow_IZR by lia. rewrite Rmult_assoc, <- bpow_plus. replace (- t + t)%Z with 0%Z by lia. simpl. lra. }
  assert (Pt : bpow radix2 t = 4 * s). { unfold s, t. replace (p - 51)%Z with (2 + (p - 53))%Z by lia. rewrite bpow_plus. simpl. lra. }
  assert (G : 4 * s <= 6 * IZR q - y).
  { rewrite E6, Ey' in H. apply Rmult_lt_reg_r in H; [|apply bpow_gt_0]. apply lt_IZR in H. rewrite E6, Ey', <- Rmult_minus_distr_r, <- minus_IZR, <- Pt. rewrite <- (Rmult_1_l (bpow radix2 t)) at 1. apply Rmult_le_compat_r; [apply bpow_ge_0|]. apply IZR_le. lia. }
  destruct (round_N_pt radix2 fexp64 (fun x => negb (Z.even x)) (y / 6)) as (_ & Near). specialize (Near f Ff). fold (RN (y / 6)) in Near.
  assert (Up : RN (y / 6) <= IZR q). { rewrite <- (RN_int q) by lia. apply round_le; [typeclasses eauto|typeclasses eauto|lra]. }
  destruct (Rle_lt_or_eq_dec _ _ Up) as [|E]; auto. exfalso. rewrite E in Near. unfold f in *. rewrite (Rabs_left (IZR q - s - y / 6)) in Near by lra. rewrite Rabs_pos_eq in Near by lra. lra.
Qed.
Lemma Btrunc_floor (d : dbl) : 0 <= B2R d -> IZR (Btrunc d) <= B2R d < IZR (Btrunc d) + 1 /\ (0 <= Btrunc d)%Z.
Proof.
  intro H. assert (E : Btrunc d = Ztrunc (B2R d)). { apply eq_IZR. rewrite Btrunc_correct. unfold round, F2R, scaled_mantissa, cexp, FIX_exp. simpl. rewrite !Rmult_1_r. reflexivity. reflexivity. }
  rewrite E, Ztrunc_floor by auto. split; [split; [apply Zfloor_lb|apply Zfloor_ub]|]. apply Zfloor_lub. auto.
Qed.
(** The part after the loop. *)
Lemma zone_core (l : dbl) (p : Z) : is_finite l = true -> -180 <= B2R l -> (8 <= p <= 33)%Z -> B2R l + 180 < bpow radix2 p ->
  exists q, to_int (ddiv (dplus l (dint 180)) (dint 6)) = Some q /\ (0 <= q)%Z /\
    6 * IZR q <= RN (B2R l + 180) /\ B2R l + 180 < 6 * IZR q + 6 /\ 6 * IZR q - bpow radix2 (p - 54) <= B2R l + 180 /\
    ((exists m, B2R l + 180 = IZR m * bpow radix2 (p - 53)) -> 6 * IZR q <= B2R l + 180).
Proof.
  intros F Lo Hp Hi. set (x := B2R l + 180) in *.
  assert (B33 : bpow radix2 p <= 8589934592). { apply Rle_trans with (bpow radix2 33); [apply bpow_le; lia|simpl; lra]. }
  assert (Rp : RN (bpow radix2 p) = bpow radix2 p). { apply round_generic; [typeclasses eauto|]. apply generic_format_bpow. unfold SpecFloat.fexp, SpecFloat.emin. lia. }
  set (y := RN x). assert (Y0 : 0 <= y). { unfold y. rewrite <- (RN_int 0) by lia. apply round_le; try typeclasses eauto. simpl. unfold x. lra. }
  assert (Y1 : y <= bpow radix2 p). { unfold y. rewrite <- Rp. apply round_le; try typeclasses eauto. lra. }
  assert (Fy : fmt y) by (unfold y; apply generic_format_round; typeclasses eauto).
  destruct (dplus_val l 180 F ltac:(lia)) as (D1 & D2). { fold x. fold y. rewrite Rabs_pos_eq by auto. apply Rle_lt_trans with (1 := Y1). apply bpow_lt. lia. }
  fold x in D1. fold y in D1. set (d := RN (y / 6)).
  assert (Z0 : 0 <= d). { unfold d. rewrite <- (RN_int 0) by lia. apply round_le; try typeclasses eauto. simpl. lra. }
  assert (Z1 : d <= 1431655766). { unfold d. rewrite <- (RN_int 1431655766) by lia. apply round_le; try typeclasses eauto. lra. }
  destruct (ddiv_val (dplus l (dint 180)) 6 D2 ltac:(lia) ltac:(lia)) as (V1 & V2). { rewrite D1. fold d. apply (small_lt 1431655766); [rewrite Rabs_pos_eq; auto|lia]. }
  rewrite D1 in V1. fold d in V1. set (dd := ddiv (dplus l (dint 180)) (dint 6)) in *. unfold to_int. rewrite V2. destruct (Btrunc_floor dd) as ((T1 & T2) & T3); [rewrite V1; auto|]. rewrite V1 in T1, T2.
  assert (T4 : (Btrunc dd <= 1431655766)%Z) by (apply le_IZR; lra). set (q := Btrunc dd) in *.
  assert (Eb : ((- 2 ^ 31 <=? q)%Z && (q <? 2 ^ 31)%Z)%bool = true). { apply andb_true_iff. split; [apply Z.leb_le|apply Z.ltb_lt]; lia. }
  cbv zeta. fold q. rewrite Eb. exists q. split; auto. split; auto.
  assert (A1 : 6 * IZR q <= y). { destruct (Rle_lt_dec (6 * IZR q) y) as [|C]; auto. exfalso. assert (q <> 0)%Z by (intro E0; rewrite E0 in C; lra). assert (K := div6 y q Fy Y0 ltac:(lia) C). fold d in K. lra. }
  assert (A2 : x < 6 * IZR q + 6). { destruct (Rlt_le_dec x (6 * IZR q + 6)) as [|C]; auto. exfalso. replace (6 * IZR q + 6) with (IZR (6 * q + 6)) in C by (rewrite plus_IZR, mult_IZR; lra). assert (K : IZR (6 * q + 6) <= y). { unfold y. rewrite <- (RN_int (6 * q + 6)) by lia. apply round_le; try typeclasses eauto. auto. }
    rewrite plus_IZR, mult_IZR in K. assert (K2 : IZR (q + 1) <= d). { unfold d. rewrite <- (RN_int (q + 1)) by lia. apply round_le; try typeclasses eauto. rewrite plus_IZR. lra. } rewrite plus_IZR in K2. lra. }
  split; auto. split; auto. split.
  - assert (Er : Rabs (y - x) <= bpow radix2 (p - 54)).
    { destruct (Req_dec x 0) as [E0|N]; [unfold y; rewrite E0, round_0 by typeclasses eauto; rewrite Rminus_0_r, Rabs_R0; apply bpow_ge_0|].
      unfold y. apply Rle_trans with (/ 2 * ulp radix2 fexp64 x); [apply error_le_half_ulp; typeclasses eauto|]. rewrite ulp_neq_0 by auto.
      replace (p - 54)%Z with (-1 + (p - 53))%Z by lia. rewrite bpow_plus. change (bpow radix2 (-1)) with (/ 2). apply Rmult_le_compat_l; [lra|]. apply bpow_le. unfold cexp.
      assert (M : (mag radix2 x <= p)%Z) by (apply mag_le_bpow; auto; rewrite Rabs_pos_eq; unfold x in *; lra). change (Z.max (mag radix2 x - 53) (-1074) <= p - 53)%Z. lia. }
    apply Rabs_le_inv in Er. lra.
  - intros (m & Em). assert (Y : y = x). { unfold y. apply round_generic; [typeclasses eauto|]. rewrite Em. apply fmt_intro; [|lia]. apply le_IZR. rewrite abs_IZR. apply Rmult_le_reg_r with (bpow radix2 (p - 53)); [apply bpow_gt_0|]. change (IZR (2 ^ 53)) with (bpow radix2 53). rewrite <- bpow_plus. replace (53 + (p - 53))%Z with p by lia.
      rewrite <- (Rabs_pos_eq (bpow radix2 (p - 53))) at 1 by apply bpow_ge_0. rewrite <- Rabs_mult, <- Em, Rabs_pos_eq; unfold x in *; lra. }
    rewrite Y in A1. exact A1.
Qed.

(** C79: for every longitude of at least -2^55 and below 2^p - 180 (p up to 33),
    the loop ends and the answer is a zone z between 1 and 60 such that, up to
    whole turns, the longitude lies in the 6 degree strip of zone z; the lower
    edge of the strip is blurred by the rounding of [lon + 180], at most 2^(p-54)
    (2^-45 degrees for longitudes below 180, p = 9), and not at all when the
    longitude is a multiple of 2^(p-53). *)
Theorem C79_zone : forall (lat lon : dbl) (p : Z), is_finite lon = true -> (9 <= p <= 33)%Z -> - bpow radix2 55 <= B2R lon -> B2R lon + 180 < bpow radix2 p ->
  exists n z k, (forall fuel, (n <= fuel)%nat -> latlon_zone fuel lat lon = Some (Zone z)) /\ (1 <= z <= 60)%Z /\
    -180 + 6 * (IZR z - 1) - bpow radix2 (p - 54) <= B2R lon + 360 * IZR k < -180 + 6 * IZR z /\
    ((exists m, B2R lon = IZR m * bpow radix2 (p - 53)) -> -180 + 6 * (IZR z - 1) <= B2R lon + 360 * IZR k).
Proof.
  intros lat lon p F Hp Lo Hi. assert (B9 : 512 <= bpow radix2 p). { apply Rle_trans with (bpow radix2 9); [simpl; lra|apply bpow_le; lia]. }
  set (n := Z.to_nat (up (- B2R lon) + 1)). assert (Hn : -180 - 360 * INR n <= B2R lon).
  { destruct (archimed (- B2R lon)) as (A & _). assert (- B2R lon <= INR n). { unfold n. destruct (Z_le_gt_dec 0 (up (- B2R lon) + 1)) as [C|C]; [rewrite INR_IZR_INZ, Z2Nat.id, plus_IZR by lia; lra|]. assert (IZR (up (- B2R lon)) <= IZR (-1)) by (apply IZR_le; lia). assert (0 <= INR (Z.to_nat (up (- B2R lon) + 1))) by apply pos_INR. simpl in H. lra. } assert (0 <= INR n) by apply pos_INR. lra. }
  destruct (wrap_lemma n lon F Lo Hn) as (l & k1 & W & Fl & Hk & El & L1 & L2 & L3).
  assert (Hl : B2R l + 180 < bpow radix2 p). { destruct (Rlt_le_dec (B2R lon) (-180)) as [A|A]; [specialize (L3 A); lra|]. rewrite (L2 A) in El. lra. }
  destruct (zone_core l p Fl L1 ltac:(lia) Hl) as (q & T & Q0 & _ & Q2 & Q3 & Q4).
  exists n, (Z.rem q 60 + 1)%Z, (k1 - Z.quot q 60)%Z. assert (QR := Z.quot_rem' q 60). assert (RB := Z.rem_bound_pos q 60 ltac:(lia) ltac:(lia)).
  split; [intros fuel Hf; unfold latlon_zone; rewrite (wrap_more _ _ _ _ W Hf), T; reflexivity|]. split; [lia|].
  assert (EQ : IZR q = 60 * IZR (Z.quot q 60) + IZR (Z.rem q 60)) by (rewrite <- mult_IZR, <- plus_IZR, <- QR; reflexivity).
  rewrite minus_IZR, plus_IZR. split; [lra|]. intros (m & Em).
  assert (X : 6 * IZR q <= B2R l + 180); [|lra]. apply Q4. set (c := (360 * k1 + 180)%Z).
  destruct (Z_le_gt_dec (p - 53) 0) as [C|C]; [|lia]. exists (m + c * 2 ^ (53 - p))%Z. rewrite plus_IZR, mult_IZR, <- pow_IZR by lia. rewrite Rmult_plus_distr_r, <- Em, Rmult_assoc, <- bpow_plus. replace (53 - p + (p - 53))%Z with 0%Z by lia. unfold c. rewrite plus_IZR, mult_IZR. simpl (bpow radix2 0). lra.
Qed.
Print Assumptions C79_zone.

(** Below -2^62, and for -infinity, adding 360 changes nothing and the loop never ends. *)
Lemma stuck (x : R) : fmt x -> x < - bpow radix2 62 -> RN (x + 360) = x.
Proof.
  intros Fx H. assert (B62 : bpow radix2 62 = 4611686018427387904) by (simpl; lra). assert (N : x <> 0) by lra.
  assert (Mul : forall z, fmt z -> z < - bpow radix2 62 -> exists m, z = IZR (1024 * m)).
  { intros z Fz Hz. destruct (fmt_decomp z Fz ltac:(lra)) as (m & e & Ez & _ & Ee & _). assert (63 <= mag radix2 z)%Z by (apply mag_ge_bpow; rewrite Rabs_left by lra; simpl; simpl in Hz; lra).
    exists (m * 2 ^ (e - 10))%Z. rewrite Ez, !mult_IZR, <- pow_IZR by lia. replace e with (10 + (e - 10))%Z at 1 by lia. rewrite bpow_plus. simpl (bpow radix2 10). lra. }
  destruct (Mul x Fx H) as (m & Em). set (f := RN (x + 360)). assert (Ff : fmt f) by (apply generic_format_round; typeclasses eauto).
  assert (L : x <= f). { rewrite <- (round_generic radix2 fexp64 ZnearestE x Fx). apply round_le; try typeclasses eauto. lra. }
  destruct (round_N_pt radix2 fexp64 (fun x => negb (Z.even x)) (x + 360)) as (_ & Near). specialize (Near x Fx). fold (RN (x + 360)) in Near. fold f in Near.
  replace (x - (x + 360)) with (-360) in Near by ring. rewrite (Rabs_left (-360)) in Near by lra. apply Rabs_le_inv in Near.
  assert (Hm : (1024 * m < - 2 ^ 62)%Z). { apply lt_IZR. rewrite <- Em, opp_IZR. change (IZR (2 ^ 62)) with (bpow radix2 62). exact H. }
  assert (Hx : x <= -4611686018427388928). { rewrite Em. apply IZR_le. lia. }
  destruct (Mul f Ff ltac:(lra)) as (mf & Ef). rewrite Ef, Em in *. f_equal. assert (Hu : IZR (1024 * mf) <= IZR (1024 * m + 720)) by (rewrite plus_IZR; lra). apply le_IZR in L. apply le_IZR in Hu. lia.
Qed.
Theorem C79_diverges : forall (lat lon : dbl), lon = B754_infinity true \/ (is_finite lon = true /\ B2R lon < - bpow radix2 62) ->
  forall fuel, latlon_zone fuel lat lon = None.
Proof.
  intros lat lon H fuel. unfold latlon_zone. assert (W : wrap_up fuel lon = None); [|rewrite W; reflexivity]. destruct H as [->|(F & H)].
  - assert (E : dlt (B754_infinity true) (dint (-180)) = true) by reflexivity. assert (E2 : dplus (B754_infinity true) (dint 360) = B754_infinity true) by reflexivity.
    induction fuel as [|n IH]; cbn [wrap_up]; rewrite E; [reflexivity|]; rewrite E2; exact IH.
  - revert lon F H. assert (B62 : bpow radix2 62 = 4611686018427387904) by (simpl; lra). induction fuel as [|n IH]; intros lon F H; cbn [wrap_up]; (assert (D : dlt lon (dint (-180)) = true) by (apply dlt_r; auto; try lia; lra)); rewrite D; auto.
    assert (R1 := stuck _ (fmt_dbl lon) H). destruct (dplus_val lon 360 F ltac:(lia)) as (E1 & F1); [rewrite R1; apply abs_B2R_lt_emax|]. rewrite R1 in E1. apply IH; auto. rewrite E1. exact H.
Qed.
(** NaN, +infinity and longitudes from 6 * 2^31 - 180 on: undefined behaviour. *)
Theorem C79_undefined : forall (lat lon : dbl) fuel, lon = B754_nan \/ lon = B754_infinity false \/ (is_finite lon = true /\ 6 * bpow radix2 31 - 180 <= B2R lon) -> latlon_zone fuel lat lon = Some ZUB.
Proof.
  intros lat lon fuel [->|[->|(F & H)]]; [destruct fuel; reflexivity|destruct fuel; reflexivity|].
  assert (B31 : bpow radix2 31 = 2147483648) by (simpl; lra).
  assert (W : wrap_up fuel lon = Some lon). { assert (D : dlt lon (dint (-180)) = false). { destruct (dlt lon (dint (-180))) eqn:E; auto. apply dlt_r in E; auto; try lia. lra. } destruct fuel; cbn [wrap_up]; rewrite D; reflexivity. }
  unfold latlon_zone. rewrite W. assert (T : to_int (ddiv (dplus lon (dint 180)) (dint 6)) = None); [|rewrite T; reflexivity]. unfold to_int.
  destruct (is_finite (ddiv (dplus lon (dint 180)) (dint 6))) eqn:Fd; auto. cbv zeta.
  set (x := B2R lon + 180). set (y := RN x). assert (Y1 : IZR 12884901888 <= y). { unfold y. rewrite <- (RN_int 12884901888) by lia. apply round_le; try typeclasses eauto. unfold x. lra. }
  destruct (dint_val 180 ltac:(lia)) as (E180 & F180). destruct (dint_val 6 ltac:(lia)) as (E6 & F6).
  assert (Fs : is_finite (dplus lon (dint 180)) = true).
  { destruct (dplus lon (dint 180)) as [|s| |] eqn:E; auto; unfold ddiv in Fd; destruct (dint 6); try discriminate; exfalso; cbn in Fd; discriminate. }
  assert (Ys : B2R (dplus lon (dint 180)) = y).
  { generalize (Bplus_correct 53 1024 _ _ mode_NE lon (dint 180) F F180). rewrite E180. cbn [round_mode]. fold x. fold y. destruct (Rlt_bool_spec (Rabs y) (bpow radix2 1024)); [tauto|]. fold (dplus lon (dint 180)). intros (K & _). rewrite <- is_finite_SF_B2SF in Fs. rewrite K in Fs. discriminate. }
  assert (Yd : B2R (ddiv (dplus lon (dint 180)) (dint 6)) = RN (y / 6)).
  { generalize (Bdiv_correct 53 1024 _ _ mode_NE (dplus lon (dint 180)) (dint 6)). rewrite E6, Ys. intro K. specialize (K ltac:(lra)). cbn [round_mode] in K. fold (ddiv (dplus lon (dint 180)) (dint 6)) in K. destruct (Rlt_bool_spec (Rabs (RN (y / 6))) (bpow radix2 1024)); [tauto|]. rewrite <- is_finite_SF_B2SF in Fd. rewrite K in Fd. discriminate. }
  assert (Dl : IZR 2147483648 <= RN (y / 6)). { rewrite <- (RN_int 2147483648) by lia. apply round_le; try typeclasses eauto. lra. }
  set (dd := ddiv (dplus lon (dint 180)) (dint 6)) in *. destruct (Btrunc_floor dd) as ((T1 & T2) & T3); [rewrite Yd; lra|]. rewrite Yd in T2.
  assert (2147483648 < Btrunc dd + 1)%Z by (apply lt_IZR; rewrite plus_IZR; lra). destruct (Z.ltb_spec (Btrunc dd) (2 ^ 31)); [lia|]. rewrite andb_false_r. reflexivity.
Qed.
Print Assumptions C79_diverges.
Print Assumptions C79_undefined.
(** The blur is real: a longitude just west of Greenwich is put in zone 31, and
    the last longitude before 180 in zone 1. *)
Definition just_west : dbl := @B754_finite 53 1024 true 4503599627370496 (-112) eq_refl.
Definition before_180 : dbl := @B754_finite 53 1024 false 6333186975989759 (-45) eq_refl.
Theorem C79_exact_strip_refuted : forall lat,
  B2R just_west = - bpow radix2 (-60) /\ latlon_zone 0 lat just_west = Some (Zone 31) /\
  B2R before_180 = 180 - bpow radix2 (-45) /\ latlon_zone 0 lat before_180 = Some (Zone 1).
Proof. intro lat. repeat apply conj; [unfold just_west, B2R, F2R; simpl; lra|vm_compute; reflexivity|unfold before_180, B2R, F2R; simpl; lra|vm_compute; reflexivity]. Qed.
Print Assumptions C79_exact_strip_refuted.
Example C79_example : latlon_zone 0 (dint 42) (dint (-73)) = Some (Zone 18) /\ latlon_zone 5 (dint 0) (dint (-1000)) = Some (Zone 44) /\ is_finite (dint (-1000)) = true.
Proof. vm_compute. auto. Qed.
