(** ProcTimeProps.v -- C138: times and timeouts of a process. *)
From Coq Require Import ZArith Reals Bool Lia Lra.
From Flocq Require Import Core.Core IEEE754.BinarySingleNaN.
From Verif Require Import GeoModel GeoProofs ProcTimeModel ProcTimeSpec.
Open Scope Z_scope.

Lemma trunc_val (x : dbl) : IZR (Btrunc x) = IZR (Ztrunc (B2R x)).
Proof.
  assert (H : (IZR (Btrunc x) = round radix2 (FIX_exp 0) Ztrunc (B2R x))%R) by (apply Btrunc_correct; reflexivity).
  rewrite H. unfold round, F2R, scaled_mantissa, cexp, FIX_exp. cbn [Fnum Fexp]. change (bpow radix2 0) with 1%R. change (bpow radix2 (-0)) with 1%R. now rewrite !Rmult_1_r.
Qed.
Lemma trunc_eq (x : dbl) : Btrunc x = Ztrunc (B2R x). Proof. apply eq_IZR, trunc_val. Qed.
(** The integral part of a double is a double, and so is what remains. *)
Lemma frac_fmt (x : R) : fmt x -> (0 <= x)%R -> fmt (IZR (Zfloor x)) /\ fmt (x - IZR (Zfloor x))%R.
Proof.
  intros F P. rewrite fexp64_FLT in F. apply FLT_format_generic in F; [|reflexivity]. destruct F as [[m e] E MB EB]. cbn [Fnum Fexp] in MB, EB. unfold F2R in E. cbn [Fnum Fexp] in E.
  change (radix2 ^ 53) with (2 ^ 53) in MB. assert (M0 : 0 <= m). { apply le_IZR. apply (Rmult_le_reg_r (bpow radix2 e)); [apply bpow_gt_0|]. rewrite <- E, Rmult_0_l. exact P. }
  destruct (Z_le_gt_dec 0 e) as [E0|E0].
  - assert (X : x = IZR (m * 2 ^ e)). { rewrite E, mult_IZR. f_equal. rewrite <- (IZR_Zpower radix2 e E0). reflexivity. }
    rewrite X, Zfloor_IZR, Rminus_diag_eq by reflexivity. split; [|apply generic_format_0]. rewrite <- X, E. apply fmt_intro; lia.
  - set (k := - e). assert (K : 0 < k) by (unfold k; lia). assert (BE : (bpow radix2 e * IZR (2 ^ k) = 1)%R).
    { change 2 with (radix_val radix2). rewrite IZR_Zpower by lia. rewrite <- bpow_plus. unfold k. replace (e + - e) with 0 by lia. reflexivity. }
    assert (FL : Zfloor x = m / 2 ^ k).
    { apply Zfloor_imp. pose proof (Z.div_mod m (2 ^ k) ltac:(apply Z.pow_nonzero; lia)) as DM. pose proof (Z.mod_pos_bound m (2 ^ k) ltac:(apply Z.pow_pos_nonneg; lia)) as MP.
      rewrite E. pose proof (bpow_gt_0 radix2 e) as BP. split; apply (Rmult_le_reg_r (IZR (2 ^ k))) || apply (Rmult_lt_reg_r (IZR (2 ^ k))); try (apply IZR_lt, Z.pow_pos_nonneg; lia);
        rewrite Rmult_assoc, BE, Rmult_1_r, <- mult_IZR; [apply IZR_le|apply IZR_lt]; lia. }
    rewrite FL. pose proof (Z.div_mod m (2 ^ k) ltac:(apply Z.pow_nonzero; lia)) as DM. pose proof (Z.mod_pos_bound m (2 ^ k) ltac:(apply Z.pow_pos_nonneg; lia)) as MP.
    assert (DV : 0 <= m / 2 ^ k <= m). { split; [apply Z.div_pos; lia|]. apply Z.div_le_upper_bound; [lia|]. nia. }
    split; [apply fmt_int; lia|].
    replace (x - IZR (m / 2 ^ k))%R with (IZR (m mod 2 ^ k) * bpow radix2 e)%R.
    + apply fmt_intro; [|exact EB]. pose proof (Z.mod_le m (2 ^ k) M0 ltac:(apply Z.pow_pos_nonneg; lia)). lia.
    + rewrite E. apply (Rmult_eq_reg_r (IZR (2 ^ k))); [|apply not_0_IZR, Z.pow_nonzero; lia]. rewrite Rmult_minus_distr_r, !Rmult_assoc, BE, !Rmult_1_r, <- mult_IZR, <- minus_IZR. f_equal. lia.
Qed.
Lemma dint_fmt z : fmt (IZR z) -> Z.abs z <= 2 ^ 62 * 2 -> B2R (dint z) = IZR z /\ is_finite (dint z) = true.
Proof.
  intros F H. unfold dint. generalize (binary_normalize_correct 53 1024 dbl_prec_gt_0 dbl_prec_lt_emax mode_NE z 0 false). cbv zeta.
  assert (E : F2R (Float radix2 z 0) = IZR z) by (unfold F2R; simpl; ring). rewrite E. cbn [round_mode]. rewrite round_generic; [|typeclasses eauto|exact F].
  rewrite Rlt_bool_true; [tauto|]. rewrite <- abs_IZR. apply Rle_lt_trans with (IZR (2 ^ 63)); [apply IZR_le; lia|]. change (IZR (2 ^ 63)) with (bpow radix2 63). apply bpow_lt. reflexivity.
Qed.
Lemma ulp_20 x : (0 <= x < 1048576)%R -> (Rabs (RN x - x) <= bpow radix2 (-34))%R.
Proof.
  intros (P & B). pose proof (error_le_half_ulp radix2 fexp64 (fun z => negb (Z.even z)) x) as H. apply Rle_trans with (1 := H).
  assert (U : (ulp radix2 fexp64 x <= bpow radix2 (-33))%R).
  { apply Rle_trans with (ulp radix2 fexp64 (bpow radix2 19)).
    - destruct (Rle_or_lt x (bpow radix2 19)) as [L|L].
      + apply ulp_le; [typeclasses eauto| |]; [rewrite fexp64_FLT; apply FLT_exp_monotone|rewrite !Rabs_pos_eq; [exact L|apply bpow_ge_0|exact P]].
      + right. pose proof (bpow_gt_0 radix2 19) as BP. unfold ulp. rewrite !Req_bool_false by (try (apply Rgt_not_eq, bpow_gt_0); lra). f_equal. unfold cexp. f_equal.
        rewrite mag_bpow. apply mag_unique. rewrite Rabs_pos_eq by exact P. split; [change (19 + 1 - 1) with 19; lra|]. change (bpow radix2 (19 + 1)) with 1048576%R. exact B.
    - rewrite ulp_bpow. right. reflexivity. }
  replace (bpow radix2 (-34)) with (/ 2 * bpow radix2 (-33))%R; [apply Rmult_le_compat_l; [lra|exact U]|]. change (-34) with (-1 + -33). rewrite bpow_plus. reflexivity.
Qed.

Lemma Ztrunc_range x : (0 <= x)%R -> (IZR (Ztrunc x) <= x < IZR (Ztrunc x) + 1)%R.
Proof. intro P. rewrite Ztrunc_floor by exact P. split; [apply Zfloor_lb|apply Zfloor_ub]. Qed.
(** C138.  Any number of seconds from 0 to below 2^63 becomes a time with less than
    a million microseconds, as long as the number says; beyond that the conversion
    is undefined. *)
Theorem C138_from_double (d : dbl) : is_finite d = true -> (0 <= B2R d)%R ->
  if Rlt_bool (B2R d) (bpow radix2 63) then exists t, time_from_double d = Some t /\ normal t /\ 0 <= sec t /\ lasts t (B2R d) else time_from_double d = None.
Proof.
  intros F P. set (x := B2R d) in *. assert (FX : fmt x) by apply generic_format_B2R. pose proof (Ztrunc_range x P) as TR. unfold time_from_double.
  assert (TL : to_long d = if (- 2 ^ 63 <=? Ztrunc x) && (Ztrunc x <? 2 ^ 63) then Some (Ztrunc x) else None) by (unfold to_long; rewrite F, trunc_eq; reflexivity). rewrite TL. clear TL.
  set (s := Ztrunc x) in *. assert (S0 : 0 <= s). { unfold s. rewrite Ztrunc_floor by exact P. apply Zfloor_lub. exact P. }
  destruct (Rlt_bool_spec x (bpow radix2 63)) as [B|B]; change (bpow radix2 63) with (IZR (2 ^ 63)) in B.
  2:{ replace ((- 2 ^ 63 <=? s) && (s <? 2 ^ 63)) with false; [reflexivity|]. symmetry. apply andb_false_iff. right. apply Z.ltb_ge. unfold s. rewrite Ztrunc_floor by exact P. apply Zfloor_lub. exact B. }
  assert (S1 : s < 2 ^ 63). { apply lt_IZR. lra. }
  replace ((- 2 ^ 63 <=? s) && (s <? 2 ^ 63)) with true by (symmetry; apply andb_true_iff; split; [apply Z.leb_le|apply Z.ltb_lt]; lia).
  destruct (frac_fmt x FX P) as (FS & FF). rewrite <- Ztrunc_floor in FS, FF by exact P. fold s in FS, FF.
  destruct (dint_fmt s FS ltac:(lia)) as (DS & DF). set (f := (x - IZR s)%R) in *. assert (F0 : (0 <= f < 1)%R) by (unfold f; lra).
  assert (FM : B2R (Bminus mode_NE d (dint s)) = f /\ is_finite (Bminus mode_NE d (dint s)) = true).
  { generalize (Bminus_correct 53 1024 _ _ mode_NE d (dint s) F DF). rewrite DS. fold x. fold f. cbn [round_mode]. rewrite round_generic by (try typeclasses eauto; exact FF).
    rewrite Rlt_bool_true; [tauto|]. apply (small_lt 1); [rewrite Rabs_pos_eq; lra|lia]. }
  destruct FM as (M1 & M2). destruct (dint_val 1000000 ltac:(lia)) as (C1 & C2).
  (** below 1 there is room: f <= 1 - 2^-53 *)
  assert (F1 : (f <= 1 - bpow radix2 (-53))%R).
  { pose proof FF as G. rewrite fexp64_FLT in G. assert (H : (f <= pred radix2 (FLT_exp (-1074) 53) 1)%R).
    { apply pred_ge_gt; [apply FLT_exp_valid; reflexivity|exact G| |lra]. rewrite <- fexp64_FLT. apply (fmt_int 1). lia. }
    apply Rle_trans with (1 := H). right. change 1%R with (bpow radix2 0) at 1. rewrite pred_bpow. reflexivity. }
  set (y := (f * 1000000)%R). assert (Y0 : (0 <= y < 1048576)%R) by (unfold y; lra). pose proof (ulp_20 y Y0) as U. apply Rabs_def2b in U || apply Rabs_le_inv in U.
  set (r := RN y) in *. assert (R0 : (0 <= r)%R). { unfold r. rewrite <- (round_0 radix2 fexp64 ZnearestE). apply round_le; [typeclasses eauto|typeclasses eauto|apply Y0]. }
  assert (B34 : (bpow radix2 (-34) = 1 / 2 ^ 34)%R). { change (bpow radix2 (-34)) with (/ IZR (2 ^ 34))%R. unfold Rdiv. rewrite Rmult_1_l. f_equal. lra. }
  assert (B53 : (bpow radix2 (-53) = / 524288 * bpow radix2 (-34))%R). { change (-53) with (-19 + -34). rewrite bpow_plus. reflexivity. }
  assert (R1 : (r < 1000000)%R). { unfold y in *. pose proof (bpow_gt_0 radix2 (-34)). lra. }
  assert (MM : B2R (Bmult mode_NE (Bminus mode_NE d (dint s)) (dint 1000000)) = r /\ is_finite (Bmult mode_NE (Bminus mode_NE d (dint s)) (dint 1000000)) = true).
  { generalize (Bmult_correct 53 1024 _ _ mode_NE (Bminus mode_NE d (dint s)) (dint 1000000)). rewrite M1, C1, M2, C2. cbn [round_mode]. fold y. fold r.
    rewrite Rlt_bool_true; [cbn [andb]; tauto|]. apply (small_lt 1000000); [rewrite Rabs_pos_eq; lra|lia]. }
  destruct MM as (Q1 & Q2). unfold to_long. rewrite Q2, trunc_eq, Q1. pose proof (Ztrunc_range r R0) as TU. set (u := Ztrunc r) in *.
  assert (U0 : 0 <= u). { unfold u. rewrite Ztrunc_floor by exact R0. apply Zfloor_lub. exact R0. }
  assert (U1 : u < 1000000). { apply lt_IZR. lra. }
  replace ((- 2 ^ 63 <=? u) && (u <? 2 ^ 63)) with true by (symmetry; apply andb_true_iff; split; [apply Z.leb_le|apply Z.ltb_lt]; lia).
  exists (Time s u). split; [reflexivity|]. split; [unfold normal; cbn; lia|]. split; [exact S0|]. unfold lasts, micro. cbn [sec usec]. rewrite plus_IZR, mult_IZR, <- B34. unfold y, f in *. lra.
Qed.
Print Assumptions C138_from_double.

(** C138.  Adding and subtracting times is exact; a difference of gettimeofday's
    times is again such a time; comparison is that of the numbers of microseconds
    except that a sum can be equal to, and yet come before, a time. *)
Theorem C138_arithmetic (a b : ptime) :
  micro (time_add a b) = micro a + micro b /\ micro (time_subtract a b) = micro a - micro b /\
  (normal a -> normal b -> nearly (time_add a b) /\ normal (time_subtract a b) /\ time_less a b = (micro a <? micro b)) /\
  (nearly a -> nearly b -> (micro a < micro b -> time_less a b = true) /\ (time_less a b = true -> micro a <= micro b)).
Proof.
  destruct a as [s u], b as [s' u']. unfold time_add, time_subtract, time_less, normal, nearly, micro. cbn [sec usec]. split; [|split; [|split]].
  - destruct (Z.ltb_spec 1000000 (u + u')); cbn [sec usec]; lia.
  - destruct (Z.ltb_spec (u - u') 0); cbn [sec usec]; lia.
  - intros A B. split; [destruct (Z.ltb_spec 1000000 (u + u')); cbn [sec usec]; lia|]. split; [destruct (Z.ltb_spec (u - u') 0); cbn [sec usec]; lia|].
    destruct (Z.ltb_spec s s'), (Z.eqb_spec s s'), (Z.ltb_spec u u'), (Z.ltb_spec (s * 1000000 + u) (s' * 1000000 + u')); cbn [orb andb]; try reflexivity; exfalso; lia.
  - intros A B. destruct (Z.ltb_spec s s'), (Z.eqb_spec s s'), (Z.ltb_spec u u'); cbn [orb andb]; split; intro; try reflexivity; try discriminate; try lia; exfalso; lia.
Qed.
(** C138.  A sum of two such times need not be one: the test is [> 1000000]. *)
Theorem C138_add_normal_refuted : ~ forall a b, normal a -> normal b -> normal (time_add a b).
Proof. intro H. specialize (H (Time 5 500000) (Time 0 500000)). unfold normal, time_add in H. cbn in H. lia. Qed.

Lemma nearly_add a b : normal a -> normal b -> nearly (time_add a b). Proof. intros A B. apply (proj1 (proj2 (proj2 (C138_arithmetic a b)))); assumption. Qed.
Lemma add_micro a b : micro (time_add a b) = micro a + micro b. Proof. apply C138_arithmetic. Qed.
Lemma add_sec a b : normal a -> normal b -> 0 <= sec a -> 0 <= sec b -> 0 <= sec (time_add a b).
Proof. intros A B SA SB. unfold time_add. destruct (Z.ltb_spec 1000000 (usec a + usec b)); cbn [sec]; lia. Qed.
(** A number of seconds the conversion can handle. *)
Definition duration (d : dbl) : Prop := is_finite d = true /\ (0 <= B2R d < bpow radix2 63)%R.
Lemma from_duration d : duration d -> exists t, time_from_double d = Some t /\ normal t /\ 0 <= sec t /\ lasts t (B2R d).
Proof. intros (F & P & B). pose proof (C138_from_double d F P) as H. rewrite Rlt_bool_true in H by exact B. exact H. Qed.
Definition clock (t : ptime) : Prop := normal t /\ 0 <= sec t.

(** The calls of GetTimeoutTime during one execution. *)
Fixpoint timeout_calls (c : deadlines) (calls : list (option dbl * ptime)) : option (list (ptime * bool)) :=
  match calls with
  | nil => Some nil
  | cons (user, now) r =>
      match get_timeout_time c user now with
      | Some (c, t, b) => match timeout_calls c r with Some l => Some (cons (t, b) l) | None => None end
      | None => None
      end
  end.
(** What one call must answer, given the process's deadline in microseconds. *)
Definition answer (deadline : option Z) (call : option dbl * ptime) (tb : ptime * bool) : Prop :=
  let (user, now) := call in let (t, b) := tb in
  match user, deadline with
  | None, None => sec t < 0 /\ b = false
  | None, Some m => micro t = m /\ 0 <= sec t /\ nearly t /\ b = false
  | Some u, None => 0 <= sec t /\ nearly t /\ b = true /\ exists l, lasts l (B2R u) /\ micro t = micro now + micro l
  | Some u, Some m => 0 <= sec t /\ nearly t /\ exists l, lasts l (B2R u) /\ micro t = Z.min m (micro now + micro l) /\
      (b = true -> micro now + micro l <= m) /\ (b = false -> m <= micro now + micro l)
  end.
(** C138.  A process started with a timeout has one deadline -- start plus timeout
    if that is positive, otherwise none --, the same however often and whenever it
    is asked for; each wait ends at the earlier of it and the caller's own, and the
    answer says whose that is. *)
Theorem C138_deadline (timeout : dbl) (start : ptime) (calls : list (option dbl * ptime)) : duration timeout -> clock start ->
  (forall u n, List.In (Some u, n) calls -> duration u) -> (forall u n, List.In (u, n) calls -> clock n) ->
  exists deadline res, timeout_calls (started timeout start) calls = Some res /\ List.Forall2 (answer deadline) calls res /\
    match deadline with
    | None => B2R timeout = 0%R
    | Some m => (0 < B2R timeout)%R /\ exists l, lasts l (B2R timeout) /\ m = micro start + micro l
    end.
Proof.
  intros DT CS CU CN. destruct (from_duration timeout DT) as (l & TL & NL & SL & LL). set (D := time_add start l).
  assert (ND : nearly D) by (apply nearly_add; [apply CS|exact NL]). assert (SD : 0 <= sec D) by (apply add_sec; [apply CS|exact NL|apply CS|exact SL]).
  assert (LT : dlt (dint 0) timeout = true <-> (0 < B2R timeout)%R).
  { destruct DT as (F & _). destruct (dint_val 0 ltac:(lia)) as (E & F'). unfold dlt. rewrite Bltb_correct by auto. rewrite E. destruct (Rlt_bool_spec 0 (B2R timeout)); split; intro; auto; try discriminate. lra. }
  destruct (dlt (dint 0) timeout) eqn:DL.
  - exists (Some (micro D)). assert (PT : (0 < B2R timeout)%R) by (apply LT; reflexivity).
    assert (GEN : forall cs c, (c = started timeout start \/ c = Deadlines timeout start D) -> (forall u n, List.In (Some u, n) cs -> duration u) -> (forall u n, List.In (u, n) cs -> clock n) ->
      exists res, timeout_calls c cs = Some res /\ List.Forall2 (answer (Some (micro D))) cs res).
    { induction cs as [|[user now] cs IH]; intros c C U N; cbn [timeout_calls].
      - exists nil. split; [reflexivity|constructor].
      - assert (G : exists t b, get_timeout_time c user now = Some (Deadlines timeout start D, t, b) /\ answer (Some (micro D)) (user, now) (t, b)).
        { unfold get_timeout_time. assert (CC : (if dlt (dint 0) (d_timeout c) && (sec (d_deadline c) <? 0) then match time_from_double (d_timeout c) with Some l0 => Some (Deadlines (d_timeout c) (d_start c) (time_add (d_start c) l0)) | None => None end else Some c) = Some (Deadlines timeout start D)).
          { destruct C as [C|C]; subst c; cbn [started d_timeout d_deadline d_start sec]; rewrite DL; cbn [andb].
            - change (-1 <? 0) with true. cbn [andb]. rewrite TL. reflexivity.
            - replace (sec D <? 0) with false by (symmetry; apply Z.ltb_ge; exact SD). reflexivity. }
          rewrite CC. cbn [d_deadline]. destruct user as [u|].
          - destruct (from_duration u (U u now (or_introl eq_refl))) as (lu & TU & NU & SU & LU). rewrite TU. pose proof (N _ now (or_introl eq_refl)) as (NN & SN).
            replace (sec D <? 0) with false by (symmetry; apply Z.ltb_ge; exact SD). cbn [orb]. assert (NA : nearly (time_add now lu)) by (apply nearly_add; assumption).
            pose proof (proj2 (proj2 (proj2 (C138_arithmetic (time_add now lu) D))) NA ND) as (L1 & L2). rewrite add_micro in L1, L2. destruct (time_less (time_add now lu) D) eqn:TLS.
            + eexists _, _. split; [reflexivity|]. cbn [answer]. specialize (L2 eq_refl). split; [apply add_sec; assumption|]. split; [exact NA|]. exists lu. split; [exact LU|]. rewrite add_micro. split; [lia|]. split; [intros _; exact L2|discriminate].
            + eexists _, _. split; [reflexivity|]. cbn [answer]. assert (L3 : micro D <= micro now + micro lu). { destruct (Z_lt_le_dec (micro now + micro lu) (micro D)) as [Q|Q]; [apply L1 in Q; discriminate|exact Q]. }
              split; [exact SD|]. split; [exact ND|]. exists lu. split; [exact LU|]. split; [lia|]. split; [discriminate|intros _; exact L3].
          - eexists _, _. split; [reflexivity|]. cbn [answer]. auto. }
        destruct G as (t & b & G & A). rewrite G. destruct (IH (Deadlines timeout start D)) as (res & R & FR); [now right|intros u n I; apply (U u n); now right|intros u n I; apply (N u n); now right|].
        rewrite R. exists (cons (t, b) res). split; [reflexivity|]. constructor; assumption. }
    destruct (GEN calls (started timeout start) (or_introl eq_refl) CU CN) as (res & R & FR). exists res. split; [exact R|]. split; [exact FR|]. split; [exact PT|]. exists l. split; [exact LL|apply add_micro].
  - exists None. assert (GEN : forall cs, (forall u n, List.In (Some u, n) cs -> duration u) -> (forall u n, List.In (u, n) cs -> clock n) ->
      exists res, timeout_calls (started timeout start) cs = Some res /\ List.Forall2 (answer None) cs res).
    { induction cs as [|[user now] cs IH]; intros U N; cbn [timeout_calls].
      - exists nil. split; [reflexivity|constructor].
      - assert (G : exists t b, get_timeout_time (started timeout start) user now = Some (started timeout start, t, b) /\ answer None (user, now) (t, b)).
        { unfold get_timeout_time. cbn [started d_timeout d_deadline d_start sec]. rewrite DL. cbn [andb d_deadline sec]. destruct user as [u|].
          - destruct (from_duration u (U u now (or_introl eq_refl))) as (lu & TU & NU & SU & LU). rewrite TU. pose proof (N _ now (or_introl eq_refl)) as (NN & SN). change (-1 <? 0) with true. cbn [orb].
            eexists _, _. split; [reflexivity|]. cbn [answer]. split; [apply add_sec; assumption|]. split; [apply nearly_add; assumption|]. split; [reflexivity|]. exists lu. split; [exact LU|apply add_micro].
          - eexists _, _. split; [reflexivity|]. cbn [answer sec]. split; reflexivity. }
        destruct G as (t & b & G & A). rewrite G. destruct IH as (res & R & FR); [intros u n I; apply (U u n); now right|intros u n I; apply (N u n); now right|].
        rewrite R. exists (cons (t, b) res). split; [reflexivity|]. constructor; assumption. }
    destruct (GEN calls CU CN) as (res & R & FR). exists res. split; [exact R|]. split; [exact FR|]. destruct DT as (_ & P & _). destruct (Rle_lt_or_eq_dec _ _ P) as [Q|Q]; [apply LT in Q; discriminate|]. symmetry. exact Q.
Qed.
Print Assumptions C138_deadline.

(** C138.  How long a wait may still take: until the deadline to the microsecond,
    not at all once it has passed; a caller that asked for no waiting gets 0, not
    "expired", unless a zero is to count as that.  The last clause of [Expired] is
    the only inexactness, for deadlines with 1000000 microseconds. *)
Theorem C138_left (t now : ptime) (user : option dbl) (zero : bool) : 0 <= sec t -> nearly t -> clock now ->
  let m := micro t - micro now in
  let asked := match user with Some u => dle u (dint 0) | None => false end in
  match get_timeout_left t user zero now with
  | NoTimeout => False
  | Expired => (m < 0 /\ asked = false) \/ (m <= 0 /\ zero = true) \/ (m = 0 /\ usec t = 1000000 /\ asked = false)
  | Remains l => micro l = Z.max 0 m /\ nearly l /\ (normal t -> normal l) /\ (m < 0 -> asked = true) /\ (zero = true -> 0 < m)
  end.
Proof.
  intros ST NT (NN & SN). cbv zeta. unfold get_timeout_left. replace (sec t <? 0) with false by (symmetry; apply Z.ltb_ge; exact ST).
  set (asked := match user with Some u => dle u (dint 0) | None => false end). pose proof (proj1 (proj2 (C138_arithmetic t now))) as MS. set (l := time_subtract t now) in *.
  assert (NL : nearly l /\ (normal t -> normal l) /\ (usec l = 1000000 -> usec t = 1000000)).
  { unfold l, time_subtract, nearly, normal in *. destruct (Z.ltb_spec (usec t - usec now) 0); cbn [usec]; repeat split; intros; lia. }
  destruct NL as (NL & NL2 & NL3). unfold nearly in NL. rewrite <- MS. clearbody l. destruct (Z.ltb_spec (sec l) 0) as [L|L]; destruct asked eqn:AS; cbn [andb].
  - change (sec (Time 0 0)) with 0. change (usec (Time 0 0)) with 0. change (0 <? 0) with false. change (0 =? 0) with true. cbn [orb andb]. assert (micro l <= 0) by (unfold micro; lia). destruct zero.
    + right; left. split; [assumption|reflexivity].
    + change (micro (Time 0 0)) with 0. unfold nearly, normal. cbn [sec usec]. split; [lia|]. split; [lia|]. split; [intros _; lia|]. split; [reflexivity|discriminate].
  - replace (sec l <? 0) with true by (symmetry; apply Z.ltb_lt; exact L). cbn [orb]. unfold micro at 1. destruct (Z_lt_le_dec (sec l * 1000000 + usec l) 0) as [Q|Q]; [left; split; [exact Q|reflexivity]|].
    right; right. unfold micro. split; [lia|]. split; [apply NL3; lia|reflexivity].
  - replace (sec l <? 0) with false by (symmetry; apply Z.ltb_ge; exact L). cbn [orb]. destruct (Z.eqb_spec (sec l) 0), (Z.eqb_spec (usec l) 0), zero; cbn [andb];
      try (right; left; split; [unfold micro; lia|reflexivity]); unfold micro, nearly; (split; [lia|]); (split; [lia|]); (split; [exact NL2|]); (split; [reflexivity || lia|]); intro; try discriminate; lia.
  - replace (sec l <? 0) with false by (symmetry; apply Z.ltb_ge; exact L). cbn [orb]. destruct (Z.eqb_spec (sec l) 0), (Z.eqb_spec (usec l) 0), zero; cbn [andb];
      try (right; left; split; [unfold micro; lia|reflexivity]); unfold micro, nearly; (split; [lia|]); (split; [lia|]); (split; [exact NL2|]); (split; [lia|]); intro; try discriminate; lia.
Qed.
Print Assumptions C138_left.
Theorem C138_no_timeout (t now : ptime) (user : option dbl) (zero : bool) : sec t < 0 <-> get_timeout_left t user zero now = NoTimeout.
Proof.
  unfold get_timeout_left. destruct (Z.ltb_spec (sec t) 0); split; intro; try reflexivity; try assumption; exfalso; [lia|].
  match goal with H : (if ?c then _ else _) = _ |- _ => destruct c; discriminate end.
Qed.

(** C138.  What is stored as the length is not always a proper struct timeval:
    started at 5.5 s with half a second to run and asked at 5 s. *)
Definition half : dbl := binary_normalize 53 1024 dbl_prec_gt_0 dbl_prec_lt_emax mode_NE 1 (-1) false.
Example half_from : time_from_double half = Some (Time 0 500000).
Proof. vm_compute. reflexivity. Qed.
Theorem C138_length_normal_refuted : ~ forall timeout start user now c t b l, get_timeout_time (started timeout start) user now = Some (c, t, b) -> clock start -> clock now ->
  get_timeout_left t user false now = Remains l -> normal l.
Proof.
  intro H. assert (G : get_timeout_time (started half (Time 5 500000)) None (Time 5 0) = Some (Deadlines half (Time 5 500000) (Time 5 1000000), Time 5 1000000, false)).
  { unfold get_timeout_time. cbn [started d_timeout d_deadline d_start]. assert (E : dlt (dint 0) half = true) by (vm_compute; reflexivity). rewrite E. cbn [sec Z.ltb Z.compare andb]. rewrite half_from. reflexivity. }
  specialize (H half _ None _ _ _ _ (Time 0 1000000) G). unfold clock, normal in H. cbn [sec usec] in H. specialize (H ltac:(lia) ltac:(lia) eq_refl). lia.
Qed.
Print Assumptions C138_length_normal_refuted.
Example C138_ex : duration half /\ clock (Time 5 500000) /\
  get_timeout_left (Time 7 100000) None true (Time 6 900000) = Remains (Time 0 200000) /\ get_timeout_left (Time 7 100000) None true (Time 7 100000) = Expired /\
  get_timeout_left (Time 7 100000) (Some (dint 0)) false (Time 9 0) = Remains (Time 0 0) /\ get_timeout_left (Time 7 1000000) None false (Time 8 0) = Expired.
Proof.
  split; [|split; [unfold clock, normal; cbn; lia|repeat split]]. split; [vm_compute; reflexivity|].
  assert (E : B2R half = (1 / 2)%R). { rewrite <- SF2R_B2SF. assert (H : B2SF half = SpecFloat.S754_finite false 4503599627370496 (-53)) by (vm_compute; reflexivity). rewrite H. cbn [SF2R]. unfold F2R. cbn [Fnum Fexp cond_Zopp]. change (bpow radix2 (-53)) with (/ 9007199254740992)%R. lra. }
  rewrite E. split; [lra|]. change (bpow radix2 63) with 9223372036854775808%R. lra.
Qed.
