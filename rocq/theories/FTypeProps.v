(** C133: the signature and the type of a file. *)
From Coq Require Import ZArith Reals Lia Lra.
From Flocq Require Import Core.Core IEEE754.BinarySingleNaN.
Require Import Flocq.Prop.Relative.
From Verif Require Import Base GeoModel GeoProofs FTypeModel FTypeSpec.
Open Scope nat_scope.

Lemma cut_id s : ~ In "000"%char s -> cut s = s.
Proof. induction s as [|c s IH]; intro H; auto. unfold cut. cbn [take_while]. destruct (Ascii.eqb_spec c "000"); [exfalso; apply H; left; auto|]. cbn [negb]. f_equal. apply IH. intro; apply H; right; auto. Qed.
Lemma strncmp_true b : forall a, ~ In "000"%char b -> length a = length b -> strncmp_eq (length b) a b = true <-> a = b.
Proof.
  induction b as [|y b IH]; intros [|x a] N E; try discriminate E; cbn [length strncmp_eq]; [tauto|]. injection E as E.
  destruct (Ascii.eqb_spec x y) as [->|D]; [|split; [discriminate|congruence]].
  destruct (Ascii.eqb_spec y "000"); [exfalso; apply N; left; auto|]. rewrite IH; [|intro; apply N; right; auto|auto]. split; congruence.
Qed.
(** A file has a signature that is not empty exactly if these bytes are in it at
    the offset; a negative offset is taken for 0. *)
Theorem C133_signature : forall fs p d sg off, fs p = Data d -> sg <> [] -> ~ In "000"%char sg ->
  file_has_signature fs (Some p) (Some sg) off = true <-> exists a b, d = a ++ sg ++ b /\ Z.of_nat (length a) = Z.max 0 off.
Proof.
  intros fs p d sg off F NE N. unfold file_has_signature. rewrite F, cut_id by auto. cbn [bytes].
  set (pos := if (off <? 0)%Z then 0 else Z.to_nat off). assert (P : Z.of_nat pos = Z.max 0 off). { unfold pos. destruct (Z.ltb_spec off 0); lia. }
  rewrite <- P. clearbody pos. destruct (Nat.eqb_spec (length (firstn (length sg) (skipn pos d))) (length sg)) as [E|E].
  - rewrite strncmp_true by auto. split.
    + intro H. exists (firstn pos d), (skipn (length sg) (skipn pos d)). rewrite <- H at 1. rewrite firstn_skipn, firstn_skipn. split; auto.
      rewrite firstn_length, skipn_length in E. rewrite firstn_length. assert (0 < length sg) by (destruct sg; [congruence|cbn; lia]). lia.
    + intros (a & b & -> & L). apply Nat2Z.inj in L. subst pos. rewrite skipn_app, skipn_all, Nat.sub_diag. cbn [app skipn]. rewrite firstn_app, firstn_all, Nat.sub_diag, firstn_O, app_nil_r. reflexivity.
  - split; [discriminate|]. intros (a & b & -> & L). apply Nat2Z.inj in L. subst pos. exfalso. apply E.
    rewrite skipn_app, skipn_all, Nat.sub_diag. cbn [app skipn]. rewrite firstn_app, firstn_all, Nat.sub_diag, firstn_O, app_nil_r. reflexivity.
Qed.
Print Assumptions C133_signature.
(** NULL, names that cannot be opened, directories; everything that can be
    opened, a directory too, has the empty signature at any offset. *)
Theorem C133_signature_else : forall fs p sg off,
  file_has_signature fs None sg off = false /\ file_has_signature fs p None off = false /\
  (forall q, fs q = NoFile -> file_has_signature fs (Some q) sg off = false) /\
  (forall q s, fs q = Dir -> s <> [] -> ~ In "000"%char s -> file_has_signature fs (Some q) (Some s) off = false) /\
  (forall q, fs q <> NoFile -> file_has_signature fs (Some q) (Some []) off = true).
Proof.
  intros fs p sg off. split; [reflexivity|]. split; [destruct p; reflexivity|]. split; [|split].
  - intros q H. cbn. destruct sg; auto. rewrite H. reflexivity.
  - intros q s H NE N. cbn [file_has_signature]. rewrite H, cut_id by auto. cbn [bytes]. rewrite skipn_nil, firstn_nil. destruct s; [congruence|reflexivity].
  - intros q H. cbn [file_has_signature]. destruct (fs q); [congruence|reflexivity|reflexivity].
Qed.
Print Assumptions C133_signature_else.

Lemma textual_eq c : textual c = text_byte c.
Proof. destruct c as [[] [] [] [] [] [] [] []]; reflexivity. Qed.
Lemma count_eq s : text_count s + other_bytes s = length s.
Proof.
  unfold other_bytes. induction s as [|c s IH]; auto. cbn [text_count filter length]. rewrite textual_eq. destruct (text_byte c); cbn [negb length]; lia.
Qed.
Lemma detect_data fs p d len pc : fs p = Data d -> dlt pc (dint 0) = false -> len <> 0 -> d <> [] ->
  let r := firstn len d in detect_file_type fs (Some p) len pc = if dle pc (ddiv (dint (Z.of_nat (other_bytes r))) (dint (Z.of_nat (length r)))) then Binary else Text.
Proof.
  intros F P L D. cbv zeta. cbn [detect_file_type]. rewrite P, F. destruct (Nat.eqb_spec (length (firstn len d)) 0) as [E|E].
  { exfalso. destruct d; [congruence|]. destruct len; [congruence|]. cbn in E. discriminate E. }
  replace (length (firstn len d) - text_count (firstn len d)) with (other_bytes (firstn len d)) by (pose proof (count_eq (firstn len d)); lia). reflexivity.
Qed.
(** The type is unknown exactly if there is nothing to decide on. *)
Theorem C133_unknown : forall fs p len pc, detect_file_type fs p len pc = Unknown <->
  (p = None \/ dlt pc (dint 0) = true \/ len = 0 \/ exists q, p = Some q /\ (fs q = NoFile \/ fs q = Dir \/ fs q = Data [])).
Proof.
  intros fs p len pc. destruct p as [q|]; [|split; [left; auto|reflexivity]]. destruct (dlt pc (dint 0)) eqn:P.
  { split; [right; left; auto|]. intros _. cbn [detect_file_type]. rewrite P. reflexivity. }
  destruct (fs q) as [| |d] eqn:F.
  - split; [intros _; do 3 right; exists q; auto|]. intros _. cbn [detect_file_type]. rewrite P, F. reflexivity.
  - split; [intros _; do 3 right; exists q; auto|]. intros _. cbn [detect_file_type]. rewrite P, F. reflexivity.
  - destruct (Nat.eq_dec len 0) as [L|L]. { split; [auto|]. intros _. cbn [detect_file_type]. rewrite P, F. subst. reflexivity. }
    destruct d as [|c d]. { split; [intros _; do 3 right; exists q; auto|]. intros _. cbn [detect_file_type]. rewrite P, F, firstn_nil. reflexivity. }
    pose proof (detect_data fs q (c :: d) len pc F P L ltac:(discriminate)) as E. cbv zeta in E. rewrite E. split.
    + destruct (dle _ _); discriminate. + intros [H|[H|[H|(q' & [= <-] & [H|[H|H]])]]]; congruence.
Qed.
Print Assumptions C133_unknown.

Open Scope R_scope.
Lemma share_val k n : (0 < n)%nat -> (k <= n)%nat -> (Z.of_nat n <= 2 ^ 53)%Z ->
  B2R (ddiv (dint (Z.of_nat k)) (dint (Z.of_nat n))) = RN (INR k / INR n) /\ is_finite (ddiv (dint (Z.of_nat k)) (dint (Z.of_nat n))) = true.
Proof.
  intros N K B. destruct (dint_val (Z.of_nat k) ltac:(lia)) as (E & Fk).
  pose proof (ddiv_val (dint (Z.of_nat k)) (Z.of_nat n) Fk ltac:(lia) ltac:(lia)) as V. rewrite E in V. rewrite !INR_IZR_INZ. apply V.
  assert (Pn : 0 < IZR (Z.of_nat n)) by (apply IZR_lt; lia). assert (Q : 0 <= IZR (Z.of_nat k) / IZR (Z.of_nat n) <= 1).
  { split. - apply Rmult_le_pos; [apply IZR_le; lia|left; apply Rinv_0_lt_compat; exact Pn].
    - apply Rmult_le_reg_r with (IZR (Z.of_nat n)); auto. unfold Rdiv. rewrite Rmult_assoc, Rinv_l by lra. rewrite Rmult_1_r, Rmult_1_l. apply IZR_le. lia. }
  apply (small_lt 1); [|lia].
  assert (R0 : 0 <= RN (IZR (Z.of_nat k) / IZR (Z.of_nat n))). { rewrite <- (RN_int 0 ltac:(lia)). apply round_le; try typeclasses eauto. lra. }
  assert (R1 : RN (IZR (Z.of_nat k) / IZR (Z.of_nat n)) <= 1). { rewrite <- (RN_int 1 ltac:(lia)). apply round_le; try typeclasses eauto. lra. }
  rewrite Rabs_pos_eq; auto.
Qed.
(** A file with bytes is binary if the share of its (first len) bytes that are no
    text is not below the given number, and text if the share is less -- unless
    the two are so close that the rounded quotient cannot tell them apart. *)
Theorem C133_share : forall fs p d len pc, fs p = Data d -> d <> [] -> len <> 0%nat -> is_finite pc = true -> 0 <= B2R pc ->
  (Z.of_nat (length d) <= 2 ^ 53)%Z ->
  let r := firstn len d in let share := INR (other_bytes r) / INR (length r) in
  (B2R pc <= share -> detect_file_type fs (Some p) len pc = Binary) /\
  (share * (1 + bpow radix2 (-53)) < B2R pc -> detect_file_type fs (Some p) len pc = Text).
Proof.
  intros fs p d len pc F D L FP P B. cbv zeta. set (r := firstn len d).
  assert (NP : dlt pc (dint 0) = false). { apply Bool.not_true_iff_false. intro H. apply (dlt_r 0 pc ltac:(lia) FP) in H. lra. }
  assert (N : (0 < length r)%nat). { unfold r. destruct d; [congruence|]. destruct len; [congruence|]. cbn. lia. }
  assert (Nb : (length r <= length d)%nat) by (unfold r; rewrite firstn_length; lia).
  assert (K : (other_bytes r <= length r)%nat) by (pose proof (count_eq r); lia).
  destruct (share_val (other_bytes r) (length r) N K ltac:(lia)) as (V & Fv).
  rewrite (detect_data fs p d len pc F NP L D). fold r. unfold dle. rewrite Bleb_correct by auto. rewrite V.
  set (x := INR (other_bytes r) / INR (length r)) in *.
  assert (Pn : 0 < INR (length r)) by (apply lt_0_INR; lia). split; intro H.
  - rewrite Rle_bool_true; auto. rewrite <- (round_generic radix2 fexp64 ZnearestE (B2R pc) (generic_format_B2R _ _ pc)). apply round_le; try typeclasses eauto. exact H.
  - rewrite Rle_bool_false; auto. apply Rle_lt_trans with (2 := H).
    destruct (Nat.eq_dec (other_bytes r) 0) as [Z0|Z0].
    { unfold x. rewrite Z0. unfold Rdiv. rewrite !Rmult_0_l. rewrite (RN_int 0 ltac:(lia)). lra. }
    assert (X : bpow radix2 (-53) <= x).
    { unfold x. apply Rmult_le_reg_r with (INR (length r)); auto. unfold Rdiv. rewrite Rmult_assoc, Rinv_l, Rmult_1_r by lra.
      apply Rle_trans with 1; [|change 1 with (INR 1); apply le_INR; lia].
      replace 1 with (bpow radix2 (-53) * bpow radix2 53) by (rewrite <- bpow_plus; reflexivity). apply Rmult_le_compat_l; [apply bpow_ge_0|].
      rewrite INR_IZR_INZ. change (bpow radix2 53) with (IZR (2 ^ 53)). apply IZR_le. lia. }
    assert (Xp : 0 < x) by (pose proof (bpow_gt_0 radix2 (-53)); lra).
    pose proof (relative_error_N_FLT radix2 (-1074) 53 ltac:(reflexivity) (fun z => negb (Z.even z)) x) as RE.
    change (FLT_exp (-1074) 53) with fexp64 in RE. rewrite (Rabs_pos_eq x) in RE by lra. specialize (RE ltac:(apply Rle_trans with (2 := X); apply bpow_le; lia)).
    replace (/ 2 * bpow radix2 (- (53) + 1)) with (bpow radix2 (-53)) in RE. 2:{ change (- (53) + 1)%Z with (-53 + 1)%Z. rewrite bpow_plus. change (bpow radix2 1) with 2. lra. }
    apply Rabs_le_inv in RE. lra.
Qed.
Print Assumptions C133_share.

Definition m05 : Z := 7205759403792794.
Lemma default_val : B2R default_percent = IZR m05 * bpow radix2 (-57) /\ is_finite default_percent = true.
Proof.
  unfold default_percent. generalize (binary_normalize_correct 53 1024 dbl_prec_gt_0 dbl_prec_lt_emax mode_NE 7205759403792794 (-57) false). cbv zeta.
  change (F2R (Float radix2 7205759403792794 (-57))) with (IZR m05 * bpow radix2 (-57)). cbn [round_mode].
  rewrite (round_generic radix2 fexp64 ZnearestE (IZR m05 * bpow radix2 (-57))). 2:{ apply fmt_intro; unfold m05; lia. }
  rewrite Rlt_bool_true; [tauto|]. apply (small_lt 1); [|lia]. rewrite Rabs_pos_eq. 2:{ apply Rmult_le_pos; [apply IZR_le; unfold m05; lia|apply bpow_ge_0]. }
  apply Rmult_le_reg_r with (bpow radix2 57); [apply bpow_gt_0|]. rewrite Rmult_assoc, <- bpow_plus. change (bpow radix2 (-57 + 57)) with 1. rewrite Rmult_1_r, Rmult_1_l.
  change (bpow radix2 57) with (IZR (2 ^ 57)). apply IZR_le. unfold m05. lia.
Qed.
(** With the default arguments a file with bytes is binary exactly if at least one
    in twenty of its first 256 bytes is no text. *)
Theorem C133_default : forall fs p d, fs p = Data d -> d <> [] -> let r := firstn 256 d in
  detect_default fs (Some p) = if (length r <=? 20 * other_bytes r)%nat then Binary else Text.
Proof.
  intros fs p d F D. cbv zeta. unfold detect_default. set (r := firstn 256 d).
  destruct default_val as (V & FV).
  assert (Pb : 0 < bpow radix2 (-57)) by apply bpow_gt_0.
  assert (NP : dlt default_percent (dint 0) = false).
  { apply Bool.not_true_iff_false. intro H. apply (dlt_r 0 _ ltac:(lia) FV) in H. rewrite V in H. assert (0 <= IZR m05) by (apply IZR_le; unfold m05; lia). nra. }
  assert (N : (0 < length r)%nat). { unfold r. destruct d; [congruence|]. cbn. lia. }
  assert (Nb : (length r <= 256)%nat) by (unfold r; rewrite firstn_length; lia).
  assert (K : (other_bytes r <= length r)%nat) by (pose proof (count_eq r); lia).
  destruct (share_val (other_bytes r) (length r) N K ltac:(lia)) as (W & FW).
  rewrite (detect_data fs p d 256 default_percent F NP ltac:(lia) D). fold r. unfold dle. rewrite Bleb_correct by auto. rewrite W, V.
  set (k := other_bytes r) in *. set (n := length r) in *. clearbody k n.
  assert (Pn : 0 < INR n) by (apply lt_0_INR; lia).
  assert (E57 : bpow radix2 57 * bpow radix2 (-57) = 1) by (rewrite <- bpow_plus; reflexivity).
  change (bpow radix2 57) with (IZR (2 ^ 57)) in E57.
  assert (R20 : RN (1 / 20) = IZR m05 * bpow radix2 (-57)).
  { unfold round, F2R. cbn [Fnum Fexp].
    assert (M : mag radix2 (1 / 20) = (-4)%Z :> Z). { apply mag_unique_pos. change (bpow radix2 (-4 - 1)) with (/ 32). change (bpow radix2 (-4)) with (/ 16). lra. }
    unfold scaled_mantissa, cexp. rewrite M. change (fexp64 (-4)) with (-57)%Z. change (- (-57))%Z with 57%Z. f_equal. f_equal.
    apply Znearest_imp. change (bpow radix2 57) with (IZR (2 ^ 57)). replace (1 / 20 * IZR (2 ^ 57) - IZR m05) with ((IZR (2 ^ 57) - 20 * IZR m05) / 20) by field.
    rewrite <- mult_IZR, <- minus_IZR. change (2 ^ 57 - 20 * m05)%Z with (-8)%Z. unfold Rdiv. rewrite Rabs_left by lra. lra. }
  destruct (Nat.leb_spec n (20 * k)) as [G|G].
  - rewrite Rle_bool_true; auto. rewrite <- R20. apply round_le; try typeclasses eauto.
    apply Rmult_le_reg_r with (INR n); auto. unfold Rdiv at 2. rewrite Rmult_assoc, Rinv_l by lra. apply le_INR in G. rewrite mult_INR in G. change (INR 20) with (IZR (Z.of_nat 20)) in G || rewrite (INR_IZR_INZ 20) in G. change (Z.of_nat 20) with 20%Z in G. lra.
  - rewrite Rle_bool_false; auto. apply Rle_lt_trans with (IZR (m05 - 1) * bpow radix2 (-57)).
    + rewrite <- (round_generic radix2 fexp64 ZnearestE (IZR (m05 - 1) * bpow radix2 (-57))). 2:{ apply fmt_intro; unfold m05; lia. }
      apply round_le; try typeclasses eauto. apply Rmult_le_reg_r with (INR n); auto. unfold Rdiv. rewrite Rmult_assoc, Rinv_l by lra. rewrite Rmult_1_r.
      assert (G' : 20 * INR k + 1 <= INR n). { assert (Q : (20 * k + 1 <= n)%nat) by lia. apply le_INR in Q. rewrite plus_INR, mult_INR in Q. rewrite (INR_IZR_INZ 20) in Q. change (Z.of_nat 20) with 20%Z in Q. change (INR 1) with 1 in Q. exact Q. }
      assert (Bn : INR n <= 256). { apply le_INR in Nb. rewrite (INR_IZR_INZ 256) in Nb. exact Nb. }
      (* (m05 - 1) * 2^-57 >= 1/20 - 2^-57 *)
      assert (Q : 1 / 20 - bpow radix2 (-57) <= IZR (m05 - 1) * bpow radix2 (-57)).
      { rewrite minus_IZR. assert (A : 1 / 20 <= IZR m05 * bpow radix2 (-57)); [|lra].
        apply Rmult_le_reg_r with (IZR (2 ^ 57)); [apply IZR_lt; reflexivity|]. rewrite Rmult_assoc, (Rmult_comm (bpow _ _)), E57, Rmult_1_r.
        assert (Z20 : IZR (2 ^ 57) <= 20 * IZR m05) by (rewrite <- mult_IZR; apply IZR_le; unfold m05; lia). lra. }
      assert (S57 : bpow radix2 (-57) <= 1 / 10000). { apply Rle_trans with (bpow radix2 (-14)); [apply bpow_le; lia|]. change (bpow radix2 (-14)) with (/ 16384). lra. }
      assert (INR k <= (1 / 20 - bpow radix2 (-57)) * INR n) by nra. nra.
    + apply Rmult_lt_compat_r; auto. apply IZR_lt. lia.
Qed.
Print Assumptions C133_default.
Open Scope nat_scope.
(** The documentation says "more than percent_bin", text bytes up to 0x7E: one
    byte in twenty is enough, DEL is text, and with 0 every file is binary. *)
Theorem C133_documented_refuted : forall fs p, 
  (fs p = Data (repeat "a"%char 19 ++ ["000"%char]) -> detect_default fs (Some p) = Binary) /\
  (forall n, fs p = Data (repeat "127"%char (S n)) -> detect_default fs (Some p) = Text) /\
  (forall d len, fs p = Data d -> d <> [] -> len <> 0 -> (Z.of_nat (length d) <= 2 ^ 53)%Z -> detect_file_type fs (Some p) len (dint 0) = Binary).
Proof.
  intros fs p. split; [|split].
  - intro F. rewrite (C133_default fs p _ F) by discriminate. reflexivity.
  - intros n F. rewrite (C133_default fs p _ F) by discriminate.
    assert (O : forall m, other_bytes (repeat "127"%char m) = 0) by (unfold other_bytes; induction m; cbn; auto).
    assert (Fn : forall m k, exists j, firstn m (repeat "127"%char k) = repeat "127"%char j /\ (j = Nat.min m k)).
    { induction m as [|m IH]; intros [|k]; try (exists 0; split; reflexivity). destruct (IH k) as (j & E & ->). exists (S (Nat.min m k)). cbn [firstn repeat]. rewrite E. split; reflexivity. }
    destruct (Fn 256 (S n)) as (j & E & J). rewrite E, O, repeat_length. destruct (Nat.leb_spec j (20 * 0)); auto. lia.
  - intros d len F D L B. destruct (dint_val 0 ltac:(lia)) as (E & FE). apply (C133_share fs p d len (dint 0) F D L FE); [rewrite E; lra|exact B|].
    rewrite E. apply Rmult_le_pos; [apply pos_INR|]. destruct (firstn len d) as [|c t] eqn:X; [destruct d, len; try congruence; discriminate X|].
    left. apply Rinv_0_lt_compat, lt_0_INR. cbn. lia.
Qed.
Print Assumptions C133_documented_refuted.
Example C133_ex : let fs := fun _ : str => Data (L "GIF89a..") in
  file_has_signature fs (Some []) (Some (L "89a")) 3 = true /\ file_has_signature fs (Some []) (Some (L "89a")) 0 = false /\ file_has_signature fs (Some []) (Some (L "GIF")) (-5) = true /\
  file_has_signature fs (Some []) (Some (L "....")) 6 = false /\ detect_default fs (Some []) = Text.
Proof.
  cbv zeta. do 4 (split; [reflexivity|]). erewrite C133_default; [|reflexivity|discriminate]. reflexivity.
Qed.
