(** Images, continued: addressing, copying, comparing, transforming. *)
From Coq Require Import List ZArith Lia Bool FinFun.
Import ListNotations.
From Verif Require Import Base ImageModel ImageSpec ImageProofs.
Local Open Scope Z_scope.

Lemma radix a b c x y z : 0 <= x < a -> 0 <= y < b -> 0 <= z < c -> 0 <= x + a * y + a * b * z < a * b * c.
Proof.
  intros Hx Hy Hz. assert (0 <= a * y) by nia. assert (a * y + a <= a * b) by nia.
  assert (0 < a * b) by nia. set (e := a * b) in *. assert (0 <= e * z) by nia. assert (e * z + e <= e * c) by nia. lia.
Qed.
Lemma radix_inj a b x y z x' y' z' : 0 <= x < a -> 0 <= y < b -> 0 <= z -> 0 <= x' < a -> 0 <= y' < b -> 0 <= z' ->
  x + a * y + a * b * z = x' + a * y' + a * b * z' -> x = x' /\ y = y' /\ z = z'.
Proof.
  intros Hx Hy Hz Hx' Hy' Hz' E.
  assert (E1 : x + a * (y + b * z) = x' + a * (y' + b * z')) by lia.
  assert (Ex : x = x').
  { rewrite <- (Z.mod_small x a), <- (Z.mod_small x' a) by auto.
    rewrite <- (Z_mod_plus_full x (y + b * z) a), <- (Z_mod_plus_full x' (y' + b * z') a).
    f_equal. lia. }
  subst x'. assert (E2 : y + b * z = y' + b * z') by nia.
  assert (Ey : y = y').
  { rewrite <- (Z.mod_small y b), <- (Z.mod_small y' b) by auto.
    rewrite <- (Z_mod_plus_full y z b), <- (Z_mod_plus_full y' z' b). f_equal. lia. }
  subst y'. split; auto. split; auto. nia.
Qed.
Lemma size_t_small z : 0 <= z < 2 ^ 64 -> size_t z = z.
Proof. intro H. apply Z.mod_small. auto. Qed.
Lemma ptrdiff_small z : 0 <= z < 2 ^ 63 -> ptrdiff z = z.
Proof.
  intro H. unfold ptrdiff. rewrite size_t_small by lia. destruct (Z.ltb_spec z (2 ^ 63)); [auto|lia].
Qed.
Lemma load_new m n junk o : 0 <= o < n -> load (m ++ [Some (mkBlk n junk)]) (Some (length m, o)) = Some (junk o).
Proof.
  intro H. cbn [load]. rewrite nth_error_app2, Nat.sub_diag by lia. cbn [nth_error k_size k_byte].
  destruct (Z.leb_spec 0 o); [|lia]. destruct (Z.ltb_spec o n); [reflexivity|lia].
Qed.
Lemma load_old m x p v : load m p = Some v -> load (m ++ [x]) p = Some v.
Proof.
  destruct p as [[b o]|]; [|discriminate]. cbn [load]. destruct (nth_error m b) as [[k|]|] eqn:E; try discriminate.
  rewrite nth_error_app1 by (apply nth_error_Some; congruence). rewrite E. auto.
Qed.
Lemma load_block m p v : load m p = Some v -> exists b o, p = Some (b, o) /\ (b < length m)%nat.
Proof.
  destruct p as [[b o]|]; [|discriminate]. cbn. destruct (nth_error m b) eqn:E; [|discriminate]. intros _. exists b, o. split; auto.
  apply nth_error_Some. congruence.
Qed.

(** A freshly allocated image: [planar] or interleaved steps over one block. *)
Definition contiguous (m : mem) (a : image) (b : nat) : Prop :=
  i_first a = Some (b, 0) /\ nth_error m b <> None /\
  (forall o, 0 <= o < i_w a * i_h a * i_d a -> exists v, load m (Some (b, o)) = Some v) /\
  (0 < i_w a -> 0 < i_h a -> 0 < i_d a ->
   (i_ws a = 1 /\ i_hs a = i_w a /\ i_ds a = i_w a * i_h a) \/ (i_ws a = i_d a /\ i_hs a = i_d a * i_w a /\ i_ds a = 1)).
Lemma contiguous_offset m a b : contiguous m a b -> forall i j k, inside a i j k ->
  0 <= i * i_ws a + j * i_hs a + k * i_ds a < i_w a * i_h a * i_d a.
Proof.
  intros (_ & _ & _ & HS) i j k (Hi & Hj & Hk).
  destruct (HS ltac:(lia) ltac:(lia) ltac:(lia)) as [(-> & -> & ->)|(-> & -> & ->)].
  - pose proof (radix (i_w a) (i_h a) (i_d a) i j k Hi Hj Hk). nia.
  - pose proof (radix (i_d a) (i_w a) (i_h a) k i j Hk Hi Hj). nia.
Qed.
Lemma contiguous_valid m a b : contiguous m a b -> valid m a.
Proof.
  intros H i j k Hin. pose proof (contiguous_offset _ _ _ H _ _ _ Hin). destruct H as (F & _ & HV & _).
  unfold address. rewrite F. cbn [padd]. rewrite Z.add_0_l. auto.
Qed.
Lemma contiguous_distinct m a b : contiguous m a b -> distinct a.
Proof.
  intros (F & _ & _ & HS) i j k i' j' k' (Hi & Hj & Hk) (Hi' & Hj' & Hk') E.
  unfold address in E. rewrite F in E. cbn [padd] in E. injection E as E.
  destruct (HS ltac:(lia) ltac:(lia) ltac:(lia)) as [(S1 & S2 & S3)|(S1 & S2 & S3)]; rewrite S1, S2, S3 in E.
  - apply (radix_inj (i_w a) (i_h a)); auto; try lia.
  - destruct (radix_inj (i_d a) (i_w a) k i j k' i' j') as (X & Y & Z0); auto; try lia; try nia.
Qed.
Lemma contiguous_block m a b p : contiguous m a b -> pixel_of a p -> exists o, p = Some (b, o).
Proof. intros (F & _) (i & j & k & _ & ->). unfold address. rewrite F. cbn. eauto. Qed.

Lemma prod_pos w h d : 0 < w -> 0 < h -> 0 < d -> w <= w * h /\ w * h <= w * h * d /\ d <= w * h * d /\ d * w <= w * h * d /\ 0 < w * h * d.
Proof.
  intros. assert (w <= w * h) by nia. set (e := w * h) in *. assert (0 < e) by lia. assert (e <= e * d) by nia. assert (d <= e * d) by nia.
  assert (d * w <= d * e) by nia. lia.
Qed.
Lemma img_new_contiguous m w h d il junk m' a : 0 <= w -> 0 <= h -> 0 <= d -> w * h * d < 2 ^ 63 ->
  img_new m w h d il junk = (m', a) ->
  contiguous m' a (length m) /\ m' = m ++ [Some (mkBlk (w * h * d) junk)] /\
  i_w a = w /\ i_h a = h /\ i_d a = d /\ img_size a = w * h * d.
Proof.
  intros Hw Hh Hd Hs. assert (0 <= w * h * d) by nia. unfold img_new, im_new, alloc. rewrite size_t_small by lia.
  intro E. injection E as <- <-.
  assert (HS : 0 < w -> 0 < h -> 0 < d -> ptrdiff d = d /\ ptrdiff (d * w) = d * w /\ ptrdiff w = w /\ ptrdiff (w * h) = w * h).
  { intros P1 P2 P3. pose proof (prod_pos w h d P1 P2 P3). rewrite !ptrdiff_small by nia. auto. }
  destruct il; cbn [i_w i_h i_d img_size i_mem m_size m_data]; (split; [|repeat split]);
    (split; [reflexivity|split; [|split; [intros; rewrite load_new by auto; eauto|]]]);
    try (rewrite nth_error_app2, Nat.sub_diag by lia; discriminate);
    cbn [i_w i_h i_d i_ws i_hs i_ds]; intros P1 P2 P3; destruct (HS P1 P2 P3) as (e1 & e2 & e3 & e4); rewrite ?e1, ?e2, ?e3, ?e4; auto.
Qed.
Lemma set_size_contiguous m a0 w h d junk m' a : 0 <= w -> 0 <= h -> 0 <= d -> w * h * d < 2 ^ 63 ->
  ~ (w = i_w a0 /\ h = i_h a0 /\ d = i_d a0) ->
  set_size m a0 w h d junk = (m', a) ->
  contiguous m' a (length m) /\ m' = m ++ [Some (mkBlk (w * h * d) junk)] /\
  i_w a = w /\ i_h a = h /\ i_d a = d /\ img_size a = w * h * d.
Proof.
  intros Hw Hh Hd Hs N. assert (0 <= w * h * d) by nia. unfold set_size.
  assert (E0 : (w =? i_w a0) && (h =? i_h a0) && (d =? i_d a0) = false).
  { destruct (Z.eqb_spec w (i_w a0)), (Z.eqb_spec h (i_h a0)), (Z.eqb_spec d (i_d a0)); auto. tauto. }
  rewrite E0. unfold im_new, alloc. rewrite size_t_small by lia.
  intro E. injection E as <- <-. cbn [i_w i_h i_d img_size i_mem m_size m_data]. split; [|repeat split].
  split; [reflexivity|]. split; [cbn; rewrite nth_error_app2, Nat.sub_diag by lia; discriminate|].
  split; [cbn [i_w i_h i_d]; intros; rewrite load_new by auto; eauto|].
  cbn [i_w i_h i_d i_ws i_hs i_ds]. intros P1 P2 P3. pose proof (prod_pos w h d P1 P2 P3).
  rewrite (ptrdiff_small d), (ptrdiff_small (w * h)) by nia.
  destruct (Z.eqb_spec (i_ws a0) 0) as [E1|E1]; cbn [orb]; [|destruct (Z.eqb_spec (i_ws a0) d) as [E2|E2]; cbn [negb]].
  - left. rewrite Z.mul_1_r, ptrdiff_small by nia. auto.
  - rewrite E2. rewrite (ptrdiff_small (w * d)) by nia. destruct (Z.eqb_spec d 1) as [E3|E3].
    + left. rewrite E3. auto with zarith.
    + right. auto with zarith.
  - left. rewrite Z.mul_1_r, ptrdiff_small by nia. auto.
Qed.

Lemma pix3_iff a i j k : 0 <= i -> 0 <= j -> 0 <= k ->
  (inside a i j k -> pix3 a i j k = Addr (address a i j k)) /\ (~ inside a i j k -> pix3 a i j k = OutOfRange).
Proof.
  intros. unfold pix3, inside, address.
  destruct (Z.leb_spec (i_w a) i), (Z.leb_spec (i_h a) j), (Z.leb_spec (i_d a) k); cbn [orb]; split; intro; try tauto; try lia; auto.
  do 2 f_equal. lia.
Qed.

Lemma count_ok n : 0 <= n < 2 ^ 32 -> exists c, count n = Some c /\ Z.of_nat c = n.
Proof. intro H. unfold count. destruct (Z.ltb_spec n (2 ^ 32)); [|lia]. exists (Z.to_nat n). split; auto. lia. Qed.

Lemma copy_pixels m src dst : 0 <= i_w dst < 2 ^ 32 -> 0 <= i_h dst < 2 ^ 32 -> 0 <= i_d dst < 2 ^ 32 -> same_dims dst src ->
  valid m src -> valid m dst -> distinct dst -> disjoint src dst ->
  exists m', match count (i_d dst), count (i_h dst), count (i_w dst) with
    | Some nd, Some nh, Some nw => copy_d nd nh nw m (i_first src) (i_first dst) (i_ds src) (i_ds dst) (i_hs src) (i_hs dst) (i_ws src) (i_ws dst)
    | _, _, _ => None end = Some m' /\
    (forall i j k, inside dst i j k -> load m' (address dst i j k) = load m (address src i j k)) /\
    (forall p, ~ pixel_of dst p -> load m' p = load m p).
Proof.
  intros Bw Bh Bd (Dw & Dh & Dd) Vs Vd Di Dj.
  destruct (count_ok _ Bd) as (nd & -> & Ed). destruct (count_ok _ Bh) as (nh & -> & Eh). destruct (count_ok _ Bw) as (nw & -> & Ew).
  rewrite copy_d_fold.
  set (f := fun t : Z * Z * Z => _).
  assert (Hs : map snd (map f (triples nd nh nw)) = map (fun t => let '(i, j, k) := t in address dst i j k) (triples nd nh nw)).
  { rewrite map_map. apply map_ext. intros [[i j] k]. reflexivity. }
  assert (Hin : forall i j k, In (i, j, k) (triples nd nh nw) <-> inside dst i j k).
  { intros. rewrite in_triples. unfold inside. rewrite Ed, Eh, Ew. tauto. }
  assert (Hpix : forall p, In p (map (fun t => let '(i, j, k) := t in address dst i j k) (triples nd nh nw)) <-> pixel_of dst p).
  { intro p. rewrite in_map_iff. split.
    - intros ([[i j] k] & <- & H). exists i, j, k. split; auto. apply Hin; auto.
    - intros (i & j & k & H & ->). exists (i, j, k). split; auto. apply Hin; auto. }
  assert (Hss : forall i j k, inside dst i j k -> inside src i j k) by (unfold inside; rewrite Dw, Dh, Dd; auto).
  destruct (copy_fold_spec (map f (triples nd nh nw)) m) as (m' & E & _ & H1 & H2).
  - rewrite Hs. apply nodup_map_inj; [apply nodup_triples|]. intros [[i j] k] [[i' j'] k'] A B C.
    apply Hin in A, B. destruct (Di _ _ _ _ _ _ A B C) as (-> & -> & ->). reflexivity.
  - intros s d H. apply in_map_iff in H as ([[i j] k] & X & H). injection X as <- <-. apply Hin in H.
    split; [apply (Vs i j k); auto|]. split; [apply (Vd i j k); auto|]. rewrite Hs, Hpix.
    apply Dj. exists i, j, k. split; auto.
  - exists m'. split; auto. split.
    + intros i j k H. apply H1. apply in_map_iff. exists (i, j, k). split; auto. apply Hin; auto.
    + intros p Np. apply H2. rewrite Hs, Hpix. auto.
Qed.

Lemma copy_from_lemma m a b junk : 0 <= i_w b < 2 ^ 32 -> 0 <= i_h b < 2 ^ 32 -> 0 <= i_d b < 2 ^ 32 -> i_w b * i_h b * i_d b < 2 ^ 63 ->
  valid m b -> (same_dims a b -> valid m a /\ distinct a /\ disjoint b a) ->
  exists m' a', copy_from m a b junk = Some (m', a') /\ same_dims a' b /\ valid m' a' /\ distinct a' /\
    same_pixels m b m' a' /\
    (forall p v, load m p = Some v -> ~ (same_dims a b /\ pixel_of a p) -> load m' p = Some v) /\
    (same_dims a b -> a' = a).
Proof.
  intros Bw Bh Bd Bs Vb Ha. unfold copy_from. destruct (set_size m a (i_w b) (i_h b) (i_d b) junk) as [m1 a1] eqn:ES.
  destruct (Z.eq_dec (i_w b) (i_w a)) as [E1|E1]; [destruct (Z.eq_dec (i_h b) (i_h a)) as [E2|E2]; [destruct (Z.eq_dec (i_d b) (i_d a)) as [E3|E3]|]|].
  1: {
    assert (SD : same_dims a b) by (repeat split; auto). destruct (Ha SD) as (Va & Da & Dj).
    unfold set_size in ES. rewrite E1, E2, E3, !Z.eqb_refl in ES. cbn [andb] in ES. injection ES as <- <-.
    destruct (copy_pixels m b a) as (m' & E & H1 & H2); auto; try (rewrite <- ?E1, <- ?E2, <- ?E3; auto; fail).
    exists m', a. split.
    { destruct (count (i_d a)); [|discriminate]. destruct (count (i_h a)); [|discriminate]. destruct (count (i_w a)); [|discriminate].
      rewrite E. reflexivity. }
    split; auto. split.
    { intros i j k Hin. rewrite H1 by auto. apply Vb. unfold inside in *. rewrite E1, E2, E3. auto. }
    split; auto. split; [|split; auto].
    - split; [repeat split; auto|]. intros i j k Hin. symmetry. apply H1. unfold inside in *. rewrite <- E1, <- E2, <- E3. auto.
    - intros p v L N. rewrite H2; auto. }
  all: assert (N : ~ (i_w b = i_w a /\ i_h b = i_h a /\ i_d b = i_d a)) by tauto.
  all: destruct (set_size_contiguous m a (i_w b) (i_h b) (i_d b) junk m1 a1) as (C & Em & D1 & D2 & D3 & _); auto; try lia.
  all: assert (NSD : ~ same_dims a b) by (intros (X & Y & Z0); apply N; auto).
  all: assert (SD : same_dims a1 b) by (repeat split; auto).
  all: assert (Vb1 : valid m1 b) by (intros i j k Hin; destruct (Vb i j k Hin) as [v Hv]; exists v; rewrite Em; apply load_old; auto).
  all: assert (Dj : disjoint b a1) by
    (intros p (i & j & k & Hin & ->) Hp; destruct (contiguous_block _ _ _ _ C Hp) as [o Eo]; destruct (Vb i j k Hin) as [v Hv];
     destruct (load_block _ _ _ Hv) as (b0 & o0 & Eq & Lt); rewrite Eo in Eq; injection Eq as <- _; lia).
  all: destruct (copy_pixels m1 b a1) as (m' & E & H1 & H2); auto; try (rewrite ?D1, ?D2, ?D3; auto; fail);
    [eapply contiguous_valid; eauto|eapply contiguous_distinct; eauto|].
  all: exists m', a1; split;
    [destruct (count (i_d a1)); [|discriminate]; destruct (count (i_h a1)); [|discriminate]; destruct (count (i_w a1)); [|discriminate];
      rewrite E; reflexivity|].
  all: split; auto.
  all: assert (Hii : forall i j k, inside a1 i j k <-> inside b i j k) by (intros; unfold inside; rewrite D1, D2, D3; tauto).
  all: split; [intros i j k Hin; rewrite H1 by auto; apply Vb1, Hii; auto|].
  all: split; [eapply contiguous_distinct; eauto|].
  all: split; [split; [repeat split; auto|]; intros i j k Hin; rewrite H1 by (apply Hii; auto); destruct (Vb i j k Hin) as [v Hv];
      rewrite Hv; symmetry; rewrite Em; apply load_old; auto|].
  all: split; [|tauto]; intros p v L _; rewrite H2; [rewrite Em; apply load_old; auto|];
    intro Hp; destruct (contiguous_block _ _ _ _ C Hp) as [o ->]; destruct (load_block _ _ _ L) as (b0 & o0 & Eq & Lt);
    injection Eq as <- _; lia.
Qed.

(** equal_content *)
Lemma eq_i_spec m a b j k : valid m a -> valid m b -> same_dims a b -> 0 <= j < i_h a -> 0 <= k < i_d a -> forall n i, 0 <= i -> i + Z.of_nat n <= i_w a ->
  exists r, eq_i n i m a b j k = Good r /\
    (r = true <-> forall i', i <= i' < i + Z.of_nat n -> load m (address a i' j k) = load m (address b i' j k)).
Proof.
  intros Va Vb (Dw & Dh & Dd) Hj Hk. induction n as [|n IH]; intros i Hi Hn; cbn [eq_i].
  - exists true. split; auto. split; auto. intros _ i'. lia.
  - assert (Ia : inside a i j k) by (unfold inside; lia). assert (Ib : inside b i j k) by (unfold inside in *; lia).
    unfold read3. destruct (pix3_iff a i j k) as [-> _]; auto; try lia. destruct (pix3_iff b i j k) as [-> _]; auto; try lia.
    destruct (Va _ _ _ Ia) as [x Hx]. destruct (Vb _ _ _ Ib) as [y Hy]. rewrite Hx, Hy. cbn [of_opt].
    destruct (Z.eqb_spec x y) as [->|N]; cbn [negb].
    + destruct (IH (i + 1)) as (r & -> & Hr); try lia. exists r. split; auto. rewrite Hr. split; intros H i' Hi'.
      * destruct (Z.eq_dec i' i) as [->|]; [congruence|]. apply H. lia.
      * apply H. lia.
    + exists false. split; auto. split; [discriminate|]. intro H. specialize (H i ltac:(lia)). congruence.
Qed.
Lemma eq_j_spec m a b k nw : valid m a -> valid m b -> same_dims a b -> Z.of_nat nw = i_w a -> 0 <= k < i_d a -> forall n j, 0 <= j -> j + Z.of_nat n <= i_h a ->
  exists r, eq_j n j nw m a b k = Good r /\
    (r = true <-> forall i j', 0 <= i < i_w a -> j <= j' < j + Z.of_nat n -> load m (address a i j' k) = load m (address b i j' k)).
Proof.
  intros Va Vb Hd Hw Hk. induction n as [|n IH]; intros j Hj Hn; cbn [eq_j].
  - exists true. split; auto. split; auto. intros _ i j'. lia.
  - destruct (eq_i_spec m a b j k Va Vb Hd ltac:(lia) Hk nw 0 ltac:(lia) ltac:(lia)) as (r & -> & Hr).
    destruct r.
    + destruct (IH (j + 1)) as (r & -> & Hr2); try lia. exists r. split; auto. rewrite Hr2. split; intros H i j' Hi Hj'.
      * destruct (Z.eq_dec j' j) as [->|]; [apply (proj1 Hr eq_refl); lia|]. apply H; lia.
      * apply H; lia.
    + exists false. split; auto. split; [discriminate|]. intro H. apply Hr. intros i' Hi'. apply H; lia.
Qed.
Lemma eq_k_spec m a b nh nw : valid m a -> valid m b -> same_dims a b -> Z.of_nat nw = i_w a -> Z.of_nat nh = i_h a -> forall n k, 0 <= k -> k + Z.of_nat n <= i_d a ->
  exists r, eq_k n k nh nw m a b = Good r /\
    (r = true <-> forall i j k', 0 <= i < i_w a -> 0 <= j < i_h a -> k <= k' < k + Z.of_nat n -> load m (address a i j k') = load m (address b i j k')).
Proof.
  intros Va Vb Hd Hw Hh. induction n as [|n IH]; intros k Hk Hn; cbn [eq_k].
  - exists true. split; auto. split; auto. intros _ i j k'. lia.
  - destruct (eq_j_spec m a b k nw Va Vb Hd Hw ltac:(lia) nh 0 ltac:(lia) ltac:(lia)) as (r & -> & Hr).
    destruct r.
    + destruct (IH (k + 1)) as (r & -> & Hr2); try lia. exists r. split; auto. rewrite Hr2. split; intros H i j k' Hi Hj Hk'.
      * destruct (Z.eq_dec k' k) as [->|]; [apply (proj1 Hr eq_refl); lia|]. apply H; lia.
      * apply H; lia.
    + exists false. split; auto. split; [discriminate|]. intro H. apply Hr. intros i j Hi Hj. apply H; lia.
Qed.
Lemma equal_content_lemma m a b : 0 <= i_w a -> 0 <= i_h a -> 0 <= i_d a -> countable a -> valid m a -> valid m b ->
  exists r, equal_content m a b = Good r /\ (r = true <-> same_pixels m a m b).
Proof.
  intros Pw Ph Pd (Cw & Ch & Cd) Va Vb. unfold equal_content.
  destruct (Z.eqb_spec (i_w a) (i_w b)) as [Ew|Ew]; cbn [negb orb].
  2: { exists false. split; auto. split; [discriminate|]. intros ((X & _) & _). congruence. }
  destruct (Z.eqb_spec (i_h a) (i_h b)) as [Eh|Eh]; cbn [negb orb].
  2: { exists false. split; auto. split; [discriminate|]. intros ((_ & X & _) & _). congruence. }
  destruct (Z.eqb_spec (i_d a) (i_d b)) as [Ed|Ed]; cbn [negb orb].
  2: { exists false. split; auto. split; [discriminate|]. intros ((_ & _ & X) & _). congruence. }
  destruct (count_ok (i_d a)) as (nd & -> & Nd); [lia|]. destruct (count_ok (i_h a)) as (nh & -> & Nh); [lia|].
  destruct (count_ok (i_w a)) as (nw & -> & Nw); [lia|].
  assert (SD : same_dims a b) by (repeat split; auto).
  destruct (eq_k_spec m a b nh nw Va Vb SD Nw Nh nd 0) as (r & -> & Hr); try lia.
  exists r. split; auto. rewrite Hr. unfold same_pixels, inside. split.
  - intro H. split; auto. intros i j k (Hi & Hj & Hk). apply H; lia.
  - intros (_ & H) i j k Hi Hj Hk. apply H. lia.
Qed.

(** transform_image *)
Lemma tr_perm op m p n2 n1 n0 s2 s1 s0 (P : ptr -> Prop) :
  (forall i j k, 0 <= i < Z.of_nat n0 /\ 0 <= j < Z.of_nat n1 /\ 0 <= k < Z.of_nat n2 -> P (padd p (i * s0 + j * s1 + k * s2))) ->
  (forall q, P q -> exists i j k, 0 <= i < Z.of_nat n0 /\ 0 <= j < Z.of_nat n1 /\ 0 <= k < Z.of_nat n2 /\ q = padd p (i * s0 + j * s1 + k * s2)) ->
  (forall i j k i' j' k', 0 <= i < Z.of_nat n0 /\ 0 <= j < Z.of_nat n1 /\ 0 <= k < Z.of_nat n2 ->
    0 <= i' < Z.of_nat n0 /\ 0 <= j' < Z.of_nat n1 /\ 0 <= k' < Z.of_nat n2 ->
    padd p (i * s0 + j * s1 + k * s2) = padd p (i' * s0 + j' * s1 + k' * s2) -> i = i' /\ j = j' /\ k = k') ->
  (forall q, P q -> exists v, load m q = Some v) ->
  exists m', tr2 n2 n1 n0 op m p s2 s1 s0 = Some m' /\
    (forall q v, P q -> load m q = Some v -> load m' q = Some (op v)) /\ (forall q, ~ P q -> load m' q = load m q).
Proof.
  intros H1 H2 H3 HV. rewrite tr2_fold. set (l := map _ (triples n2 n1 n0)).
  assert (Hin : forall q, In q l <-> P q).
  { intro q. unfold l. rewrite in_map_iff. split.
    - intros ([[i j] k] & <- & H). apply in_triples in H. auto.
    - intro H. destruct (H2 q H) as (i & j & k & A & B & C & ->). exists (i, j, k). split; auto. apply in_triples. auto. }
  destruct (tr_fold_spec op l m) as (m' & E & A & B).
  - apply nodup_map_inj; [apply nodup_triples|]. intros [[i j] k] [[i' j'] k'] X Y Z0. apply in_triples in X, Y.
    destruct (H3 _ _ _ _ _ _ X Y Z0) as (-> & -> & ->). reflexivity.
  - intros q Hq. apply HV, Hin, Hq.
  - exists m'. split; auto. split.
    + intros q v Hq. apply A, Hin, Hq. + intros q Hq. apply B. rewrite Hin. auto.
Qed.
Lemma transform_lemma m a op : 0 <= i_w a -> 0 <= i_h a -> 0 <= i_d a -> countable a -> valid m a -> distinct a ->
  exists m', transform_image m a op = Some m' /\
    (forall i j k v, inside a i j k -> load m (address a i j k) = Some v -> load m' (address a i j k) = Some (op v)) /\
    (forall p, ~ pixel_of a p -> load m' p = load m p).
Proof.
  intros Pw Ph Pd (Cw & Ch & Cd) Va Da. unfold transform_image.
  destruct (count_ok (i_d a)) as (nd & Ed & Nd); [lia|]. destruct (count_ok (i_h a)) as (nh & Eh & Nh); [lia|].
  destruct (count_ok (i_w a)) as (nw & Ew & Nw); [lia|].
  assert (HV : forall q, pixel_of a q -> exists v, load m q = Some v) by (intros q (i & j & k & H & ->); apply Va; auto).
  assert (Fin : forall m', (forall q v, pixel_of a q -> load m q = Some v -> load m' q = Some (op v)) ->
     forall i j k v, inside a i j k -> load m (address a i j k) = Some v -> load m' (address a i j k) = Some (op v)).
  { intros m' H i j k v Hin. apply H. exists i, j, k. auto. }
  destruct (Z.ltb_spec (i_ws a) (i_hs a)); destruct (Z.ltb_spec (i_ds a) (i_hs a)); destruct (Z.ltb_spec (i_ds a) (i_ws a)); try lia;
    cbn [negb b2n Nat.add lupd]; rewrite Ed, Eh, Ew.
  - (* d < w < h *)
    destruct (tr_perm op m (i_first a) nh nw nd (i_hs a) (i_ws a) (i_ds a) (pixel_of a)) as (m' & E & A & B); eauto.
    + intros k i j H'. exists i, j, k. split; [unfold inside; lia|]. unfold address. f_equal. lia.
    + intros q (i & j & k & (Hi & Hj & Hk) & ->). exists k, i, j. rewrite Nd, Nh, Nw. repeat split; try lia. unfold address. f_equal. lia.
    + intros k i j k' i' j' X Y E. destruct (Da i j k i' j' k') as (-> & -> & ->); auto; try (unfold inside; lia).
      unfold address. etransitivity; [|etransitivity; [exact E|]]; f_equal; lia.
  - (* w <= d < h *)
    destruct (tr_perm op m (i_first a) nh nd nw (i_hs a) (i_ds a) (i_ws a) (pixel_of a)) as (m' & E & A & B); eauto.
    + intros i k j H'. exists i, j, k. split; [unfold inside; lia|]. unfold address. f_equal. lia.
    + intros q (i & j & k & (Hi & Hj & Hk) & ->). exists i, k, j. rewrite Nd, Nh, Nw. repeat split; try lia. unfold address. f_equal. lia.
    + intros i k j i' k' j' X Y E. destruct (Da i j k i' j' k') as (-> & -> & ->); auto; try (unfold inside; lia).
      unfold address. etransitivity; [|etransitivity; [exact E|]]; f_equal; lia.
  - (* w < h <= d *)
    destruct (tr_perm op m (i_first a) nd nh nw (i_ds a) (i_hs a) (i_ws a) (pixel_of a)) as (m' & E & A & B); eauto.
    + intros i j k H'. exists i, j, k. split; [unfold inside; lia|]. unfold address. f_equal.
    + intros q (i & j & k & (Hi & Hj & Hk) & ->). exists i, j, k. rewrite Nd, Nh, Nw. repeat split; try lia.
    + intros i j k i' j' k' X Y E. destruct (Da i j k i' j' k') as (-> & -> & ->); auto; try (unfold inside; lia).
  - (* d < h <= w *)
    destruct (tr_perm op m (i_first a) nw nh nd (i_ws a) (i_hs a) (i_ds a) (pixel_of a)) as (m' & E & A & B); eauto.
    + intros k j i H'. exists i, j, k. split; [unfold inside; lia|]. unfold address. f_equal. lia.
    + intros q (i & j & k & (Hi & Hj & Hk) & ->). exists k, j, i. rewrite Nd, Nh, Nw. repeat split; try lia. unfold address. f_equal. lia.
    + intros k j i k' j' i' X Y E. destruct (Da i j k i' j' k') as (-> & -> & ->); auto; try (unfold inside; lia).
      unfold address. etransitivity; [|etransitivity; [exact E|]]; f_equal; lia.
  - (* h <= d < w *)
    destruct (tr_perm op m (i_first a) nw nd nh (i_ws a) (i_ds a) (i_hs a) (pixel_of a)) as (m' & E & A & B); eauto.
    + intros j k i H'. exists i, j, k. split; [unfold inside; lia|]. unfold address. f_equal. lia.
    + intros q (i & j & k & (Hi & Hj & Hk) & ->). exists j, k, i. rewrite Nd, Nh, Nw. repeat split; try lia. unfold address. f_equal. lia.
    + intros j k i j' k' i' X Y E. destruct (Da i j k i' j' k') as (-> & -> & ->); auto; try (unfold inside; lia).
      unfold address. etransitivity; [|etransitivity; [exact E|]]; f_equal; lia.
  - (* h <= w <= d *)
    destruct (tr_perm op m (i_first a) nd nw nh (i_ds a) (i_ws a) (i_hs a) (pixel_of a)) as (m' & E & A & B); eauto.
    + intros j i k H'. exists i, j, k. split; [unfold inside; lia|]. unfold address. f_equal. lia.
    + intros q (i & j & k & (Hi & Hj & Hk) & ->). exists j, i, k. rewrite Nd, Nh, Nw. repeat split; try lia. unfold address. f_equal. lia.
    + intros j i k j' i' k' X Y E. destruct (Da i j k i' j' k') as (-> & -> & ->); auto; try (unfold inside; lia).
      unfold address. etransitivity; [|etransitivity; [exact E|]]; f_equal; lia.
Qed.
