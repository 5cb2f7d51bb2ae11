(** image_memory and the C interface. *)
From Coq Require Import List ZArith Lia Bool FinFun.
Import ListNotations.
From Verif Require Import Base ImageModel ImageSpec ImageProofs ImageProofs2.
Local Open Scope Z_scope.

Lemma memcpy_fold n : forall m dst src, memcpy n m dst src = copy_fold (map (fun i => (padd src i, padd dst i)) (seqZ n)) m.
Proof.
  induction n as [|n IH]; intros; [reflexivity|]. rewrite seqZ_S. cbn [map copy_fold memcpy]. rewrite !padd_0.
  destruct (load m src); auto. destruct (store m dst z); auto. rewrite IH, map_map. f_equal. apply map_ext. intro i.
  rewrite !padd_padd. f_equal; f_equal; lia.
Qed.
Lemma memcpy_spec m dst src n : 0 <= n ->
  (forall o, 0 <= o < n -> exists v, load m (padd src o) = Some v) ->
  (forall o, 0 <= o < n -> exists v, load m (padd dst o) = Some v) ->
  (forall b o b' o', dst = Some (b, o) -> src = Some (b', o') -> b <> b') ->
  exists m', memcpy (Z.to_nat n) m dst src = Some m' /\ length m' = length m /\
   (forall o, 0 <= o < n -> load m' (padd dst o) = load m (padd src o)) /\
   (forall p, (forall o, 0 <= o < n -> p <> padd dst o) -> load m' p = load m p).
Proof.
  intros Hn Vs Vd Sep. rewrite memcpy_fold. set (l := map _ _).
  assert (Hs : map snd l = map (fun i => padd dst i) (seqZ (Z.to_nat n))) by (unfold l; rewrite map_map; reflexivity).
  assert (Hi : forall i, In i (seqZ (Z.to_nat n)) <-> 0 <= i < n) by (intro i; rewrite in_seqZ; lia).
  destruct (copy_fold_spec l m) as (m' & E & Len & H1 & H2).
  - rewrite Hs. apply nodup_map_inj; [apply nodup_seqZ|]. intros x y Hx Hy Exy. apply Hi in Hx, Hy.
    destruct (Vd x Hx) as [v Hv]. destruct dst as [[b o]|]; [|discriminate]. cbn in Exy. injection Exy as Exy. lia.
  - intros s d H. apply in_map_iff in H as (i & X & Hin). injection X as <- <-. apply Hi in Hin. split; auto. split; auto.
    rewrite Hs, in_map_iff. intros (y & X & Hy). apply Hi in Hy. destruct (Vd y Hy) as [v Hv]. destruct (Vs i Hin) as [u Hu].
    destruct dst as [[b o]|]; [|discriminate]. destruct src as [[b' o']|]; [|discriminate]. cbn in X. injection X as X _.
    eapply Sep; eauto.
  - exists m'. split; auto. split; auto. split.
    + intros o Ho. apply H1. apply in_map_iff. exists o. split; auto. apply Hi; auto.
    + intros p Hp. apply H2. rewrite Hs, in_map_iff. intros (y & X & Hy). apply Hi in Hy. apply (Hp y Hy). auto.
Qed.

Lemma load_lt m b o v : load m (Some (b, o)) = Some v -> (b < length m)%nat.
Proof. intro H. destruct (load_block _ _ _ H) as (b0 & o0 & E & L). congruence. Qed.
Lemma load_app_some m x p : (exists v, load m p = Some v) -> load (m ++ [x]) p = load m p.
Proof. intros [v H]. rewrite H. apply load_old; auto. Qed.

Lemma mem_ok_lt m x b o : mem_ok m x -> m_data x = Some (b, o) -> (b < length m)%nat.
Proof.
  intros (_ & _ & [E|(b' & k & E & Hk)]) H; rewrite E in H; [discriminate|]. injection H as <- _. apply nth_error_Some. intro X. rewrite X in Hk. discriminate.
Qed.
(** Copying does not touch blocks: freed blocks stay freed, sizes stay. *)
Lemma copy_fold_shape l : forall m m', copy_fold l m = Some m' ->
  forall b, (exists k, nth_error m b = Some (Some k)) -> exists k, nth_error m' b = Some (Some k).
Proof.
  induction l as [|[s d] l IH]; intros m m' E b Hb; cbn [copy_fold] in E; [injection E as <-; exact Hb|].
  destruct (load m s) as [v|]; [|discriminate]. destruct (store m d v) as [m1|] eqn:Es; [|discriminate].
  apply (IH m1 m' E). destruct d as [[b' o']|]; [|discriminate]. cbn [store] in Es. destruct (nth_error m b') as [[k|]|] eqn:Ek; try discriminate.
  destruct ((0 <=? o') && (o' <? k_size k)); [|discriminate]. injection Es as <-.
  destruct (Nat.eq_dec b' b) as [->|N].
  - rewrite nth_lupd_eq by (apply nth_error_Some; congruence). eauto.
  - rewrite nth_lupd_ne by auto. auto.
Qed.
Lemma im_copy_lemma m other junk : mem_ok m other ->
  exists m' self, im_copy m other junk = Some (m', self) /\ mem_ok m' self /\ mem_ok m' other /\ separate self other /\ same_bytes m other m' self /\
    forall p v, load m p = Some v -> load m' p = Some v.
Proof.
  intros Ho. pose proof Ho as (Hn & Hv & Hd). unfold im_copy, im_new, alloc. set (m1 := m ++ _). cbn [m_data].
  assert (Sep : forall b o b' o', Some (length m, 0) = Some (b, o) -> m_data other = Some (b', o') -> b <> b').
  { intros b o b' o' X Y. injection X as <- _. pose proof (mem_ok_lt _ _ _ _ Ho Y). lia. }
  destruct (memcpy_spec m1 (Some (length m, 0)) (m_data other) (m_size other)) as (m' & E & Len & H1 & H2); auto.
  - intros o Ho'. destruct (Hv o Ho') as [v Lv]. exists v. apply load_old; auto.
  - intros o Ho'. cbn [padd]. exists (junk o). rewrite Z.add_0_l. apply load_new; auto.
  - rewrite E. exists m', (mkIM (Some (length m, 0)) (m_size other)). split; auto.
    assert (Keep : forall p v, load m p = Some v -> load m' p = Some v).
    { intros p v L. rewrite H2.
      - apply load_old; auto.
      - intros o _ ->. cbn [padd] in L. apply load_lt in L. lia. }
    rewrite memcpy_fold in E. split; [|split; [|split; [|split; auto]]].
    + split; auto. split.
      * cbn [m_data m_size]. intros o Ho'. rewrite (H1 o Ho'). destruct (Hv o Ho') as [v Lv]. exists v. apply load_old; auto.
      * right. destruct (copy_fold_shape _ _ _ E (length m)) as [k Hk]; [unfold m1; rewrite nth_error_app2, Nat.sub_diag by lia; eexists; reflexivity|].
        exists (length m), k. auto.
    + split; auto. split.
      * intros o Ho'. destruct (Hv o Ho') as [v Lv]. exists v. auto.
      * destruct Hd as [Hd|(b & k & Hd & Hk)]; [auto|]. right.
        destruct (copy_fold_shape _ _ _ E b) as [k' Hk']; [|exists b, k'; auto].
        unfold m1. rewrite nth_error_app1 by (apply nth_error_Some; congruence). eauto.
    + exact Sep.
    + split; [reflexivity|]. intros o Ho'. cbn [m_data]. rewrite (H1 o Ho'). symmetry. apply load_app_some; auto.
Qed.

Lemma load_free m b p v : load m p = Some v -> (forall o, p <> Some (b, o)) -> load (lupd m b None) p = Some v.
Proof.
  destruct p as [[b' o']|]; [|discriminate]. intros L N. cbn [load] in *. rewrite nth_lupd_ne; auto. intros ->. apply (N o'). auto.
Qed.
Definition owns (x : imem) (p : ptr) : Prop := exists b o o', m_data x = Some (b, o) /\ p = Some (b, o').
Lemma im_assign_lemma m self other junk : mem_ok m self -> mem_ok m other -> separate self other ->
  exists m' self', im_assign m self other false junk = Some (m', self') /\ mem_ok m' self' /\ mem_ok m' other /\ separate self' other /\
    same_bytes m other m' self' /\
    forall p v, load m p = Some v -> ~ owns self p -> load m' p = Some v.
Proof.
  intros Hs Ho Sep. pose proof Ho as (Hn & Hv & Hd). pose proof Hs as (Sn & Sv & Sd). unfold im_assign.
  (* the state after the (possible) reallocation *)
  assert (Step : exists m1 self1,
    (if negb (m_size self =? m_size other) then
        match free m (m_data self) with
        | None => None
        | Some m1 =>
          if 0 <? m_size other
          then let '(m2, b) := alloc m1 (m_size other) junk in Some (m2, mkIM (Some (b, 0)) (m_size other))
          else Some (m1, mkIM None (m_size other))
        end
      else Some (m, self)) = Some (m1, self1) /\ m_size self1 = m_size other /\ mem_ok m1 self1 /\ mem_ok m1 other /\ separate self1 other /\
    (forall p v, load m p = Some v -> ~ owns self p -> load m1 p = Some v /\ ~ owns self1 p)).
  { destruct (Z.eqb_spec (m_size self) (m_size other)) as [E|E]; cbn [negb].
    { exists m, self. split; auto. split; auto 6. }
    assert (Free : exists m1, free m (m_data self) = Some m1 /\ length m1 = length m /\ mem_ok m1 other /\
    forall p v, load m p = Some v -> ~ owns self p -> load m1 p = Some v).
    { destruct Sd as [Sd|(b & k & Sd & Sk)]; rewrite Sd; cbn [free].
      - exists m. split; auto.
      - rewrite Sk, Z.eqb_refl. exists (lupd m b None). split; auto. split; [apply lupd_length|].
        assert (K : forall p v, load m p = Some v -> ~ owns self p -> load (lupd m b None) p = Some v).
        { intros p v L N. apply load_free; auto. intros o ->. apply N. exists b, 0, o. auto. }
        split; auto. split; auto. split.
        + intros o Ho'. destruct (Hv o Ho') as [v Lv]. exists v. apply K; auto. intros (b1 & o1 & o2 & X & Y).
          destruct (m_data other) as [[b2 o3]|] eqn:Eo; [|discriminate]. cbn in Y. injection Y as -> _. eapply Sep; eauto.
        + destruct Hd as [Hd|(b2 & k2 & Hd & Hk2)]; [auto|]. right. exists b2, k2. split; auto. rewrite nth_lupd_ne; auto. eapply Sep; eauto. }
    destruct Free as (m1 & -> & Len & Ho1 & K1). destruct (Z.ltb_spec 0 (m_size other)) as [P|P].
    - unfold alloc. do 2 eexists. split; [reflexivity|]. split; auto. pose proof Ho1 as (_ & Hv1 & Hd1). split; [|split; [|split]].
      + split; auto. split.
        * cbn [m_data m_size padd]. intros o Hoo. rewrite Z.add_0_l, load_new by auto. eauto.
        * right. exists (length m1), (mkBlk (m_size other) junk). split; auto. rewrite nth_error_app2, Nat.sub_diag by lia. reflexivity.
      + split; auto. split.
        * intros o Hoo. rewrite load_app_some by auto. auto.
        * destruct Hd1 as [Hd1|(b & k & Hd1 & Hk)]; [auto|right]. exists b, k. split; auto. rewrite nth_error_app1; auto. apply nth_error_Some. congruence.
      + intros b o b' o' X Y. cbn in X. injection X as <- _. pose proof (mem_ok_lt _ _ _ _ Ho1 Y). lia.
      + intros p v L N. split; [apply load_old; auto|]. intros (b & o & o' & X & ->). cbn in X. injection X as <- _.
        apply load_lt in L. lia.
    - do 2 eexists. split; [reflexivity|]. split; auto. split; [|split; [auto|split]].
      + split; auto. split; [cbn; lia|auto].
      + intros b o b' o' X. discriminate.
      + intros p v L N. split; auto. intros (b & o & o' & X & _). discriminate. }
  destruct Step as (m1 & self1 & -> & Es & Hs1 & Ho1 & Sep1 & K1).
  pose proof Hs1 as (_ & Sv1 & Sd1). pose proof Ho1 as (_ & Hv1 & Hd1).
  destruct (memcpy_spec m1 (m_data self1) (m_data other) (m_size self1)) as (m' & E & Len & H1 & H2); auto; try (rewrite Es; auto; fail).
  rewrite E. exists m', self1. split; auto.
  assert (K : forall p v, load m1 p = Some v -> ~ owns self1 p -> load m' p = Some v).
  { intros p v L N. rewrite H2; auto. intros o _ ->. apply N. destruct (m_data self1) as [[b o']|] eqn:Ed; [|discriminate].
    exists b, o', (o' + o). auto. }
  assert (No : forall o, 0 <= o < m_size other -> ~ owns self1 (padd (m_data other) o)).
  { intros o Hoo (b & o1 & o2 & X & Y). destruct (m_data other) as [[b2 o3]|] eqn:Eo; [|discriminate]. cbn in Y. injection Y as -> _.
    eapply Sep1; eauto. }
  rewrite memcpy_fold in E. split; [|split; [|split; [auto|split]]].
  - split; [lia|]. split.
    + intros o Hoo. rewrite H1 by auto. apply Hv1. lia.
    + destruct Sd1 as [Sd1|(b & k & Sd1 & Sk)]; [auto|right]. destruct (copy_fold_shape _ _ _ E b) as [k' Hk']; eauto.
  - split; auto. split.
    + intros o Hoo. destruct (Hv1 o Hoo) as [v Lv]. exists v. apply K; auto.
    + destruct Hd1 as [Hd1|(b & k & Hd1 & Hk)]; [auto|right]. destruct (copy_fold_shape _ _ _ E b) as [k' Hk']; eauto.
  - split; auto. intros o Hoo. rewrite (H1 o) by lia. destruct (Hv o Hoo) as [v Lv]. rewrite Lv. symmetry.
    apply K1; auto. intros (b & o1 & o2 & X & Y). destruct (m_data other) as [[b2 o3]|] eqn:Eo; [|discriminate]. cbn in Y. injection Y as -> _.
    eapply Sep; eauto.
  - intros p v L N. destruct (K1 p v L N). apply K; auto.
Qed.

(** ---- vital_image_new_from_data ---- *)
Lemma int32_small z : fits32 z -> int32 z = z.
Proof.
  unfold fits32, int32. intro H. destruct (Z.ltb_spec z 0).
  - rewrite <- (Z_mod_plus_full z 1), Z.mod_small by lia. destruct (Z.ltb_spec (z + 1 * 2 ^ 32) (2 ^ 31)); lia.
  - rewrite Z.mod_small by lia. destruct (Z.ltb_spec z (2 ^ 31)); lia.
Qed.
Lemma sum32_ok x y z : fits32 (x + y) -> fits32 (x + y + z) -> sum32 x y z = Some (x + y + z).
Proof.
  unfold fits32, sum32. intros. destruct (Z.leb_spec (- 2 ^ 31) (x + y)), (Z.ltb_spec (x + y) (2 ^ 31)),
    (Z.leb_spec (- 2 ^ 31) (x + y + z)), (Z.ltb_spec (x + y + z) (2 ^ 31)); cbn [andb]; auto; lia.
Qed.
Definition out_of (o : option mem) : outcome mem := match o with Some m => Good m | None => Undefined end.
Lemma data_w_fold a first h d ws hi di : 0 <= h < i_h a -> 0 <= d < i_d a ->
  (forall i, 0 <= i < i_w a -> fits32 (i * ws) /\ fits32 (i * ws + hi) /\ fits32 (i * ws + hi + di)) ->
  forall n w m, 0 <= w -> w + Z.of_nat n <= i_w a ->
  data_w n w m a first h d ws hi di = out_of (copy_fold (map (fun i => (padd first ((w + i) * ws + hi + di), address a (w + i) h d)) (seqZ n)) m).
Proof.
  intros Hh Hd HF. induction n as [|n IH]; intros w m Hw Hn; [reflexivity|].
  rewrite seqZ_S. cbn [data_w map copy_fold]. rewrite Z.add_0_r. destruct (HF w ltac:(lia)) as (F1 & F2 & F3).
  rewrite int32_small, sum32_ok by auto. destruct (load m _) as [v|]; [|reflexivity].
  unfold write3. destruct (pix3_iff a w h d) as [-> _]; try lia; [|unfold inside; lia].
  destruct (store m _ v) as [m'|]; [|reflexivity]. cbn [of_opt]. rewrite IH by lia. do 2 f_equal. rewrite map_map. apply map_ext. intro i.
  f_equal; f_equal; lia.
Qed.
Lemma data_h_fold a first d ws hs di nw : Z.of_nat nw = i_w a -> 0 <= d < i_d a ->
  (forall i j, 0 <= i < i_w a -> 0 <= j < i_h a -> fits32 (j * hs) /\ fits32 (i * ws) /\ fits32 (i * ws + j * hs) /\ fits32 (i * ws + j * hs + di)) ->
  (forall j, 0 <= j < i_h a -> fits32 (j * hs)) ->
  forall n h m, 0 <= h -> h + Z.of_nat n <= i_h a ->
  data_h n h nw m a first d ws hs di =
  out_of (copy_fold (flat_map (fun j => map (fun i => (padd first (i * ws + (h + j) * hs + di), address a i (h + j) d)) (seqZ nw)) (seqZ n)) m).
Proof.
  intros Hw Hd HF HF2. induction n as [|n IH]; intros h m Hh Hn; [reflexivity|].
  rewrite seqZ_S. cbn [data_h flat_map]. rewrite copy_fold_app, Z.add_0_r. rewrite (int32_small (h * hs)) by (apply HF2; lia).
  rewrite data_w_fold; try lia.
  - cbn [Z.add]. destruct (copy_fold _ m) as [m'|]; [|reflexivity]. cbn [out_of]. rewrite IH by lia. do 2 f_equal.
    rewrite flat_map_map, !flat_map_concat_map. f_equal. apply map_ext. intro j. apply map_ext. intro i. f_equal; f_equal; lia.
  - intros i Hi. destruct (HF i h Hi ltac:(lia)) as (A & B & C & D). auto.
Qed.
Lemma data_d_idx_ok depth d ds : 0 <= d < depth -> depth < 2 ^ 32 -> fits32 ds -> fits32 (channel depth ds d) -> data_d_idx depth d ds = channel depth ds d.
Proof.
  intros Hd Hb Hds HF. unfold data_d_idx, channel in *. destruct (Z.leb_spec 0 ds); [apply int32_small; auto|].
  unfold fits32 in Hds. rewrite (size_t_small (depth - d - 1)) by lia.
  assert (0 <= (depth - d - 1) * - ds) by nia. assert ((depth - d - 1) * - ds < 2 ^ 64) by nia.
  rewrite size_t_small by lia. replace (depth - d - 1) with (depth - 1 - d) by lia. apply int32_small. auto.
Qed.
Lemma data_d_fold a first depth ws hs ds nh nw : Z.of_nat nw = i_w a -> Z.of_nat nh = i_h a -> depth = i_d a -> depth < 2 ^ 32 -> fits32 ds ->
  (forall k, 0 <= k < i_d a -> fits32 (channel depth ds k)) ->
  (forall i j k, inside a i j k -> fits32 (j * hs) /\ fits32 (i * ws) /\ fits32 (i * ws + j * hs) /\ fits32 (i * ws + j * hs + channel depth ds k)) ->
  (forall j, 0 <= j < i_h a -> fits32 (j * hs)) ->
  forall n d m, 0 <= d -> d + Z.of_nat n <= i_d a ->
  data_d n d nh nw m a first depth ws hs ds =
  out_of (copy_fold (flat_map (fun k => flat_map (fun j => map (fun i => (padd first (i * ws + j * hs + channel depth ds (d + k)), address a i j (d + k)))
      (seqZ nw)) (seqZ nh)) (seqZ n)) m).
Proof.
  intros Hw Hh Hdep Hb Fds HC HF HF2. induction n as [|n IH]; intros d m Hd Hn; [reflexivity|].
  rewrite seqZ_S. cbn [data_d flat_map]. rewrite copy_fold_app, Z.add_0_r. rewrite data_d_idx_ok; auto; try lia; [|apply HC; lia].
  rewrite data_h_fold; auto; try lia.
  - assert (E : forall l, flat_map (fun j => map (fun i => (padd first (i * ws + (0 + j) * hs + channel depth ds d), address a i (0 + j) d)) (seqZ nw)) l =
      flat_map (fun j => map (fun i => (padd first (i * ws + j * hs + channel depth ds d), address a i j d)) (seqZ nw)) l).
    { intro l. rewrite !flat_map_concat_map. f_equal. }
    rewrite E. destruct (copy_fold _ m) as [m'|]; [|reflexivity]. cbn [out_of]. rewrite IH by lia. do 2 f_equal.
    rewrite flat_map_map, !flat_map_concat_map. f_equal. apply map_ext. intro k. rewrite !flat_map_concat_map. f_equal. apply map_ext. intro j.
    apply map_ext. intro i. replace (d + 1 + k) with (d + (k + 1)) by lia. reflexivity.
  - intros i j Hi Hj. apply HF. unfold inside. lia.
Qed.
Lemma data_w_none n w m a first h d ws hi di : n = 0%nat -> data_w n w m a first h d ws hi di = Good m.
Proof. intros ->. reflexivity. Qed.
Lemma data_h_none n : forall h nw m a first d ws hs di, n = 0%nat \/ nw = 0%nat -> data_h n h nw m a first d ws hs di = Good m.
Proof.
  induction n as [|n IH]; intros h nw m a first d ws hs di H; [reflexivity|]. cbn [data_h]. rewrite data_w_none by (destruct H; [discriminate|auto]).
  apply IH. destruct H; [discriminate|auto].
Qed.
Lemma data_d_none n : forall k nh nw m a first depth ws hs ds, nh = 0%nat \/ nw = 0%nat -> data_d n k nh nw m a first depth ws hs ds = Good m.
Proof.
  induction n as [|n IH]; intros; [reflexivity|]. cbn [data_d]. rewrite data_h_none by auto. apply IH; auto.
Qed.
Lemma new_from_data_lemma m first w h d ws hs ds junk : 0 <= w < 2 ^ 32 -> 0 <= h < 2 ^ 32 -> 0 <= d < 2 ^ 32 -> w * h * d < 2 ^ 63 -> fits32 ds ->
  (forall i j k, 0 <= i < w -> 0 <= j < h -> 0 <= k < d ->
    fits32 (j * hs) /\ fits32 (i * ws) /\ fits32 (channel d ds k) /\ fits32 (i * ws + j * hs) /\ fits32 (i * ws + j * hs + channel d ds k) /\
    exists v, load m (padd first (i * ws + j * hs + channel d ds k)) = Some v) ->
  exists m' a, new_from_data m first w h d ws hs ds junk = Good (m', a) /\
    i_w a = w /\ i_h a = h /\ i_d a = d /\ valid m' a /\ distinct a /\
    (forall i j k, inside a i j k -> load m' (address a i j k) = load m (padd first (i * ws + j * hs + channel d ds k))) /\
    (forall p v, load m p = Some v -> load m' p = Some v).
Proof.
  intros Bw Bh Bd Bs Fds HS. unfold new_from_data. destruct (img_new m w h d false junk) as [m1 a] eqn:EN.
  destruct (img_new_contiguous m w h d false junk m1 a) as (C & Em & D1 & D2 & D3 & _); auto; try lia.
  destruct (count_ok _ Bd) as (nd & -> & Nd). destruct (count_ok _ Bh) as (nh & -> & Nh). destruct (count_ok _ Bw) as (nw & -> & Nw).
  assert (Hii : forall i j k, inside a i j k <-> 0 <= i < w /\ 0 <= j < h /\ 0 <= k < d) by (intros; unfold inside; rewrite D1, D2, D3; tauto).
  destruct (Z_lt_dec 0 w) as [W0|W0]; [destruct (Z_lt_dec 0 h) as [H0|H0]; [destruct (Z_lt_dec 0 d) as [D0|D0]|]|].
  2-4: (assert (Em' : data_d nd 0 nh nw m1 a first d ws hs ds = Good m1) by
    (first [apply data_d_none; right; lia|apply data_d_none; left; lia|replace nd with 0%nat by lia; reflexivity]);
    rewrite Em'; exists m1, a; split; [reflexivity|]; repeat (split; [assumption|]);
    split; [eapply contiguous_valid; eauto|]; split; [eapply contiguous_distinct; eauto|]; split;
    [intros i j k Hin; apply Hii in Hin; lia|intros p v L; rewrite Em; apply load_old; auto]).
  assert (Val : forall i j k, inside a i j k -> exists v, load m (padd first (i * ws + j * hs + channel d ds k)) = Some v).
  { intros i j k Hin. apply Hii in Hin. apply HS; tauto. }
  rewrite data_d_fold; try (rewrite ?D1, ?D2, ?D3; auto; lia); auto; try lia.
  2: { rewrite D3. intros k Hk. apply (HS 0 0 k); lia. }
  2: { intros i j k Hin. apply Hii in Hin. destruct (HS i j k) as (A & B & C0 & D & E & _); tauto. }
  2: { rewrite D2. intros j Hj. apply (HS 0 j 0); lia. }
  set (f := fun t : Z * Z * Z => let '(i, j, k) := t in (padd first (i * ws + j * hs + channel d ds k), address a i j k)).
  assert (El : flat_map (fun k => flat_map (fun j => map (fun i => (padd first (i * ws + j * hs + channel d ds (0 + k)), address a i j (0 + k)))
      (seqZ nw)) (seqZ nh)) (seqZ nd) = map f (triples nd nh nw)).
  { unfold triples. rewrite map_flat_map, !flat_map_concat_map. f_equal. apply map_ext. intro k.
    rewrite map_flat_map, !flat_map_concat_map. f_equal. apply map_ext. intro j. rewrite map_map. reflexivity. }
  rewrite El.
  assert (Hs : map snd (map f (triples nd nh nw)) = map (fun t => let '(i, j, k) := t in address a i j k) (triples nd nh nw)).
  { rewrite map_map. apply map_ext. intros [[i j] k]. reflexivity. }
  assert (Hin : forall i j k, In (i, j, k) (triples nd nh nw) <-> inside a i j k).
  { intros. rewrite in_triples, Hii. rewrite Nd, Nh, Nw. tauto. }
  assert (Hpix : forall p, In p (map (fun t => let '(i, j, k) := t in address a i j k) (triples nd nh nw)) <-> pixel_of a p).
  { intro p. rewrite in_map_iff. split.
    - intros ([[i j] k] & <- & H). exists i, j, k. split; auto. apply Hin; auto.
    - intros (i & j & k & H & ->). exists (i, j, k). split; auto. apply Hin; auto. }
  assert (Old : forall p v, load m p = Some v -> ~ pixel_of a p).
  { intros p v L Hp. destruct (contiguous_block _ _ _ _ C Hp) as [o ->]. apply load_lt in L. lia. }
  destruct (copy_fold_spec (map f (triples nd nh nw)) m1) as (m' & E & _ & H1 & H2).
  - rewrite Hs. apply nodup_map_inj; [apply nodup_triples|]. intros [[i j] k] [[i' j'] k'] A B X.
    apply Hin in A, B. destruct (contiguous_distinct _ _ _ C _ _ _ _ _ _ A B X) as (-> & -> & ->). reflexivity.
  - intros s dd H. apply in_map_iff in H as ([[i j] k] & X & H). injection X as <- <-. apply Hin in H.
    destruct (Val _ _ _ H) as [v Hv]. split; [exists v; rewrite Em; apply load_old; auto|]. split; [apply (contiguous_valid _ _ _ C); auto|].
    rewrite Hs, Hpix. eapply Old; eauto.
  - rewrite E. cbn [out_of]. exists m', a. split; auto. repeat (split; [assumption|]).
    assert (H1' : forall i j k, inside a i j k -> load m' (address a i j k) = load m (padd first (i * ws + j * hs + channel d ds k))).
    { intros i j k Hi. rewrite (H1 (padd first (i * ws + j * hs + channel d ds k))).
      - destruct (Val _ _ _ Hi) as [v Hv]. rewrite Hv, Em. apply load_old; auto.
      - apply in_map_iff. exists (i, j, k). split; auto. apply Hin; auto. }
    split; [intros i j k Hi; rewrite H1' by auto; auto|]. split; [eapply contiguous_distinct; eauto|]. split; [exact H1'|].
    intros p v L. rewrite H2; [rewrite Em; apply load_old; auto|]. rewrite Hs, Hpix. eapply Old; eauto.
Qed.
