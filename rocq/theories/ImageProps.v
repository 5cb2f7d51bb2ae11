(** ImageProps.v -- property theorems C27..C31 and C58 about images. *)
From Coq Require Import List ZArith Lia Bool.
Import ListNotations.
From Verif Require Import Base ImageModel ImageSpec ImageProofs ImageProofs2 ImageProofs3.
Local Open Scope Z_scope.

(** C27: freshly sized images (both orders, and set_size to other dimensions):
    every pixel lies in the allocated memory, which has exactly w*h*d bytes, and
    different pixels are different bytes; the accessors throw outside. *)
Theorem C27_constructor_addresses m w h d interleave junk m' a :
  0 <= w -> 0 <= h -> 0 <= d -> w * h * d < 2 ^ 63 ->
  img_new m w h d interleave junk = (m', a) ->
  i_w a = w /\ i_h a = h /\ i_d a = d /\ img_size a = w * h * d /\ valid m' a /\ distinct a /\
  (forall p, pixel_of a p -> forall v, load m p <> Some v).
Proof.
  intros Hw Hh Hd Hs E. destruct (img_new_contiguous _ _ _ _ _ _ _ _ Hw Hh Hd Hs E) as (C & Em & D1 & D2 & D3 & D4).
  repeat (split; [assumption|]). split; [eapply contiguous_valid; eauto|]. split; [eapply contiguous_distinct; eauto|].
  intros p Hp v L. destruct (contiguous_block _ _ _ _ C Hp) as [o ->]. apply load_lt in L. lia.
Qed.
Print Assumptions C27_constructor_addresses.
Theorem C27_set_size_addresses m a0 w h d junk m' a :
  0 <= w -> 0 <= h -> 0 <= d -> w * h * d < 2 ^ 63 -> ~ (w = i_w a0 /\ h = i_h a0 /\ d = i_d a0) ->
  set_size m a0 w h d junk = (m', a) ->
  i_w a = w /\ i_h a = h /\ i_d a = d /\ img_size a = w * h * d /\ valid m' a /\ distinct a /\
  (forall p, pixel_of a p -> forall v, load m p <> Some v).
Proof.
  intros Hw Hh Hd Hs N E. destruct (set_size_contiguous _ _ _ _ _ _ _ _ Hw Hh Hd Hs N E) as (C & Em & D1 & D2 & D3 & D4).
  repeat (split; [assumption|]). split; [eapply contiguous_valid; eauto|]. split; [eapply contiguous_distinct; eauto|].
  intros p Hp v L. destruct (contiguous_block _ _ _ _ C Hp) as [o ->]. apply load_lt in L. lia.
Qed.
Print Assumptions C27_set_size_addresses.
Theorem C27_set_size_same_dims_keeps m a junk : set_size m a (i_w a) (i_h a) (i_d a) junk = (m, a).
Proof. unfold set_size. rewrite !Z.eqb_refl. reflexivity. Qed.
(** The checked accessors, on every image. *)
Theorem C27_accessors_check_bounds m a i j k : 0 <= i -> 0 <= j -> 0 <= k ->
  (~ inside a i j k -> read3 m a i j k = Thrown) /\
  (inside a i j k -> forall v, load m (address a i j k) = Some v -> read3 m a i j k = Good v) /\
  (inside a i j 0 -> read2 m a i j = read3 m a i j 0) /\
  (~ (i < i_w a /\ j < i_h a) -> read2 m a i j = Thrown /\ at2 m a i j = Thrown) /\
  (forall r g b, 3 <= i_d a -> inside a i j 0 ->
     load m (address a i j 0) = Some r -> load m (address a i j 1) = Some g -> load m (address a i j 2) = Some b ->
     at2 m a i j = Good (r, g, b)) /\
  (forall v, 0 < i_d a < 3 -> inside a i j 0 -> load m (address a i j 0) = Some v -> at2 m a i j = Good (v, v, v)).
Proof.
  intros Hi Hj Hk. destruct (pix3_iff a i j k Hi Hj Hk) as [P1 P2]. destruct (pix3_iff a i j 0 Hi Hj ltac:(lia)) as [Q1 Q2].
  unfold read3, read2, at2. split; [intro N; rewrite P2 by auto; reflexivity|].
  split; [intros I v L; rewrite P1 by auto; rewrite L; reflexivity|].
  assert (A0 : forall i j, padd (i_first a) (i_ws a * i + i_hs a * j) = address a i j 0).
  { intros. unfold address. f_equal. lia. }
  assert (A1 : forall i j k, padd (i_first a) (i_ws a * i + i_hs a * j + i_ds a * k) = address a i j k).
  { intros. unfold address. f_equal. lia. }
  split. { intro I. rewrite Q1 by auto. unfold pix2. destruct I as (I1 & I2 & _).
    destruct (Z.leb_spec (i_w a) i); [lia|]. destruct (Z.leb_spec (i_h a) j); [lia|]. cbn [orb]. rewrite A0. reflexivity. }
  split. { intro N. unfold pix2. destruct (Z.leb_spec (i_w a) i); cbn [orb]; [auto|]. destruct (Z.leb_spec (i_h a) j); [auto|lia]. }
  split.
  - intros r g b Hd I L0 L1 L2. destruct I as (I1 & I2 & _).
    destruct (Z.leb_spec (i_w a) i); [lia|]. destruct (Z.leb_spec (i_h a) j); [lia|]. cbn [orb].
    destruct (Z.ltb_spec (i_d a) 3); [lia|]. rewrite !A1, L0, L1, L2. reflexivity.
  - intros v Hd I L0. destruct I as (I1 & I2 & _).
    destruct (Z.leb_spec (i_w a) i); [lia|]. destruct (Z.leb_spec (i_h a) j); [lia|]. cbn [orb].
    destruct (Z.ltb_spec (i_d a) 3); [|lia]. rewrite A0, L0. reflexivity.
Qed.
Print Assumptions C27_accessors_check_bounds.
Example C27_nonvacuous : let '(m, a) := img_new [] 2 3 2 true (fun o => o) in
  map (fun t => let '(i, j, k) := t in read3 m a i j k) (triples 2 3 2) =
    map Good [0; 2; 4; 6; 8; 10; 1; 3; 5; 7; 9; 11] /\ read3 m a 2 0 0 = Thrown /\ inside a 1 2 1.
Proof. vm_compute. repeat split; discriminate. Qed.
(** An image made without a size has no pixels. *)
Theorem C27_empty m i j k : 0 <= i -> 0 <= j -> 0 <= k -> read3 m img_default i j k = Thrown /\ read2 m img_default i j = Thrown /\ (forall v, write3 m img_default i j k v = Thrown) /\ img_size img_default = 0.
Proof. intros I J K. unfold read3, read2, write3, pix3, pix2. cbn [i_w i_h i_d img_default]. destruct (Z.leb_spec 0 i); [|lia]. cbn [orb]. repeat split. Qed.
Print Assumptions C27_empty.
(** Without the bound on the size the product wraps around and the pixels lie
    outside of the (here empty) allocation. *)
Theorem C27_size_overflow_refuted : exists w h m a, img_new [] w h 1 false (fun _ => 0) = (m, a) /\ 0 <= w < 2 ^ 64 /\ 0 <= h < 2 ^ 64 /\
  inside a 0 0 0 /\ img_size a = 0 /\ read3 m a 0 0 0 = Undefined.
Proof. exists (2 ^ 32), (2 ^ 32). do 2 eexists. split; [reflexivity|]. vm_compute. repeat split; congruence. Qed.
Print Assumptions C27_size_overflow_refuted.

(** C28: deep copy.  If the receiver has other dimensions it gets new memory;
    otherwise its own pixels are overwritten, which must not overlap the source. *)
Theorem C28_copy_from_deep_copies m a b junk :
  0 <= i_w b -> 0 <= i_h b -> 0 <= i_d b -> countable b -> i_w b * i_h b * i_d b < 2 ^ 63 ->
  valid m b -> (same_dims a b -> valid m a /\ distinct a /\ disjoint b a) ->
  exists m' a', copy_from m a b junk = Some (m', a') /\ same_dims a' b /\ valid m' a' /\ distinct a' /\
    same_pixels m b m' a' /\ same_pixels m b m' b /\ equal_content m' a' b = Good true /\
    (forall p v, load m p = Some v -> ~ (same_dims a b /\ pixel_of a p) -> load m' p = Some v) /\
    (same_dims a b -> a' = a).
Proof.
  intros P1 P2 P3 (B1 & B2 & B3) Bs Vb Ha.
  destruct (copy_from_lemma m a b junk) as (m' & a' & E & SD & Va & Da & SP & K & Keep); auto.
  exists m', a'. repeat (split; [assumption|]).
  assert (SB : same_pixels m b m' b).
  { split; [repeat split|]. intros i j k Hin. destruct (Vb i j k Hin) as [v Hv]. rewrite Hv. symmetry. apply K; auto.
    intros (S & X). destruct (Ha S) as (_ & _ & Dj). apply (Dj _ (ex_intro _ i (ex_intro _ j (ex_intro _ k (conj Hin eq_refl))))). auto. }
  split; auto. split; [|split; auto].
  assert (Vb' : valid m' b). { intros i j k Hin. destruct (Vb i j k Hin) as [v Hv]. exists v. destruct SB as [_ SB]. rewrite <- SB; auto. }
  destruct SD as (S1 & S2 & S3).
  destruct (equal_content_lemma m' a' b) as (r & -> & Hr); try (rewrite ?S1, ?S2, ?S3; auto; fail); auto.
  { split; [|split]; rewrite ?S1, ?S2, ?S3; auto. }
  f_equal. apply Hr. split; [repeat split; auto|]. intros i j k Hin. destruct SP as [_ SP]. destruct SB as [_ SB].
  assert (Hb : inside b i j k) by (unfold inside in *; lia). rewrite <- SP, <- SB; auto.
Qed.
Print Assumptions C28_copy_from_deep_copies.
Lemma some_inj (b : nat) (x y : Z) : Some (b, x) = Some (b, y) -> x = y.
Proof. congruence. Qed.
(** Independent layouts: interleaved to a reversed planar view. *)
Definition demo_mem : mem := [Some (mkBlk 12 (fun o => o)); Some (mkBlk 12 (fun o => 0))].
Definition demo_src : image := img_view None (Some (0%nat, 0)) 2 3 2 2 4 1.
Definition demo_dst : image := img_view None (Some (1%nat, 11)) 2 3 2 (-1) (-2) (-6).
Example C28_nonvacuous : valid demo_mem demo_src /\ valid demo_mem demo_dst /\ distinct demo_dst /\ disjoint demo_src demo_dst /\
  same_dims demo_dst demo_src /\
  exists m', copy_from demo_mem demo_dst demo_src (fun _ => 0) = Some (m', demo_dst) /\
    map (fun o => load m' (Some (1%nat, o))) (seqZ 12) = map Some [11; 9; 7; 5; 3; 1; 10; 8; 6; 4; 2; 0].
Proof.
  split; [|split; [|split; [|split; [|split]]]].
  - intros i j k (Hi & Hj & Hk). cbn in Hi, Hj, Hk. unfold address, demo_src, img_view. cbn [i_first i_ws i_hs i_ds padd load demo_mem nth_error k_size].
    destruct (Z.leb_spec 0 (0 + (i * 2 + j * 4 + k * 1))); [|lia]. destruct (Z.ltb_spec (0 + (i * 2 + j * 4 + k * 1)) 12); [|lia]. cbn. eauto.
  - intros i j k (Hi & Hj & Hk). cbn in Hi, Hj, Hk. unfold address, demo_dst, img_view. cbn [i_first i_ws i_hs i_ds padd load demo_mem nth_error k_size].
    destruct (Z.leb_spec 0 (11 + (i * -1 + j * -2 + k * -6))); [|lia]. destruct (Z.ltb_spec (11 + (i * -1 + j * -2 + k * -6)) 12); [|lia]. cbn. eauto.
  - intros i j k i' j' k' (Hi & Hj & Hk) (Hi' & Hj' & Hk') E.
    unfold address, demo_dst, img_view in E. cbn [i_first i_ws i_hs i_ds padd] in E. apply some_inj in E. cbn in Hi, Hj, Hk, Hi', Hj', Hk'. lia.
  - intros p (i & j & k & _ & ->) (i' & j' & k' & _ & E). discriminate.
  - repeat split.
  - eexists. split; vm_compute; reflexivity.
Qed.
(** Copying a view onto itself shifted by one pixel smears the first pixel:
    the disjointness is needed. *)
Theorem C28_overlap_refuted : exists m a b m', valid m a /\ distinct a /\ valid m b /\ same_dims a b /\
  copy_from m a b (fun _ => 0) = Some (m', a) /\ ~ same_pixels m b m' a.
Proof.
  exists [Some (mkBlk 3 (fun o => o))], (img_view None (Some (0%nat, 1)) 2 1 1 1 2 2), (img_view None (Some (0%nat, 0)) 2 1 1 1 2 2).
  eexists. split; [|split; [|split; [|split; [|split; [vm_compute; reflexivity|]]]]].
  - intros i j k (Hi & Hj & Hk). cbn in Hi, Hj, Hk. cbn. assert (C : (i = 0 \/ i = 1) /\ j = 0 /\ k = 0) by lia. destruct C as ([->| ->] & -> & ->); cbn; eauto.
  - intros i j k i' j' k' (Hi & Hj & Hk) (Hi' & Hj' & Hk') E.
    unfold address, demo_dst, img_view in E. cbn [i_first i_ws i_hs i_ds padd] in E. apply some_inj in E. cbn in Hi, Hj, Hk, Hi', Hj', Hk'. lia.
  - intros i j k (Hi & Hj & Hk). cbn in Hi, Hj, Hk. cbn. assert (C : (i = 0 \/ i = 1) /\ j = 0 /\ k = 0) by lia. destruct C as ([->| ->] & -> & ->); cbn; eauto.
  - repeat split.
  - intros [_ H]. specialize (H 1 0 0). assert (I : inside (img_view None (Some (0%nat, 0)) 2 1 1 1 2 2) 1 0 0) by (unfold inside; cbn; lia).
    specialize (H I). vm_compute in H. discriminate.
Qed.
Print Assumptions C28_overlap_refuted.

(** C29: equal_content is equality of dimensions and of all pixels, whatever
    the layouts; hence an equivalence. *)
Theorem C29_equal_content_is_pixel_equality m a b :
  0 <= i_w a -> 0 <= i_h a -> 0 <= i_d a -> countable a -> valid m a -> valid m b ->
  exists r, equal_content m a b = Good r /\ (r = true <-> same_pixels m a m b).
Proof. exact (equal_content_lemma m a b). Qed.
Print Assumptions C29_equal_content_is_pixel_equality.
Theorem C29_equivalence m a b c :
  0 <= i_w a -> 0 <= i_h a -> 0 <= i_d a -> countable a -> valid m a -> valid m b -> valid m c ->
  equal_content m a a = Good true /\
  (equal_content m a b = Good true -> equal_content m b a = Good true) /\
  (equal_content m a b = Good true -> equal_content m b c = Good true -> equal_content m a c = Good true).
Proof.
  intros P1 P2 P3 Ca Va Vb Vc.
  assert (T : forall x y, 0 <= i_w x -> 0 <= i_h x -> 0 <= i_d x -> countable x -> valid m x -> valid m y ->
    (equal_content m x y = Good true <-> same_pixels m x m y)).
  { intros x y X1 X2 X3 X4 X5 X6. destruct (equal_content_lemma m x y X1 X2 X3 X4 X5 X6) as (r & -> & H). rewrite <- H. split; congruence. }
  assert (D : forall y, same_pixels m a m y -> 0 <= i_w y /\ 0 <= i_h y /\ 0 <= i_d y /\ countable y).
  { intros y ((S1 & S2 & S3) & _). unfold countable in *. rewrite <- S1, <- S2, <- S3. auto. }
  split; [apply T; auto; split; [repeat split|auto]|]. split.
  - intro H. apply T in H; auto. destruct (D b H) as (Y1 & Y2 & Y3 & Y4). apply T; auto.
    destruct H as ((S1 & S2 & S3) & H). split; [repeat split; auto|]. intros i j k Hin. symmetry. apply H. unfold inside in *. lia.
  - intros H1 H2. apply T in H1; auto. destruct (D b H1) as (Y1 & Y2 & Y3 & Y4). apply T in H2; auto. apply T; auto.
    destruct H1 as ((S1 & S2 & S3) & H1). destruct H2 as ((R1 & R2 & R3) & H2). split; [repeat split; congruence|].
    intros i j k Hin. rewrite H1 by auto. apply H2. unfold inside in *. lia.
Qed.
Print Assumptions C29_equivalence.
Example C29_demo : let '(m, a) := img_new [] 2 3 2 true (fun o => o mod 2) in
  let '(m', b) := img_new m 2 3 2 false (fun o => if o <? 6 then 0 else 1) in
  equal_content m' a b = Good true /\ equal_content m' a (fst (b, img_view None None 1 1 1 1 1 1)) = Good true /\
  equal_content m' a (img_view None (i_first b) 2 3 1 1 2 6) = Good false /\
  equal_content m' a (img_view None (i_first a) 2 3 2 (-2) 4 1) = Undefined.
Proof. vm_compute. auto. Qed.

(** C30: transform_image. *)
Theorem C30_transform_once_per_pixel m a op :
  0 <= i_w a -> 0 <= i_h a -> 0 <= i_d a -> countable a -> valid m a -> distinct a ->
  exists m', transform_image m a op = Some m' /\
    (forall i j k v, inside a i j k -> load m (address a i j k) = Some v -> load m' (address a i j k) = Some (op v)) /\
    (forall p, ~ pixel_of a p -> load m' p = load m p).
Proof. exact (transform_lemma m a op). Qed.
Print Assumptions C30_transform_once_per_pixel.
Example C30_demo : match transform_image demo_mem (img_view None (Some (0%nat, 10)) 2 2 2 (-3) 1 (-6)) (fun v => v + 100) with
  | Some m => map (fun o => load m (Some (0%nat, o))) (seqZ 12) = map Some [0; 101; 102; 3; 104; 105; 6; 107; 108; 9; 110; 111]
  | None => False
  end.
Proof. vm_compute. reflexivity. Qed.

(** C31: image_memory copies. *)
Theorem C31_copy_constructor m other junk : mem_ok m other ->
  exists m' self, im_copy m other junk = Some (m', self) /\ mem_ok m' self /\ mem_ok m' other /\ separate self other /\ same_bytes m other m' self /\
    forall p v, load m p = Some v -> load m' p = Some v.
Proof. exact (im_copy_lemma m other junk). Qed.
Print Assumptions C31_copy_constructor.
Theorem C31_assignment m self other junk : mem_ok m self -> mem_ok m other -> separate self other ->
  exists m' self', im_assign m self other false junk = Some (m', self') /\ mem_ok m' self' /\ mem_ok m' other /\ separate self' other /\
    same_bytes m other m' self' /\
    forall p v, load m p = Some v -> ~ owns self p -> load m' p = Some v.
Proof. exact (im_assign_lemma m self other junk). Qed.
Print Assumptions C31_assignment.
Theorem C31_self_assignment m self junk : im_assign m self self true junk = Some (m, self).
Proof. reflexivity. Qed.
(** Writing to one object never shows in a separate one. *)
Theorem C31_independent_storage m x y p v m' o : separate x y -> owns x p -> store m p v = Some m' ->
  load m' (padd (m_data y) o) = load m (padd (m_data y) o).
Proof.
  intros Sep (b & o1 & o2 & E & ->) Hs. eapply load_store_ne; eauto. destruct (m_data y) as [[b' o']|] eqn:Ey; [|discriminate].
  cbn. intro X. injection X as X _. eapply Sep; eauto.
Qed.
Print Assumptions C31_independent_storage.
Example C31_nonvacuous : let x := mkIM (Some (0%nat, 0)) 12 in let y := mkIM (Some (1%nat, 0)) 12 in
  mem_ok demo_mem x /\ mem_ok demo_mem y /\ separate x y /\ mem_ok demo_mem im_default.
Proof.
  cbv zeta. split; [|split; [|split]].
  - split; [cbn; lia|]. split; [|right; do 2 eexists; split; reflexivity]. intros o Ho. cbn in *.
    destruct (Z.ltb_spec o 12); [|lia]. destruct o; cbn; eauto. lia.
  - split; [cbn; lia|]. split; [|right; do 2 eexists; split; reflexivity]. intros o Ho. cbn in *.
    destruct (Z.ltb_spec o 12); [|lia]. destruct o; cbn; eauto. lia.
  - intros b o b' o' X Y. injection X as <- _. injection Y as <- _. discriminate.
  - split; [cbn; lia|]. split; [cbn; lia|auto].
Qed.
(** Assigning to the memory object an image shares leaves the image with a
    pointer into freed memory as soon as the sizes differ. *)
Theorem C31_assignment_under_image_refuted : exists m a im other m' im',
  valid m a /\ i_mem a = Some im /\ mem_ok m im /\ mem_ok m other /\ separate im other /\
  im_assign m im other false (fun _ => 0) = Some (m', im') /\ inside a 0 0 0 /\ read3 m' a 0 0 0 = Undefined.
Proof.
  destruct (img_new [] 1 1 1 false (fun _ => 5)) as [m a] eqn:E. vm_compute in E. injection E as <- <-.
  eexists ([Some (mkBlk 1 (fun _ => 5))]), (mkImage (Some (mkIM (Some (0%nat, 0)) 1)) (Some (0%nat, 0)) 1 1 1 1 1 1), (mkIM (Some (0%nat, 0)) 1), im_default.
  do 2 eexists. split; [|split; [reflexivity|split; [|split; [|split; [|split; [vm_compute; reflexivity|split; vm_compute; auto; repeat split; congruence]]]]]].
  - intros i j k (Hi & Hj & Hk). cbn in *. assert (i = 0 /\ j = 0 /\ k = 0) as (-> & -> & ->) by lia. cbn. eauto.
  - split; [cbn; lia|]. split; [|right; do 2 eexists; split; reflexivity]. cbn. intros o Ho. assert (o = 0) as -> by lia. cbn. eauto.
  - split; [cbn; lia|]. split; [cbn; lia|auto].
  - intros b o b' o' X Y. discriminate.
Qed.
Print Assumptions C31_assignment_under_image_refuted.

(** C58: vital_image_new_from_data copies every pixel, as long as all offsets
    fit an int. *)
Theorem C58_new_from_data m first w h d ws hs ds junk :
  0 <= w < 2 ^ 32 -> 0 <= h < 2 ^ 32 -> 0 <= d < 2 ^ 32 -> w * h * d < 2 ^ 63 -> fits32 ds ->
  (forall i j k, 0 <= i < w -> 0 <= j < h -> 0 <= k < d ->
    fits32 (j * hs) /\ fits32 (i * ws) /\ fits32 (channel d ds k) /\ fits32 (i * ws + j * hs) /\ fits32 (i * ws + j * hs + channel d ds k) /\
    exists v, load m (padd first (i * ws + j * hs + channel d ds k)) = Some v) ->
  exists m' a, new_from_data m first w h d ws hs ds junk = Good (m', a) /\
    i_w a = w /\ i_h a = h /\ i_d a = d /\ valid m' a /\ distinct a /\
    (forall i j k, inside a i j k -> load m' (address a i j k) = load m (padd first (i * ws + j * hs + channel d ds k))) /\
    (forall p v, load m p = Some v -> load m' p = Some v).
Proof. exact (new_from_data_lemma m first w h d ws hs ds junk). Qed.
Print Assumptions C58_new_from_data.
Example C58_demo : match new_from_data demo_mem (Some (0%nat, 0)) 2 2 3 3 6 (-1) (fun _ => 0) with
  | Good (m, a) => map (fun t => let '(i, j, k) := t in read3 m a i j k) (triples 3 2 2) = map Good [2; 5; 8; 11; 1; 4; 7; 10; 0; 3; 6; 9]
  | _ => False
  end.
Proof. vm_compute. reflexivity. Qed.
(** A readable source larger than 2 GB is not copied: the int offset wraps. *)
Theorem C58_large_source_refuted : exists m first w h d ws hs ds,
  0 <= w < 2 ^ 32 /\ 0 <= h < 2 ^ 32 /\ 0 <= d < 2 ^ 32 /\ w * h * d < 2 ^ 31 /\ fits32 ws /\ fits32 hs /\ fits32 ds /\
  (forall i j k, 0 <= i < w -> 0 <= j < h -> 0 <= k < d -> exists v, load m (padd first (i * ws + j * hs + channel d ds k)) = Some v) /\
  new_from_data m first w h d ws hs ds (fun _ => 0) = Undefined.
Proof.
  exists [Some (mkBlk (2 ^ 31 + 1) (fun _ => 0))], (Some (0%nat, 0)), 1, 3, 1, 1, (2 ^ 30), 1.
  unfold fits32. repeat (split; [lia|]). split; [|vm_compute; reflexivity].
  intros i j k Hi Hj Hk. unfold channel. cbn [Z.leb Z.compare padd load nth_error k_size k_byte].
  destruct (Z.leb_spec 0 (0 + (i * 1 + j * 2 ^ 30 + k * 1))); [|lia].
  destruct (Z.ltb_spec (0 + (i * 1 + j * 2 ^ 30 + k * 1)) (2 ^ 31 + 1)); [|lia]. cbn. eauto.
Qed.
Print Assumptions C58_large_source_refuted.
