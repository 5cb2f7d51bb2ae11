(** PyImageProps.v -- C104: PIL pictures and vital images. *)
From Coq Require Import ZArith List Bool Lia.
Import ListNotations.
From Verif Require Import Base ImageModel ImageSpec ImageProps PyImageModel.
Local Open Scope Z_scope.

(** ---- specification ---- *)
Definition on_picture (p : picture) (x y : Z) : Prop := 0 <= x < pc_w p /\ 0 <= y < pc_h p.
(** The same picture. *)
Definition same_picture (p q : picture) : Prop :=
  pc_mode p = pc_mode q /\ pc_w p = pc_w q /\ pc_h p = pc_h q /\
  forall x y c, on_picture p x y -> 0 <= c < bands (pc_mode p) -> pc_at p x y c = pc_at q x y c.
(** A picture whose bytes number fewer than 2^31. *)
Definition good_size (p : picture) : Prop := 1 <= pc_w p /\ 1 <= pc_h p /\ pc_w p * pc_h p * 3 < 2 ^ 31.

(** ---- proofs ---- *)
Lemma int_small z : 0 <= z < 2 ^ 31 -> int32 (size_t z) = z.
Proof. intro H. unfold size_t, int32. rewrite (Z.mod_small z (2 ^ 64)) by lia. rewrite (Z.mod_small z (2 ^ 32)) by lia. destruct (Z.ltb_spec z (2 ^ 31)); lia. Qed.
Lemma int_small' z : 0 <= z < 2 ^ 31 -> int32 z = z.
Proof. intro H. unfold int32. rewrite (Z.mod_small z (2 ^ 32)) by lia. destruct (Z.ltb_spec z (2 ^ 31)); lia. Qed.
Lemma mul_bounds a b c d : 0 <= a <= c -> 0 <= b <= d -> 0 <= a * b <= c * d.
Proof. intros. split; [apply Z.mul_nonneg_nonneg; lia|apply Z.mul_le_mono_nonneg; lia]. Qed.
Lemma in_row w h x y : 0 <= x < w -> 0 <= y < h -> 0 <= y * w + x /\ y * w + x + 1 <= w * h.
Proof. intros. assert (0 <= y * w <= (h - 1) * w) by (apply mul_bounds; lia). split; [lia|]. replace (w * h) with ((h - 1) * w + w) by ring. lia. Qed.
Lemma data_strides m first w h d ws hs ds junk m' a : new_from_data m first w h d ws hs ds junk = Good (m', a) -> a = snd (img_new m w h d false junk).
Proof.
  unfold new_from_data. destruct (img_new m w h d false junk) as [m1 b]. destruct (count d), (count h), (count w); try discriminate. destruct (data_d _ _ _ _ _ _ _ _ _ _ _); try discriminate. intro E. injection E as _ <-. reflexivity.
Qed.
Lemma load_string m p o : 0 <= o < pc_w p * pc_h p * bands (pc_mode p) -> load (m ++ [Some (tostring p)]) (Some (length m, o)) = Some (k_byte (tostring p) o).
Proof.
  intro H. unfold load. rewrite nth_error_app2, Nat.sub_diag by lia. cbn [nth_error tostring k_size]. destruct (Z.leb_spec 0 o); [|lia]. destruct (Z.ltb_spec o (pc_w p * pc_h p * bands (pc_mode p))); [reflexivity|lia].
Qed.
(** from_pil: what the image holds. *)
Lemma grey_image m p junk : pc_mode p = Grey -> good_size p -> exists m' a, from_pil m p junk = Good (m', a) /\
  i_w a = pc_w p /\ i_h a = pc_h p /\ i_d a = 1 /\ i_ws a = 1 /\ i_hs a = pc_w p /\ img_size a = pc_w p * pc_h p /\
  forall x y, on_picture p x y -> load m' (padd (i_first a) (y * pc_w p + x)) = Some (pc_at p x y 0).
Proof.
  intros MD (W & H & B). assert (BB : 1 <= pc_w p * pc_h p) by nia. set (w := pc_w p) in *. set (h := pc_h p) in *.
  assert (W2 : w <= w * h) by nia. assert (H2 : h <= w * h) by nia.
  unfold from_pil. rewrite MD. fold w h. destruct (C58_new_from_data (m ++ [Some (tostring p)]) (Some (length m, 0)) w h 1 1 w 0 junk) as (m' & a & E & A1 & A2 & A3 & _ & _ & CP & _); try lia; [unfold fits32; lia| |].
  - intros i j k I J K. destruct (in_row w h i j I J) as [R1 R2]. assert (0 <= j * w) by nia. unfold channel, fits32. cbn [Z.leb Z.compare]. repeat (split; [lia|]).
    eexists. cbn [padd]. apply load_string. rewrite MD. cbn [bands]. fold w h. lia.
  - exists m', a. pose proof (data_strides _ _ _ _ _ _ _ _ _ _ _ E) as SA. unfold img_new, im_new, alloc in SA. cbn [snd] in SA. split; [exact E|]. split; [exact A1|]. split; [exact A2|]. split; [exact A3|].
    assert (WS : i_ws a = 1) by (rewrite SA; reflexivity). assert (HS : i_hs a = w). { rewrite SA. cbn [i_hs]. unfold ptrdiff, size_t. rewrite Z.mod_small by lia. destruct (Z.ltb_spec w (2 ^ 63)); lia. }
    split; [exact WS|]. split; [exact HS|]. split. { rewrite SA. unfold img_size. cbn [i_mem m_size]. unfold size_t. rewrite Z.mod_small by lia. lia. }
    intros x y [X Y]. fold w h in X, Y. assert (IN : inside a x y 0) by (unfold inside; rewrite A1, A2, A3; lia). specialize (CP x y 0 IN). unfold address in CP. rewrite WS, HS in CP. replace (y * w + x) with (x * 1 + y * w + 0 * i_ds a) by ring. rewrite CP. unfold channel. cbn [Z.leb Z.compare padd].
    destruct (in_row w h x y X Y) as [R1 R2]. rewrite load_string by (rewrite MD; cbn [bands]; fold w h; lia). unfold tostring. cbn [k_byte]. rewrite MD. cbn [bands]. fold w. f_equal. rewrite !Z.div_1_r, Z.mod_1_r.
    replace (0 + (x * 1 + y * w + 0 * 0)) with (x + y * w) by ring. rewrite Z.mod_add by lia. rewrite Z.mod_small by lia. rewrite Z.div_add by lia. rewrite Z.div_small by lia. reflexivity.
Qed.
Lemma colour_image m p junk : pc_mode p = RGB -> good_size p -> exists m' a, from_pil m p junk = Good (m', a) /\
  i_w a = pc_w p /\ i_h a = pc_h p /\ i_d a = 3 /\ i_ws a = 1 /\ i_hs a = pc_w p /\ i_ds a = pc_w p * pc_h p /\
  forall x y c, on_picture p x y -> 0 <= c < 3 -> load m' (address a x y c) = Some (pc_at p x y (2 - c)).
Proof.
  intros MD (W & H & B). assert (BB : 1 <= pc_w p * pc_h p) by nia. set (w := pc_w p) in *. set (h := pc_h p) in *.
  assert (W2 : w <= w * h) by nia. assert (H2 : h <= w * h) by nia.
  unfold from_pil. rewrite MD. fold w h. destruct (C58_new_from_data (m ++ [Some (tostring p)]) (Some (length m, 0)) w h 3 3 (w * 3) (-1) junk) as (m' & a & E & A1 & A2 & A3 & _ & _ & CP & _); try lia; [unfold fits32; lia| |].
  - intros i j k I J K. destruct (in_row w h i j I J) as [R1 R2]. assert (0 <= j * w) by nia. unfold channel, fits32. cbn [Z.leb Z.compare]. repeat (split; [lia|]).
    eexists. cbn [padd]. apply load_string. rewrite MD. cbn [bands]. fold w h. lia.
  - exists m', a. pose proof (data_strides _ _ _ _ _ _ _ _ _ _ _ E) as SA. unfold img_new, im_new, alloc in SA. cbn [snd] in SA. split; [exact E|]. split; [exact A1|]. split; [exact A2|]. split; [exact A3|].
    split; [rewrite SA; reflexivity|]. split; [|split].
    + rewrite SA. cbn [i_hs]. unfold ptrdiff, size_t. rewrite Z.mod_small by lia. destruct (Z.ltb_spec w (2 ^ 63)); lia.
    + rewrite SA. cbn [i_ds]. unfold ptrdiff, size_t. rewrite Z.mod_small by lia. destruct (Z.ltb_spec (w * h) (2 ^ 63)); lia.
    + intros x y c [X Y] C. fold w h in X, Y. assert (IN : inside a x y c) by (unfold inside; rewrite A1, A2, A3; lia). rewrite (CP x y c IN). unfold channel. cbn [Z.leb Z.compare padd].
      destruct (in_row w h x y X Y) as [R1 R2]. rewrite load_string by (rewrite MD; cbn [bands]; fold w h; lia). unfold tostring. cbn [k_byte]. rewrite MD. cbn [bands]. fold w. f_equal.
      replace (0 + (x * 3 + y * (w * 3) + (3 - 1 - c) * - (-1))) with ((2 - c) + (x + y * w) * 3) by ring. rewrite Z.div_add by lia. rewrite (Z.div_small (2 - c)) by lia. rewrite Z.mod_add by lia. rewrite (Z.mod_small (2 - c)) by lia.
      replace (0 + (x + y * w)) with (x + y * w) by ring. rewrite Z.mod_add by lia. rewrite Z.mod_small by lia. rewrite Z.div_add by lia. rewrite Z.div_small by lia. reflexivity.
Qed.

(** A grey picture comes back as it was. *)
Theorem C104_grey_round_trip m p junk : pc_mode p = Grey -> good_size p ->
  exists m' a q, from_pil m p junk = Good (m', a) /\ get_pil m' a = Good q /\ same_picture p q.
Proof.
  intros MD G. destruct (grey_image m p junk MD G) as (m' & a & E & A1 & A2 & A3 & A4 & A5 & A6 & LD). destruct G as (W & H & B). assert (BB : 1 <= pc_w p * pc_h p) by nia. assert (pc_w p <= pc_w p * pc_h p) by nia. assert (pc_h p <= pc_w p * pc_h p) by nia.
  exists m', a. unfold get_pil. rewrite A1, A2, A3, A5, A6. rewrite (int_small 1), (int_small (pc_w p)), (int_small (pc_h p)), (int_small' (pc_w p * pc_h p)) by lia. cbn [Z.eqb]. change (1 =? 3) with false. change (1 =? 1) with true. cbn iota.
  unfold frombytes. cbn [bands]. rewrite Z.mul_1_r. destruct (Z.eqb_spec (pc_w p) 0); [lia|]. destruct (Z.ltb_spec (pc_w p) (pc_w p)); [lia|]. destruct (Z.ltb_spec (pc_w p * pc_h p) ((pc_h p - 1) * pc_w p + pc_w p)); [lia|]. cbn [orb].
  eexists. split; [exact E|]. split; [reflexivity|]. split; [exact MD|]. split; [reflexivity|]. split; [reflexivity|]. cbn [pc_at]. intros x y c O C. rewrite MD in C. cbn [bands] in C. assert (c = 0) by lia. subst c.
  replace (y * pc_w p + x * 1 + 0) with (y * pc_w p + x) by ring. rewrite (LD x y O). reflexivity.
Qed.
Print Assumptions C104_grey_round_trip.

(** A colour picture becomes an image of three planes in the opposite order. *)
Theorem C104_colour_in m p junk : pc_mode p = RGB -> good_size p ->
  exists m' a, from_pil m p junk = Good (m', a) /\ i_w a = pc_w p /\ i_h a = pc_h p /\ i_d a = 3 /\
  forall x y c, on_picture p x y -> 0 <= c < 3 -> read3 m' a x y c = Good (pc_at p x y (2 - c)).
Proof.
  intros MD G. destruct (colour_image m p junk MD G) as (m' & a & E & A1 & A2 & A3 & _ & _ & _ & LD). exists m', a. split; [exact E|]. split; [exact A1|]. split; [exact A2|]. split; [exact A3|].
  intros x y c O C. specialize (LD x y c O C). destruct O as [X Y]. unfold read3, pix3. rewrite A1, A2, A3. destruct (Z.leb_spec (pc_w p) x); [lia|]. destruct (Z.leb_spec (pc_h p) y); [lia|]. destruct (Z.leb_spec 3 c); [lia|]. cbn [orb].
  unfold address in LD. replace (i_ws a * x + i_hs a * y + i_ds a * c) with (x * i_ws a + y * i_hs a + c * i_ds a) by ring. rewrite LD. reflexivity.
Qed.
Print Assumptions C104_colour_in.

(** An interleaved image of three channels (Image(w, h, 3, True), filled in
    somehow) becomes the picture with the channels in the opposite order. *)
Theorem C104_interleaved_out m0 m w h junk : 1 <= w -> 1 <= h -> w * h * 3 < 2 ^ 31 ->
  let a := snd (img_new m0 w h 3 true junk) in
  valid m a ->
  exists q, get_pil m a = Good q /\ pc_mode q = RGB /\ pc_w q = w /\ pc_h q = h /\
  forall x y c, 0 <= x < w -> 0 <= y < h -> 0 <= c < 3 -> read3 m a x y (2 - c) = Good (pc_at q x y c).
Proof.
  intros W H B a VA. assert (BB : 1 <= w * h) by nia. assert (w <= w * h) by nia. assert (h <= w * h) by nia.
  assert (P3 : ptrdiff 3 = 3) by reflexivity. assert (PW : ptrdiff (3 * w) = 3 * w). { unfold ptrdiff, size_t. rewrite Z.mod_small by lia. destruct (Z.ltb_spec (3 * w) (2 ^ 63)); lia. }
  assert (AW : i_w a = w) by reflexivity. assert (AH : i_h a = h) by reflexivity. assert (AD : i_d a = 3) by reflexivity. assert (AS1 : i_ws a = 3) by reflexivity. assert (AS2 : i_hs a = 3 * w) by exact PW. assert (AS3 : i_ds a = 1) by reflexivity.
  assert (SZ : img_size a = w * h * 3). { unfold a, img_size, img_new, im_new, alloc. cbn [snd i_mem m_size]. unfold size_t. rewrite Z.mod_small by lia. reflexivity. }
  clearbody a. unfold get_pil. rewrite AW, AH, AD, AS2, AS3, SZ. rewrite !int_small, int_small' by lia. change (3 =? 3) with true. change (1 =? 1) with true. cbn iota.
  unfold frombytes. cbn [bands]. destruct (Z.eqb_spec (3 * w) 0); [lia|]. destruct (Z.ltb_spec (3 * w) (w * 3)); [lia|]. destruct (Z.ltb_spec (w * h * 3) ((h - 1) * (3 * w) + w * 3)); [lia|]. cbn [orb].
  eexists. split; [reflexivity|]. split; [reflexivity|]. split; [reflexivity|]. split; [reflexivity|]. cbn [pc_at]. intros x y c X Y C.
  destruct (VA x y (2 - c)) as (v & LV); [unfold inside; lia|]. unfold address in LV. rewrite AS1, AS2, AS3 in LV. replace (y * (3 * w) + x * 3 + (2 - c)) with (x * 3 + y * (3 * w) + (2 - c) * 1) by ring. rewrite LV.
  unfold read3, pix3. rewrite AW, AH, AD. destruct (Z.leb_spec w x); [lia|]. destruct (Z.leb_spec h y); [lia|]. destruct (Z.leb_spec 3 (2 - c)); [lia|]. cbn [orb]. rewrite AS1, AS2, AS3. replace (3 * x + 3 * w * y + 1 * (2 - c)) with (x * 3 + y * (3 * w) + (2 - c) * 1) by ring. rewrite LV. reflexivity.
Qed.
Print Assumptions C104_interleaved_out.

(** One would expect a colour picture to come back too; get_pil_image raises
    RuntimeError for every one of more than one pixel. *)
Theorem C104_colour_round_trip_refuted m p junk : pc_mode p = RGB -> good_size p -> 1 < pc_w p * pc_h p ->
  exists m' a, from_pil m p junk = Good (m', a) /\ get_pil m' a = Thrown.
Proof.
  intros MD G ONE. destruct (colour_image m p junk MD G) as (m' & a & E & A1 & A2 & A3 & _ & _ & A6 & _). exists m', a. split; [exact E|]. destruct G as (W & H & B). unfold get_pil. rewrite A3, A6. rewrite !int_small by lia. change (3 =? 3) with true. cbn iota.
  destruct (Z.eqb_spec (pc_w p * pc_h p) 1); [lia|]. destruct (Z.ltb_spec (pc_w p * pc_h p) 0); [lia|]. reflexivity.
Qed.
Print Assumptions C104_colour_round_trip_refuted.
Definition demo_pic (md : mode) : picture := mkPic md 2 2 (fun x y c => 100 * y + 10 * x + c).
Example C104_ex : good_size (demo_pic Grey) /\ good_size (demo_pic RGB) /\ 1 < pc_w (demo_pic RGB) * pc_h (demo_pic RGB) /\
  (let (m, a) := img_new [] 2 2 3 true (fun o => o) in valid m a /\ match get_pil m a with Good q => pc_at q 1 1 0 = 11 | _ => False end).
Proof.
  split; [cbv; repeat split; congruence|]. split; [cbv; repeat split; congruence|]. split; [cbn; lia|]. cbn [img_new im_new alloc]. split; [|reflexivity].
  intros i j k (I & J & K). cbn in I, J, K. unfold address, load, padd. cbn [i_first m_data i_ws i_hs i_ds]. change (ptrdiff 3) with 3. change (ptrdiff (3 * 2)) with 6. cbn [nth_error k_size k_byte length app]. change (size_t (2 * 2 * 3)) with 12.
  destruct (Z.leb_spec 0 (0 + (i * 3 + j * 6 + k * 1))); [|lia]. destruct (Z.ltb_spec (0 + (i * 3 + j * 6 + k * 1)) 12); [|lia]. cbn. eauto.
Qed.
(** Nor does an image with negative steps between the planes, as from_pil makes one
    for the time of the call: the first byte is that of the last band, so the bands come
    in the wrong order and from outside the block. *)
Theorem C104_negative_refuted : exists m a q, valid m a /\ get_pil m a = Good q /\ read3 m a 0 0 0 = Good 30 /\ read3 m a 0 0 1 = Good 20 /\ read3 m a 0 0 2 = Good 10 /\
  pc_at q 0 0 0 = 30 /\ pc_at q 0 0 2 <> 10 /\ load m (padd (i_first a) 1) = None.
Proof.
  exists [Some (mkBlk 3 (fun o => 10 * (o + 1)))], (mkImage (Some (mkIM (Some (0%nat, 0)) 3)) (Some (0%nat, 2)) 1 1 3 3 3 (-1)). eexists.
  split; [intros i j k (I & J & K); cbn in I, J, K; assert (i = 0) as -> by lia; assert (j = 0) as -> by lia; assert (k = 0 \/ k = 1 \/ k = 2) as [->|[->| ->]] by lia; vm_compute; eauto|].
  split; [vm_compute; reflexivity|]. repeat split; vm_compute; try reflexivity. discriminate.
Qed.
Print Assumptions C104_negative_refuted.
