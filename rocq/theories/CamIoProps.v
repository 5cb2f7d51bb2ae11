(** CamIoProps.v -- C80, C81, C82: camera files and the stream operators. *)
From Coq Require Import Reals List ZArith Lra Lia Bool.
Import ListNotations.
From Verif Require Import Base Numbers Stream TrackIoModel TrackIoSpec TrackIoProofs GeomModel GeomProofs CameraModel CameraProps PathModel PathProofs CamIoModel CamIoProofs.

(** ---------------------------------------------------------------- C80 *)
Definition rows_flat (m : m3) : list R := concat (rows3 m).
Definition vlist (v : v3) : list R := [x3 v; y3 v; z3 v].
(** The numbers of a camera file. *)
Definition camera_numbers (c : camera) : list R :=
  rows_flat (k_matrix (c_intr c)) ++ rows_flat (qmat (c_rot c)) ++ vlist (c_translation c) ++ placeholder (k_dist (c_intr c)).
Definition mmap (f : R -> R) (m : m3) : m3 := M3 (f (m00 m)) (f (m01 m)) (f (m02 m)) (f (m10 m)) (f (m11 m)) (f (m12 m)) (f (m20 m)) (f (m21 m)) (f (m22 m)).
Definition vmap (f : R -> R) (v : v3) : v3 := V3 (f (x3 v)) (f (y3 v)) (f (z3 v)).
(** The camera given by a calibration matrix, a rotation matrix and a translation, without distortion. *)
Definition camera_krt (k r : m3) (t : v3) : camera := set_translation (Cam (V3 0 0 0) (quat_of_mat r) (k_of_matrix k [])) t.

Section C80.
Context (show : R -> str) (scan : str -> R * bool * str) (good : R -> Prop) (round : R -> R).
Hypothesis NF : number_format show scan good round.

Lemma lay_m3 m : lay show (rows_flat m) (matrix_text show (rows3 m)).
Proof. apply lay_matrix; [discriminate|]. cbn. intros r [<-|[<-|[<-|[]]]]; discriminate. Qed.
Lemma read_m3 m pre r : Forall good (rows_flat m) -> blank pre -> ends r -> read_coefs scan 9 (open_str (pre ++ matrix_text show (rows3 m) ++ r)) = Some (rows_flat (mmap round m), open_str r).
Proof. intros G B E. exact (lay_read show scan good round NF (rows_flat m) _ r pre (lay_m3 m) G B E). Qed.
Lemma ends_nl r : ends (two_nl ++ r). Proof. reflexivity. Qed.
Lemma read_camera_text c : Forall good (camera_numbers c) -> exists rest,
  extract_camera scan (open_str (camera_text show c)) = Some (camera_krt (mmap round (k_matrix (c_intr c))) (mmap round (qmat (c_rot c))) (vmap round (c_translation c)), open_str rest).
Proof.
  intro G. unfold camera_numbers in G. apply Forall_app in G as [GK G]. apply Forall_app in G as [GR G]. apply Forall_app in G as [GT GD].
  unfold camera_text, extract_camera.
  rewrite <- (app_nil_l (matrix_text show (rows3 (k_matrix (c_intr c))) ++ _)).
  rewrite (read_m3 (k_matrix (c_intr c)) []); auto; [|reflexivity|apply ends_nl].
  rewrite (read_m3 (qmat (c_rot c)) two_nl); auto; [|reflexivity|apply ends_nl].
  assert (LT : lay show (vlist (c_translation c)) (matrix_text show [[x3 (c_translation c); y3 (c_translation c); z3 (c_translation c)]])).
  { apply (lay_matrix show [vlist (c_translation c)]); [discriminate|]. intros r [<-|[]]; discriminate. }
  pose proof (lay_read show scan good round NF _ _ (two_nl ++ matrix_text show [placeholder (k_dist (c_intr c))] ++ [newline]) two_nl LT GT eq_refl eq_refl) as RT.
  change (length (vlist (c_translation c))) with 3%nat in RT. rewrite RT. eexists. reflexivity.
Qed.
(** Text laid out with the numbers ds, the last followed by white space at most. *)
Lemma read_too_few ds t pre post : lay show ds t -> Forall good ds -> blank pre -> blank post -> (length ds < 21)%nat -> read_coefs scan 21 (open_str (pre ++ t ++ post)) = None.
Proof.
  intros Ll G Bp Bq H. replace 21%nat with (length ds + S (20 - length ds))%nat by lia. rewrite read_app.
  rewrite (lay_read show scan good round NF ds t post pre); auto; [|destruct post; [exact I|unfold blank in Bq; cbn in Bq; apply andb_prop in Bq; tauto]].
  rewrite (read_bad scan); [reflexivity|]. left. cbn. clear - Bq. unfold blank in Bq. induction post as [|c p IH]; auto. cbn in *. apply andb_prop in Bq as [-> Bq]. auto.
Qed.
Lemma read_junk ds t pre sp junk : lay show ds t -> Forall good ds -> blank pre -> blank sp -> sp <> [] -> (length ds < 21)%nat ->
  (match junk with c :: _ => is_space c = false | [] => False end) -> (exists d r, scan junk = (d, true, r)) -> read_coefs scan 21 (open_str (pre ++ t ++ sp ++ junk)) = None.
Proof.
  intros Ll G Bp Bs Ns H Hj Hs. replace 21%nat with (length ds + S (20 - length ds))%nat by lia. rewrite read_app.
  rewrite (lay_read show scan good round NF ds t (sp ++ junk) pre); auto; [|apply blank_ends; auto].
  rewrite (read_bad scan); [reflexivity|]. right. cbn [s_rest open_str]. unfold blank in Bs. rewrite drop_while_app by auto. destruct junk as [|c j]; [destruct Hj|]. cbn [drop_while]. rewrite Hj. auto.
Qed.
End C80.

(** C80: reading a camera uses exactly the first 21 numbers of the stream; it
    fails (invalid_data) exactly when these can not be read. *)
Definition camera_of_21 (l : list R) : option camera :=
  match mat_of (firstn 9 l), mat_of (firstn 9 (skipn 9 l)), vec_of (skipn 18 l) with Some k, Some r, Some t => Some (camera_krt k r t) | _, _, _ => None end.
Theorem C80_reader scan s : (extract_camera scan s = None <-> read_coefs scan 21 s = None) /\
  (forall l s', read_coefs scan 21 s = Some (l, s') -> exists c, camera_of_21 l = Some c /\ extract_camera scan s = Some (c, s')).
Proof.
  assert (H : match read_coefs scan 21 s with None => extract_camera scan s = None | Some (l, s') => exists c, camera_of_21 l = Some c /\ extract_camera scan s = Some (c, s') end).
  { change 21%nat with (9 + (9 + 3))%nat. rewrite read_app. unfold extract_camera. destruct (read_coefs scan 9 s) as [[k s1]|] eqn:E1; auto.
    rewrite read_app. destruct (read_coefs scan 9 s1) as [[r s2]|] eqn:E2; auto. destruct (read_coefs scan 3 s2) as [[t s3]|] eqn:E3; auto.
    apply read_length in E1, E2, E3. do 10 (destruct k as [|? k]; try discriminate E1). do 10 (destruct r as [|? r]; try discriminate E2). do 4 (destruct t as [|? t]; try discriminate E3).
    eexists. split; reflexivity. }
  destruct (read_coefs scan 21 s) as [[l s']|] eqn:E.
  - destruct H as (c & H1 & H2). split; [rewrite H2; split; discriminate|]. intros l0 s0 X. injection X as <- <-. eauto.
  - rewrite H. split; [split; auto|discriminate].
Qed.
(** A file with fewer than 21 numbers, or with something else among the first 21, is refused. *)
Theorem C80_refused show scan good round ds t : number_format show scan good round -> lay show ds t -> Forall good ds -> (length ds < 21)%nat ->
  (forall pre post, blank pre -> blank post -> extract_camera scan (open_str (pre ++ t ++ post)) = None) /\
  (forall pre sp junk, blank pre -> blank sp -> sp <> [] -> (match junk with c :: _ => is_space c = false | [] => False end) -> (exists d r, scan junk = (d, true, r)) ->
     extract_camera scan (open_str (pre ++ t ++ sp ++ junk)) = None).
Proof.
  intros NF Ll G H. split; intros; apply (proj1 (C80_reader _ _)).
  - eapply read_too_few; eauto.
  - eapply read_junk; eauto.
Qed.
(** Writing and reading back gives the camera with rounded numbers and no distortion. *)
Theorem C80_round_trip show scan good round c : number_format show scan good round -> Forall good (camera_numbers c) -> exists rest,
  extract_camera scan (open_str (camera_text show c)) =
    Some (camera_krt (mmap round (k_matrix (c_intr c))) (mmap round (qmat (c_rot c))) (vmap round (c_translation c)), open_str rest).
Proof. intros NF G. exact (read_camera_text show scan good round NF c G). Qed.
(** If nothing is lost by rounding: the same camera but for the sign of the
    quaternion and the distortion; without distortion it projects every point alike. *)
Definition undistorted (c : camera) : camera := Cam (c_center c) (c_rot c) (Intr (k_f (c_intr c)) (k_pp (c_intr c)) (k_aspect (c_intr c)) (k_skew (c_intr c)) []).
Lemma camera_krt_same c : unit_q (c_rot c) -> k_f (c_intr c) <> 0%R -> k_aspect (c_intr c) <> 0%R ->
  let c' := camera_krt (k_matrix (c_intr c)) (qmat (c_rot c)) (c_translation c) in
  c_center c' = c_center c /\ c_intr c' = c_intr (undistorted c) /\ qmat (c_rot c') = qmat (c_rot c) /\ (c_rot c' = c_rot c \/ c_rot c' = qneg (c_rot c)) /\
  forall p, project c' p = project (undistorted c) p.
Proof.
  intros U F A c'. destruct (fits_mat _ _ (quat_of_mat_fits _ (qmat_rotation _ U))) as [Q1 Q2].
  assert (K : k_of_matrix (k_matrix (c_intr c)) [] = c_intr (undistorted c)) by (apply C53_calibration_matrix; auto).
  assert (E : c' = Cam (c_center c) (quat_of_mat (qmat (c_rot c))) (c_intr (undistorted c))).
  { unfold c', camera_krt. rewrite K. set (q' := quat_of_mat (qmat (c_rot c))) in *.
    assert (T : c_translation c = c_translation (Cam (c_center c) q' (c_intr (undistorted c)))). { unfold c_translation. cbn [c_rot c_center]. rewrite !qrot_mat, Q1. auto. }
    rewrite T. change (set_translation (Cam (V3 0 0 0) q' (c_intr (undistorted c))) (c_translation (Cam (c_center c) q' (c_intr (undistorted c)))))
      with (set_translation (Cam (c_center c) q' (c_intr (undistorted c))) (c_translation (Cam (c_center c) q' (c_intr (undistorted c))))).
    destruct (C53_translation (Cam (c_center c) q' (c_intr (undistorted c))) (V3 0 0 0) Q2) as (_ & X & _). exact X. }
  rewrite E. cbn [c_center c_intr c_rot]. split; auto. split; auto. split; auto. split; [apply qmat_inj; auto|].
  intro p. unfold project. cbn [c_intr c_rot c_center undistorted]. rewrite !qrot_mat, Q1. auto.
Qed.
Lemma mmap_id f m : Forall (fun x => f x = x) (rows_flat m) -> mmap f m = m.
Proof.
  intro H. destruct m as [a b c d e f' g h i]. unfold mmap, rows_flat in *. cbn in H. repeat match goal with H : Forall _ (_ :: _) |- _ => inversion H; clear H; subst end. cbn [m00 m01 m02 m10 m11 m12 m20 m21 m22]. congruence.
Qed.
Lemma vmap_id f v : Forall (fun x => f x = x) (vlist v) -> vmap f v = v.
Proof. intro H. destruct v as [a b c]. unfold vmap, vlist in *. cbn in *. repeat match goal with H : Forall _ (_ :: _) |- _ => inversion H; clear H; subst end. congruence. Qed.
Theorem C80_same_camera show scan good round c : number_format show scan good round -> Forall good (camera_numbers c) -> (forall x, good x -> round x = x) ->
  unit_q (c_rot c) -> k_f (c_intr c) <> 0%R -> k_aspect (c_intr c) <> 0%R -> exists c' rest,
  extract_camera scan (open_str (camera_text show c)) = Some (c', open_str rest) /\
  c_center c' = c_center c /\ (c_rot c' = c_rot c \/ c_rot c' = qneg (c_rot c)) /\ c_intr c' = c_intr (undistorted c) /\
  (forall p, project c' p = project (undistorted c) p) /\ (k_dist (c_intr c) = [] -> forall p, project c' p = project c p).
Proof.
  intros NF G Rd U F A. destruct (read_camera_text show scan good round NF c G) as (rest & E).
  assert (G' : Forall (fun x => round x = x) (camera_numbers c)) by (eapply Forall_impl; [|exact G]; auto).
  unfold camera_numbers in G'. apply Forall_app in G' as [GK G']. apply Forall_app in G' as [GR G']. apply Forall_app in G' as [GT _].
  rewrite !mmap_id, vmap_id in E by auto. destruct (camera_krt_same c U F A) as (S1 & S2 & _ & S4 & S5).
  eexists _, rest. split; [exact E|]. repeat split; auto. intros Dn p. rewrite S5. f_equal. unfold undistorted. destruct c as [cc cr [f pp a s d]]. cbn in *. subst. auto.
Qed.
(** Whatever is read, the distortion is empty ... *)
Theorem C80_no_distortion scan s c s' : extract_camera scan s = Some (c, s') -> k_dist (c_intr c) = [].
Proof.
  unfold extract_camera. destruct (read_coefs scan 9 s) as [[k s1]|]; [|discriminate]. destruct (read_coefs scan 9 s1) as [[r s2]|]; [|discriminate]. destruct (read_coefs scan 3 s2) as [[t s3]|]; [|discriminate].
  unfold read_dynamic. destruct (mat_of k); [|discriminate]. destruct (mat_of r); [|discriminate]. destruct (vec_of t); [|discriminate]. intro H. injection H as <- _. reflexivity.
Qed.

(** A format for reals: integers in decimal. *)
Definition zshow (x : R) : str := dec (Int_part x).
Definition rscan (s : str) : R * bool * str :=
  let '(neg, ds, r) := scan_number s in
  match ds with [] => (0%R, true, r) | _ => (IZR (if neg then - digits_val ds else digits_val ds), false, r) end.
Definition whole (x : R) : Prop := exists z, x = IZR z.
Lemma Int_part_IZR z : Int_part (IZR z) = z.
Proof. unfold Int_part. rewrite <- (tech_up (IZR z) (z + 1)); [lia| |]; rewrite plus_IZR; lra. Qed.
Example number_format_whole : number_format zshow rscan whole (fun x => x).
Proof.
  intros x (z & ->). unfold zshow, rscan. rewrite Int_part_IZR. split; [apply dec_word|]. intros r Hr. destruct (scan_dec z r Hr) as (neg & ds & -> & N & V & _).
  destruct ds as [|c ds]; [congruence|]. rewrite <- V. reflexivity.
Qed.
Definition demo_cam (d : list R) : camera := Cam (V3 (-1) 2 3) (Q 1 0 0 0) (Intr 2 (V2 3 1) 1 0 d).
Lemma demo_good d : Forall whole (placeholder d) -> Forall whole (camera_numbers (demo_cam d)).
Proof.
  intro H. unfold camera_numbers. rewrite !Forall_app. unfold demo_cam, rows_flat, rows3, vlist, k_matrix, qmat, c_translation, vneg, qrot, cross, qvec, vadd, vscale; cbn [c_intr c_rot c_center k_f k_skew k_pp k_aspect k_dist x2 y2 x3 y3 z3 qw qx qy qz m00 m01 m02 m10 m11 m12 m20 m21 m22 concat app].
  repeat split; auto; repeat apply Forall_cons; try apply Forall_nil;
    match goal with |- whole ?x => first [exists 0%Z; lra | exists 1%Z; lra | exists 2%Z; lra | exists 3%Z; lra | exists (-2)%Z; lra | exists (-3)%Z; lra | exists (-1)%Z; lra] end.
Qed.
Lemma demo_eye : qrot (Q 1 0 0 0) (vsub (V3 0 2 4) (V3 (-1) 2 3)) = V3 1 0 1.
Proof. unfold qrot, cross, qvec, vadd, vscale, vsub. cbn [x3 y3 z3 qw qx qy qz]. f_equal; lra. Qed.
Lemma demo_plain : project (undistorted (demo_cam [1%R])) (V3 0 2 4) = V2 5 1.
Proof.
  unfold project. change (c_rot (undistorted (demo_cam [1%R]))) with (Q 1 0 0 0). change (c_center (undistorted (demo_cam [1%R]))) with (V3 (-1) 2 3). rewrite demo_eye.
  unfold undistorted, demo_cam. cbn [c_intr k_f k_pp k_aspect k_skew]. unfold k_map3, k_map, distort, scale_offset, radial_scale, more. cbn [k_dist length Nat.ltb Nat.leb x2 y2 x3 y3 z3 k_f k_pp k_aspect k_skew]. f_equal; field.
Qed.
Lemma demo_distorted : project (demo_cam [1%R]) (V3 0 2 4) = V2 7 1.
Proof.
  unfold project. change (c_rot (demo_cam [1%R])) with (Q 1 0 0 0). change (c_center (demo_cam [1%R])) with (V3 (-1) 2 3). rewrite demo_eye.
  unfold demo_cam. cbn [c_intr]. unfold k_map3, k_map, distort, scale_offset, radial_scale, more, dn. cbn [k_dist length Nat.ltb Nat.leb nth x2 y2 x3 y3 z3 k_f k_pp k_aspect k_skew]. f_equal; field.
Qed.
(** ... so the distortion of a camera is not read back (refuted: the file keeps the camera). *)
Theorem C80_distortion_refuted : exists show scan good c c' rest p, number_format show scan good (fun x => x) /\ Forall good (camera_numbers c) /\
  extract_camera scan (open_str (camera_text show c)) = Some (c', open_str rest) /\ k_dist (c_intr c) = [1%R] /\ project c' p <> project c p.
Proof.
  assert (U : unit_q (c_rot (demo_cam [1%R]))) by (unfold unit_q; cbn; lra).
  assert (G : Forall whole (camera_numbers (demo_cam [1%R]))). { apply demo_good. constructor; auto. exists 1%Z. lra. }
  destruct (C80_same_camera zshow rscan whole (fun x => x) (demo_cam [1%R]) number_format_whole G (fun x _ => eq_refl) U) as (c' & rest & E & _ & _ & _ & P & _); [cbn; lra|cbn; lra|].
  exists zshow, rscan, whole, (demo_cam [1%R]), c', rest, (V3 0 2 4). split; [apply number_format_whole|]. split; auto. split; auto. split; auto.
  rewrite P. rewrite demo_plain, demo_distorted. intro X. apply (f_equal x2) in X. cbn [x2] in X. lra.
Qed.
Example C80_nonvacuous : exists c' rest, extract_camera rscan (open_str (camera_text zshow (demo_cam []))) = Some (c', open_str rest) /\ forall p, project c' p = project (demo_cam []) p.
Proof.
  assert (U : unit_q (c_rot (demo_cam []))) by (unfold unit_q; cbn; lra).
  assert (G : Forall whole (camera_numbers (demo_cam []))). { apply demo_good. constructor; auto. exists 0%Z. lra. }
  destruct (C80_same_camera zshow rscan whole (fun x => x) (demo_cam []) number_format_whole G (fun x _ => eq_refl) U) as (c' & rest & E & _ & _ & _ & _ & P); [cbn; lra|cbn; lra|]. eauto.
Qed.
Example C80_refused_nonvacuous : lay zshow [1%R; 2%R] (zshow 1 ++ L " " ++ zshow 2) /\ Forall whole [1%R; 2%R] /\ exists d r, rscan (L "x") = (d, true, r).
Proof.
  split; [apply (lay_app zshow (L " ") [1%R] _ [2%R]); [apply lay_plain|apply lay_plain|reflexivity|discriminate]|]. split.
  - repeat constructor; [exists 1%Z|exists 2%Z]; lra.
  - eexists _, _. reflexivity.
Qed.
Print Assumptions C80_reader.
Print Assumptions C80_refused.
Print Assumptions C80_round_trip.
Print Assumptions C80_same_camera.
Print Assumptions C80_no_distortion.
Print Assumptions C80_distortion_refuted.
