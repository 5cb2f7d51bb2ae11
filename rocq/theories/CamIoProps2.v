(** CamIoProps2.v -- C81: stream operators of intrinsics, rotation, similarity,
    landmark; C82: directories of camera files. *)
From Coq Require Import Reals List ZArith Lra Lia Bool.
Import ListNotations.
From Verif Require Import Base Numbers Stream TrackIoModel TrackIoSpec TrackIoProofs TrackIoProps GeomModel GeomProofs CameraModel CameraProps PathModel PathProofs CamIoModel CamIoProofs CamIoProps.

(** ---------------------------------------------------------------- C81 *)
Lemma ends_sp r : ends (L " " ++ r). Proof. reflexivity. Qed.
Lemma blank_sp : blank (L " "). Proof. reflexivity. Qed.
(** Rotations come back with rounded coefficients, in whatever is around the text. *)
Theorem C81_rotation show scan good round q pre r : number_format show scan good round -> Forall good [qx q; qy q; qz q; qw q] -> blank pre -> ends r ->
  extract_rotation scan (open_str (pre ++ rotation_text show q ++ r)) = Some (Q (round (qw q)) (round (qx q)) (round (qy q)) (round (qz q)), open_str r).
Proof.
  intros NF G B E. unfold extract_rotation, rotation_text.
  assert (Ll : lay show [qx q; qy q; qz q; qw q] (matrix_text show [[qx q]; [qy q]; [qz q]; [qw q]])).
  { apply (lay_matrix show [[qx q]; [qy q]; [qz q]; [qw q]]); [discriminate|]. cbn. intros x [<-|[<-|[<-|[<-|[]]]]]; discriminate. }
  pose proof (lay_read show scan good round NF _ _ r pre Ll G B E) as X. cbn [length] in X. rewrite X. reflexivity.
Qed.
Definition sim_numbers (t : similarity) : list R := s_scale t :: [qx (s_rot t); qy (s_rot t); qz (s_rot t); qw (s_rot t)] ++ vlist (s_trans t).
Theorem C81_similarity show scan good round t pre r : number_format show scan good round -> Forall good (sim_numbers t) -> blank pre -> ends r ->
  extract_similarity scan (open_str (pre ++ similarity_text show t ++ r)) =
    Some (Sim (round (s_scale t)) (Q (round (qw (s_rot t))) (round (qx (s_rot t))) (round (qy (s_rot t))) (round (qz (s_rot t)))) (vmap round (s_trans t)), open_str r).
Proof.
  intros NF G B E. change (sim_numbers t) with (([s_scale t] ++ [qx (s_rot t); qy (s_rot t); qz (s_rot t); qw (s_rot t)]) ++ vlist (s_trans t)) in G. apply Forall_app in G as [G G3]. apply Forall_app in G as [G1 G2]. apply Forall_inv in G1. unfold extract_similarity, similarity_text. rewrite <- !app_assoc.
  rewrite (extract_d_text show scan good round NF pre (s_scale t) _ B G1 (ends_sp _)). rewrite (C81_rotation show scan good round (s_rot t) (L " ") _ NF G2 eq_refl (ends_sp _)).
  assert (Ll : lay show (vlist (s_trans t)) (matrix_text show [[x3 (s_trans t)]; [y3 (s_trans t)]; [z3 (s_trans t)]])).
  { apply (lay_matrix show [[x3 (s_trans t)]; [y3 (s_trans t)]; [z3 (s_trans t)]]); [discriminate|]. cbn. intros x [<-|[<-|[<-|[]]]]; discriminate. }
  pose proof (lay_read show scan good round NF _ _ r (L " ") Ll G3 blank_sp E) as X. change (length (vlist (s_trans t))) with 3%nat in X. rewrite X. reflexivity.
Qed.
(** A similarity is refused exactly if its eight numbers can not be read. *)
Theorem C81_similarity_reader scan s : extract_similarity scan s = None <-> read_coefs scan 8 s = None.
Proof.
  change 8%nat with (1 + (4 + 3))%nat. rewrite read_app. unfold extract_similarity, extract_rotation.
  assert (R1 : read_coefs scan 1 s = let '(d, s1) := extract_d scan s in if s_fail s1 then None else match d with Some d => Some ([d], s1) | None => None end).
  { cbn [read_coefs]. destruct (extract_d scan s) as [[d|] s1]; auto. }
  rewrite R1. destruct (extract_d scan s) as [sc s1] eqn:E1.
  assert (F : s_fail s1 = false -> sc <> None). { intros F N. subst sc. unfold extract_d in E1. destruct (s_fail s) eqn:FS; [injection E1 as <-; congruence|]. destruct (drop_while is_space (s_rest s)) as [|c t]; [injection E1 as <-; discriminate|]. destruct (scan (c :: t)) as [[? ?] ?]. discriminate. }
  destruct (s_fail s1) eqn:F1.
  - split; auto. intros _. assert (X : read_coefs scan 4 s1 = None). { destruct s1 as [rest f]. cbn in F1. subst f. reflexivity. } rewrite X. auto.
  - destruct sc as [sc|]; [|exfalso; apply F; auto]. rewrite read_app. destruct (read_coefs scan 4 s1) as [[ro s2]|] eqn:E2; [|tauto].
    pose proof (read_length scan _ _ _ _ E2) as L2. do 5 (destruct ro as [|? ro]; try discriminate L2). destruct (read_coefs scan 3 s2) as [[tr s3]|] eqn:E3; [|tauto].
    pose proof (read_length scan _ _ _ _ E3) as L3. do 4 (destruct tr as [|? tr]; try discriminate L3). cbn. split; discriminate.
Qed.
(** Intrinsics: the matrix comes back rounded, the distortion is lost. *)
Theorem C81_intrinsics show scan good round k pre : number_format show scan good round -> Forall good (rows_flat (k_matrix k)) -> blank pre -> exists rest,
  extract_intrinsics scan (open_str (pre ++ intrinsics_text show k)) = Some (k_of_matrix (mmap round (k_matrix k)) [], open_str rest).
Proof.
  intros NF G B. unfold extract_intrinsics, intrinsics_text. rewrite (read_m3 show scan good round NF); auto; [|apply ends_nl]. eexists. reflexivity.
Qed.
Theorem C81_intrinsics_exact show scan good round k : number_format show scan good round -> Forall good (rows_flat (k_matrix k)) -> (forall x, good x -> round x = x) -> k_f k <> 0%R -> k_aspect k <> 0%R ->
  exists rest, extract_intrinsics scan (open_str (intrinsics_text show k)) = Some (Intr (k_f k) (k_pp k) (k_aspect k) (k_skew k) [], open_str rest).
Proof.
  intros NF G Rd F A. destruct (C81_intrinsics show scan good round k [] NF G eq_refl) as (rest & E). exists rest. cbn [app] in E. rewrite E, mmap_id by (eapply Forall_impl; [|exact G]; auto).
  rewrite (proj1 C53_calibration_matrix) by auto. auto.
Qed.
Theorem C81_intrinsics_distortion_refuted : exists k k' rest, k_dist k = [1%R] /\ extract_intrinsics rscan (open_str (intrinsics_text zshow k)) = Some (k', open_str rest) /\ k' <> k.
Proof.
  destruct (C81_intrinsics_exact zshow rscan whole (fun x => x) (Intr 2 (V2 3 1) 1 0 [1%R]) number_format_whole) as (rest & E); auto; try (cbn; lra).
  - unfold rows_flat, rows3, k_matrix. cbn [k_f k_skew k_pp k_aspect x2 y2 m00 m01 m02 m10 m11 m12 m20 m21 m22 concat app].
    repeat apply Forall_cons; try apply Forall_nil; match goal with |- whole ?x => first [exists 0%Z; lra | exists 1%Z; lra | exists 2%Z; lra | exists 3%Z; lra] end.
  - exists (Intr 2 (V2 3 1) 1 0 [1%R]), (Intr 2 (V2 3 1) 1 0 []), rest. split; auto. split; auto. intro X. discriminate (f_equal k_dist X).
Qed.
(** Landmarks. *)
Definition tmap3 {D} (f : D -> D) (v : D * D * D) : D * D * D := let '(a, b, c) := v in (f a, f b, f c).
Definition good3 {D} (good : D -> Prop) (v : D * D * D) : Prop := let '(a, b, c) := v in good a /\ good b /\ good c.
Definition good_landmark {D} (good : D -> Prop) (m : landmark) : Prop :=
  good3 good (l_loc m) /\ good (l_scale m) /\ good3 good (l_normal m) /\ good_color (l_color m) /\ (0 <= l_obs m < 2 ^ 32)%Z.
Lemma read_col3 {D} (show : D -> str) scan good round v pre r : number_format show scan good round -> good3 good v -> blank pre -> ends r ->
  exists l, read_coefs scan 3 (open_str (pre ++ matrix_text show (col3 v) ++ r)) = Some (l, open_str r) /\ triple l = Some (tmap3 round v).
Proof.
  intros NF G B E. destruct v as [[a b] c]. cbn [good3] in G. destruct G as (Ga & Gb & Gc).
  assert (Ll : lay show [a; b; c] (matrix_text show [[a]; [b]; [c]])). { apply (lay_matrix show [[a]; [b]; [c]]); [discriminate|]. cbn. intros x [<-|[<-|[<-|[]]]]; discriminate. }
  pose proof (lay_read show scan good round NF _ _ r pre Ll ltac:(repeat constructor; auto) B E) as X. cbn [length] in X. cbn [col3]. rewrite X. eexists. split; reflexivity.
Qed.
Lemma extract_color_rest sp c r : blank sp -> good_color c -> ends r -> extract_color (open_str (sp ++ color_text c ++ r)) = (c, open_str r).
Proof.
  intros B (G1 & G2 & G3) E. unfold extract_color, color_text. rewrite <- !app_assoc. rewrite i32_byte by (auto; reflexivity). rewrite i32_byte by (auto; reflexivity). rewrite i32_byte by (auto; reflexivity).
  cbn [or_else]. rewrite !uchar_byte by auto. destruct c; reflexivity.
Qed.
Theorem C81_landmark {D} (show : D -> str) scan good round m pre r : number_format show scan good round -> good_landmark good m -> blank pre -> ends r ->
  extract_landmark scan (open_str (pre ++ landmark_text show m ++ r)) =
    Some (mkRL (tmap3 round (l_loc m)) (round (l_scale m)) (tmap3 round (l_normal m)) (l_color m) (Some (l_obs m)), open_str r).
Proof.
  intros NF (G1 & G2 & G3 & G4 & G5) B E. unfold extract_landmark, landmark_text. rewrite <- !app_assoc.
  destruct (read_col3 show scan good round (l_loc m) pre (L " " ++ show (l_scale m) ++ L " " ++ matrix_text show (col3 (l_normal m)) ++ L " " ++ color_text (l_color m) ++ L " " ++ dec (l_obs m) ++ r) NF G1 B eq_refl) as (l1 & -> & T1).
  rewrite (extract_d_text show scan good round NF (L " ")) by (auto; reflexivity).
  destruct (read_col3 show scan good round (l_normal m) (L " ") (L " " ++ color_text (l_color m) ++ L " " ++ dec (l_obs m) ++ r) NF G3 blank_sp eq_refl) as (l2 & -> & T2).
  rewrite (extract_color_rest (L " ")) by (auto; reflexivity). unfold extract_u32. rewrite (extract_unsigned_dec (2 ^ 32) (L " ")) by auto. rewrite T1, T2. reflexivity.
Qed.
(** A landmark text cut off after the color gives a landmark whose number of observations was never assigned. *)
Theorem C81_landmark_observations_refuted : exists text m s, extract_landmark zscan (open_str text) = Some (m, s) /\ rl_obs m = None.
Proof. exists (L "1 2 3 4 5 6 7 8"). eexists _, _. split; [vm_compute; reflexivity|reflexivity]. Qed.
Definition demo_landmark : landmark (D := Z) := mkLandmark (1, -2, 30)%Z 1%Z (0, 0, 1)%Z (mkColor 1 2 255) 7%Z.
Example C81_nonvacuous : good_landmark (fun _ : Z => True) demo_landmark /\
  extract_landmark zscan (open_str (landmark_text dec demo_landmark)) = Some (mkRL (1, -2, 30)%Z 1%Z (0, 0, 1)%Z (mkColor 1 2 255) (Some 7%Z), open_str []) /\
  Forall whole (sim_numbers (Sim 2 (Q 1 0 0 0) (V3 0 1 2))).
Proof.
  split; [unfold good_landmark, good_color, byte; cbn; repeat split; lia|]. split; [vm_compute; reflexivity|].
  unfold sim_numbers, vlist. cbn [s_scale s_rot s_trans qx qy qz qw x3 y3 z3 app]. repeat apply Forall_cons; try apply Forall_nil; match goal with |- whole ?x => first [exists 0%Z; lra | exists 1%Z; lra | exists 2%Z; lra] end.
Qed.
Print Assumptions C81_rotation.
Print Assumptions C81_similarity.
Print Assumptions C81_similarity_reader.
Print Assumptions C81_intrinsics_exact.
Print Assumptions C81_intrinsics_distortion_refuted.
Print Assumptions C81_landmark.
Print Assumptions C81_landmark_observations_refuted.

(** ---------------------------------------------------------------- C82 *)
(** Where the camera of an image is looked for: two images share a file exactly
    if their names agree up to the last extension. *)
Theorem C82_path i j dir : krtd_path i dir = krtd_path j dir <-> get_filename_without_last_extension i = get_filename_without_last_extension j.
Proof. unfold krtd_path. split; [|congruence]. intro E. apply app_inv_head in E. apply app_inv_head in E. apply app_inv_tail in E. auto. Qed.
(** Which outcomes end the loop with an exception. *)
Definition fatal (k : kread) : bool := match k with KCamera _ | KNotFound => false | _ => true end.
(** The entries the two evaluation orders leave: the frames whose file exists,
    or every frame, with a null camera where the file is missing. *)
Fixpoint entries (lhs_first : bool) (f : str -> kread) (imgs : list str) (fid : nat) : list (nat * option camera) :=
  match imgs with
  | [] => []
  | i :: r => match f i with KCamera c => [(fid, Some c)] | KNotFound => if lhs_first then [(fid, None)] else [] | _ => [] end ++ entries lhs_first f r (S fid)
  end.
Lemma read_each_spec scan b w dir : forall imgs fid acc, (forall i, In i imgs -> fatal (read_krtd scan w (krtd_path i dir)) = false) ->
  read_each scan b w dir imgs fid acc = match acc ++ entries b (fun i => read_krtd scan w (krtd_path i dir)) imgs fid with [] => KNoneFound | m => KMap m end.
Proof.
  induction imgs as [|i imgs IH]; intros fid acc H; cbn [read_each entries]; [rewrite app_nil_r; destruct acc; auto|].
  pose proof (H i (or_introl eq_refl)) as F. specialize (fun fid acc => IH fid acc (fun x Hx => H x (or_intror Hx))).
  destruct (read_krtd scan w (krtd_path i dir)); try discriminate; rewrite IH; [|destruct b]; cbn [app]; rewrite <- ?app_assoc; auto.
Qed.
Lemma read_each_fatal scan b w dir : forall imgs fid acc i rest, (forall x, In x imgs -> fatal (read_krtd scan w (krtd_path x dir)) = false) -> fatal (read_krtd scan w (krtd_path i dir)) = true ->
  read_each scan b w dir (imgs ++ i :: rest) fid acc = KError (read_krtd scan w (krtd_path i dir)).
Proof.
  induction imgs as [|x imgs IH]; intros fid acc i rest H F; cbn [app read_each].
  - destruct (read_krtd scan w (krtd_path i dir)); try discriminate; auto.
  - pose proof (H x (or_introl eq_refl)) as Fx. destruct (read_krtd scan w (krtd_path x dir)); try discriminate; apply IH; auto; intros y Hy; apply H; right; auto.
Qed.
(** C82: an unreadable or malformed file ends the reading with its exception;
    otherwise the map has the entries above, and none at all is an error. *)
Theorem C82_files scan b w imgs dir : w dir <> Missing ->
  (  (forall i, In i imgs -> fatal (read_krtd scan w (krtd_path i dir)) = false) /\
     read_krtd_files scan b w imgs dir = match entries b (fun i => read_krtd scan w (krtd_path i dir)) imgs 0 with [] => KNoneFound | m => KMap m end)
  \/ (exists before i after, imgs = before ++ i :: after /\ fatal (read_krtd scan w (krtd_path i dir)) = true /\
     (forall x, In x before -> fatal (read_krtd scan w (krtd_path x dir)) = false) /\ read_krtd_files scan b w imgs dir = KError (read_krtd scan w (krtd_path i dir))).
Proof.
  intro N. assert (E : read_krtd_files scan b w imgs dir = read_each scan b w dir imgs 0 []) by (unfold read_krtd_files; destruct (w dir); congruence). rewrite E.
  assert (S : (forall i, In i imgs -> fatal (read_krtd scan w (krtd_path i dir)) = false) \/ exists before i after, imgs = before ++ i :: after /\ fatal (read_krtd scan w (krtd_path i dir)) = true /\ (forall x, In x before -> fatal (read_krtd scan w (krtd_path x dir)) = false)).
  { clear. induction imgs as [|i imgs IH]; [left; intros i []|]. destruct (fatal (read_krtd scan w (krtd_path i dir))) eqn:F.
    - right. exists [], i, imgs. repeat split; auto. intros x [].
    - destruct IH as [IH|(a & x & c & -> & Fx & Ha)]; [left; intros y [<-|Hy]; auto|right]. exists (i :: a), x, c. repeat split; auto. intros y [<-|Hy]; auto. }
  destruct S as [S|(a & i & c & -> & F & Ha)]; [left|right].
  - split; auto. rewrite read_each_spec by auto. reflexivity.
  - exists a, i, c. repeat split; auto. apply read_each_fatal; auto.
Qed.
Theorem C82_missing_directory scan b w imgs dir : w dir = Missing -> read_krtd_files scan b w imgs dir = KPathNotExists.
Proof. intro H. unfold read_krtd_files. rewrite H. auto. Qed.
(** What the entries are, frame by frame. *)
Theorem C82_entries b f : forall imgs k fid c, In (fid, c) (entries b f imgs k) <->
  exists j i, fid = (k + j)%nat /\ nth_error imgs j = Some i /\ ((exists cam, f i = KCamera cam /\ c = Some cam) \/ (b = true /\ f i = KNotFound /\ c = None)).
Proof.
  induction imgs as [|i imgs IH]; intros k fid c; cbn [entries].
  - split; [intros []|intros ([|j] & i & _ & H & _); discriminate].
  - rewrite in_app_iff, IH. split.
    + intros [H|(j & x & -> & Hn & H)].
      * exists 0%nat, i. destruct (f i) as [cam| | |] eqn:Fi; [| |destruct H|destruct H].
        -- destruct H as [H|[]]. injection H as <- <-. split; [lia|]. split; auto. left. eauto.
        -- destruct b; [|destruct H]. destruct H as [H|[]]. injection H as <- <-. split; [lia|]. split; auto.
      * exists (S j), x. split; [lia|]. auto.
    + intros ([|j] & x & -> & Hn & H).
      * left. injection Hn as <-. destruct H as [(cam & -> & ->)|(-> & -> & ->)]; left; f_equal; lia.
      * right. exists j, x. split; [lia|]. auto.
Qed.
(** So whether a frame without file is absent or has a null camera, and whether
    "No krtd files found" can be thrown, depends on the compiler. *)
Theorem C82_evaluation_order_refuted : exists scan w dir imgs, w dir = Directory /\
  read_krtd_files scan false w imgs dir = KNoneFound /\ read_krtd_files scan true w imgs dir = KMap [(0%nat, None)].
Proof.
  exists rscan, (fun p => if str_eqb p (L "d") then Directory else Missing), (L "d"), [L "a.png"]. split; [reflexivity|]. split; reflexivity.
Qed.
(** Writing: a directory is refused, a directory that can not be made is
    reported; a file that can be opened holds the text of the camera afterwards,
    so that reading gives the camera back (C80); all other paths stay. *)
Theorem C82_write show opens mk w c path :
  (w path = Directory -> write_krtd show opens mk w c path = KIsDirectory) /\
  (w path <> Directory -> mk = false -> write_krtd show opens mk w c path = KNoDirectory) /\
  (w path <> Directory -> mk = true -> exists w', write_krtd show opens mk w c path = KWritten w' /\
     (opens path = true -> w' path = File (camera_text show c)) /\ (forall p, p <> path -> w' p = w p)).
Proof.
  unfold write_krtd. split; [intros ->; auto|]. split.
  - intros N ->. destruct (w path); auto. congruence.
  - intros N ->. cbn [negb]. destruct (opens path) eqn:O.
    + exists (fun p => if str_eqb p path then File (camera_text show c) else w p). split; [destruct (w path); auto; congruence|]. split; [intros _; rewrite str_eqb_refl; auto|].
      intros p Np. rewrite (proj2 (str_eqb_neq p path) Np). auto.
    + exists w. split; [destruct (w path); auto; congruence|]. split; [discriminate|auto].
Qed.
Theorem C82_write_read show scan good c w opens path : number_format show scan good (fun x => x) -> Forall good (camera_numbers c) -> unit_q (c_rot c) -> k_f (c_intr c) <> 0%R -> k_aspect (c_intr c) <> 0%R ->
  w path <> Directory -> opens path = true -> exists w' c', write_krtd show opens true w c path = KWritten w' /\ read_krtd scan w' path = KCamera c' /\
    c_center c' = c_center c /\ (c_rot c' = c_rot c \/ c_rot c' = qneg (c_rot c)) /\ c_intr c' = c_intr (undistorted c).
Proof.
  intros NF G U F A N O. destruct (proj2 (proj2 (C82_write show opens true w c path)) N eq_refl) as (w' & E & T & _). specialize (T O).
  destruct (C80_same_camera show scan good (fun x => x) c NF G (fun x _ => eq_refl) U F A) as (c' & rest & X & H1 & H2 & H3 & _).
  exists w', c'. split; auto. unfold read_krtd. rewrite T, X. auto.
Qed.
(** A file that can not be opened: nothing is written and nothing is reported. *)
Theorem C82_silent_write_refuted : exists show opens w c path, w path = Missing /\ write_krtd show opens true w c path = KWritten w.
Proof. exists zshow, (fun _ => false), (fun _ => Missing), (demo_cam []), (L "f"). split; reflexivity. Qed.
Example C82_nonvacuous : exists scan w, w (L "d") <> Missing /\ (forall i, In i [L "x/a.1.png"; L "b"] -> fatal (read_krtd scan w (krtd_path i (L "d"))) = false) /\
  w (krtd_path (L "x/a.1.png") (L "d")) <> Missing /\ krtd_path (L "x/a.1.png") (L "d") = L "d/a.1.krtd" /\ krtd_path (L "b") (L "d") = L "d/b.krtd".
Proof.
  exists rscan, (fun p => if str_eqb p (L "d") then Directory else if str_eqb p (L "d/a.1.krtd") then File (camera_text zshow (demo_cam [])) else Missing).
  split; [discriminate|]. split; [|split; [discriminate|split; reflexivity]].
  intros i [<-|[<-|[]]]; [|reflexivity]. destruct C80_nonvacuous as (c' & rest & E & _).
  change (krtd_path (L "x/a.1.png") (L "d")) with (L "d/a.1.krtd"). unfold read_krtd. change (str_eqb (L "d/a.1.krtd") (L "d")) with false. change (str_eqb (L "d/a.1.krtd") (L "d/a.1.krtd")) with true. cbv iota. rewrite E. reflexivity.
Qed.
Print Assumptions C82_path.
Print Assumptions C82_files.
Print Assumptions C82_entries.
Print Assumptions C82_evaluation_order_refuted.
Print Assumptions C82_write.
Print Assumptions C82_write_read.
Print Assumptions C82_silent_write_refuted.
(** C82: the outcome of reading one file: file_not_found_exception exactly for
    what is not a file, file_not_read_exception exactly for a file that does not
    open, invalid_data exactly for a text that does not start with 21 numbers. *)
Theorem C82_one_file scan w path :
  (read_krtd scan w path = KNotFound <-> w path = Missing \/ w path = Directory) /\
  (read_krtd scan w path = KNotRead <-> w path = Unreadable) /\
  (read_krtd scan w path = KInvalid <-> exists text, w path = File text /\ read_coefs scan 21 (open_str text) = None) /\
  (forall c, read_krtd scan w path = KCamera c <-> exists text l s, w path = File text /\ read_coefs scan 21 (open_str text) = Some (l, s) /\ camera_of_21 l = Some c).
Proof.
  unfold read_krtd. destruct (w path) as [| | |text] eqn:E.
  1,2,3: (split; [|split; [|split]]); try intro c; (split; [intro H; try discriminate H; auto|]); intro H; auto; try (destruct H; discriminate); try discriminate H; destruct H as (t & H); try destruct H as (l & s & H); destruct H as [H _]; discriminate H.
  destruct (C80_reader scan (open_str text)) as [HN HS]. destruct (read_coefs scan 21 (open_str text)) as [[l s]|] eqn:Er.
  - destruct (HS l s eq_refl) as (c & Hc & He). rewrite He. split; [split; [discriminate|intros [H|H]; discriminate]|]. split; [split; discriminate|]. split.
    + split; [discriminate|]. intros (t & Ht & Hn). injection Ht as <-. congruence.
    + intro c'. split.
      * intro H. injection H as <-. exists text, l, s. auto.
      * intros (t & l' & s' & Ht & Hr & Hc'). injection Ht as <-. rewrite Er in Hr. injection Hr as <- <-. congruence.
  - rewrite (proj2 HN eq_refl). split; [split; [discriminate|intros [H|H]; discriminate]|]. split; [split; discriminate|]. split; [split; [intros _; exists text; auto|reflexivity]|].
    intro c. split; [discriminate|]. intros (t & l' & s' & Ht & Hr & _). injection Ht as <-. congruence.
Qed.
Print Assumptions C82_one_file.
