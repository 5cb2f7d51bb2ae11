(** TrackIoProps.v -- C50, C67. *)
From Coq Require Import List ZArith Lia Bool.
Import ListNotations.
From Verif Require Import Base Numbers Stream ParserModel TrackModel TrackSpec TrackProofs TrackIoModel TrackIoSpec TrackIoProofs.
Local Open Scope Z_scope.

(** C50: writing and reading back, for any text format of doubles that the
    stream operators implement ([round] is what is left of the precision). *)
Theorem C50_track_file_round_trip {D} (show : D -> str) scan good round (ts : list (track (option (feature D)))) :
  number_format show scan good round ->
  ts <> [] -> (forall t, In t ts -> treachable t) -> NoDup (map t_id ts) -> (forall t, In t ts -> writable good t) ->
  exists text ts', write_tracks show ts = Written text /\ read_tracks scan text = Tracks ts' /\ Forall2 (same_track round) ts ts'.
Proof. intros NF. exact (track_file_lemma D show scan good round NF ts). Qed.
Print Assumptions C50_track_file_round_trip.

(** Integers satisfy the format (so do the doubles that print as integers). *)
Definition zscan (s : str) : Z * bool * str :=
  let '(neg, ds, r) := scan_number s in
  match ds with [] => (0, true, r) | _ => (if neg then - digits_val ds else digits_val ds, false, r) end.
Example number_format_integers : number_format dec zscan (fun _ => True) (fun z => z).
Proof.
  intros d _. split; [apply dec_word|]. intros r Hr. unfold zscan. destruct (scan_dec d r Hr) as (neg & ds & -> & N & V & _).
  destruct ds as [|c ds]; [congruence|]. rewrite <- V. reflexivity.
Qed.
Definition demo_feature (x y : Z) : feature Z := mkFeature x y 5 1 0 (mkColor 255 0 7).
Definition demo_tracks : list (track (option (feature Z))) :=
  [mkTrack [(0, Some (demo_feature 10 (-3))); (4, Some (demo_feature 11 200))] 7; mkTrack [(4, Some (demo_feature 1 2))] 3].
Example C50_nonvacuous : (forall t, In t demo_tracks -> treachable t) /\ NoDup (map t_id demo_tracks) /\ (forall t, In t demo_tracks -> writable (fun _ => True) t) /\
  write_tracks dec demo_tracks = Written (L "7 0 10 -3 5 1 0 255 0 7" ++ ["010"%char] ++ L "7 4  11 200 5 1 0 255 0 7" ++ ["010"%char] ++ L "3 4 1 2 5 1 0 255 0 7" ++ ["010"%char]).
Proof.
  split; [|split; [|split]].
  - intros t Ht. exists [TOf 0 (Some (demo_feature 10 (-3))); TAppend 0 4 (Some (demo_feature 11 200)); TSetId 0 7; TOf 4 (Some (demo_feature 1 2)); TSetId 1 3]. exact Ht.
  - repeat constructor; cbn; intuition discriminate.
  - unfold writable, int64, good_feature, good_color, byte. intros t [<-|[<-|[]]]; cbn [t_history t_id]; (split; [discriminate|]); (split; [lia|]);
      intros s Hs; cbn [In] in Hs; repeat (destruct Hs as [<-|Hs]; [cbn [frame_of fst snd]; (split; [lia|]); eexists; (split; [reflexivity|]); cbn; repeat split; lia|]); destruct Hs.
  - vm_compute. reflexivity.
Qed.
(** Without distinct ids, or with empty tracks, the set is not preserved. *)
Theorem C50_equal_ids_refuted : exists ts : list (track (option (feature Z))), (forall t, In t ts -> treachable t /\ writable (fun _ => True) t) /\
  forall text ts', write_tracks dec ts = Written text -> read_tracks zscan text = Tracks ts' -> length ts' <> length ts.
Proof.
  exists [mkTrack [(1, Some (demo_feature 1 2))] 0; mkTrack [(2, Some (demo_feature 3 4))] 0]. split.
  - intros t Ht. split.
    + exists [TOf 1 (Some (demo_feature 1 2)); TOf 2 (Some (demo_feature 3 4))]. exact Ht.
    + unfold writable, int64, good_feature, good_color, byte. destruct Ht as [<-|[<-|[]]]; cbn [t_history t_id]; (split; [discriminate|]); (split; [lia|]);
      intros s [<-|[]]; cbn [frame_of fst snd]; (split; [lia|]); eexists; (split; [reflexivity|]); cbn; repeat split; lia.
  - intros text ts' E R. vm_compute in E. injection E as <-. vm_compute in R. injection R as <-. discriminate.
Qed.
Print Assumptions C50_equal_ids_refuted.
Theorem C50_empty_track_refuted : exists ts : list (track (option (feature Z))), (forall t, In t ts -> treachable t) /\ ts <> [] /\
  write_tracks dec ts = Written [] /\ read_tracks zscan [] = Tracks [].
Proof.
  exists [mkTrack [] 0]. split; [intros t [<-|[]]; exists [TNew]; left; reflexivity|]. split; [discriminate|]. split; reflexivity.
Qed.
(** An empty set is refused. *)
Theorem C50_empty_set {D} (show : D -> str) : write_tracks show [] = NoTracks.
Proof. reflexivity. Qed.

(** C67: whatever the file, reading throws invalid_data or gives tracks with
    distinct ids, at least one state each and increasing frames; the id and the
    frame of a state are never uninitialised. *)
Lemma int_none lo hi s s' : extract_int lo hi s = (None, s') -> s_fail s' = true.
Proof.
  unfold extract_int. destruct (s_fail s) eqn:E; [intro H; injection H as <-; auto|]. destruct (drop_while is_space (s_rest s)) as [|c t].
  - intro H. injection H as <-. auto.
  - destruct (scan_number (c :: t)) as [[neg ds] r]. destruct ds; [discriminate|]. cbv zeta.
    destruct (_ <? lo); [discriminate|]. destruct (hi <? _); discriminate.
Qed.
Lemma int_fail lo hi s : s_fail s = true -> s_fail (snd (extract_int lo hi s)) = true.
Proof. intro H. unfold extract_int. rewrite H. exact H. Qed.
Lemma feature_fail {D} scan s : s_fail s = true -> @extract_feature D scan s = None.
Proof. intro H. unfold extract_feature, extract_d. rewrite H. cbn. rewrite H. reflexivity. Qed.
Theorem C67_any_file {D} (scan : str -> D * bool * str) text : read_tracks scan text = Invalid \/
  exists ts, read_tracks scan text = Tracks ts /\ NoDup (map t_id ts) /\ forall t, In t ts -> empty t = false /\ increasing (frames t).
Proof.
  unfold read_tracks. generalize (lines_of text) as ls.
  assert (G : forall ls tracks tmap,
    (forall id i, m_find Z.compare id tmap = Some i -> (i < length tracks)%nat) ->
    (forall t, In t tracks -> m_find Z.compare (t_id t) tmap <> None) ->
    NoDup (map t_id tracks) -> (forall t, In t tracks -> empty t = false /\ increasing (frames t)) ->
    read_lines scan ls tracks tmap = Invalid \/ exists ts, read_lines scan ls tracks tmap = Tracks ts /\ NoDup (map t_id ts) /\ forall t, In t ts -> empty t = false /\ increasing (frames t)).
  2:{ intro ls. apply G; try (intros ? []); try discriminate; constructor. }
  induction ls as [|line ls IH]; intros tracks tmap H1 H2 H3 H4; cbn [read_lines]; [eauto|].
  destruct (extract_i64 (open_str line)) as [tid s1] eqn:E1. destruct (extract_i64 s1) as [fid s2] eqn:E2.
  destruct (extract_feature scan s2) as [[feat sx]|] eqn:E3; auto.
  destruct fid as [fid|].
  2:{ apply int_none in E2. rewrite feature_fail in E3 by auto. discriminate. }
  destruct tid as [tid|].
  2:{ apply int_none in E1. pose proof (int_fail (- 2 ^ 63) (2 ^ 63 - 1) s1 E1) as X. fold (extract_i64 s1) in X. rewrite E2 in X. cbn [snd] in X.
      rewrite feature_fail in E3 by auto. discriminate. }
  destruct (m_find Z.compare tid tmap) as [i|] eqn:Ef.
  - pose proof (H1 _ _ Ef) as Hi. destruct (nth_error tracks i) as [t|] eqn:En; [|exfalso; apply nth_error_None in En; lia].
    assert (Hin : In t tracks) by (eapply nth_error_In; eauto). destruct (H4 t Hin) as [Em Hinc].
    set (t' := fst (append_state t (fid, feat))).
    assert (Ht' : t_id t' = t_id t /\ empty t' = false /\ increasing (frames t')).
    { destruct (append_state_spec t (fid, feat) Hinc) as (_ & A & B). unfold t'. destruct (snd (append_state t (fid, feat))).
      - destruct (A eq_refl) as (A1 & A2 & A3). split; auto. split; auto. unfold empty. rewrite A1. destruct (t_history t); reflexivity.
      - rewrite B by auto. auto. }
    assert (Hid : map t_id (lupd tracks i t') = map t_id tracks).
    { destruct Ht' as [Hx _]. clear -En Hx. revert i En. induction tracks as [|u tracks IHt]; intros [|i] En; cbn in *; try discriminate; auto.
      - injection En as <-. rewrite Hx. auto.
      - rewrite IHt; auto. }
    assert (Hl : forall u, In u (lupd tracks i t') -> u = t' \/ In u tracks).
    { clear. revert i. induction tracks as [|v tracks IHt]; intros [|i] u Hu; cbn in *; auto; intuition. apply IHt in H. tauto. }
    apply IH.
    + intros id j Hj. rewrite lupd_length. eauto.
    + intros u Hu. apply Hl in Hu as [->|Hu]; auto. destruct Ht' as [-> _]. auto.
    + rewrite Hid. auto.
    + intros u Hu. apply Hl in Hu as [->|Hu]; auto. tauto.
  - rewrite nth_error_app2, Nat.sub_diag by lia. cbn [nth_error].
    assert (HU : lupd (tracks ++ [mkTrack [] tid]) (length tracks) (fst (append_state (mkTrack [] tid) (fid, feat))) = tracks ++ [mkTrack [(fid, feat)] tid]).
    { change (fst (append_state (mkTrack [] tid) (fid, feat))) with (mkTrack [(fid, feat)] tid). clear. induction tracks as [|u tracks IHt]; [reflexivity|].
      cbn [length app lupd]. rewrite IHt. reflexivity. }
    rewrite HU. apply IH.
    + intros id j Hj. rewrite app_length. cbn [length]. destruct (Z.eq_dec id tid) as [->|Hn].
      * rewrite (m_find_set_eq Z.compare Zcmp_eq) in Hj. injection Hj as <-. lia.
      * rewrite m_find_set_ne in Hj by (apply Zcmp_eq || auto). specialize (H1 _ _ Hj). lia.
    + intros u Hu. apply in_app_or in Hu as [Hu|[<-|[]]].
      * destruct (Z.eq_dec (t_id u) tid) as [->|Hn]; [rewrite (m_find_set_eq Z.compare Zcmp_eq); discriminate|].
        rewrite m_find_set_ne by (apply Zcmp_eq || auto). auto.
      * cbn [t_id]. rewrite (m_find_set_eq Z.compare Zcmp_eq). discriminate.
    + rewrite map_app. cbn [map t_id].
      assert (N : ~ In tid (map t_id tracks)). { intro X. apply in_map_iff in X as (u & Eu & Hu). apply (H2 u Hu). rewrite Eu. auto. }
      clear -H3 N. induction tracks as [|u tracks IHt]; cbn in *; [constructor; auto|]. inversion H3. subst. constructor; [|apply IHt; auto].
      rewrite in_app_iff. cbn. intuition.
    + intros u Hu. apply in_app_or in Hu as [Hu|[<-|[]]]; auto. split; auto. repeat constructor.
Qed.
Print Assumptions C67_any_file.
(** A line that stops after the location is accepted, and the magnitude, scale
    and angle of its feature are uninitialised. *)
Theorem C67_short_line_refuted : exists text t s, read_tracks zscan text = Tracks [t] /\ t_history t = [s] /\
  r_mag (snd s) = None /\ r_scale (snd s) = None /\ r_angle (snd s) = None.
Proof.
  exists (L "1 2 3 4"), (mkTrack [(2, mkR 3 4 None None None (mkColor 255 255 255))] 1), (2, mkR 3 4 None None None (mkColor 255 255 255)).
  split; [vm_compute; reflexivity|]. repeat split.
Qed.
Print Assumptions C67_short_line_refuted.
(** States out of order are dropped without notice. *)
Theorem C67_unordered_states_dropped_refuted : exists text ts, read_tracks zscan text = Tracks ts /\
  length (lines_of text) = 2%nat /\ length (concat (map t_history ts)) = 1%nat.
Proof.
  exists (L "1 5 3 4 0 1 0 0 0 0" ++ ["010"%char] ++ L "1 4 3 4 0 1 0 0 0 0"). eexists. split; [vm_compute; reflexivity|]. split; reflexivity.
Qed.
Print Assumptions C67_unordered_states_dropped_refuted.
Example C67_demo : read_tracks zscan (L "x") = Invalid /\ read_tracks zscan ["010"%char] = Invalid.
Proof. split; vm_compute; reflexivity. Qed.
