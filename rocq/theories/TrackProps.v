(** TrackProps.v -- C34-C38, C63-C65. *)
From Coq Require Import List ZArith QArith Sorted Lia Bool Permutation.
Import ListNotations.
From Verif Require Import Base TrackModel TrackSpec TrackProofs TrackProofs2.
Local Open Scope Z_scope.

(** C34: whatever the calls made, the frames of every track strictly increase;
    an append succeeds exactly when every frame it brings is later than every
    frame present, adds the states at the end, and otherwise changes nothing. *)
Theorem C34_frames_increase {P} (t : track P) : treachable t -> increasing (frames t).
Proof. exact (treachable_increasing t). Qed.
Print Assumptions C34_frames_increase.
Theorem C34_append_state {P} (t : track P) (s : state P) : treachable t -> let (t', ok) := append_state t s in
  (ok = true <-> forall f, on_frame t f -> f < frame_of s) /\
  (ok = true -> t_history t' = t_history t ++ [s] /\ t_id t' = t_id t) /\ (ok = false -> t' = t).
Proof.
  intro H. destruct (append_state_spec t s (treachable_increasing t H)) as (A & B & C). destruct (append_state t s) as [t' ok]. cbn [fst snd] in *.
  split; [|split; auto; intro E; destruct (B E) as (? & ? & _); auto]. rewrite A. unfold on_frame, frames. split; intros X f Hf.
  - destruct Hf as (x & Hx & <-). apply X. apply in_map; auto.
  - apply in_map_iff in Hf as (x & E & Hx). apply X. eauto.
Qed.
Print Assumptions C34_append_state.
Theorem C34_append_track {P} (t u : track P) : treachable t -> treachable u -> let (t', ok) := append_track t u in
  (ok = true <-> forall f g, on_frame t f -> on_frame u g -> f < g) /\
  (ok = true -> t_history t' = t_history t ++ t_history u /\ t_id t' = t_id t) /\ (ok = false -> t' = t).
Proof.
  intros H Hu. destruct (append_track_spec t u (treachable_increasing t H) (treachable_increasing u Hu)) as (A & B & C).
  destruct (append_track t u) as [t' ok]. cbn [fst snd] in *.
  split; [|split; auto; intro E; destruct (B E) as (? & ? & _); auto]. rewrite A. unfold on_frame, frames. split; intros X f g Hf Hg.
  - destruct Hf as (x & Hx & <-). destruct Hg as (y & Hy & <-). apply X; apply in_map; auto.
  - apply in_map_iff in Hf as (x & E & Hx). apply in_map_iff in Hg as (y & E' & Hy). apply X; eauto.
Qed.
Print Assumptions C34_append_track.
Theorem C34_extent {P} (t : track P) : treachable t ->
  (empty t = true -> first_frame t = 0 /\ last_frame t = 0 /\ size t = 0%nat /\ all_frame_ids t = []) /\
  (empty t = false -> on_frame t (first_frame t) /\ on_frame t (last_frame t) /\ forall f, on_frame t f -> first_frame t <= f <= last_frame t) /\
  increasing (all_frame_ids t) /\ (forall f, In f (all_frame_ids t) <-> on_frame t f) /\ size t = length (all_frame_ids t).
Proof.
  intro H. apply treachable_increasing in H. split; [|split].
  - rewrite empty_iff. unfold first_frame, last_frame, size, all_frame_ids. intros ->. auto.
  - intro E. assert (N : t_history t <> []) by (rewrite <- empty_iff; congruence).
    split; [apply first_frame_in; auto|]. split; [apply last_frame_in; auto|]. intros f Hf. apply on_frame_bounds; auto.
  - destruct (all_frame_ids_spec t) as [A B]. split; auto. split; auto. unfold size. rewrite <- (map_length frame_of).
    assert (ND : forall l, increasing l -> NoDup l).
    { induction 1 as [|x l Hl IH F]; constructor; auto. rewrite Forall_forall in F. intro X. specialize (F x X). lia. }
    apply Permutation_length. apply NoDup_Permutation; [apply ND; exact H|apply ND; exact A|]. intro f. rewrite B, in_map_iff. unfold on_frame. firstorder.
Qed.
Print Assumptions C34_extent.
Definition demo_ops : list (top nat) := [TNew; TAppend 0 3 30%nat; TAppend 0 7 70%nat; TAppend 0 7 71%nat; TOf 9 90%nat; TAppendTrack 0 1; TSetId 1 5; TNew].
Example C34_nonvacuous : truns demo_ops = [mkTrack [(3, 30%nat); (7, 70%nat); (9, 90%nat)] 0; mkTrack [(9, 90%nat)] 5; mkTrack [] 0] /\
  treachable (mkTrack [(3, 30%nat); (7, 70%nat); (9, 90%nat)] 0) /\ snd (append_state (mkTrack [(3, 30%nat)] 0) (3, 1%nat)) = false.
Proof. split; [reflexivity|]. split; [exists demo_ops; left; reflexivity|reflexivity]. Qed.

(** C35 *)
Theorem C35_find_is_exact {P} (t : track P) f : treachable t ->
  (on_frame t f -> exists s, nth_error (t_history t) (find t f) = Some s /\ frame_of s = f /\
     forall i s', nth_error (t_history t) i = Some s' -> frame_of s' = f -> i = find t f) /\
  (~ on_frame t f -> find t f = size t).
Proof.
  intro H. apply treachable_increasing in H. destruct (find_spec t f H) as (A & B & _). split; auto. intro Hf. destruct (A Hf) as (s & Es & Ef).
  exists s. split; auto. split; auto. intros i s' Ei Ei'. destruct (Nat.lt_trichotomy i (find t f)) as [L|[L|L]]; auto; exfalso.
  - assert (frame_of s' < frame_of s); [|lia]. eapply (sorted_nth _ i (find t f) _ _ H); [unfold frames; rewrite nth_error_map, Ei; reflexivity|unfold frames; rewrite nth_error_map, Es; reflexivity|auto].
  - assert (frame_of s < frame_of s'); [|lia]. eapply (sorted_nth _ (find t f) i _ _ H); [unfold frames; rewrite nth_error_map, Es; reflexivity|unfold frames; rewrite nth_error_map, Ei; reflexivity|auto].
Qed.
Print Assumptions C35_find_is_exact.
Example C35_demo : map (find (mkTrack [(3, 30%nat); (7, 70%nat); (9, 90%nat)] 0)) [2; 3; 4; 7; 8; 9; 10] = [3; 0; 3; 1; 3; 2; 3]%nat.
Proof. reflexivity. Qed.

Definition all_reachable {P} (ts : list (track P)) : Prop := forall t, In t ts -> treachable t.
Lemma ordered_of {P} (ts : list (track P)) : all_reachable ts -> ordered ts.
Proof. intros H t Ht. apply treachable_increasing. auto. Qed.
Definition demo_set : list (track nat) := truns demo_ops.
Lemma demo_reachable : all_reachable demo_set.
Proof. intros t Ht. exists demo_ops. exact Ht. Qed.

(** C36 *)
Theorem C36_active_inactive_partition {P} (ts : list (track P)) offset f : all_reachable ts -> frame_at ts offset f ->
  active_tracks ts offset = filter (on_frameb f) ts /\
  inactive_tracks ts offset = filter (fun t => negb (on_frameb f t)) ts /\
  Permutation ts (active_tracks ts offset ++ inactive_tracks ts offset) /\
  (forall t, In t (active_tracks ts offset) <-> In t ts /\ on_frame t f) /\
  (forall t, In t (inactive_tracks ts offset) <-> In t ts /\ ~ on_frame t f).
Proof.
  intros H Hf. destruct (active_spec ts offset f (ordered_of ts H) Hf) as [-> ->]. split; auto. split; auto. split; [apply filter_partition|].
  split; intro t; rewrite filter_In, <- on_frameb_iff; destruct (on_frameb f t); cbn; intuition congruence.
Qed.
Print Assumptions C36_active_inactive_partition.
(** Every offset denotes a frame, and only one. *)
Theorem C36_offset_denotes_one_frame {P} (ts : list (track P)) offset : exists f, frame_at ts offset f /\ forall g, frame_at ts offset g -> g = f.
Proof. exists (offset_to_frame ts offset). split; [apply frame_at_spec|]. intros g Hg. exact (frame_at_fun _ _ _ _ Hg (frame_at_spec ts offset)). Qed.
Print Assumptions C36_offset_denotes_one_frame.
Example C36_demo : map t_id (active_tracks demo_set (-1)) = [0; 5] /\ map t_id (inactive_tracks demo_set 7) = [5; 0] /\ frame_at demo_set (-1) 9 /\
  frame_at demo_set (-10) 0 /\ frame_at demo_set (-11) 10.
Proof. split; [reflexivity|]. split; [reflexivity|]. unfold frame_at. change (set_last_frame demo_set) with 9. lia. Qed.
(** new_tracks / terminated_tracks: a non-empty track is new (terminated) on the
    frame of its first (last) state. *)
Theorem C63_new_and_terminated {P} (ts : list (track P)) offset f : all_reachable ts -> frame_at ts offset f ->
  (forall t, empty t = false -> (In t (new_tracks ts offset) <-> In t ts /\ on_frame t f /\ forall g, on_frame t g -> f <= g)) /\
  (forall t, empty t = false -> (In t (terminated_tracks ts offset) <-> In t ts /\ on_frame t f /\ forall g, on_frame t g -> g <= f)) /\
  (forall t, In t (new_tracks ts offset) -> In t (active_tracks ts offset) \/ empty t = true /\ f = 0).
Proof.
  intros H Hf. destruct (new_terminated_spec ts offset f Hf) as [-> ->]. destruct (active_spec ts offset f (ordered_of ts H) Hf) as [-> _].
  split; [|split].
  - intros t E. assert (N : t_history t <> []) by (rewrite <- empty_iff; congruence). rewrite filter_In, Z.eqb_eq. split.
    + intros [Ht <-]. split; auto. split; [apply first_frame_in; auto|]. intros g Hg. apply (on_frame_bounds t g (ordered_of ts H t Ht) Hg).
    + intros (Ht & A & B). split; auto. specialize (B _ (first_frame_in t N)). destruct (on_frame_bounds t f (ordered_of ts H t Ht) A). lia.
  - intros t E. assert (N : t_history t <> []) by (rewrite <- empty_iff; congruence). rewrite filter_In, Z.eqb_eq. split.
    + intros [Ht <-]. split; auto. split; [apply last_frame_in; auto|]. intros g Hg. apply (on_frame_bounds t g (ordered_of ts H t Ht) Hg).
    + intros (Ht & A & B). split; auto. specialize (B _ (last_frame_in t N)). destruct (on_frame_bounds t f (ordered_of ts H t Ht) A). lia.
  - intros t Ht. rewrite filter_In, Z.eqb_eq in Ht. destruct Ht as [Ht E]. destruct (empty t) eqn:Em.
    + right. split; auto. rewrite <- E. apply empty_iff in Em. unfold first_frame. rewrite Em. auto.
    + left. rewrite filter_In, on_frameb_iff. split; auto. rewrite <- E. apply first_frame_in. rewrite <- empty_iff. congruence.
Qed.
Print Assumptions C63_new_and_terminated.
(** A track with no state counts as new and as terminated on frame 0. *)
Theorem C63_empty_track_refuted : exists ts : list (track nat), all_reachable ts /\ frame_at ts 0 0 /\
  exists t, In t (new_tracks ts 0) /\ In t (terminated_tracks ts 0) /\ ~ In t (active_tracks ts 0).
Proof.
  exists [mkTrack [] 0]. split; [intros t [<-|[]]; exists [TNew]; left; reflexivity|]. split; [left; lia|].
  exists (mkTrack [] 0). cbn. auto.
Qed.
Print Assumptions C63_empty_track_refuted.
Example C63_demo : map t_id (new_tracks demo_set 3) = [0] /\ map t_id (terminated_tracks demo_set 9) = [0; 5] /\ map t_id (new_tracks demo_set (-1)) = [5].
Proof. split; [|split]; reflexivity. Qed.

(** C37: the last frame of a set that covers some frame >= 0. *)
Theorem C37_last_frame_is_largest {P} (ts : list (track P)) : all_reachable ts ->
  (exists t f, In t ts /\ on_frame t f /\ 0 <= f) -> largest_frame ts (set_last_frame ts).
Proof. intros H. apply set_last_largest, ordered_of, H. Qed.
Print Assumptions C37_last_frame_is_largest.
Theorem C37_all_frame_ids {P} (ts : list (track P)) : increasing (set_frame_ids ts) /\ forall f, In f (set_frame_ids ts) <-> exists t, In t ts /\ on_frame t f.
Proof. exact (set_frame_ids_spec ts). Qed.
Print Assumptions C37_all_frame_ids.
(** first_frame is 0 for every set whose frames are not negative... *)
Theorem C37_first_frame_is_zero {P} (ts : list (track P)) : (forall t f, In t ts -> on_frame t f -> 0 <= f) -> set_first_frame ts = 0.
Proof. exact (set_first_zero ts). Qed.
Print Assumptions C37_first_frame_is_zero.
(** ...so it is not the smallest frame unless frame 0 is covered. *)
Theorem C37_first_frame_refuted : exists (ts : list (track nat)) m, all_reachable ts /\ smallest_frame ts m /\ set_first_frame ts <> m.
Proof.
  exists [mkTrack [(3, 0%nat)] 0], 3. split; [intros t [<-|[]]; exists [TOf 3 0%nat]; left; reflexivity|]. split; [|discriminate].
  split.
  - exists (mkTrack [(3, 0%nat)] 0). split; [left; auto|]. exists (3, 0%nat). cbn. auto.
  - intros t f [<-|[]] (s & [<-|[]] & <-). cbn. lia.
Qed.
Print Assumptions C37_first_frame_refuted.
Theorem C37_negative_last_frame_refuted : exists (ts : list (track nat)) m, all_reachable ts /\ largest_frame ts m /\ set_last_frame ts <> m.
Proof.
  exists [mkTrack [(-3, 0%nat)] 0], (-3). split; [intros t [<-|[]]; exists [TOf (-3) 0%nat]; left; reflexivity|]. split; [|discriminate].
  split.
  - exists (mkTrack [(-3, 0%nat)] 0). split; [left; auto|]. exists (-3, 0%nat). cbn. auto.
  - intros t f [<-|[]] (s & [<-|[]] & <-). cbn. lia.
Qed.
Print Assumptions C37_negative_last_frame_refuted.
Example C37_demo : set_last_frame demo_set = 9 /\ set_frame_ids demo_set = [3; 7; 9] /\ set_first_frame demo_set = 0 /\
  exists t f, In t demo_set /\ on_frame t f /\ 0 <= f.
Proof.
  repeat (split; [reflexivity|]). exists (mkTrack [(9, 90%nat)] 5), 9. split; [cbn; auto|]. split; [|lia]. exists (9, 90%nat). cbn. auto.
Qed.

(** C38 *)
Theorem C38_percentage_is_a_ratio {P} (ts : list (track P)) a b fa fb : all_reachable ts -> frame_at ts a fa -> frame_at ts b fb ->
  let both := Z.of_nat (length (filter (fun t => on_frameb fa t && on_frameb fb t) ts)) in
  let any := Z.of_nat (length (filter (fun t => on_frameb fa t || on_frameb fb t) ts)) in
  (any = 0 -> percentage_tracked ts a b = 0%Q) /\
  (0 < any -> (percentage_tracked ts a b == inject_Z both / inject_Z any)%Q).
Proof. intros H Ha Hb. destruct (percentage_spec ts a b fa fb (ordered_of ts H) Ha Hb) as (A & B & _). split; auto. Qed.
Print Assumptions C38_percentage_is_a_ratio.
Theorem C38_between_0_and_1 {P} (ts : list (track P)) a b : all_reachable ts ->
  (0 <= percentage_tracked ts a b <= 1)%Q /\ (percentage_tracked ts a b == percentage_tracked ts b a)%Q.
Proof.
  intros H. pose proof (frame_at_spec ts a) as Ha. pose proof (frame_at_spec ts b) as Hb. set (fa := offset_to_frame ts a) in *. set (fb := offset_to_frame ts b) in *.
  destruct (percentage_spec ts a b fa fb (ordered_of ts H) Ha Hb) as (A & B & C). destruct (percentage_spec ts b a fb fa (ordered_of ts H) Hb Ha) as (A' & B' & _).
  cbv zeta in A', B'. rewrite (filter_ext (fun t => on_frameb fb t && on_frameb fa t) (fun t => on_frameb fa t && on_frameb fb t)) in B' by (intro; apply andb_comm).
  rewrite (filter_ext (fun t => on_frameb fb t || on_frameb fa t) (fun t => on_frameb fa t || on_frameb fb t)) in A', B' by (intro; apply orb_comm).
  set (both := Z.of_nat (length (filter (fun t => on_frameb fa t && on_frameb fb t) ts))) in *.
  set (any := Z.of_nat (length (filter (fun t => on_frameb fa t || on_frameb fb t) ts))) in *. cbv zeta in *.
  destruct (Z.eq_dec any 0) as [E|E].
  - rewrite A, A' by auto. split; [split; discriminate|reflexivity].
  - rewrite B, B' by lia. split; [|reflexivity]. assert (0 < any) by lia.
    assert (Hp : (0 < inject_Z any)%Q) by (rewrite <- (Zlt_Qlt 0 any) || (change 0%Q with (inject_Z 0); rewrite <- Zlt_Qlt); lia). split.
    + apply Qle_shift_div_l; auto. rewrite Qmult_0_l. change 0%Q with (inject_Z 0). rewrite <- Zle_Qle. lia.
    + apply Qle_shift_div_r; auto. rewrite Qmult_1_l, <- Zle_Qle. lia.
Qed.
Print Assumptions C38_between_0_and_1.
Example C38_demo : (percentage_tracked demo_set 7 (-1) == 1 # 2)%Q /\ percentage_tracked demo_set 4 5 = 0%Q.
Proof. split; reflexivity. Qed.

(** C64: features / descriptors of a frame are those of the states on it, in track order. *)
Theorem C64_frame_features {P} (ts : list (track P)) offset f : all_reachable ts -> frame_at ts offset f ->
  frame_features ts offset = flat_map (payload_on f) ts.
Proof. intros H Hf. exact (frame_features_spec ts offset f (ordered_of ts H) Hf). Qed.
Print Assumptions C64_frame_features.
Theorem C64_last_frame_features {P} (ts : list (track P)) : all_reachable ts -> (forall t, In t ts -> empty t = false) ->
  last_frame_features ts = Some (flat_map (payload_on (set_last_frame ts)) ts).
Proof. intros H HN. apply last_features_spec; [apply ordered_of; auto|]. intros t Ht. rewrite <- empty_iff, HN by auto. discriminate. Qed.
Print Assumptions C64_last_frame_features.
(** With an empty track in the set (and no frame above 0), last_frame_features
    reads before the beginning of the empty history. *)
Theorem C64_empty_track_refuted : exists ts : list (track nat), all_reachable ts /\ last_frame_features ts = None.
Proof. exists [mkTrack [] 0]. split; [intros t [<-|[]]; exists [TNew]; left; reflexivity|reflexivity]. Qed.
Print Assumptions C64_empty_track_refuted.
Example C64_demo : frame_features demo_set (-1) = [90; 90]%nat /\ frame_features demo_set 7 = [70]%nat /\ last_frame_features demo_set = Some [90; 90]%nat.
Proof. split; [|split]; reflexivity. Qed.

(** C65: get_track returns the first track with the id; all_track_ids lists the ids. *)
Theorem C65_get_track {P} (ts : list (track P)) id :
  (forall t, get_track ts id = Some t -> exists l r, ts = l ++ t :: r /\ t_id t = id /\ forall u, In u l -> t_id u <> id) /\
  (get_track ts id = None <-> forall u, In u ts -> t_id u <> id) /\
  increasing (set_track_ids ts) /\ (In id (set_track_ids ts) <-> get_track ts id <> None).
Proof.
  pose proof (get_track_spec ts id) as G. destruct (track_ids_spec ts) as [A B]. destruct (get_track ts id) as [t|].
  - destruct G as (l & r & E & Ei & H). assert (It : In t ts) by (rewrite E; apply in_or_app; right; left; auto). split; [|split; [|split; auto]].
    + intros u X. injection X as <-. eauto.
    + split; [discriminate|]. intro X. exfalso. apply (X t); auto.
    + rewrite B. split; [discriminate|]. intros _. eauto.
  - split; [discriminate|]. split; [tauto|]. split; auto. rewrite B. split; [|congruence]. intros (u & Hu & E). exfalso. apply (G u); auto.
Qed.
Print Assumptions C65_get_track.
Example C65_demo : get_track demo_set 5 = Some (mkTrack [(9, 90%nat)] 5) /\ get_track demo_set 8 = None /\ set_track_ids demo_set = [0; 5].
Proof. split; [|split]; reflexivity. Qed.
