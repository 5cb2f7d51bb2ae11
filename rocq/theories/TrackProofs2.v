(** Track sets against their specification. *)
From Coq Require Import List ZArith QArith Sorted Lia Bool Permutation.
Import ListNotations.
From Verif Require Import Base TrackModel TrackSpec TrackProofs.
Local Open Scope Z_scope.
Section T.
Context {P : Type}.
Implicit Types t u : track P.
Implicit Types ts : list (track P).
Lemma on_frameb_iff f t : on_frameb f t = true <-> on_frame t f.
Proof.
  unfold on_frameb, on_frame. rewrite existsb_exists. split; intros (s & H & E); exists s; split; auto; [apply Z.eqb_eq|apply Z.eqb_eq]; auto.
Qed.
Lemma found_scan t f : increasing (frames t) -> found t f = on_frameb f t.
Proof.
  intro H. destruct (find_spec t f H) as (_ & _ & A). apply eq_true_iff_eq. rewrite A, on_frameb_iff. tauto.
Qed.
Definition ordered ts := forall t, In t ts -> increasing (frames t).
Lemma filter_found ts f : ordered ts -> filter (fun t => found t f) ts = filter (on_frameb f) ts.
Proof. intro H. apply filter_ext_in. intros t Ht. apply found_scan. auto. Qed.
Lemma frame_at_spec ts o : frame_at ts o (offset_to_frame ts o).
Proof.
  unfold frame_at, offset_to_frame. rewrite Z.geb_leb. destruct (Z.leb_spec 0 o); [left; lia|].
  cbv zeta. destruct (Z.leb_spec (- o) (set_last_frame ts + 1)); right; [left|right]; lia.
Qed.
Lemma frame_at_fun ts o f g : frame_at ts o f -> frame_at ts o g -> f = g.
Proof. unfold frame_at. lia. Qed.
Lemma active_spec ts o f : ordered ts -> frame_at ts o f ->
  active_tracks ts o = filter (on_frameb f) ts /\ inactive_tracks ts o = filter (fun t => negb (on_frameb f t)) ts.
Proof.
  intros H Hf. rewrite (frame_at_fun _ _ _ _ Hf (frame_at_spec ts o)). unfold active_tracks, inactive_tracks. cbv zeta.
  rewrite (fold_filter (fun t => found t (offset_to_frame ts o))), (fold_filter (fun t => negb (found t (offset_to_frame ts o)))). cbn [app].
  split; apply filter_ext_in; intros t Ht; rewrite found_scan; auto.
Qed.
Lemma new_terminated_spec ts o f : frame_at ts o f ->
  new_tracks ts o = filter (fun t => first_frame t =? f) ts /\ terminated_tracks ts o = filter (fun t => last_frame t =? f) ts.
Proof.
  intros Hf. rewrite (frame_at_fun _ _ _ _ Hf (frame_at_spec ts o)). unfold new_tracks, terminated_tracks. cbv zeta.
  rewrite (fold_filter (fun t => first_frame t =? offset_to_frame ts o)), (fold_filter (fun t => last_frame t =? offset_to_frame ts o)). auto.
Qed.
Lemma filter_partition {A} (p : A -> bool) l : Permutation l (filter p l ++ filter (fun x => negb (p x)) l).
Proof.
  induction l as [|x l IH]; cbn [filter]; auto. destruct (p x); cbn [negb app]; [constructor; auto|].
  eapply perm_trans; [constructor; exact IH|]. apply Permutation_middle.
Qed.
Lemma last_frame_in t : t_history t <> [] -> on_frame t (last_frame t).
Proof.
  destruct (last_spec t) as [[E _]|(l & s & E & ->)]; [congruence|]. intros _. exists s. rewrite E. split; auto. apply in_or_app. right. left. auto.
Qed.
Lemma first_frame_in t : t_history t <> [] -> on_frame t (first_frame t).
Proof.
  destruct (first_spec t) as [[E _]|(l & s & E & ->)]; [congruence|]. intros _. exists s. rewrite E. split; auto. left. auto.
Qed.
Lemma on_frame_bounds t f : increasing (frames t) -> on_frame t f -> t_history t <> [] /\ first_frame t <= f <= last_frame t.
Proof.
  intros H (s & Hs & Es). assert (N : t_history t <> []) by (intro E; rewrite E in Hs; destruct Hs). split; auto.
  apply first_last_spec; auto. rewrite <- Es. apply in_map; auto.
Qed.
Lemma set_last_largest ts : ordered ts -> (exists t f, In t ts /\ on_frame t f /\ 0 <= f) -> largest_frame ts (set_last_frame ts).
Proof.
  intros HO (t0 & f0 & Ht0 & Hf0 & P0). destruct (set_last_spec ts 0) as (A & B & C). fold (set_last_frame ts) in A, B, C.
  assert (U : forall t f, In t ts -> on_frame t f -> f <= set_last_frame ts).
  { intros t f Ht Hf. destruct (on_frame_bounds t f (HO t Ht) Hf) as [_ Hb]. specialize (B t Ht). lia. }
  split; auto. destruct C as [C|(t & Ht & C)].
  - exists t0. split; auto. assert (f0 <= 0) by (rewrite <- C; eauto). assert (f0 = 0) by lia. subst. rewrite C. auto.
  - destruct (t_history t) as [|s r] eqn:E.
    + assert (set_last_frame ts = 0) by (rewrite C; unfold last_frame; rewrite E; auto).
      exists t0. split; auto. specialize (U _ _ Ht0 Hf0). assert (f0 = set_last_frame ts) by lia. subst. auto.
    + exists t. split; auto. rewrite C. apply last_frame_in. rewrite E. discriminate.
Qed.
Lemma percentage_spec ts o1 o2 f1 f2 : ordered ts -> frame_at ts o1 f1 -> frame_at ts o2 f2 ->
  let both := Z.of_nat (length (filter (fun t => on_frameb f1 t && on_frameb f2 t) ts)) in
  let any := Z.of_nat (length (filter (fun t => on_frameb f1 t || on_frameb f2 t) ts)) in
  (any = 0 -> percentage_tracked ts o1 o2 = 0%Q) /\ (0 < any -> (percentage_tracked ts o1 o2 == inject_Z both / inject_Z any)%Q) /\ 0 <= both <= any.
Proof.
  intros HO H1 H2. cbv zeta. rewrite (frame_at_fun _ _ _ _ H1 (frame_at_spec ts o1)), (frame_at_fun _ _ _ _ H2 (frame_at_spec ts o2)).
  unfold percentage_tracked. cbv zeta. rewrite pct_fold. set (g1 := offset_to_frame ts o1). set (g2 := offset_to_frame ts o2).
  rewrite (filter_ext_in (fun t => found t g1 || found t g2) (fun t => on_frameb g1 t || on_frameb g2 t)) by (intros t Ht; rewrite !found_scan; auto).
  rewrite (filter_ext_in (fun t => found t g1 && found t g2) (fun t => on_frameb g1 t && on_frameb g2 t)) by (intros t Ht; rewrite !found_scan; auto).
  set (any := length (filter (fun t => on_frameb g1 t || on_frameb g2 t) ts)). set (both := length (filter (fun t => on_frameb g1 t && on_frameb g2 t) ts)). rewrite !Z.add_0_l.
  assert (L : (both <= any)%nat).
  { subst both any. clearbody g1 g2. clear. induction ts as [|t ts IH]; cbn [filter]; auto. destruct (on_frameb g1 t), (on_frameb g2 t); cbn [andb orb length]; lia. }
  split; [|split; [|lia]].
  - intros ->. reflexivity.
  - intro H. destruct (Z.eqb_spec (Z.of_nat any) 0); [lia|]. reflexivity.
Qed.
Lemma payload_unique t f : increasing (frames t) -> forall i s, nth_error (t_history t) i = Some s -> frame_of s = f -> payload_on f t = [snd s].
Proof.
  unfold payload_on, increasing, frames. intro H. remember (map frame_of (t_history t)) as fs eqn:E. revert E. generalize (t_history t) as l.
  induction H as [|x fs H IH F]; intros [|a l] E i s Hi Hs; cbn [map] in E; try discriminate; [destruct i; discriminate|].
  injection E as -> ->. cbn [filter]. destruct i as [|i]; cbn [nth_error] in Hi.
  - injection Hi as <-. rewrite Hs, Z.eqb_refl. cbn [map]. f_equal.
    assert (G : filter (fun s => frame_of s =? f) l = []); [|rewrite G; reflexivity].
    rewrite Hs in F. clear -F. induction l as [|b l IH]; auto. cbn [filter map] in *. inversion F as [|? ? F1 F2]. subst.
    destruct (Z.eqb_spec (frame_of b) f); [lia|auto].
  - assert (frame_of a < f). { rewrite Forall_forall in F. apply F. rewrite <- Hs. apply in_map. eapply nth_error_In; eauto. }
    destruct (Z.eqb_spec (frame_of a) f); [lia|]. eapply IH; eauto.
Qed.
Lemma payload_none t f : ~ on_frame t f -> payload_on f t = [].
Proof.
  unfold payload_on, on_frame. intro N. assert (G : filter (fun s => frame_of s =? f) (t_history t) = []); [|rewrite G; reflexivity].
  revert N. generalize (t_history t) as l. induction l as [|s l IH]; intro N; cbn [filter]; auto. destruct (Z.eqb_spec (frame_of s) f).
  - exfalso. apply N. exists s. split; [left; auto|auto].
  - apply IH. intros (s' & H & E). apply N. exists s'. split; [right; auto|auto].
Qed.
Lemma frame_features_spec ts o f : ordered ts -> frame_at ts o f -> frame_features ts o = flat_map (payload_on f) ts.
Proof.
  intros HO Hf. rewrite (frame_at_fun _ _ _ _ Hf (frame_at_spec ts o)). unfold frame_features. cbv zeta. set (g := offset_to_frame ts o).
  assert (G : forall acc, fold_left (fun acc t => match nth_error (t_history t) (find t g) with Some s => acc ++ [snd s] | None => acc end) ts acc
     = acc ++ flat_map (payload_on g) ts); [|apply G]. clear Hf. clearbody g. revert HO. generalize ts as us. clear ts.
  induction us as [|t us IH]; intros HO acc; cbn [fold_left flat_map]; [rewrite app_nil_r; auto|].
  rewrite IH by (intros u Hu; apply HO; right; auto). clear IH. assert (HI := HO t (or_introl eq_refl)). destruct (find_spec t g HI) as (A & B & _).
  destruct (on_frameb g t) eqn:E.
  - apply on_frameb_iff in E. destruct (A E) as (s & Es & Ef). rewrite Es, (payload_unique t g HI _ _ Es Ef), <- app_assoc. auto.
  - assert (N : ~ on_frame t g) by (rewrite <- on_frameb_iff; congruence). rewrite (B N), (payload_none t g N).
    assert (Z0 : nth_error (t_history t) (size t) = None) by (apply nth_error_None; unfold size; lia). rewrite Z0. auto.
Qed.
Lemma last_features_spec ts : ordered ts -> (forall t, In t ts -> t_history t <> []) ->
  last_frame_features ts = Some (flat_map (payload_on (set_last_frame ts)) ts).
Proof.
  intros HO HN. unfold last_frame_features. destruct (set_last_spec ts 0) as (_ & B & _). fold (set_last_frame ts) in B. set (m := set_last_frame ts) in *.
  assert (G : forall us acc, (forall t, In t us -> In t ts) -> last_frame_payload us m acc = Some (acc ++ flat_map (payload_on m) us)); [|apply G; auto].
  induction us as [|t us IH]; intros acc Hin; cbn [last_frame_payload flat_map]; [rewrite app_nil_r; auto|].
  assert (Ht : In t ts) by (apply Hin; left; auto). assert (Hus : forall u, In u us -> In u ts) by (intros; apply Hin; right; auto).
  destruct (last_spec t) as [[E _]|(l & s & E & El)]; [exfalso; apply (HN t); auto|].
  rewrite E, rev_app_distr. cbn [rev app]. destruct (Z.eqb_spec (last_frame t) m) as [Em|Em]; rewrite IH by auto.
  - rewrite (payload_unique t m (HO t Ht) (length l) s); [rewrite <- app_assoc; auto| |congruence].
    rewrite E, nth_error_app2, Nat.sub_diag by lia. reflexivity.
  - rewrite payload_none; auto. intro Hf. apply (on_frame_bounds t m (HO t Ht)) in Hf as [_ Hf]. specialize (B t Ht). lia.
Qed.
Lemma get_track_spec ts id : match get_track ts id with
  | Some t => exists l r, ts = l ++ t :: r /\ t_id t = id /\ forall u, In u l -> t_id u <> id
  | None => forall u, In u ts -> t_id u <> id
  end.
Proof.
  induction ts as [|t ts IH]; cbn [get_track]; [intros ? []|]. destruct (Z.eqb_spec (t_id t) id).
  - exists [], ts. split; [auto|split; [auto|intros ? []]].
  - destruct (get_track ts id) as [u|].
    + destruct IH as (l & r & -> & E & H). exists (t :: l), r. split; auto. split; auto. intros v [<-|Hv]; auto.
    + intros u [<-|Hu]; auto.
Qed.
Lemma track_ids_spec ts : increasing (set_track_ids ts) /\ forall i, In i (set_track_ids ts) <-> exists t, In t ts /\ t_id t = i.
Proof.
  unfold set_track_ids, zset_of. destruct (zfold_spec (map t_id ts) []) as [A B]; [constructor|].
  split; auto. intro i. rewrite B, in_map_iff. split; [intros [[]|(t & E & H)]; eauto|intros (t & H & E); right; eauto].
Qed.
End T.
