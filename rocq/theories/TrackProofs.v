(** Proofs about tracks. *)
From Coq Require Import List ZArith QArith Sorted Lia Bool Permutation.
Import ListNotations.
From Verif Require Import Base TrackModel TrackSpec.
Local Open Scope Z_scope.

Lemma sorted_app l1 l2 : StronglySorted Z.lt l1 -> StronglySorted Z.lt l2 -> (forall x y, In x l1 -> In y l2 -> x < y) -> StronglySorted Z.lt (l1 ++ l2).
Proof.
  induction 1 as [|x l H IH F]; intros H2 HX; cbn [app]; auto. constructor.
  - apply IH; auto. intros; apply HX; auto. right; auto.
  - apply Forall_app. split; auto. apply Forall_forall. intros y Hy. apply HX; auto. left; auto.
Qed.
Lemma sorted_app_inv l1 l2 : StronglySorted Z.lt (l1 ++ l2) -> StronglySorted Z.lt l1 /\ StronglySorted Z.lt l2 /\ forall x y, In x l1 -> In y l2 -> x < y.
Proof.
  induction l1 as [|x l IH]; cbn [app]; intro H; [split; [constructor|split; auto; intros ? ? []]|].
  inversion H as [|? ? H1 F]. subst. destruct (IH H1) as (A & B & C). rewrite Forall_app in F. destruct F as [F1 F2]. split; [constructor; auto|].
  split; auto. intros a b [<-|Ha] Hb; auto. rewrite Forall_forall in F2. auto.
Qed.
Lemma sorted_nth l i j x y : StronglySorted Z.lt l -> nth_error l i = Some x -> nth_error l j = Some y -> (i < j)%nat -> x < y.
Proof.
  intro H. revert i j. induction H as [|a l H IH F]; intros [|i] [|j]; cbn; try discriminate; try lia.
  - intros E1 E2 _. injection E1 as <-. rewrite Forall_forall in F. apply F. eapply nth_error_In; eauto.
  - intros E1 E2 L. eapply IH; eauto. lia.
Qed.

Section T.
Context {P : Type}.
Implicit Types t u : track P.
Lemma last_spec t : (t_history t = [] /\ last_frame t = 0) \/ exists l s, t_history t = l ++ [s] /\ last_frame t = frame_of s.
Proof.
  unfold last_frame. destruct (t_history t) as [|s l _] using rev_ind; [auto|]. right. exists l, s. rewrite rev_app_distr. auto.
Qed.
Lemma first_spec t : (t_history t = [] /\ first_frame t = 0) \/ exists l s, t_history t = s :: l /\ first_frame t = frame_of s.
Proof. unfold first_frame. destruct (t_history t) as [|s l]; eauto. Qed.
Lemma empty_iff t : empty t = true <-> t_history t = [].
Proof. unfold empty. destruct (t_history t); split; congruence. Qed.
Lemma append_state_spec t s : increasing (frames t) ->
  let r := append_state t s in
  (snd r = true <-> forall f, In f (frames t) -> f < frame_of s) /\
  (snd r = true -> t_history (fst r) = t_history t ++ [s] /\ t_id (fst r) = t_id t /\ increasing (frames (fst r))) /\
  (snd r = false -> fst r = t).
Proof.
  intros Hs. unfold append_state. cbv zeta. destruct (last_spec t) as [[E1 E2]|(l & x & E1 & E2)].
  - unfold empty. rewrite E1. cbn [negb andb fst snd]. unfold frames. rewrite E1. cbn [map app t_history]. split; [split; [intros _ f []|auto]|].
    split; [|discriminate]. intros _. split; auto. split; auto. repeat constructor.
  - assert (E : empty t = false) by (unfold empty; rewrite E1; destruct l; reflexivity). rewrite E. cbn [negb andb]. rewrite Z.geb_leb, E2.
    assert (Fr : frames t = map frame_of l ++ [frame_of x]) by (unfold frames; rewrite E1, map_app; reflexivity).
    destruct (Z.leb_spec (frame_of s) (frame_of x)) as [L|L]; cbn [fst snd].
    + split; [|split; [discriminate|auto]]. split; [discriminate|]. intro H. specialize (H (frame_of x)). rewrite Fr in H.
      specialize (H ltac:(apply in_or_app; right; left; auto)). lia.
    + assert (A : forall f, In f (frames t) -> f < frame_of s).
      { intros f Hf. rewrite Fr in *. apply sorted_app_inv in Hs as (_ & _ & HX). apply in_app_or in Hf as [Hf|[<-|[]]]; auto.
        specialize (HX f (frame_of x) Hf (or_introl eq_refl)). lia. }
      split; [tauto|]. split; [|discriminate]. intros _. split; auto. split; auto. unfold increasing, frames. cbn [t_history]. rewrite map_app.
      apply sorted_app; auto; [repeat constructor|]. intros a b Ha [<-|[]]. apply A. exact Ha.
Qed.
Lemma append_track_spec t u : increasing (frames t) -> increasing (frames u) ->
  let r := append_track t u in
  (snd r = true <-> forall f g, In f (frames t) -> In g (frames u) -> f < g) /\
  (snd r = true -> t_history (fst r) = t_history t ++ t_history u /\ t_id (fst r) = t_id t /\ increasing (frames (fst r))) /\
  (snd r = false -> fst r = t).
Proof.
  intros Hs Hu. unfold append_track. cbv zeta.
  assert (Fin : (forall f g, In f (frames t) -> In g (frames u) -> f < g) -> increasing (frames (mkTrack (t_history t ++ t_history u) (t_id t)))).
  { intro H. unfold increasing, frames. cbn [t_history]. rewrite map_app. apply sorted_app; auto. }
  destruct (last_spec t) as [[E1 E2]|(l & x & E1 & E2)].
  - assert (E : empty t = true) by (apply empty_iff; auto). rewrite E. cbn [negb andb fst snd].
    assert (A : forall f g, In f (frames t) -> In g (frames u) -> f < g) by (unfold frames; rewrite E1; intros ? ? []).
    split; [tauto|]. split; [auto|discriminate].
  - assert (E : empty t = false) by (unfold empty; rewrite E1; destruct l; reflexivity). rewrite E. cbn [negb andb].
    destruct (first_spec u) as [[U1 U2]|(lu & y & U1 & U2)].
    + assert (Eu : empty u = true) by (apply empty_iff; auto). rewrite Eu. cbn [negb andb fst snd].
      assert (A : forall f g, In f (frames t) -> In g (frames u) -> f < g) by (unfold frames at 2; rewrite U1; intros ? ? ? []).
      split; [tauto|]. split; [auto|discriminate].
    + assert (Eu : empty u = false) by (unfold empty; rewrite U1; reflexivity). rewrite Eu. cbn [negb andb]. rewrite Z.geb_leb, E2, U2.
      assert (Fr : frames t = map frame_of l ++ [frame_of x]) by (unfold frames; rewrite E1, map_app; reflexivity).
      assert (Fu : frames u = frame_of y :: map frame_of lu) by (unfold frames; rewrite U1; reflexivity).
      destruct (Z.leb_spec (frame_of y) (frame_of x)) as [L|L]; cbn [fst snd].
      * split; [|split; [discriminate|auto]]. split; [discriminate|]. intro H. specialize (H (frame_of x) (frame_of y)). rewrite Fr, Fu in H.
        specialize (H ltac:(apply in_or_app; right; left; auto) ltac:(left; auto)). lia.
      * assert (A : forall f g, In f (frames t) -> In g (frames u) -> f < g).
        { intros f g Hf Hg. rewrite Fr in Hs, Hf. rewrite Fu in Hu, Hg. apply sorted_app_inv in Hs as (_ & _ & HX).
          assert (f <= frame_of x). { apply in_app_or in Hf as [Hf|[<-|[]]]; [|lia]. specialize (HX f (frame_of x) Hf (or_introl eq_refl)). lia. }
          assert (frame_of y <= g). { destruct Hg as [<-|Hg]; [lia|]. inversion Hu as [|? ? _ F]. rewrite Forall_forall in F. specialize (F g Hg). lia. }
          lia. }
        split; [tauto|]. split; [auto|discriminate].
Qed.
Lemma truns_increasing (ops : list (top P)) : Forall (fun t => increasing (frames t)) (truns ops).
Proof.
  unfold truns. assert (G : forall st, Forall (fun t => increasing (frames t)) st -> Forall (fun t => increasing (frames t)) (fold_left tstep ops st)).
  { induction ops as [|o ops IH]; intros st H; cbn [fold_left]; auto. apply IH.
    assert (N : forall i t, nth_error st i = Some t -> increasing (frames t)).
    { intros i t E. rewrite Forall_forall in H. apply H. eapply nth_error_In; eauto. }
    assert (U : forall i t, increasing (frames t) -> Forall (fun t => increasing (frames t)) (lupd st i t)).
    { intros i t Ht. clear N. revert i. induction H; intros [|i]; cbn; constructor; auto. }
    destruct o as [|f p|i|i id|i f p|i j]; cbn [tstep].
    - apply Forall_app. split; auto. repeat constructor.
    - apply Forall_app. split; auto. repeat constructor.
    - destruct (nth_error st i) eqn:E; auto. apply Forall_app. split; auto. constructor; auto. apply (N _ _ E).
    - destruct (nth_error st i) eqn:E; auto. apply U. apply (N _ _ E).
    - destruct (nth_error st i) as [t|] eqn:E; auto. apply U. destruct (append_state_spec t (f, p) (N _ _ E)) as (_ & A & B).
      destruct (snd (append_state t (f, p))); [apply A; auto|rewrite B by auto; apply (N _ _ E)].
    - destruct (nth_error st i) as [t|] eqn:E; auto. destruct (nth_error st j) as [u|] eqn:E'; auto. apply U.
      destruct (append_track_spec t u (N _ _ E) (N _ _ E')) as (_ & A & B).
      destruct (snd (append_track t u)); [apply A; auto|rewrite B by auto; apply (N _ _ E)]. }
  apply G. constructor.
Qed.
Lemma treachable_increasing t : treachable t -> increasing (frames t).
Proof. intros [ops H]. pose proof (truns_increasing ops) as F. rewrite Forall_forall in F. auto. Qed.

Lemma first_last_spec t : increasing (frames t) -> t_history t <> [] ->
  In (first_frame t) (frames t) /\ In (last_frame t) (frames t) /\ forall f, In f (frames t) -> first_frame t <= f <= last_frame t.
Proof.
  intros Hs Hne. destruct (first_spec t) as [[? _]|(l & s & E1 & E2)]; [congruence|]. destruct (last_spec t) as [[? _]|(l' & s' & E1' & E2')]; [congruence|].
  rewrite E2, E2'. unfold frames in *. split; [rewrite E1; left; auto|]. split; [rewrite E1', map_app; apply in_or_app; right; left; auto|].
  intros f Hf. split.
  - rewrite E1 in Hs, Hf. destruct Hf as [<-|Hf]; [lia|]. inversion Hs as [|? ? _ F]. rewrite Forall_forall in F. specialize (F f Hf). lia.
  - rewrite E1', map_app in Hs, Hf. apply sorted_app_inv in Hs as (_ & _ & HX). apply in_app_or in Hf as [Hf|[<-|[]]]; [|lia].
    specialize (HX f (frame_of s') Hf (or_introl eq_refl)). lia.
Qed.

(** lower_bound: everything before the result is smaller, everything from it on is not. *)
Lemma lower_bound_spec (l : list (state P)) f : StronglySorted Z.lt (map frame_of l) ->
  forall n first len, (len <= n)%nat -> (first + len <= length l)%nat ->
  (forall i s, (i < first)%nat -> nth_error l i = Some s -> frame_of s < f) ->
  (forall i s, (first + len <= i)%nat -> nth_error l i = Some s -> f <= frame_of s) ->
  let r := lower_bound n l first len f in
  (first <= r <= first + len)%nat /\ (forall i s, (i < r)%nat -> nth_error l i = Some s -> frame_of s < f) /\
  (forall i s, (r <= i)%nat -> nth_error l i = Some s -> f <= frame_of s).
Proof.
  intro Hs. assert (M : forall i j x y, nth_error l i = Some x -> nth_error l j = Some y -> (i <= j)%nat -> frame_of x <= frame_of y).
  { intros i j x y E1 E2 L. destruct (Nat.eq_dec i j) as [->|]; [assert (x = y) by congruence; subst; lia|].
    apply Z.lt_le_incl. eapply (sorted_nth _ i j); eauto; [rewrite nth_error_map, E1; reflexivity|rewrite nth_error_map, E2; reflexivity|lia]. }
  induction n as [|n IH]; intros first len Hn Hl HL HR.
  - cbn. assert (len = 0%nat) by lia. subst. rewrite Nat.add_0_r in HR. split; [lia|]. auto.
  - cbn [lower_bound]. destruct len as [|len']; [cbn; rewrite Nat.add_0_r in HR; split; [lia|auto]|].
    set (len := S len') in *. set (half := Nat.div2 len). assert (Hh : (half < len)%nat) by (apply Nat.lt_div2; unfold len; lia).
    destruct (nth_error l (first + half)) as [s|] eqn:E; [|exfalso; apply nth_error_None in E; lia].
    destruct (Z.ltb_spec (frame_of s) f) as [L|L].
    + destruct (IH (first + half + 1)%nat (len - half - 1)%nat) as (A & B & C); try lia.
      * intros i s' Hi Es. destruct (Nat.lt_ge_cases i first); [eauto|]. specialize (M i (first + half)%nat s' s Es E ltac:(lia)). lia.
      * intros i s' Hi Es. apply (HR i); auto. lia.
      * cbv zeta. split; [lia|auto].
    + destruct (IH first half) as (A & B & C); try lia; auto.
      * intros i s' Hi Es. specialize (M (first + half)%nat i s s' E Es ltac:(lia)). lia.
      * cbv zeta. split; [lia|auto].
Qed.
Lemma find_spec t f : increasing (frames t) ->
  (on_frame t f -> exists s, nth_error (t_history t) (find t f) = Some s /\ frame_of s = f) /\
  (~ on_frame t f -> find t f = size t) /\ (found t f = true <-> on_frame t f).
Proof.
  intro Hs.
  assert (A : (on_frame t f -> exists s, nth_error (t_history t) (find t f) = Some s /\ frame_of s = f) /\ (~ on_frame t f -> find t f = size t)).
  { unfold find. split.
    - intros (s & Hin & Ef). destruct (first_last_spec t Hs) as (_ & _ & HX); [destruct (t_history t); [destruct Hin|discriminate]|].
      specialize (HX f). assert (In f (frames t)) as Hf by (rewrite <- Ef; apply in_map; auto). specialize (HX Hf).
      destruct (Z.ltb_spec f (first_frame t)); [lia|]. rewrite Z.gtb_ltb. destruct (Z.ltb_spec (last_frame t) f); [lia|]. cbn [orb].
      destruct (lower_bound_spec (t_history t) f Hs (size t) 0 (size t)) as (B & C & D); auto; try (unfold size; lia).
      { intros i s' Hi Es. assert (i < length (t_history t))%nat by (apply nth_error_Some; congruence). unfold size in *. lia. }
      set (r := lower_bound (size t) (t_history t) 0 (size t) f) in *.
      apply In_nth_error in Hin as [i Hi].
      assert (r <= i)%nat. { destruct (Nat.le_gt_cases r i); auto. specialize (C i s H1 Hi). lia. }
      assert (i < length (t_history t))%nat by (apply nth_error_Some; congruence).
      destruct (nth_error (t_history t) r) as [s'|] eqn:Er; [|exfalso; apply nth_error_None in Er; lia].
      assert (f <= frame_of s') by (apply (D r); auto).
      assert (frame_of s' <= frame_of s).
      { destruct (Nat.eq_dec r i) as [<-|]; [assert (s = s') by congruence; subst; lia|]. apply Z.lt_le_incl.
        eapply (sorted_nth _ r i); [exact Hs|unfold frames; rewrite nth_error_map, Er; reflexivity|unfold frames; rewrite nth_error_map, Hi; reflexivity|lia]. }
      assert (frame_of s' = f) by lia. destruct (Z.eqb_spec (frame_of s') f); [|lia]. exists s'. auto.
    - intro N. destruct ((f <? first_frame t) || (f >? last_frame t)); auto.
      destruct (nth_error (t_history t) _) as [s|] eqn:E; auto. destruct (Z.eqb_spec (frame_of s) f) as [Ef|]; auto.
      exfalso. apply N. exists s. split; auto. eapply nth_error_In; eauto. }
  split; [apply A|]. split; [apply A|]. unfold found. destruct A as [A1 A2].
  assert (Dec : on_frame t f \/ ~ on_frame t f).
  { destruct (in_dec Z.eq_dec f (frames t)) as [H|H].
    - left. apply in_map_iff in H as (s & E & H). exists s. auto.
    - right. intros (s & H1 & H2). apply H. rewrite <- H2. apply in_map; auto. }
  destruct Dec as [H|H].
  - destruct (A1 H) as (s & E & _). assert (find t f < size t)%nat by (apply nth_error_Some; unfold size; congruence).
    destruct (Nat.eqb_spec (find t f) (size t)); [lia|]. tauto.
  - rewrite (A2 H), Nat.eqb_refl. cbn. split; [discriminate|tauto].
Qed.

(** std::set *)
Lemma zinsert_in x y l : In y (zinsert x l) <-> y = x \/ In y l.
Proof.
  induction l as [|z l IH]; cbn [zinsert].
  - cbn. intuition.
  - destruct (Z.compare_spec x z); cbn [In]; [subst; intuition|intuition|rewrite IH; intuition].
Qed.
Lemma zinsert_sorted x l : increasing l -> increasing (zinsert x l).
Proof.
  unfold increasing. induction 1 as [|z l H IH F]; cbn [zinsert]; [repeat constructor|].
  destruct (Z.compare_spec x z).
  - constructor; auto.
  - constructor; [constructor; auto|]. constructor; auto. eapply Forall_impl; [|exact F]. intros. lia.
  - constructor; auto. apply Forall_forall. intros y Hy. apply zinsert_in in Hy as [->|Hy]; [auto|]. rewrite Forall_forall in F. auto.
Qed.
Lemma zfold_spec l : forall s, increasing s -> increasing (fold_left (fun s x => zinsert x s) l s) /\
  forall y, In y (fold_left (fun s x => zinsert x s) l s) <-> In y s \/ In y l.
Proof.
  induction l as [|x l IH]; intros s H; cbn [fold_left].
  - split; auto. intro y. cbn. tauto.
  - destruct (IH (zinsert x s) (zinsert_sorted x s H)) as [A B]. split; auto. intro y. rewrite B, zinsert_in. cbn [In]. intuition.
Qed.
Lemma all_frame_ids_spec t : increasing (all_frame_ids t) /\ forall f, In f (all_frame_ids t) <-> on_frame t f.
Proof.
  unfold all_frame_ids, zset_of. destruct (zfold_spec (map frame_of (t_history t)) []) as [A B]; [constructor|]. split; auto.
  intro f. rewrite B, in_map_iff. unfold on_frame. split; [intros [[]|(s & E & H)]; eauto|intros (s & H & E); right; eauto].
Qed.

(** ---- track sets ---- *)
Implicit Types ts : list (track P).
Lemma fold_filter (p : track P -> bool) ts : forall acc, fold_left (fun acc t => if p t then acc ++ [t] else acc) ts acc = acc ++ filter p ts.
Proof.
  induction ts as [|t ts IH]; intro acc; cbn [fold_left filter]; [rewrite app_nil_r; auto|]. rewrite IH. destruct (p t); auto. rewrite <- app_assoc. auto.
Qed.
Lemma set_last_spec ts : forall l, let r := fold_left (fun l t => if last_frame t >? l then last_frame t else l) ts l in
  l <= r /\ (forall t, In t ts -> last_frame t <= r) /\ (r = l \/ exists t, In t ts /\ r = last_frame t).
Proof.
  induction ts as [|t ts IH]; intro l; cbn [fold_left]; cbv zeta; [split; [lia|split; [intros ? []|auto]]|].
  rewrite Z.gtb_ltb. specialize (IH (if l <? last_frame t then last_frame t else l)). cbv zeta in IH. destruct IH as (A & B & C).
  destruct (Z.ltb_spec l (last_frame t)).
  - split; [lia|]. split; [intros u [<-|Hu]; auto|]. right. destruct C as [C|(u & Hu & C)]; [exists t; split; [left; auto|auto]|exists u; split; [right; auto|auto]].
  - split; [lia|]. split; [intros u [<-|Hu]; auto; lia|]. destruct C as [C|(u & Hu & C)]; [auto|right; exists u; split; [right; auto|auto]].
Qed.
Lemma set_first_zero ts : (forall t f, In t ts -> on_frame t f -> 0 <= f) -> set_first_frame ts = 0.
Proof.
  unfold set_first_frame. intro H. assert (G : forall t, In t ts -> 0 <= first_frame t).
  { intros t Ht. destruct (first_spec t) as [[_ ->]|(l & s & E1 & ->)]; [lia|]. apply (H t); auto. exists s. rewrite E1. split; [left; auto|auto]. }
  clear H. induction ts as [|t ts IH]; cbn [fold_left]; auto. destruct (Z.ltb_spec (first_frame t) 0).
  - specialize (G t (or_introl eq_refl)). lia.
  - apply IH. intros; apply G; right; auto.
Qed.
Lemma set_frame_ids_spec ts : increasing (set_frame_ids ts) /\ forall f, In f (set_frame_ids ts) <-> exists t, In t ts /\ on_frame t f.
Proof.
  unfold set_frame_ids. assert (G : forall ids, increasing ids ->
    let r := fold_left (fun ids t => fold_left (fun s x => zinsert x s) (all_frame_ids t) ids) ts ids in
    increasing r /\ forall f, In f r <-> In f ids \/ exists t, In t ts /\ on_frame t f).
  { induction ts as [|t ts IH]; intros ids H; cbn [fold_left].
    - cbv zeta. split; auto. intro f. split; auto. intros [?|(? & [] & _)]; auto.
    - destruct (zfold_spec (all_frame_ids t) ids H) as [A B]. destruct (IH _ A) as [C D]. split; auto. intro f. rewrite D, B.
      destruct (all_frame_ids_spec t) as [_ E]. rewrite E. split.
      + intros [[?|?]|(u & Hu & ?)]; auto; right; [exists t|exists u]; split; auto; [left|right]; auto.
      + intros [?|(u & [<-|Hu] & ?)]; auto. right. eauto. }
  destruct (G [] ltac:(constructor)) as [A B]. split; auto. intro f. rewrite B. cbn. intuition.
Qed.
Lemma pct_fold ts f1 f2 : forall a b, fold_left (fun acc t => let '(total, both) := acc in
      (total + (if found t f1 || found t f2 then 1 else 0), both + (if found t f1 && found t f2 then 1 else 0))) ts (a, b) =
  (a + Z.of_nat (length (filter (fun t => found t f1 || found t f2) ts)), b + Z.of_nat (length (filter (fun t => found t f1 && found t f2) ts))).
Proof.
  induction ts as [|t ts IH]; intros a b; cbn [fold_left filter]; [cbn; f_equal; lia|]. rewrite IH.
  destruct (found t f1), (found t f2); cbn [andb orb length]; f_equal; lia.
Qed.
End T.
