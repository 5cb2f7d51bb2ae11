(** ConfigProofs3.v -- histories: read-only permanence, frame, no undefined
    behaviour, unset, merge, subblock, listing. *)
From Verif Require Import Base ConfigModel ConfigSpec ConfigProofs ConfigProofs2.


(** ---------- frame: which object a mutator changes ---------- *)
Lemma set_other h id r p k v d i : reachable h -> resolves h id r p -> i <> r ->
  nth_error (fst (i_set_value h id k v d)) i = nth_error h i.
Proof.
  intros Hre Hres Hne. destruct (reachable_R _ Hre) as [f HR].
  destruct (resolves_flat _ _ _ _ _ HR Hres) as (o & ro & Ho & Er & Ep & Hfr & _).
  unfold i_set_value. rewrite (i_set_value_chain h f HR id o) by eauto using fuel_ok.
  rewrite Er. cbn [i_set_value_f]. destruct (nth_error h r) as [b|]; auto.
  destruct (b_parent b); auto. destruct (is_read_only_b b _); auto.
  cbn [fst]. unfold upd. apply nth_lupd_ne; auto.
Qed.
Lemma unset_other h id r p k i : reachable h -> resolves h id r p -> i <> r ->
  nth_error (fst (unset_value h id k)) i = nth_error h i.
Proof.
  intros Hre Hres Hne. destruct (reachable_R _ Hre) as [f HR].
  destruct (resolves_flat _ _ _ _ _ HR Hres) as (o & ro & Ho & Er & Ep & Hfr & _).
  unfold unset_value. rewrite (unset_value_chain h f HR id o) by eauto using fuel_ok.
  rewrite Er. cbn [unset_value_f]. destruct (nth_error h r) as [b|]; auto.
  destruct (b_parent b); auto. destruct (is_read_only_b b _); auto.
  destruct (sfind _ (b_store b)); auto. destruct (sfind _ (b_descr b)); auto.
  cbn [fst]. unfold upd. apply nth_lupd_ne; auto.
Qed.
Lemma set_bad h id k v d : nth_error h id = None -> i_set_value h id k v d = (h, UB).
Proof. intro H. unfold i_set_value, fuel; simpl. rewrite H. reflexivity. Qed.
Lemma unset_bad h id k : nth_error h id = None -> unset_value h id k = (h, UB).
Proof. intro H. unfold unset_value, fuel; simpl. rewrite H. reflexivity. Qed.

Lemma merge_loop_other keys : forall h a b i, reachable h ->
  (forall p, ~ resolves h a i p) ->
  nth_error (fst (merge_loop h a b keys)) i = nth_error h i.
Proof.
  induction keys as [|k keys IH]; intros h a b i Hre Hi; simpl; auto.
  destruct (get_string h b k) as [v| | |]; auto.
  destruct (get_description h b k) as [d| | |]; auto.
  destruct (nth_error h a) as [ba|] eqn:Ea.
  - destruct (resolves_total h a Hre (nth_error_lt _ _ _ Ea)) as (r & p & Hres).
    assert (Hne : i <> r) by (intros ->; eapply Hi; eauto).
    pose proof (set_other h a r p k v d i Hre Hres Hne) as Hs.
    pose proof (reachable_set h a k v d Hre) as Hre'.
    pose proof (set_shape (fuel h) h a k v d) as HS. fold (i_set_value h a k v d) in HS.
    destruct (i_set_value h a k v d) as [h' [[]|e| |]]; cbn [fst] in *; auto.
    rewrite IH; auto. intros q Hq. apply (Hi q).
    pose proof (same_shape_resolves _ _ _ _ _ HS Hres) as Hres'.
    destruct (resolves_det _ _ _ _ Hq _ _ Hres') as [-> ->]. contradiction.
  - rewrite set_bad by exact Ea. reflexivity.
Qed.

(** An operation addressed to (a view of) root [r]. *)
Definition touches (h : heap) (o : op) (r : nat) : Prop :=
  match o with
  | OSet id _ _ _ | OUnset id _ | OMerge id _ => exists p, resolves h id r p
  | OMarkRO id _ | OSetLoc id _ _ _ => id = r
  | _ => False
  end.
Fixpoint untouched (h : heap) (ops : list op) (r : nat) : Prop :=
  match ops with
  | [] => True
  | o :: rest => ~ touches h o r /\ untouched (fst (step h o)) rest r
  end.

Lemma step_untouched h o r : reachable h -> r < length h -> ~ touches h o r ->
  nth_error (fst (step h o)) r = nth_error h r.
Proof.
  intros Hre Hlt Hn. destruct o; simpl in *; unfold lift; simpl; auto.
  - rewrite nth_error_app1; auto.
  - unfold subblock_view. destruct (nth_error h id); simpl; auto. rewrite nth_error_app1; auto.
  - unfold subblock. destruct (rbind _ _); simpl; auto. rewrite nth_error_app1; auto.
  - destruct (nth_error h id) as [b|] eqn:E.
    + destruct (resolves_total h id Hre (nth_error_lt _ _ _ E)) as (r0 & p & Hres).
      apply set_other with (r := r0) (p := p); auto. intros ->. eauto.
    + rewrite set_bad; auto.
  - destruct (nth_error h id) as [b|] eqn:E.
    + destruct (resolves_total h id Hre (nth_error_lt _ _ _ E)) as (r0 & p & Hres).
      apply unset_other with (r := r0) (p := p); auto. intros ->. eauto.
    + rewrite unset_bad; auto.
  - unfold mark_read_only. destruct (nth_error h id) eqn:E; simpl; auto. apply nth_lupd_ne; auto.
  - unfold set_location. destruct (nth_error h id) eqn:E; simpl; auto. apply nth_lupd_ne; auto.
  - unfold merge_config. destruct (available_values h conf); simpl; auto.
    apply merge_loop_other; auto. intros p Hp. apply Hn. eauto.
Qed.
Lemma shape_length h h' : same_shape h h' -> length h <= length h'.
Proof.
  intro HS. destruct (Nat.le_gt_cases (length h) (length h')) as [|Hgt]; auto.
  destruct (nth_error h (length h')) as [b|] eqn:E.
  - destruct (HS _ _ E) as (b' & Hb' & _). apply nth_error_lt in Hb'. lia.
  - apply nth_error_None in E. lia.
Qed.
Lemma run_untouched ops : forall h r, reachable h -> r < length h -> untouched h ops r ->
  nth_error (fst (run h ops)) r = nth_error h r.
Proof.
  induction ops as [|o ops IH]; intros h r Hre Hlt Hu; simpl in *; auto.
  destruct Hu as [H1 H2]. pose proof (step_untouched h o r Hre Hlt H1) as E.
  pose proof (reachable_step h o Hre) as Hre'. pose proof (shape_length _ _ (step_shape h o)) as Hl.
  destruct (step h o) as [h1 v1]; cbn [fst] in *.
  specialize (IH h1 r Hre' ltac:(lia) H2). destruct (run h1 ops) as [h2 vs]; cbn [fst] in *. congruence.
Qed.

(** ---------- C03: read-only permanence (flat level, then lifted) ---------- *)
Section RO.
  Variables (r : nat) (K : str).

  Definition keeps (f f' : flat) : Prop :=
    froflag f' r K = true /\ fentry f' r K = fentry f r K.

  Lemma fset_keeps h f id k v d : R h f -> froflag f r K = true -> keeps f (fst (fset f id k v d)).
  Proof.
    intros HR Hro. unfold keeps, fset, locate.
    destruct (nth_error f id) as [o|] eqn:Ho; auto.
    destruct (nth_error f (f_root o)) as [ro|] eqn:Hr; auto.
    destruct (shas _ (f_flags ro)) eqn:Es; auto. cbn [fst].
    unfold froflag, fentry, fupd in *. destruct (Nat.eq_dec (f_root o) r) as [E|Hne].
    - rewrite E in *. rewrite nth_lupd_eq by (eapply nth_error_lt; eauto). rewrite Hr in *.
      simpl. split; auto. rewrite sfind_set_ne; auto. intros ->. congruence.
    - rewrite nth_lupd_ne by exact Hne. auto.
  Qed.
  Lemma funset_keeps h f id k : R h f -> froflag f r K = true -> keeps f (fst (funset f id k)).
  Proof.
    intros HR Hro. unfold keeps, funset, locate.
    destruct (nth_error f id) as [o|] eqn:Ho; auto.
    destruct (nth_error f (f_root o)) as [ro|] eqn:Hr; auto.
    destruct (shas _ (f_flags ro)) eqn:Es; auto.
    destruct (sfind _ (f_table ro)) eqn:Ef; auto. cbn [fst].
    unfold froflag, fentry, fupd in *. destruct (Nat.eq_dec (f_root o) r) as [E|Hne].
    - rewrite E in *. rewrite nth_lupd_eq by (eapply nth_error_lt; eauto). rewrite Hr in *.
      simpl. split; auto. rewrite sfind_erase_ne; auto. intros ->. congruence.
    - rewrite nth_lupd_ne by exact Hne. auto.
  Qed.
  Lemma keeps_trans f1 f2 f3 : keeps f1 f2 -> keeps f2 f3 -> keeps f1 f3.
  Proof. unfold keeps. intros [A1 A2] [B1 B2]. split; congruence. Qed.
  Lemma fmerge_loop_keeps keys : forall h f a b, R h f -> froflag f r K = true ->
    keeps f (fst (fmerge_loop f a b keys)).
  Proof.
    induction keys as [|k keys IH]; intros h f a b HR Hro; simpl; [split; auto|].
    destruct (fget f b k) as [v| | |]; try (split; auto; fail).
    destruct (fdesc f b k) as [d| | |]; try (split; auto; fail).
    pose proof (fset_keeps h f a k v d HR Hro) as Hk.
    pose proof (sim_set h f a k v d HR) as [_ HR'].
    destruct (fset f a k v d) as [f' [[]|e| |]]; cbn [fst] in *; auto.
    eapply keeps_trans; eauto. eapply IH; eauto. exact (proj1 Hk).
  Qed.
  Lemma froflag_lt f : froflag f r K = true -> r < length f.
  Proof. unfold froflag. destruct (nth_error f r) eqn:E; [|discriminate]. intros _. eapply nth_error_lt; eauto. Qed.
  Lemma app_keeps f o : froflag f r K = true -> keeps f (f ++ [o]).
  Proof.
    intro H. pose proof (froflag_lt _ H) as Hlt. unfold keeps, froflag, fentry in *.
    rewrite nth_error_app1 by exact Hlt. auto.
  Qed.
  Lemma fstep_keeps h f o : R h f -> froflag f r K = true -> keeps f (fst (fstep f o)).
  Proof.
    intros HR Hro. assert (Hrefl : keeps f f) by (split; auto).
    destruct o; simpl; unfold flift; cbn [fst]; auto using app_keeps.
    - destruct (nth_error f id); cbn [fst]; auto using app_keeps.
    - unfold fsub. destruct (rbind _ _); cbn [fst]; auto using app_keeps.
    - eapply fset_keeps; eauto.
    - eapply funset_keeps; eauto.
    - destruct (nth_error f id) as [o|] eqn:Ho; cbn [fst]; auto.
      unfold keeps, froflag, fentry, fupd in *. destruct (Nat.eq_dec id r) as [->|Hne].
      + rewrite nth_lupd_eq by (eapply nth_error_lt; eauto). rewrite Ho in *. simpl. split; auto.
        rewrite shas_find. destruct (str_dec K key) as [->|Hk].
        * rewrite sfind_set_eq. reflexivity.
        * rewrite sfind_set_ne by exact Hk. exact Hro.
      + rewrite nth_lupd_ne by exact Hne. auto.
    - destruct (nth_error f id) as [o|] eqn:Ho; cbn [fst]; auto.
      unfold keeps, froflag, fentry, fupd in *. destruct (Nat.eq_dec id r) as [->|Hne].
      + rewrite nth_lupd_eq by (eapply nth_error_lt; eauto). rewrite Ho in *. simpl. split; auto.
      + rewrite nth_lupd_ne by exact Hne. auto.
    - unfold fmerge. destruct (favail f conf); cbn [fst]; auto. eapply fmerge_loop_keeps; eauto.
  Qed.
  Lemma frun_keeps ops : forall h f, R h f -> froflag f r K = true -> keeps f (fst (frun f ops)).
  Proof.
    induction ops as [|o ops IH]; intros h f HR Hro; simpl; [split; auto|].
    pose proof (fstep_keeps h f o HR Hro) as Hk. pose proof (sim_step h f o HR) as [_ HR'].
    destruct (fstep f o) as [f1 v1]; cbn [fst] in *.
    specialize (IH _ f1 HR' (proj1 Hk)). destruct (frun f1 ops) as [f2 vs]; cbn [fst] in *.
    eapply keeps_trans; eauto.
  Qed.
End RO.

Lemma run_shape ops : forall h, same_shape h (fst (run h ops)).
Proof.
  induction ops as [|o ops IH]; intro h; simpl; [apply same_shape_refl|].
  pose proof (step_shape h o) as H1. destruct (step h o) as [h1 v1]; cbn [fst] in *.
  specialize (IH h1). destruct (run h1 ops); cbn [fst] in *. eapply same_shape_trans; eauto.
Qed.

Lemma ro_permanent_lemma h ops r k : reachable h -> resolves h r r [] -> is_read_only h r k = Ok true ->
  let h' := fst (run h ops) in
  is_read_only h' r k = Ok true /\
  get_string h' r k = get_string h r k /\
  has_value h' r k = has_value h r k /\
  get_description h' r k = get_description h r k /\
  forall id p k2, resolves h' id r p -> abs_key p k2 = k ->
    (forall v d, exists cur, i_set_value h' id k2 v d = (h', Throw (SetOnReadOnly k cur v))) /\
    (exists cur, unset_value h' id k2 = (h', Throw (UnsetOnReadOnly k cur))).
Proof.
  intros Hre Hres Hro h'. destruct (reachable_R _ Hre) as [f HR].
  pose proof (sim_run ops h f HR) as [_ HR'].
  assert (Hres' : resolves h' r r []) by (eapply same_shape_resolves; [apply run_shape|exact Hres]).
  rewrite (ro_at h f HR r r [] Hres) in Hro. injection Hro as Hro.
  destruct (frun_keeps r k ops h f HR Hro) as [Hk1 Hk2].
  change (fst (run h ops)) with h' in HR'. set (f' := fst (frun f ops)) in *.
  rewrite (ro_at h' f' HR' r r [] Hres'), Hk1.
  rewrite (get_at h' f' HR' r r [] Hres'), (get_at h f HR r r [] Hres).
  rewrite (has_at h' f' HR' r r [] Hres'), (has_at h f HR r r [] Hres).
  rewrite (desc_at h' f' HR' r r [] Hres'), (desc_at h f HR r r [] Hres).
  rewrite abs_key_nil, Hk2. repeat split; auto.
  - intros v d. assert (Hre' : reachable h') by (apply reachable_run; exact Hre).
    destruct (set_outcome h' id k2 v d r p Hre' H) as [[E _]|[_ [cur E]]].
    + rewrite (ro_at h' f' HR' id r p H), H0, Hk1 in E. discriminate.
    + exists cur. rewrite H0 in E. exact E.
  - unfold unset_value.
    destruct (resolves_flat _ _ _ _ _ HR' H) as (o & ro & Ho & Er & Ep & Hfr & _).
    rewrite (unset_value_chain h' f' HR' id o) by eauto using fuel_ok.
    rewrite Er, Ep, H0. destruct (R_some _ _ _ _ HR' Hfr) as [rb Hrb].
    destruct (R_locate _ _ _ _ HR' Ho) as (rb' & ro' & A1 & A2 & A3 & Hc & _).
    rewrite Er in *. assert (rb' = rb) by congruence. assert (ro' = ro) by congruence. subst rb' ro'.
    cbn [unset_value_f]. rewrite Hrb, A3. unfold is_read_only_b. rewrite (rc_ro _ _ Hc).
    unfold froflag in Hk1. rewrite Hfr in Hk1. rewrite Hk1. eauto.
Qed.

(** ---------- C05: no undefined behaviour on live handles ---------- *)
Definition op_ids (o : op) : list nat :=
  match o with
  | ONew _ => []
  | OView id _ | OSub id _ | OSet id _ _ _ | OUnset id _ | OMarkRO id _ | OSetLoc id _ _ _
  | OGet id _ | OHas id _ | ODesc id _ | OAvail id | OIsRO id _ | OGetLoc id _ => [id]
  | OMerge a b => [a; b]
  end.
Definition defined {A} (r : res A) : Prop :=
  match r with Ok _ | Throw _ => True | UB | NoFuel => False end.

Lemma locate_live h f id key {A} (bad : A) k : R h f -> id < length h ->
  exists ri ro K, locate f id key bad k = k ri ro K.
Proof.
  intros HR Hlt. destruct (nth_error f id) as [o|] eqn:Ho.
  - destruct (R_locate _ _ _ _ HR Ho) as (rb & ro & _ & H2 & _).
    unfold locate. rewrite Ho, H2. eauto.
  - apply nth_error_None in Ho. destruct HR; lia.
Qed.
Lemma fset_defined h f id k v d : R h f -> id < length h -> defined (snd (fset f id k v d)).
Proof.
  intros HR Hlt. unfold fset. edestruct (locate_live h f id k (f, @UB unit)) as (ri & ro & K & ->); eauto.
  destruct (shas K (f_flags ro)); exact I.
Qed.
Lemma fget_defined h f id k : R h f -> id < length h -> defined (fget f id k).
Proof.
  intros HR Hlt. unfold fget. edestruct (locate_live h f id k (@UB str)) as (ri & ro & K & ->); eauto.
  destruct (sfind K (f_table ro)) as [[v d]|]; exact I.
Qed.
Lemma fdesc_defined h f id k : R h f -> id < length h -> defined (fdesc f id k).
Proof.
  intros HR Hlt. unfold fdesc. edestruct (locate_live h f id k (@UB str)) as (ri & ro & K & ->); eauto.
  destruct (sfind K (f_table ro)) as [[v d]|]; exact I.
Qed.
Lemma fmerge_loop_defined keys : forall h f a b, R h f -> a < length h -> b < length h ->
  defined (snd (fmerge_loop f a b keys)).
Proof.
  induction keys as [|k keys IH]; intros h f a b HR Ha Hb; simpl; [exact I|].
  pose proof (fget_defined h f b k HR Hb) as H1. destruct (fget f b k) as [v| | |]; try contradiction; try exact I.
  pose proof (fdesc_defined h f b k HR Hb) as H2. destruct (fdesc f b k) as [d| | |]; try contradiction; try exact I.
  pose proof (fset_defined h f a k v d HR Ha) as H3. pose proof (sim_set h f a k v d HR) as [_ HR'].
  assert (Hl : length (fst (i_set_value h a k v d)) = length h).
  { apply Nat.le_antisymm.
    - destruct HR' as [-> _]. unfold fset, locate. destruct (nth_error f a) as [o|]; [|destruct HR; cbn [fst]; lia].
      destruct (nth_error f (f_root o)) as [ro|]; [|destruct HR; cbn [fst]; lia].
      destruct (shas _ _); cbn [fst]; unfold fupd; rewrite ?lupd_length; destruct HR; lia.
    - apply shape_length. apply set_shape. }
  destruct (fset f a k v d) as [f' [[]|e| |]]; cbn [fst snd] in *; try contradiction; try exact I.
  eapply IH; eauto; lia.
Qed.
Lemma favail_defined h f id : R h f -> id < length h -> defined (favail f id).
Proof.
  intros HR Hlt. unfold favail. destruct (nth_error f id) as [o|] eqn:Ho.
  - destruct (R_locate _ _ _ _ HR Ho) as (rb & ro & _ & H2 & _). rewrite H2. exact I.
  - apply nth_error_None in Ho. destruct HR; lia.
Qed.
Lemma fsub_loop_defined keys : forall h f id n t, R h f -> id < length h -> defined (fsub_loop f id n t keys).
Proof.
  induction keys as [|k keys IH]; intros h f id n t HR Hlt; simpl; [exact I|].
  destruct (visible n k); [|eapply IH; eauto].
  pose proof (fdesc_defined h f id k HR Hlt) as H. destruct (fdesc f id k); try contradiction; try exact I.
  eapply IH; eauto.
Qed.

Lemma no_ub_lemma h o : reachable h -> (forall id, In id (op_ids o) -> id < length h) ->
  defined (snd (step h o)).
Proof.
  intros Hre Hids. destruct (reachable_R _ Hre) as [f HR].
  destruct (sim_step h f o HR) as [-> _].
  assert (Hn : forall id, id < length h -> exists ob, nth_error f id = Some ob).
  { intros id Hlt. destruct (nth_error f id) eqn:E; eauto. apply nth_error_None in E. destruct HR; lia. }
  assert (Hrm : forall A (g : A -> val) (x : res A), defined x -> defined (rmap g x)) by (intros A g []; simpl; auto).
  destruct o; simpl in *; unfold flift; cbn [snd]; try exact I.
  - destruct (Hn id) as [ob ->]; auto. exact I.
  - unfold fsub. apply Hrm. pose proof (favail_defined h f id HR (Hids _ (or_introl eq_refl))) as H.
    destruct (favail f id) as [ks| | |]; try contradiction; try exact I. simpl.
    pose proof (fsub_loop_defined ks h f id key [] HR (Hids _ (or_introl eq_refl))) as H2.
    destruct (fsub_loop f id key [] ks); try contradiction; exact I.
  - apply Hrm. eapply fset_defined; eauto.
  - apply Hrm. unfold funset. edestruct (locate_live h f id key (f, @UB unit)) as (ri & ro & K & ->); eauto.
    destruct (shas K (f_flags ro)); try exact I. destruct (sfind K (f_table ro)); exact I.
  - destruct (Hn id) as [ob ->]; auto. exact I.
  - destruct (Hn id) as [ob ->]; auto. exact I.
  - apply Hrm. unfold fmerge. pose proof (favail_defined h f conf HR ltac:(auto)) as H.
    destruct (favail f conf) as [ks| | |]; try contradiction; try exact I. eapply fmerge_loop_defined; eauto.
  - apply Hrm. eapply fget_defined; eauto.
  - apply Hrm. unfold fhas. edestruct (locate_live h f id key (@UB bool)) as (ri & ro & K & ->); eauto. exact I.
  - apply Hrm. eapply fdesc_defined; eauto.
  - apply Hrm. eapply favail_defined; eauto.
  - destruct (Hn id) as [ob ->]; auto. exact I.
  - destruct (Hn id) as [ob ->]; auto. exact I.
Qed.
