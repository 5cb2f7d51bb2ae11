(** ConfigProofs2.v -- consequences of the simulation, at the API level. *)
From Verif Require Import Base ConfigModel ConfigSpec ConfigProofs.

(** ---------- handles ---------- *)
Lemma resolves_det h i r1 p1 : resolves h i r1 p1 -> forall r2 p2, resolves h i r2 p2 -> r1 = r2 /\ p1 = p2.
Proof.
  induction 1 as [id b Hb Hp|id b p r path Hb Hp Hr IH]; intros r2 p2 H2; inversion H2; subst.
  - auto.
  - congruence.
  - congruence.
  - assert (b0 = b) by congruence; subst b0.
    assert (p0 = p) by congruence; subst p0. destruct (IH _ _ H1) as [-> ->]. auto.
Qed.
Lemma R_resolves h f : R h f -> forall i o, nth_error f i = Some o -> resolves h i (f_root o) (f_path o).
Proof.
  intros HR i. induction i as [i IH] using lt_wf_ind. intros o Ho.
  destruct (R_some _ _ _ _ HR Ho) as [b Hb].
  destruct (proj2 HR i b o Hb Ho) as [_ HL]. unfold Rlink in HL.
  destruct (b_parent b) as [p|] eqn:Ep.
  - destruct HL as (Hlt & _ & o' & Ho' & -> & ->). eapply resolves_view; eauto.
  - destruct HL as [-> ->]. eapply resolves_root; eauto.
Qed.
Lemma resolves_some h i r p : resolves h i r p -> exists b, nth_error h i = Some b.
Proof. destruct 1; eauto. Qed.
Lemma resolves_flat h f i r p : R h f -> resolves h i r p ->
  exists o ro, nth_error f i = Some o /\ f_root o = r /\ f_path o = p /\ nth_error f r = Some ro /\
    f_root ro = r /\ f_path ro = [].
Proof.
  intros HR Hr. destruct (resolves_some _ _ _ _ Hr) as [b Hb].
  destruct (R_some' _ _ _ _ HR Hb) as [o Ho].
  pose proof (R_resolves _ _ HR _ _ Ho) as Hr2.
  destruct (resolves_det _ _ _ _ Hr _ _ Hr2) as [-> ->].
  destruct (R_locate _ _ _ _ HR Ho) as (rb & ro & H1 & H2 & H3 & Hc & Hrr & Hrp).
  exists o, ro. repeat split; auto.
Qed.
Lemma resolves_total h id : reachable h -> id < length h -> exists r p, resolves h id r p.
Proof.
  intros Hre Hlt. destruct (reachable_R _ Hre) as [f HR].
  destruct (nth_error f id) as [o|] eqn:Ho.
  - exists (f_root o), (f_path o). eapply R_resolves; eauto.
  - apply nth_error_None in Ho. destruct HR; lia.
Qed.

(** Content of root [r] at absolute key [K]. *)
Definition fentry (f : flat) (r : nat) (K : str) : option (str * str) :=
  match nth_error f r with Some o => sfind K (f_table o) | None => None end.
Definition froflag (f : flat) (r : nat) (K : str) : bool :=
  match nth_error f r with Some o => shas K (f_flags o) | None => false end.

Section View.
  Variables (h : heap) (f : flat).
  Hypothesis HR : R h f.
  Variables (id r : nat) (p : list str).
  Hypothesis Hres : resolves h id r p.

  Ltac open := destruct (resolves_flat _ _ _ _ _ HR Hres) as (o & ro & Ho & Er & Ep & Hro & Err & Erp).

  Lemma locate_at {A} (bad : A) k key : locate f id key bad k =
    match nth_error f r with Some ro => k r ro (abs_key p key) | None => bad end.
  Proof. unfold locate. open. rewrite Ho, Er, Ep, Hro. reflexivity. Qed.

  Lemma get_at key : get_string h id key =
    match fentry f r (abs_key p key) with Some (v, _) => Ok v | None => Throw (NoSuchValue key) end.
  Proof. rewrite (sim_get _ _ _ _ HR). unfold fget, fentry. rewrite locate_at. open. rewrite Hro. reflexivity. Qed.
  Lemma has_at key : has_value h id key =
    Ok (match fentry f r (abs_key p key) with Some _ => true | None => false end).
  Proof. rewrite (sim_has _ _ _ _ HR). unfold fhas, fentry. rewrite locate_at. open. rewrite Hro. reflexivity. Qed.
  Lemma desc_at key : get_description h id key =
    match fentry f r (abs_key p key) with Some (_, d) => Ok d | None => Throw (NoSuchValue (abs_key p key)) end.
  Proof. rewrite (sim_desc _ _ _ _ HR). unfold fdesc, fentry. rewrite locate_at. open. rewrite Hro. reflexivity. Qed.
  Lemma iget_at key : i_get_value h id key =
    Ok (match fentry f r (abs_key p key) with Some (v, _) => v | None => [] end).
  Proof. rewrite (sim_iget _ _ _ _ HR). unfold fentry. rewrite locate_at. open. rewrite Hro. reflexivity. Qed.
  Lemma ro_at key : is_read_only h r key = Ok (froflag f r key).
  Proof.
    open. destruct (R_some _ _ _ _ HR Hro) as [rb Hrb]. unfold is_read_only, froflag. rewrite Hrb, Hro.
    destruct (proj2 HR _ _ _ Hrb Hro) as [[C1 _ _ _ _ _ _] _]. unfold is_read_only_b. rewrite C1. reflexivity.
  Qed.
End View.

(** Observing a block: everything a caller can ask about [key] through [id]
    that depends on the shared content. *)
Lemma alias_agree_lemma h id1 k1 id2 k2 : reachable h -> same_entry h id1 k1 id2 k2 ->
  has_value h id1 k1 = has_value h id2 k2 /\
  get_description h id1 k1 = get_description h id2 k2 /\
  (forall v, get_string h id1 k1 = Ok v <-> get_string h id2 k2 = Ok v).
Proof.
  intros Hre (r & p1 & p2 & H1 & H2 & Hk). destruct (reachable_R _ Hre) as [f HR].
  rewrite (has_at h f HR id1 r p1 H1), (has_at h f HR id2 r p2 H2).
  rewrite (desc_at h f HR id1 r p1 H1), (desc_at h f HR id2 r p2 H2).
  rewrite (get_at h f HR id1 r p1 H1), (get_at h f HR id2 r p2 H2). rewrite Hk.
  repeat split; auto; destruct (fentry f r (abs_key p2 k2)) as [[v0 d0]|]; intro E; congruence.
Qed.

(** Effect of one set on flat entries. *)
Lemma fset_entry f id r p k v d h : R h f -> resolves h id r p ->
  froflag f r (abs_key p k) = false ->
  let f' := fst (fset f id k v d) in
  snd (fset f id k v d) = Ok tt /\
  (forall r2 K, fentry f' r2 K =
     if Nat.eqb r2 r && str_eqb K (abs_key p k)
     then Some (trim v, match fentry f r (abs_key p k), d with Some (_, d0), [] => d0 | _, _ => d end)
     else fentry f r2 K).
Proof.
  intros HR Hres Hro. destruct (resolves_flat _ _ _ _ _ HR Hres) as (o & ro & Ho & Er & Ep & Hfr & _).
  unfold fset, locate. rewrite Ho, Er, Ep, Hfr. unfold froflag in Hro. rewrite Hfr in Hro. rewrite Hro.
  cbn [fst snd]. split; auto. intros r2 K. unfold fentry, fupd.
  destruct (Nat.eqb_spec r2 r) as [->|Hne].
  - rewrite nth_lupd_eq by (eapply nth_error_lt; eauto). rewrite Hfr. simpl.
    destruct (str_eqb_spec K (abs_key p k)) as [->|HK].
    + rewrite sfind_set_eq. reflexivity.
    + rewrite sfind_set_ne by exact HK. reflexivity.
  - rewrite nth_lupd_ne by auto. reflexivity.
Qed.
Lemma fset_ro f id r p k v d h : R h f -> resolves h id r p ->
  froflag f r (abs_key p k) = true ->
  fset f id k v d = (f, Throw (SetOnReadOnly (abs_key p k)
      (match fentry f r (abs_key p k) with Some (v0, _) => v0 | None => [] end) v)).
Proof.
  intros HR Hres Hro. destruct (resolves_flat _ _ _ _ _ HR Hres) as (o & ro & Ho & Er & Ep & Hfr & _).
  unfold fset, locate. rewrite Ho, Er, Ep, Hfr. unfold froflag, fentry in *. rewrite Hfr in *. rewrite Hro.
  reflexivity.
Qed.

(** The parts of the heap that determine handle structure are never changed. *)
Definition same_shape (h h' : heap) : Prop :=
  forall i b, nth_error h i = Some b ->
    exists b', nth_error h' i = Some b' /\ b_parent b' = b_parent b /\ b_name b' = b_name b.
Lemma same_shape_refl h : same_shape h h.
Proof. intros i b H; eauto. Qed.
Lemma same_shape_trans h1 h2 h3 : same_shape h1 h2 -> same_shape h2 h3 -> same_shape h1 h3.
Proof.
  intros H1 H2 i b Hb. destruct (H1 i b Hb) as (b' & Hb' & E1 & E2).
  destruct (H2 i b' Hb') as (b'' & Hb'' & E3 & E4). exists b''. repeat split; congruence.
Qed.
Lemma same_shape_resolves h h' i r p : same_shape h h' -> resolves h i r p -> resolves h' i r p.
Proof.
  intros HS. induction 1 as [id b Hb Hp|id b q r path Hb Hp Hr IH].
  - destruct (HS _ _ Hb) as (b' & Hb' & E1 & E2). eapply resolves_root; eauto; congruence.
  - destruct (HS _ _ Hb) as (b' & Hb' & E1 & E2). rewrite <- E2. eapply resolves_view; eauto; congruence.
Qed.
Lemma same_shape_upd h i b b' : nth_error h i = Some b -> b_parent b' = b_parent b -> b_name b' = b_name b ->
  same_shape h (upd h i b').
Proof.
  intros Hb E1 E2 j bj Hj. unfold upd. destruct (Nat.eq_dec i j) as [<-|Hne].
  - rewrite nth_lupd_eq by (eapply nth_error_lt; eauto). exists b'. assert (bj = b) by congruence. subst. auto.
  - rewrite nth_lupd_ne by exact Hne. eauto.
Qed.
Lemma same_shape_app h b : same_shape h (h ++ [b]).
Proof. intros i bi Hi. exists bi. rewrite nth_error_app1 by (eapply nth_error_lt; eauto). auto. Qed.

Lemma set_shape n : forall h id k v d, same_shape h (fst (i_set_value_f n h id k v d)).
Proof.
  induction n as [|n IH]; intros h id k v d; simpl; [apply same_shape_refl|].
  destruct (nth_error h id) as [b|] eqn:E; [|apply same_shape_refl].
  destruct (b_parent b) as [q|] eqn:Ep; [apply IH|].
  destruct (is_read_only_b b k); [apply same_shape_refl|]. cbn [fst].
  eapply same_shape_upd; eauto.
Qed.
Lemma unset_shape n : forall h id k, same_shape h (fst (unset_value_f n h id k)).
Proof.
  induction n as [|n IH]; intros h id k; simpl; [apply same_shape_refl|].
  destruct (nth_error h id) as [b|] eqn:E; [|apply same_shape_refl].
  destruct (b_parent b) as [q|] eqn:Ep; [apply IH|].
  destruct (is_read_only_b b k); [apply same_shape_refl|].
  destruct (sfind k (b_store b)); [|apply same_shape_refl].
  destruct (sfind k (b_descr b)); [|apply same_shape_refl]. cbn [fst].
  eapply same_shape_upd; eauto.
Qed.
Lemma merge_loop_shape keys : forall h a b, same_shape h (fst (merge_loop h a b keys)).
Proof.
  induction keys as [|k keys IH]; intros h a b; simpl; [apply same_shape_refl|].
  destruct (get_string h b k); try apply same_shape_refl.
  destruct (get_description h b k); try apply same_shape_refl.
  pose proof (set_shape (fuel h) h a k a0 a1) as HS. fold (i_set_value h a k a0 a1) in HS.
  destruct (i_set_value h a k a0 a1) as [h' [[]|e| |]]; simpl in *; auto.
  eapply same_shape_trans; eauto.
Qed.
Lemma step_shape h o : same_shape h (fst (step h o)).
Proof.
  destruct o; simpl; unfold lift; simpl; try apply same_shape_refl.
  - apply same_shape_app.
  - unfold subblock_view. destruct (nth_error h id); [apply same_shape_app|apply same_shape_refl].
  - unfold subblock. destruct (rbind _ _); try apply same_shape_refl. apply same_shape_app.
  - apply set_shape.
  - apply unset_shape.
  - unfold mark_read_only. destruct (nth_error h id) eqn:E; [|apply same_shape_refl].
    eapply same_shape_upd; eauto.
  - unfold set_location. destruct (nth_error h id) eqn:E; [|apply same_shape_refl].
    eapply same_shape_upd; eauto.
  - unfold merge_config. destruct (available_values h conf); try apply same_shape_refl.
    apply merge_loop_shape.
Qed.

(** ---------- C01 / C04 ---------- *)
Lemma reachable_set h id k v d : reachable h -> reachable (fst (i_set_value h id k v d)).
Proof.
  intro H. pose proof (reachable_step h (OSet id k v d) H) as H'. exact H'.
Qed.

Lemma set_outcome h id k v d r p : reachable h -> resolves h id r p ->
  (is_read_only h r (abs_key p k) = Ok false /\ snd (i_set_value h id k v d) = Ok tt) \/
  (is_read_only h r (abs_key p k) = Ok true /\
   exists cur, i_set_value h id k v d = (h, Throw (SetOnReadOnly (abs_key p k) cur v))).
Proof.
  intros Hre Hres. destruct (reachable_R _ Hre) as [f HR].
  rewrite (ro_at h f HR id r p Hres).
  destruct (sim_set h f id k v d HR) as [E1 E2].
  destruct (froflag f r (abs_key p k)) eqn:Ero.
  - right. split; auto. rewrite (fset_ro f id r p k v d h HR Hres Ero) in E1. cbn [snd] in E1.
    unfold i_set_value in *.
    assert (Hst : forall n id0 k0, forall e, snd (i_set_value_f n h id0 k0 v d) = Throw e ->
                     fst (i_set_value_f n h id0 k0 v d) = h).
    { induction n as [|n IH]; intros id0 k0 e; simpl; auto.
      destruct (nth_error h id0) as [b|]; auto. destruct (b_parent b); eauto.
      destruct (is_read_only_b b k0); auto. discriminate. }
    eexists. rewrite (surjective_pairing (i_set_value_f _ _ _ _ _ _)).
    rewrite E1. erewrite Hst by eauto. reflexivity.
  - left. split; auto. destruct (fset_entry f id r p k v d h HR Hres Ero) as [E _]. congruence.
Qed.

Lemma set_effect h id k v d h' : reachable h -> i_set_value h id k v d = (h', Ok tt) ->
  forall f, R h f -> exists f', R h' f' /\ exists r p, resolves h id r p /\
  (forall r2 K, fentry f' r2 K =
     if Nat.eqb r2 r && str_eqb K (abs_key p k)
     then Some (trim v, match fentry f r (abs_key p k), d with Some (_, d0), [] => d0 | _, _ => d end)
     else fentry f r2 K) /\
  (forall r2 K, froflag f' r2 K = froflag f r2 K).
Proof.
  intros Hre Hset f HR.
  destruct (sim_set h f id k v d HR) as [E1 E2]. rewrite Hset in E1, E2. simpl in E1, E2.
  exists (fst (fset f id k v d)). split; auto.
  assert (Hv : id < length h).
  { apply nth_error_Some. intro Hn. unfold i_set_value, fuel in Hset. simpl in Hset. rewrite Hn in Hset. discriminate. }
  destruct (resolves_total h id Hre Hv) as (r & p & Hres).
  exists r, p. split; auto.
  destruct (froflag f r (abs_key p k)) eqn:Ero.
  { rewrite (fset_ro f id r p k v d h HR Hres Ero) in E1. discriminate. }
  split; [exact (proj2 (fset_entry f id r p k v d h HR Hres Ero))|].
  intros r2 K. destruct (resolves_flat _ _ _ _ _ HR Hres) as (o & ro & Ho & Er & Ep & Hfr & _).
  unfold fset, locate. rewrite Ho, Er, Ep, Hfr. unfold froflag in *. rewrite Hfr in Ero. rewrite Ero. cbn [fst].
  unfold fupd. destruct (Nat.eq_dec r r2) as [<-|Hne].
  - rewrite nth_lupd_eq by (eapply nth_error_lt; eauto). rewrite Hfr. reflexivity.
  - rewrite nth_lupd_ne by exact Hne. reflexivity.
Qed.

Lemma set_get_lemma h id k v d h' : reachable h -> i_set_value h id k v d = (h', Ok tt) ->
  (forall id2 k2, same_entry h id k id2 k2 ->
     exists t, is_trim v t /\ get_string h' id2 k2 = Ok t) /\
  (forall id2 k2, id2 < length h -> ~ same_entry h id k id2 k2 ->
     get_string h' id2 k2 = get_string h id2 k2 /\
     has_value h' id2 k2 = has_value h id2 k2 /\
     get_description h' id2 k2 = get_description h id2 k2) /\
  (forall id2 k2, same_entry h id k id2 k2 -> 
     get_description h' id2 k2 =
       match d with [] => match get_description h id2 k2 with Ok d0 => Ok d0 | _ => Ok [] end | _ => Ok d end) /\
  (forall id2 k2, is_read_only h' id2 k2 = is_read_only h id2 k2 /\
                  get_location h' id2 k2 = get_location h id2 k2).
Proof.
  intros Hre Hset. destruct (reachable_R _ Hre) as [f HR].
  destruct (set_effect h id k v d h' Hre Hset f HR) as (f' & HR' & r & p & Hres & Hent & Hfl).
  assert (HS : same_shape h h').
  { pose proof (set_shape (fuel h) h id k v d) as H. fold (i_set_value h id k v d) in H. rewrite Hset in H. exact H. }
  split; [|split; [|split]].
  - intros id2 k2 (r0 & p1 & p2 & H1 & H2 & HK).
    destruct (resolves_det _ _ _ _ H1 _ _ Hres) as [-> ->].
    exists (trim v). split; [apply trim_is_trim|].
    rewrite (get_at h' f' HR' id2 r p2) by eauto using same_shape_resolves.
    rewrite Hent, <- HK, Nat.eqb_refl, str_eqb_refl. reflexivity.
  - intros id2 k2 Hlt Hns. destruct (resolves_total h id2 Hre Hlt) as (r2 & p2 & Hres2).
    assert (Hres2' : resolves h' id2 r2 p2) by eauto using same_shape_resolves.
    rewrite (get_at h' f' HR' id2 r2 p2 Hres2'), (get_at h f HR id2 r2 p2 Hres2).
    rewrite (has_at h' f' HR' id2 r2 p2 Hres2'), (has_at h f HR id2 r2 p2 Hres2).
    rewrite (desc_at h' f' HR' id2 r2 p2 Hres2'), (desc_at h f HR id2 r2 p2 Hres2).
    rewrite Hent. destruct (Nat.eqb_spec r2 r) as [->|Hne]; simpl; auto.
    destruct (str_eqb_spec (abs_key p2 k2) (abs_key p k)) as [E|E]; auto.
    exfalso. apply Hns. exists r, p, p2. auto.
  - intros id2 k2 (r0 & p1 & p2 & H1 & H2 & HK).
    destruct (resolves_det _ _ _ _ H1 _ _ Hres) as [-> ->].
    rewrite (desc_at h' f' HR' id2 r p2) by eauto using same_shape_resolves.
    rewrite (desc_at h f HR id2 r p2 H2), Hent, <- HK, Nat.eqb_refl, str_eqb_refl. simpl.
    destruct (fentry f r (abs_key p k)) as [[v0 d0]|], d; reflexivity.
  - assert (Hst : forall n h0 id0 k0 i b, nth_error h0 i = Some b -> exists b',
        nth_error (fst (i_set_value_f n h0 id0 k0 v d)) i = Some b' /\ b_ro b' = b_ro b /\ b_loc b' = b_loc b).
    { induction n as [|n IH]; intros h0 id0 k0 i b Hb; simpl; eauto.
      destruct (nth_error h0 id0) as [b0|] eqn:E0; eauto.
      destruct (b_parent b0); auto. destruct (is_read_only_b b0 k0); eauto.
      cbn [fst]. unfold upd. destruct (Nat.eq_dec id0 i) as [<-|Hne].
      - rewrite nth_lupd_eq by (eapply nth_error_lt; eauto). assert (b0 = b) by congruence; subst.
        eexists; split; [reflexivity|]. auto.
      - rewrite nth_lupd_ne by exact Hne. eauto. }
    intros id2 k2. unfold is_read_only, get_location.
    destruct (nth_error h id2) as [b|] eqn:Eb.
    + destruct (Hst (fuel h) h id k id2 b Eb) as (b' & Hb' & E1 & E2).
      fold (i_set_value h id k v d) in Hb'. rewrite Hset in Hb'. cbn [fst] in Hb'. rewrite Hb'.
      unfold is_read_only_b. rewrite E1, E2. auto.
    + assert (Hl : length (fst (i_set_value h id k v d)) = length h).
      { unfold i_set_value. generalize (fuel h) as n. intro n. revert id k Hset Hres Hent. intros id k _ _ _.
        revert id k. induction n as [|n IH]; intros id k; simpl; auto.
        destruct (nth_error h id) as [b0|]; auto. destruct (b_parent b0); auto.
        destruct (is_read_only_b b0 k); auto. cbn [fst]. apply lupd_length. }
      rewrite Hset in Hl. cbn [fst] in Hl.
      assert (En : nth_error h' id2 = None) by (apply nth_error_None; apply nth_error_None in Eb; lia).
      rewrite En. auto.
Qed.
