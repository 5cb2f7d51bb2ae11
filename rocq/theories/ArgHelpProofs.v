(** ArgHelpProofs.v -- the help text: specification and proofs. *)
From Coq Require Import Lia ZArith.
From Verif Require Import Base ArgModel ArgHelpModel.
Local Open Scope nat_scope.

(** ---- specification: grouping ---- *)
(** The help text of option [n]; an option is an alias of [m] if its help text is
    the name of the option [m]. *)
Definition helps (opts : smap opt) (n h : str) : Prop := exists o, sfind n opts = Some o /\ o_help o = h.
Definition is_opt (opts : smap opt) (n : str) : bool := shas n opts.
Definition help_of (opts : smap opt) (n : str) : str := match sfind n opts with Some o => o_help o | None => [] end.
(** No alias of an alias. *)
Definition flat_aliases (opts : smap opt) : Prop :=
  forall n, is_opt opts n = true -> is_opt opts (help_of opts n) = true -> is_opt opts (help_of opts (help_of opts n)) = false.
Definition heads (opts : smap opt) : list str := filter (fun n => negb (is_opt opts (help_of opts n))) (skeys opts).
Definition family (opts : smap opt) (m : str) : list str := filter (fun n => str_eqb n m || str_eqb (help_of opts n) m) (skeys opts).
Definition groups (opts : smap opt) : mapargs := map (fun m => (m, map (fun n => (n, tt)) (family opts m))) (heads opts).

(** ---- sorted maps built from sub-lists of keys ---- *)
Lemma above_filter {V W} (f : str -> W) P k (m : smap V) : @m_above str str_cmp V k m -> @m_above str str_cmp W k (map (fun n => (n, f n)) (filter P (skeys m))).
Proof.
  induction m as [|[k1 v1] m IH]; cbn; [auto|]. intros [A B]. destruct (P k1); cbn; [split; [exact A|]|]; apply IH; exact B.
Qed.
Lemma sorted_filter {V W} (f : str -> W) P (m : smap V) : ssorted m -> ssorted (map (fun n => (n, f n)) (filter P (skeys m))).
Proof.
  induction m as [|[k1 v1] m IH]; cbn; [auto|]. intros [A B]. specialize (IH B). destruct (P k1); cbn; [split; [|exact IH]|exact IH]. apply (above_filter f P k1 m A).
Qed.
Lemma find_filter {V W} (f : str -> W) P (m : smap V) n : ssorted m -> sfind n (map (fun n => (n, f n)) (filter P (skeys m))) = if shas n m && P n then Some (f n) else None.
Proof.
  intros Sm. destruct (shas n m && P n) eqn:E.
  - apply andb_true_iff in E. destruct E as [H Hp]. apply sin_find; [apply sorted_filter; exact Sm|]. apply in_map_iff. exists n. split; [reflexivity|]. apply filter_In. split; [|exact Hp]. apply sfind_keys. apply shas_true. exact H.
  - destruct (sfind n (map (fun n0 => (n0, f n0)) (filter P (skeys m)))) as [w|] eqn:F; [|reflexivity]. exfalso. apply sfind_in in F. apply in_map_iff in F. destruct F as (x & Q & I). injection Q as -> _. apply filter_In in I. destruct I as [I Hp].
    apply sfind_keys in I. apply shas_true in I. rewrite I, Hp in E. discriminate.
Qed.

(** ---- sets ---- *)
Lemma set1_keys x y s : In x (skeys (sset1 y s)) <-> x = y \/ In x (skeys s).
Proof.
  unfold sset1. rewrite !sfind_keys. destruct (str_dec x y) as [->|N].
  - rewrite sfind_set_eq. split; [auto|discriminate].
  - rewrite sfind_set_ne by exact N. split; [auto|intros [|]; [contradiction|assumption]].
Qed.
Lemma fold_set1 l : forall s x, In x (skeys (fold_left (fun s x => sset1 x s) l s)) <-> In x l \/ In x (skeys s).
Proof.
  induction l as [|y l IH]; intros s x; cbn [fold_left In]; [tauto|]. rewrite IH, set1_keys. intuition congruence.
Qed.
Lemma fold_set1_sorted l : forall s, ssorted s -> ssorted (fold_left (fun s x => sset1 x s) l s).
Proof. induction l as [|y l IH]; intros s H; cbn [fold_left]; [exact H|]. apply IH. apply sset_sorted. exact H. Qed.
Lemma set_ext (a b : smap unit) : ssorted a -> ssorted b -> (forall x, In x (skeys a) <-> In x (skeys b)) -> a = b.
Proof.
  intros A B H. apply smap_ext; [assumption..|]. intros k. specialize (H k). rewrite !sfind_keys in H.
  destruct (sfind k a) as [[]|], (sfind k b) as [[]|]; try reflexivity; exfalso; [apply (proj1 H); congruence|apply (proj2 H); congruence].
Qed.

(** ---- the two loops ---- *)
Section Groups.
  Variable opts : smap opt.
  Hypothesis So : ssorted opts.
  Definition fam (k x : str) : Prop := is_opt opts x = true /\ (x = k \/ help_of opts x = k).
  Definition sane (mp : mapargs) : Prop :=
    ssorted mp /\ forall k s, sfind k mp = Some s -> ssorted s /\ In k (skeys s) /\ is_opt opts k = true /\ forall x, In x (skeys s) -> fam k x.
  Lemma is_opt_in n o : In (n, o) opts -> sfind n opts = Some o /\ is_opt opts n = true /\ help_of opts n = o_help o.
  Proof. intros I. pose proof (sin_find _ _ _ So I) as F. split; [exact F|]. unfold is_opt, shas, m_has, help_of. unfold sfind in F. rewrite F. unfold sfind. rewrite F. auto. Qed.
  Lemma sane_set mp k s : sane mp -> ssorted s -> In k (skeys s) -> is_opt opts k = true -> (forall x, In x (skeys s) -> fam k x) -> sane (sset k s mp).
  Proof.
    intros [A B] C D E F. split; [apply sset_sorted; exact A|]. intros k' s'. destruct (str_dec k' k) as [->|N].
    - rewrite sfind_set_eq. intros Q; injection Q as <-. auto.
    - rewrite sfind_set_ne by exact N. apply B.
  Qed.
  Lemma sane_insert mp k x : sane mp -> is_opt opts k = true -> fam k x -> (sfind k mp = None -> x = k) -> sane (mp_insert k x mp).
  Proof.
    intros Sm O F N. unfold mp_insert. pose proof Sm as [A B]. destruct (sfind k mp) as [s|] eqn:E.
    - destruct (B _ _ E) as (C & D & _ & G). apply sane_set; [exact Sm|apply sset_sorted; exact C|apply set1_keys; auto|exact O|]. intros y I. apply set1_keys in I. destruct I as [->|I]; auto.
    - rewrite (N eq_refl). apply sane_set; [exact Sm|apply sset_sorted; exact I|apply set1_keys; auto|exact O|]. intros y Iy. apply set1_keys in Iy. destruct Iy as [->|[]]. split; auto.
  Qed.
  Lemma insert_has k x mp k' : sfind k' (mp_insert k x mp) <> None <-> k' = k \/ sfind k' mp <> None.
  Proof.
    unfold mp_insert. destruct (str_dec k' k) as [->|N]; [rewrite sfind_set_eq; split; [auto|discriminate]|]. rewrite sfind_set_ne by exact N. tauto.
  Qed.
  (** After the first loop every option has a set. *)
  Lemma pass1_ok l : forall mp, (forall e, In e l -> In e opts) -> sane mp ->
    sane (fold_left pass1 l mp) /\ forall k, sfind k (fold_left pass1 l mp) <> None <-> In k (map fst l) \/ sfind k mp <> None.
  Proof.
    induction l as [|[n o] l IH]; intros mp Hl Sm; cbn [fold_left map fst]; [split; [exact Sm|]; intros; cbn; tauto|].
    destruct (is_opt_in n o) as (Fn & On & Hn); [apply Hl; left; reflexivity|].
    assert (sane (pass1 mp (n, o)) /\ forall k, sfind k (pass1 mp (n, o)) <> None <-> k = n \/ sfind k mp <> None) as [A B].
    { unfold pass1. destruct (sfind (o_help o) mp) as [s|] eqn:E.
      - pose proof Sm as [_ Q]. destruct (Q _ _ E) as (C & D & Oh & F).
        assert (sane (sset (o_help o) (sset1 n s) mp)) as S1.
        { apply sane_set; [exact Sm|apply sset_sorted; exact C|apply set1_keys; auto|exact Oh|]. intros x I. apply set1_keys in I. destruct I as [->|I]; [|auto]. split; [exact On|right; exact Hn]. }
        split; [apply sane_insert; [exact S1|exact On|split; auto|reflexivity]|]. intros k. rewrite insert_has. destruct (str_dec k (o_help o)) as [->|N]; [rewrite sfind_set_eq, E; split; [intros _; right; discriminate|intros _; right; discriminate]|rewrite sfind_set_ne by exact N; tauto].
      - split; [apply sane_insert; [exact Sm|exact On|split; auto|reflexivity]|]. intros k. apply insert_has. }
    destruct (IH (pass1 mp (n, o))) as [C D]; [intros; apply Hl; right; assumption|exact A|]. split; [exact C|]. intros k. rewrite D, B. cbn [In]. intuition congruence.
  Qed.
  Hypothesis Flat : flat_aliases opts.
  (** What is left in the second loop, [l] still to come: aliases already seen
      are gone, all other options are there, and the families have the aliases seen. *)
  Definition mid (seen : list str) (mp : mapargs) : Prop :=
    sane mp /\
    (forall k, is_opt opts k = true -> (sfind k mp <> None <-> ~ (In k seen /\ is_opt opts (help_of opts k) = true))) /\
    (forall x, In x seen -> is_opt opts x = true -> is_opt opts (help_of opts x) = true -> exists s, sfind (help_of opts x) mp = Some s /\ In x (skeys s)).
  Lemma pass2_step seen n o mp : In (n, o) opts -> ~ In n seen -> mid seen mp -> exists mp', pass2 (Some mp) (n, o) = Some mp' /\ mid (seen ++ [n]) mp'.
  Proof.
    intros I Ns (Sm & P & Al). destruct (is_opt_in n o I) as (Fn & On & Hn). cbn [pass2]. rewrite <- Hn. destruct (sfind (help_of opts n) mp) as [s|] eqn:E.
    - pose proof Sm as [Q1 Q]. destruct (Q _ _ E) as (C & D & Oh & F). pose proof (Flat n On Oh) as Nh.
      assert (help_of opts n <> n) as Nn. { intros X. rewrite X in Nh. rewrite X in Nh. congruence. }
      rewrite (sfind_set_ne n (help_of opts n)) by congruence.
      destruct (sfind n mp) as [t|] eqn:Et; [|exfalso; apply (proj2 (P n On)); [tauto|exact Et]].
      eexists. split; [reflexivity|]. destruct (Q _ _ Et) as (Ct & Dt & _ & Ft).
      assert (forall x, In x (skeys t) -> x = n) as Tn. { intros x Ix. destruct (Ft x Ix) as [Ox [->|X]]; [reflexivity|]. exfalso. assert (is_opt opts (help_of opts x) = true) as O1 by (rewrite X; exact On). pose proof (Flat x Ox O1) as O2. rewrite X in O2. congruence. }
      set (s' := fold_left (fun s0 x => sset1 x s0) (skeys t) (sset1 n s)).
      assert (forall x, In x (skeys s') <-> x = n \/ In x (skeys s)) as Ks. { intros x. unfold s'. rewrite fold_set1, set1_keys. split; [intros [Ix|?]; [left; apply Tn; exact Ix|tauto]|tauto]. }
      assert (sane (sset (help_of opts n) s' (sset (help_of opts n) (sset1 n s) mp))) as S2.
      { apply sane_set; [apply sane_set; [exact Sm|apply sset_sorted; exact C|apply set1_keys; auto|exact Oh|]| | |exact Oh|].
        - intros x Ix. apply set1_keys in Ix. destruct Ix as [->|Ix]; [split; auto|auto].
        - apply fold_set1_sorted, sset_sorted, C.
        - apply Ks. auto.
        - intros x Ix. apply Ks in Ix. destruct Ix as [->|Ix]; [split; auto|auto]. }
      assert (forall k, sfind k (serase n (sset (help_of opts n) s' (sset (help_of opts n) (sset1 n s) mp))) = if str_dec k n then None else if str_dec k (help_of opts n) then Some s' else sfind k mp) as Fk.
      { intros k. destruct (str_dec k n) as [->|N]; [apply sfind_erase_eq; apply S2|]. rewrite sfind_erase_ne by exact N. destruct (str_dec k (help_of opts n)) as [->|N']; [apply sfind_set_eq|]. rewrite !sfind_set_ne by exact N'. reflexivity. }
      split; [|split].
      + split; [apply serase_sorted; apply S2|]. intros k s0. rewrite Fk. destruct (str_dec k n) as [|N]; [discriminate|]. destruct (str_dec k (help_of opts n)) as [->|N']; [|apply Q]. intros X; injection X as <-. apply (proj2 S2 (help_of opts n) s'). apply sfind_set_eq.
      + intros k Ok. rewrite Fk, in_app_iff. destruct (str_dec k n) as [->|N]; [split; [congruence|]; intros X; exfalso; apply X; split; [right; left; reflexivity|exact Oh]|].
        destruct (str_dec k (help_of opts n)) as [->|N']; [split; [|discriminate]; intros _ [_ X]; congruence|]. rewrite (P k Ok). cbn [In]. intuition congruence.
      + intros x Ix Ox Oa. apply in_app_iff in Ix. destruct Ix as [Ix|[<-|[]]].
        * destruct (Al x Ix Ox Oa) as (s0 & E0 & I0). assert (help_of opts x <> n) as N. { intros X. pose proof (Flat x Ox Oa) as Y. rewrite X in Y. congruence. }
          destruct (str_dec (help_of opts x) (help_of opts n)) as [X|X].
          -- exists s'. rewrite Fk, X. destruct (str_dec (help_of opts n) n); [congruence|]. destruct (str_dec (help_of opts n) (help_of opts n)); [|congruence]. split; [reflexivity|]. apply Ks. right. rewrite X, E in E0. injection E0 as <-. exact I0.
          -- exists s0. rewrite Fk. destruct (str_dec (help_of opts x) n); [congruence|]. destruct (str_dec (help_of opts x) (help_of opts n)); [congruence|]. auto.
        * exists s'. rewrite Fk. destruct (str_dec (help_of opts n) n); [congruence|]. destruct (str_dec (help_of opts n) (help_of opts n)); [|congruence]. split; [reflexivity|]. apply Ks. auto.
    - assert (is_opt opts (help_of opts n) = false) as Oh. { destruct (is_opt opts (help_of opts n)) eqn:Oh; [|reflexivity]. exfalso. pose proof (Flat n On Oh) as Nh. apply (proj2 (P _ Oh)); [intros [_ X]; congruence|exact E]. }
      eexists. split; [reflexivity|]. assert (sfind n mp <> None) as Hn'. { apply (P n On). intros [X _]. exact (Ns X). }
      split; [apply sane_insert; [exact Sm|exact On|split; auto|contradiction]|]. split.
      + intros k Ok. rewrite insert_has, in_app_iff. destruct (str_dec k n) as [->|N]; [split; [|auto]; intros _ [_ X]; congruence|]. rewrite (P k Ok). cbn [In]. intuition congruence.
      + intros x Ix Ox Oa. apply in_app_iff in Ix. destruct Ix as [Ix|[<-|[]]]; [|congruence]. destruct (Al x Ix Ox Oa) as (s0 & E0 & I0). unfold mp_insert. destruct (str_dec (help_of opts x) n) as [X|X].
        * rewrite X, sfind_set_eq. eexists. split; [reflexivity|]. apply set1_keys. right. rewrite X in E0. rewrite E0. exact I0.
        * rewrite sfind_set_ne by exact X. eauto.
  Qed.
  Lemma pass2_ok l : forall seen mp, (forall e, In e l -> In e opts) -> NoDup (map fst l) -> (forall n, In n (map fst l) -> ~ In n seen) -> mid seen mp ->
    exists mp', fold_left pass2 l (Some mp) = Some mp' /\ mid (seen ++ map fst l) mp'.
  Proof.
    induction l as [|[n o] l IH]; intros seen mp Hl Nd Ns M; cbn [fold_left map fst]; [exists mp; rewrite app_nil_r; auto|]. cbn [map fst] in Nd. inversion Nd as [|? ? N1 N2]; subst.
    destruct (pass2_step seen n o mp) as (mp1 & E & M1); [apply Hl; left; reflexivity|apply Ns; left; reflexivity|exact M|]. rewrite E.
    destruct (IH (seen ++ [n]) mp1) as (mp' & E' & M'); [intros; apply Hl; right; assumption|exact N2| |exact M1|].
    { intros k Ik X. apply in_app_iff in X. destruct X as [X|[<-|[]]]; [eapply Ns; [right; exact Ik|exact X]|exact (N1 Ik)]. }
    exists mp'. split; [exact E'|]. rewrite <- app_assoc in M'. exact M'.
  Qed.
  Lemma groups_ok : help_groups opts = Some (groups opts).
  Proof.
    destruct (pass1_ok opts [] (fun e H => H)) as [S1 H1]; [split; [exact I|discriminate]|].
    destruct (pass2_ok opts [] (fold_left pass1 opts []) (fun e H => H) (ssorted_NoDup _ So)) as (mp & E & (Sm & P & Al)); [auto| |].
    { split; [exact S1|]. split; [|intros x []]. intros k Ok. split; [intros _ [[] _]|]. intros _. apply H1. left. change (In k (skeys opts)). apply sfind_keys, shas_true, Ok. }
    unfold help_groups. rewrite E. f_equal. cbn [app] in P, Al.
    assert (forall k, In k (map fst opts) <-> is_opt opts k = true) as Ik. { intros k. change (In k (skeys opts) <-> is_opt opts k = true). rewrite sfind_keys. symmetry. apply shas_true. }
    apply smap_ext; [apply Sm|apply (sorted_filter (fun m => map (fun n => (n, tt)) (family opts m))); exact So|]. intros k.
    unfold groups, heads. rewrite (find_filter (fun m => map (fun n => (n, tt)) (family opts m))) by exact So. fold (is_opt opts k).
    destruct (is_opt opts k) eqn:Ok; cbn [andb].
    2:{ destruct (sfind k mp) as [s|] eqn:F; [|reflexivity]. destruct (proj2 Sm _ _ F) as (_ & _ & X & _). congruence. }
    destruct (is_opt opts (help_of opts k)) eqn:Oh; cbn [negb].
    - destruct (sfind k mp) as [s|] eqn:F; [|reflexivity]. exfalso. apply (proj1 (P k Ok)); [congruence|]. rewrite Ik. auto.
    - destruct (sfind k mp) as [s|] eqn:F; [|exfalso; apply (proj2 (P k Ok)); [intros [_ X]; congruence|exact F]]. f_equal.
      destruct (proj2 Sm _ _ F) as (Ss & Sk & _ & Sf). apply set_ext; [exact Ss|apply (sorted_filter (fun _ => tt)); exact So|]. intros x.
      unfold skeys at 2, m_keys. rewrite map_map. cbn [fst]. rewrite map_id. unfold family. rewrite filter_In, orb_true_iff, !str_eqb_eq. change (In x (skeys opts)) with (In x (map fst opts)). rewrite Ik. split.
      + intros Ix. apply Sf in Ix. exact Ix.
      + intros [Ox [->|X]]; [exact Sk|]. destruct (Al x) as (s0 & E0 & I0); [apply Ik; exact Ox|exact Ox|rewrite X; exact Ok|]. rewrite X, F in E0. injection E0 as <-. exact I0.
  Qed.
End Groups.
