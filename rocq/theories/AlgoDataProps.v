(** AlgoDataProps.v -- C55 (paired points of keyed maps), C76 (matched features),
    C77 (filtered descriptors), C78 (correspondences given to optimize). *)
From Coq Require Import List ZArith Lia Bool.
From Verif Require Import Base AlgoDataModel.
Import ListNotations.
Local Open Scope Z_scope.

Lemma zfind_set_eq {V} k (v : V) m : zfind k (zset k v m) = Some v.
Proof. apply m_find_set_eq; auto using Zcmp_eq, Zcmp_antisym. Qed.
Lemma zfind_set_ne {V} k k' (v : V) m : k <> k' -> zfind k (zset k' v m) = zfind k m.
Proof. apply m_find_set_ne; auto using Zcmp_eq, Zcmp_antisym. Qed.
Lemma zset_sorted {V} k (v : V) m : zsorted m -> zsorted (zset k v m).
Proof. apply m_set_sorted; auto using Zcmp_eq, Zcmp_antisym. apply Zcmp_trans. Qed.
Lemma zin_find {V} k (v : V) m : zsorted m -> In (k, v) m -> zfind k m = Some v.
Proof. apply m_in_find; auto using Zcmp_eq, Zcmp_antisym. Qed.
Lemma zfind_in {V} k (v : V) m : zfind k m = Some v -> In (k, v) m.
Proof. apply m_find_in; auto using Zcmp_eq, Zcmp_antisym. Qed.
Lemma zmap_ext {V} (a b : zmap V) : zsorted a -> zsorted b -> (forall k, zfind k a = zfind k b) -> a = b.
Proof. apply m_ext; auto using Zcmp_eq, Zcmp_antisym. apply Zcmp_trans. Qed.
Lemma zhas_true {V} k (m : zmap V) : zhas k m = true <-> zfind k m <> None.
Proof. apply m_has_true. Qed.
Lemma zfind_cons {V} k k' (v : V) m : zfind k ((k', v) :: m) = if Z.eqb k k' then Some v else zfind k m.
Proof. unfold zfind. cbn [m_find]. destruct (Z.compare_spec k k') as [E|E|E]; destruct (Z.eqb_spec k k'); auto; lia. Qed.
Lemma zfind_below {V} k (m : zmap V) : (forall k' v, In (k', v) m -> k < k') -> zfind k m = None.
Proof. intro H. destruct (zfind k m) as [v|] eqn:E; auto. apply zfind_in, H in E. lia. Qed.
Lemma zsorted_cons {V} k (v : V) m : zsorted ((k, v) :: m) -> zsorted m /\ forall k' v', In (k', v') m -> k < k'.
Proof. intros [H1 H2]. split; auto. intros k' v' Hin. apply (m_above_in Z.compare k k' v' m H1) in Hin. apply Z.compare_lt_iff. auto. Qed.

(** Specification: the keys of both maps, in increasing order, each with the two
    values. *)
Definition shared {A B} (from : zmap A) (to : zmap B) : list (Z * (A * B)) :=
  flat_map (fun p => match zfind (fst p) to with Some b => [(fst p, (snd p, b))] | None => [] end) from.
Lemma shared_in {A B} (from : zmap A) (to : zmap B) k a b : zsorted from -> In (k, (a, b)) (shared from to) <-> zfind k from = Some a /\ zfind k to = Some b.
Proof.
  intro S. unfold shared. rewrite in_flat_map. split.
  - intros ((k', a') & Hin & H). cbn [fst snd] in H. destruct (zfind k' to) as [b'|] eqn:E; [|destruct H]. destruct H as [H|[]]. injection H as <- <- <-. split; auto. apply zin_find; auto.
  - intros (H1 & H2). exists (k, a). split; [apply zfind_in; auto|]. cbn [fst snd]. rewrite H2. left. reflexivity.
Qed.
Lemma shared_sorted {A B} (from : zmap A) (to : zmap B) : zsorted from -> zsorted (shared from to).
Proof.
  induction from as [|(k, a) from IH]; cbn [shared flat_map]; intro H; [exact I|]. pose proof H as H0. apply zsorted_cons in H. destruct H as (H & Hk). cbn [fst snd].
  specialize (IH H). destruct (zfind k to) as [b|]; [|exact IH]. split; [|exact IH].
  assert (X : forall l, (forall k' (v : A * B), In (k', v) l -> k < k') -> m_above Z.compare k l).
  { induction l as [|(k1, v1) l IHl]; intro Y; [exact I|]. split; [apply Z.compare_lt_iff, (Y k1 v1); left; auto|]. apply IHl. intros k' v Hv. apply (Y k' v). right. auto. }
  apply X. intros k' (a', b') Hin. apply (proj1 (shared_in from to k' a' b' H)) in Hin. destruct Hin as (Hin & _). apply zfind_in in Hin. eapply Hk; eauto.
Qed.
Fixpoint all_some {A B} (l : list (Z * (option A * option B))) : option (list (A * B)) :=
  match l with
  | [] => Some []
  | (_, (Some a, Some b)) :: l => match all_some l with Some r => Some ((a, b) :: r) | None => None end
  | _ => None
  end.
Lemma shared_skip {A B} (from : zmap A) (to : zmap B) t b : (forall k v, In (k, v) from -> t < k) -> shared from ((t, b) :: to) = shared from to.
Proof.
  intro H. unfold shared. induction from as [|(k, a) from IH]; [reflexivity|]. cbn [flat_map fst snd]. rewrite zfind_cons. pose proof (H k a (or_introl eq_refl)). destruct (Z.eqb_spec k t); [lia|]. rewrite IH; auto. intros k' v Hin. apply (H k' v). right. auto.
Qed.
Lemma map_to_pts_shared {A P} (loc : A -> P) : forall fuel from to fp tp, (length from + length to <= fuel)%nat -> zsorted from -> zsorted to ->
  map_to_pts loc fuel from to fp tp = match all_some (shared from to) with Some l => Ok (fp ++ map (fun q => loc (fst q)) l, tp ++ map (fun q => loc (snd q)) l) | None => UB end.
Proof.
  induction fuel as [|fuel IH]; intros from to fp tp L Sf St.
  - destruct from; [|cbn in L; lia]. cbn. rewrite !app_nil_r. reflexivity.
  - destruct from as [|(f, a) from]. { cbn. rewrite !app_nil_r. reflexivity. }
    destruct to as [|(t, b) to]. { cbn [map_to_pts]. replace (shared ((f, a) :: from) []) with (@nil (Z * (option A * option A))); [cbn; rewrite !app_nil_r; reflexivity|]. unfold shared. generalize ((f, a) :: from). intro l. induction l as [|x l IHl]; [reflexivity|]. cbn [flat_map]. rewrite <- IHl. reflexivity. }
    pose proof (zsorted_cons _ _ _ Sf) as (Sf' & Hf). pose proof (zsorted_cons _ _ _ St) as (St' & Ht). cbn [map_to_pts length] in *.
    destruct (Z.ltb_spec t f) as [C|C].
    + rewrite IH by (auto; cbn [length]; lia). rewrite shared_skip; auto. intros k v [E|Hin]; [injection E as <- <-; lia|]. apply Hf in Hin. lia.
    + destruct (Z.ltb_spec f t) as [C'|C'].
      * rewrite IH by (auto; cbn [length]; lia). cbn [shared flat_map fst snd]. rewrite zfind_below; [reflexivity|]. intros k' v [E|Hin]; [injection E as <- <-; lia|]. apply Ht in Hin. lia.
      * assert (f = t) by lia. subst t. cbn [shared flat_map fst snd]. rewrite zfind_cons, Z.eqb_refl. cbn [app all_some].
        fold (shared from ((f, b) :: to)). rewrite shared_skip by (intros k v Hin; eapply Hf; eauto).
        destruct a as [a|]; [|reflexivity]. destruct b as [b|]; [|reflexivity]. rewrite IH by (auto; lia). destruct (all_some (shared from to)); [|reflexivity]. cbn [map fst snd]. rewrite <- !app_assoc. reflexivity.
Qed.
Lemma all_some_spec {A B} (l : list (Z * (option A * option B))) :
  (forall r, all_some l = Some r <-> map snd l = map (fun q => (Some (fst q), Some (snd q))) r) /\
  (all_some l = None <-> exists k a b, In (k, (a, b)) l /\ (a = None \/ b = None)).
Proof.
  induction l as [|(k, (a, b)) l (IH1 & IH2)].
  - split.
    + intro r. cbn. split; [intro E; injection E as <-; reflexivity|]. destruct r; [reflexivity|discriminate].
    + cbn. split; [discriminate|]. intros (k & a & b & [] & _).
  - cbn [all_some map snd]. destruct a as [a|], b as [b|]; cycle 1.
    1-3: split; [intro r; split; [discriminate|]; destruct r as [|(x, y) r]; cbn; intro E; discriminate|split; auto; intros _; eexists k, _, _; split; [left; reflexivity|auto]].
    split.
    + intro r. destruct (all_some l) as [r'|] eqn:E.
      * split; intro H. -- injection H as <-. cbn [map fst snd]. f_equal. apply IH1. auto.
        -- destruct r as [|(x, y) r]; [discriminate|]. cbn [map fst snd] in H. injection H as -> -> H. apply IH1 in H. injection H as ->. reflexivity.
      * split; [discriminate|]. intro H. destruct r as [|(x, y) r]; [discriminate|]. cbn [map fst snd] in H. injection H as -> -> H. apply IH1 in H. discriminate.
    + destruct (all_some l) as [r'|] eqn:E.
      * split; [discriminate|]. intros (k1 & a1 & b1 & [H|H] & N); [injection H as <- <- <-; destruct N; discriminate|]. enough (Some r' = None) by discriminate. apply IH2. eauto 10.
      * split; auto. intros _. destruct (proj1 IH2 eq_refl) as (k1 & a1 & b1 & H & N). exists k1, a1, b1. split; auto. right. auto.
Qed.

(** C55: the points of two keyed maps are paired exactly by the keys present in
    both maps, in increasing order; null entries matter only at shared keys. *)
Theorem C55_map_points : forall {A P} (loc : A -> P) (from to : zmap (option A)), zsorted from -> zsorted to ->
  zsorted (shared from to) /\
  (forall k a b, In (k, (a, b)) (shared from to) <-> zfind k from = Some a /\ zfind k to = Some b) /\
  map_points loc from to <> Stuck /\
  (map_points loc from to = UB <-> exists k a b, zfind k from = Some a /\ zfind k to = Some b /\ (a = None \/ b = None)) /\
  (forall l, map snd (shared from to) = map (fun q => (Some (fst q), Some (snd q))) l ->
     map_points loc from to = Ok (map (fun q => loc (fst q)) l, map (fun q => loc (snd q)) l)).
Proof.
  intros A P loc from to Sf St. unfold map_points. rewrite map_to_pts_shared by auto. destruct (all_some_spec (shared from to)) as (S1 & S2).
  split; [apply shared_sorted; auto|]. split; [intros; apply shared_in; auto|]. split; [destruct (all_some (shared from to)); discriminate|]. split.
  - transitivity (all_some (shared from to) = None); [destruct (all_some (shared from to)); split; discriminate || auto|]. rewrite S2. split.
    + intros (k & a & b & H & N). apply shared_in in H; auto. exists k, a, b. tauto.
    + intros (k & a & b & H1 & H2 & N). exists k, a, b. split; auto. apply shared_in; auto.
  - intros l H. apply S1 in H. rewrite H. reflexivity.
Qed.
Print Assumptions C55_map_points.
Example C55_example : map_points (fun n : nat => n) [(1, Some 10%nat); (3, Some 30%nat); (5, None)] [(0, None); (1, Some 11%nat); (3, Some 33%nat); (4, Some 44%nat)] = Ok ([10%nat; 30%nat], [11%nat; 33%nat]).
Proof. reflexivity. Qed.
(** C55: the vector overloads pass the points in order. *)
Theorem C55_vec_points : forall {A P} (loc : A -> P) l,
  (forall l', l = map Some l' -> vec_points loc l [] = Ok (map loc l')) /\ (In None l <-> vec_points loc l [] = UB) /\ vec_points loc l [] <> Stuck.
Proof.
  intros A P loc l. assert (G : forall l acc, (forall l', l = map Some l' -> vec_points loc l acc = Ok (acc ++ map loc l')) /\ (In None l <-> vec_points loc l acc = UB) /\ vec_points loc l acc <> Stuck).
  { clear l. induction l as [|[a|] l IH]; intro acc; cbn [vec_points].
    - split; [intros [|] E; [cbn; rewrite app_nil_r; auto|discriminate]|]. split; [split; [intros []|discriminate]|discriminate].
    - destruct (IH (acc ++ [loc a])) as (I1 & I2 & I3). split; [|split; auto].
      + intros [|a' l'] E; [discriminate|]. cbn [map] in E. injection E as <- E. rewrite (I1 l' E), <- app_assoc. reflexivity.
      + rewrite <- I2. split; [intros [H|H]; [discriminate|auto]|intro; right; auto].
    - split; [intros [|] E; discriminate|]. split; [split; auto; intros _; left; auto|discriminate]. }
  apply (G l []).
Qed.
Print Assumptions C55_vec_points.

(** C76: the two point lists built from a match set are aligned with the matches:
    as many as matches, the i-th pair being the locations of the two features
    that match i names; undefined exactly if a match names a feature that is
    not there. *)
Definition names {A} (vf1 vf2 : list (option A)) (m : nat * nat) (ab : A * A) : Prop :=
  nth_error vf1 (fst m) = Some (Some (fst ab)) /\ nth_error vf2 (snd m) = Some (Some (snd ab)).
Theorem C76_match_points : forall {A P} (loc : A -> P) vf1 vf2 ms,
  (forall l, Forall2 (names vf1 vf2) ms l -> match_points loc vf1 vf2 ms [] [] = Ok (map (fun q => loc (fst q)) l, map (fun q => loc (snd q)) l)) /\
  (match_points loc vf1 vf2 ms [] [] = UB <-> exists m, In m ms /\ forall ab, ~ names vf1 vf2 m ab) /\
  match_points loc vf1 vf2 ms [] [] <> Stuck.
Proof.
  intros A P loc vf1 vf2 ms.
  assert (G : forall ms a b, (forall l, Forall2 (names vf1 vf2) ms l -> match_points loc vf1 vf2 ms a b = Ok (a ++ map (fun q => loc (fst q)) l, b ++ map (fun q => loc (snd q)) l)) /\
    (match_points loc vf1 vf2 ms a b = UB <-> exists m, In m ms /\ forall ab, ~ names vf1 vf2 m ab) /\ match_points loc vf1 vf2 ms a b <> Stuck).
  { clear ms. induction ms as [|(i, j) ms IH]; intros a b; cbn [match_points].
    - split; [intros l H; inversion H; cbn; rewrite !app_nil_r; auto|]. split; [split; [discriminate|intros (m & [] & _)]|discriminate].
    - assert (K : (exists x y, nth_error vf1 i = Some (Some x) /\ nth_error vf2 j = Some (Some y)) \/ (forall ab, ~ names vf1 vf2 (i, j) ab)).
      { unfold names. cbn [fst snd]. destruct (nth_error vf1 i) as [[x|]|]; [destruct (nth_error vf2 j) as [[y|]|]; [left; eauto| |]| |]; right; intros (u, v) (H1 & H2); discriminate. }
      destruct K as [(x & y & E1 & E2)|N].
      + rewrite E1, E2. destruct (IH (a ++ [loc x]) (b ++ [loc y])) as (I1 & I2 & I3). split; [|split; auto].
        * intros l H. inversion H as [|m ab ms' l' (N1 & N2) H']. subst. cbn [fst snd] in *. rewrite (I1 l' H'). cbn [map]. rewrite <- !app_assoc. destruct ab as (u, v). cbn [fst snd] in *. rewrite E1 in N1. rewrite E2 in N2. injection N1 as ->. injection N2 as ->. reflexivity.
        * rewrite I2. split; intros (m & H & Hm); exists m; (split; [|auto]); [right; auto|]. destruct H as [H|H]; auto. subst m. elim (Hm (x, y)). split; auto.
      + assert (E : match nth_error vf1 i with Some (Some a0) => match nth_error vf2 j with Some (Some b0) => match_points loc vf1 vf2 ms (a ++ [loc a0]) (b ++ [loc b0]) | _ => UB end | _ => UB end = UB).
        { destruct (nth_error vf1 i) as [[x|]|] eqn:E1; auto. destruct (nth_error vf2 j) as [[y|]|] eqn:E2; auto. elim (N (x, y)). split; auto. }
        rewrite E. split; [intros l H; inversion H as [|m ab ms' l' Nm H']; subst; elim (N _ Nm)|]. split; [|discriminate]. split; auto. intros _. exists (i, j). split; [left; auto|auto]. }
  apply (G ms [] []).
Qed.
Print Assumptions C76_match_points.
Example C76_example : Forall2 (names [Some 5%nat; None; Some 7%nat] [Some 8%nat; Some 9%nat]) [(2%nat, 0%nat); (0%nat, 1%nat)] [(7%nat, 8%nat); (5%nat, 9%nat)].
Proof. repeat constructor. Qed.

(** C77: the descriptors returned with filtered features are, in order, those at
    the indices that the feature filter reported; so if the filter reports where
    each kept feature came from, features and descriptors stay aligned. *)
Lemma Forall2_len {A B} (R : A -> B -> Prop) l m : Forall2 R l m -> length l = length m.
Proof. induction 1; cbn [length]; auto. Qed.
Lemma gather_spec {D} (descr : list D) : forall indices acc,
  (forall l, Forall2 (fun i d => nth_error descr i = Some d) indices l -> gather descr indices acc = Ok (acc ++ l)) /\
  (gather descr indices acc = UB <-> exists i, In i indices /\ (length descr <= i)%nat) /\ gather descr indices acc <> Stuck.
Proof.
  induction indices as [|i indices IH]; intro acc; cbn [gather].
  - split; [intros l H; inversion H; rewrite app_nil_r; auto|]. split; [split; [discriminate|intros (i & [] & _)]|discriminate].
  - destruct (nth_error descr i) as [d|] eqn:E.
    + destruct (IH (acc ++ [d])) as (I1 & I2 & I3). split; [|split; auto].
      * intros l H. inversion H as [|i' d' is l' N H']. subst. rewrite E in N. injection N as <-. rewrite (I1 l' H'), <- app_assoc. reflexivity.
      * rewrite I2. split; intros (j & H & Hj); exists j; (split; [|auto]); [right; auto|]. destruct H as [H|H]; auto. subst j. apply nth_error_None in Hj. congruence.
    + split; [intros l H; inversion H; congruence|]. split; [|discriminate]. split; auto. intros _. exists i. split; [left; auto|]. apply nth_error_None. auto.
Qed.
Theorem C77_filter : forall {F D} (filter : list F -> list F * list nat) feat (descr : list D),
  let kept := fst (filter feat) in let indices := snd (filter feat) in
  (forall l, Forall2 (fun i d => nth_error descr i = Some d) indices l -> filter_both filter feat descr = Ok (kept, l) /\ length l = length indices) /\
  (filter_both filter feat descr = UB <-> exists i, In i indices /\ (length descr <= i)%nat) /\
  (length descr = length feat -> Forall2 (fun i f => nth_error feat i = Some f) indices kept ->
     exists l, filter_both filter feat descr = Ok (kept, l) /\ length l = length kept /\
       forall n f d, nth_error kept n = Some f -> nth_error l n = Some d -> exists i, nth_error feat i = Some f /\ nth_error descr i = Some d).
Proof.
  intros F D filter feat descr kept indices. unfold filter_both. fold kept indices. destruct (filter feat) as [kf is] eqn:E. cbn [fst snd] in kept, indices. subst kept indices.
  destruct (gather_spec descr is []) as (G1 & G2 & G3). cbn [app] in G1.
  assert (P1 : forall l, Forall2 (fun i d => nth_error descr i = Some d) is l -> match gather descr is [] with Ok d => Ok (kf, d) | UB => UB | Stuck => Stuck end = Ok (kf, l) /\ length l = length is).
  { intros l H. rewrite (G1 l H). split; auto. symmetry. eapply Forall2_len; exact H. }
  split; [exact P1|]. split.
  - rewrite <- G2. destruct (gather descr is []); split; intro; auto; discriminate.
  - intros Len H. assert (X : exists l, Forall2 (fun i d => nth_error descr i = Some d) is l).
    { clear - Len H. induction H as [|i f is kf Hi H (l & IH)]; [exists []; constructor|]. destruct (nth_error descr i) as [d|] eqn:N; [exists (d :: l); constructor; auto|]. apply nth_error_None in N. assert (nth_error feat i <> None) by congruence. apply nth_error_Some in H0. lia. }
    destruct X as (l & X). destruct (P1 l X) as (E1 & E2). exists l. split; auto. split; [rewrite E2; exact (Forall2_len _ _ _ H)|].
    clear - H X. intros n f d. revert l X kf H. revert n. induction is as [|i is IH]; intros n l X kf H; inversion X; inversion H; subst; destruct n; cbn [nth_error]; try discriminate.
    + intros A B. injection A as <-. injection B as <-. eauto.
    + intros A B. eapply IH; eauto.
Qed.
Print Assumptions C77_filter.
Example C77_example : filter_both (fun l : list nat => (filter Nat.even l, [1%nat; 2%nat])) [1%nat; 4%nat; 6%nat] [10; 40; 60] = Ok ([4%nat; 6%nat], [40; 60]).
Proof. reflexivity. Qed.

(** ---- C78: optimize_cameras ---- *)
Section C78.
  Context {F L C : Type}.
  (** Specification: all features seen on frame f by tracks named tid, in the
      order of the track list and of the states. *)
  Definition observed (trks : list (@atrack F)) (tid f : Z) : list F :=
    flat_map (fun t => if Z.eqb (at_id t) tid then flat_map (fun s => if Z.eqb (ts_frame s) f then match ts_feat s with Some x => [x] | None => [] end else []) (at_states t) else []) trks.
  Definition last_opt {X} (l : list X) : option X := match rev l with [] => None | x :: _ => Some x end.
  Lemma last_opt_app {X} (l : list X) x : last_opt (l ++ [x]) = Some x.
  Proof. unfold last_opt. rewrite rev_app_distr. reflexivity. Qed.
  Lemma last_opt_app2 {X} (l m : list X) : last_opt (l ++ m) = match last_opt m with Some x => Some x | None => last_opt l end.
  Proof. unfold last_opt. rewrite rev_app_distr. destruct (rev m); reflexivity. Qed.

  Definition look (m : zmap (zmap F)) (f tid : Z) : option F := match zfind f m with Some i => zfind tid i | None => None end.
  Definition good (m : zmap (zmap F)) : Prop := forall f i, zfind f m = Some i -> zsorted i.
  Lemma add_state_look (cams : zmap C) tid m s f t : good m ->
    good (add_state cams tid m s) /\
    look (add_state cams tid m s) f t = match (if (Z.eqb (ts_frame s) f && Z.eqb tid t && zhas f cams)%bool then ts_feat s else None) with Some x => Some x | None => look m f t end.
  Proof.
    intro G. unfold add_state. destruct (ts_feat s) as [x|]; [|split; auto; destruct (_ && _)%bool; reflexivity].
    destruct (zhas (ts_frame s) cams) eqn:H.
    - set (inner := match zfind (ts_frame s) m with Some i => i | None => [] end). assert (Si : zsorted inner) by (unfold inner; destruct (zfind (ts_frame s) m) eqn:E; [eapply G; eauto|exact I]). split.
      + intros f' i. destruct (Z.eq_dec f' (ts_frame s)) as [->|N]; [rewrite zfind_set_eq; intro E; injection E as <-; apply zset_sorted; auto|rewrite zfind_set_ne by auto; apply G].
      + unfold look. destruct (Z.eqb_spec (ts_frame s) f) as [E|N]; [|rewrite zfind_set_ne by auto; reflexivity]. subst f. rewrite zfind_set_eq, H. destruct (Z.eqb_spec tid t) as [->|N]; cbn [andb].
        * rewrite zfind_set_eq. reflexivity.
        * rewrite zfind_set_ne by auto. unfold inner. destruct (zfind (ts_frame s) m); reflexivity.
    - split; auto. destruct (Z.eqb_spec (ts_frame s) f) as [E|N]; [subst f; rewrite H, andb_false_r|]; reflexivity.
  Qed.
  Lemma add_states_look (cams : zmap C) tid : forall ss m f t, good m ->
    good (fold_left (add_state cams tid) ss m) /\
    look (fold_left (add_state cams tid) ss m) f t =
      match (if (Z.eqb tid t && zhas f cams)%bool then last_opt (flat_map (fun s => if Z.eqb (ts_frame s) f then match ts_feat s with Some x => [x] | None => [] end else []) ss) else None) with Some x => Some x | None => look m f t end.
  Proof.
    induction ss as [|s ss IH]; intros m f t G; cbn [fold_left flat_map]; [split; auto; destruct (_ && _)%bool; reflexivity|].
    destruct (add_state_look cams tid m s f t G) as (G' & E). destruct (IH (add_state cams tid m s) f t G') as (G2 & E2). split; auto. rewrite E2, E. clear.
    destruct (Z.eqb tid t); cbn [andb]; [|rewrite andb_false_r; reflexivity]. rewrite andb_true_r. destruct (zhas f cams); [|rewrite andb_false_r; reflexivity]. rewrite andb_true_r, last_opt_app2.
    destruct (last_opt (flat_map _ ss)); auto. destruct (Z.eqb (ts_frame s) f); auto. destruct (ts_feat s); reflexivity.
  Qed.
  Lemma states_look (cams : zmap C) (lms : zmap L) : forall trks m f t, good m ->
    good (fold_left (add_track cams lms) trks m) /\
    look (fold_left (add_track cams lms) trks m) f t =
      match (if (zhas t lms && zhas f cams)%bool then last_opt (observed trks t f) else None) with Some x => Some x | None => look m f t end.
  Proof.
    induction trks as [|tr trks IH]; intros m f t G; cbn [fold_left]; [split; auto; destruct (_ && _)%bool; reflexivity|].
    assert (K : good (add_track cams lms m tr) /\ look (add_track cams lms m tr) f t = match (if (Z.eqb (at_id tr) t && zhas t lms && zhas f cams)%bool then last_opt (flat_map (fun s => if Z.eqb (ts_frame s) f then match ts_feat s with Some x => [x] | None => [] end else []) (at_states tr)) else None) with Some x => Some x | None => look m f t end).
    { unfold add_track. destruct (zhas (at_id tr) lms) eqn:H.
      - destruct (add_states_look cams (at_id tr) (at_states tr) m f t G) as (G1 & E1). split; auto. rewrite E1. destruct (Z.eqb_spec (at_id tr) t) as [Et|N]; cbn [andb]; [rewrite <- Et, H|]; reflexivity.
      - split; auto. destruct (Z.eqb_spec (at_id tr) t) as [Et|N]; cbn [andb]; [rewrite <- Et, H|]; reflexivity. }
    destruct K as (G1 & E1). destruct (IH _ f t G1) as (G2 & E2). split; auto. rewrite E2, E1. clear. set (g := fun s : tstate => if Z.eqb (ts_frame s) f then match ts_feat s with Some x => [x] | None => [] end else []). assert (Eo : observed (tr :: trks) t f = (if Z.eqb (at_id tr) t then flat_map g (at_states tr) else []) ++ observed trks t f) by reflexivity. rewrite Eo. clear Eo.
    destruct (zhas t lms); cbn [andb]; [|rewrite andb_false_r; reflexivity]. rewrite andb_true_r. destruct (zhas f cams); [|rewrite andb_false_r; reflexivity]. rewrite andb_true_r, last_opt_app2.
    destruct (last_opt (observed trks t f)); auto. destruct (Z.eqb (at_id tr) t); reflexivity.
  Qed.

  (** C78: every camera is optimised once, under its frame, with exactly the
      (feature, landmark) pairs of that frame: one pair for each landmark whose
      track has a feature there, in increasing track id (the last one if there
      are several); a null argument is an exception. *)
  Theorem C78_optimize : forall (opt : C -> list F -> list (option L) -> C) cams trks (lms : zmap L), zsorted cams ->
    exists out, optimize opt (Some cams) (Some trks) (Some lms) = Some out /\ zsorted out /\
    forall f, (zfind f cams = None -> zfind f out = None) /\
      (forall cam, zfind f cams = Some cam -> exists pairs : zmap F,
         zsorted pairs /\ (forall tid x, zfind tid pairs = Some x <-> zfind tid lms <> None /\ last_opt (observed trks tid f) = Some x) /\
         zfind f out = Some (opt cam (map snd pairs) (map (fun q => zfind (fst q) lms) pairs))).
  Proof.
    intros opt cams trks lms Sc. unfold optimize. eexists. split; [reflexivity|]. set (sm := states_map cams lms trks).
    assert (G0 : good []) by (intros f i E; discriminate).
    set (inn := fun f => match zfind f sm with Some i => i | None => [] end).
    assert (SI : forall f, zsorted (inn f)). { intro f. unfold inn. destruct (zfind f sm) eqn:E; [|exact I]. destruct (states_look cams lms trks [] f 0 G0) as (G & _). eapply G. exact E. }
    set (step := fun (out : zmap C) (p : Z * C) => let '(v_feat, v_lms) := correspond lms (inn (fst p)) in zset (fst p) (opt (snd p) v_feat v_lms) out).
    assert (Fold : forall l out, zsorted out -> zsorted (fold_left step l out)) by (induction l as [|p l IH]; intros out S; cbn [fold_left]; auto; apply IH; unfold step, correspond; apply zset_sorted; auto).
    assert (FN : forall l out f, zsorted l -> zfind f (fold_left step l out) = match zfind f l with Some cam => Some (opt cam (map snd (inn f)) (map (fun q => zfind (fst q) lms) (inn f))) | None => zfind f out end).
    { induction l as [|(k, c) l IH]; intros out f S; cbn [fold_left]; [reflexivity|]. apply zsorted_cons in S. destruct S as (S & Hk). rewrite IH by auto. rewrite zfind_cons. unfold step, correspond. cbn [fst snd]. destruct (Z.eqb_spec f k) as [->|N].
      - rewrite zfind_below by (intros k' v Hin; eapply Hk; eauto). apply zfind_set_eq.
      - destruct (zfind f l); auto. apply zfind_set_ne. auto. }
    change (zsorted (fold_left step cams []) /\ forall f, (zfind f cams = None -> zfind f (fold_left step cams []) = None) /\
      (forall cam, zfind f cams = Some cam -> exists pairs : zmap F,
         zsorted pairs /\ (forall tid x, zfind tid pairs = Some x <-> zfind tid lms <> None /\ last_opt (observed trks tid f) = Some x) /\
         zfind f (fold_left step cams []) = Some (opt cam (map snd pairs) (map (fun q => zfind (fst q) lms) pairs)))).
    split; [apply Fold; exact I|]. intro f. rewrite FN by auto. split; [intro E; rewrite E; reflexivity|]. intros cam E. rewrite E. exists (inn f). split; auto. split; auto.
    intros tid x. destruct (states_look cams lms trks [] f tid G0) as (_ & LK). change (fold_left (add_track cams lms) trks []) with sm in LK.
    assert (E1 : zfind tid (inn f) = look sm f tid) by (unfold inn, look; destruct (zfind f sm); reflexivity). rewrite E1, LK. assert (Hc : zhas f cams = true) by (apply zhas_true; congruence). rewrite Hc, andb_true_r.
    change (look [] f tid) with (@None F). destruct (zhas tid lms) eqn:H.
    - assert (zfind tid lms <> None) by (apply zhas_true; auto). destruct (last_opt (observed trks tid f)); split; intuition congruence.
    - assert (~ zfind tid lms <> None) by (rewrite <- zhas_true; congruence). split; [discriminate|]. tauto.
  Qed.
  Theorem C78_null : forall (opt : C -> list F -> list (option L) -> C) cams trks lms, optimize opt cams trks lms = None <-> cams = None \/ trks = None \/ lms = None.
  Proof. intros opt [c|] [t|] [l|]; cbn [optimize]; split; intro H; auto; try discriminate; destruct H as [H|[H|H]]; discriminate. Qed.
End C78.
Print Assumptions C78_optimize.
Print Assumptions C78_null.
Example C78_example : optimize (fun (c : Z) (fs : list Z) (ls : list (option Z)) => c + Z.of_nat (length fs)) (Some [(1, 100); (2, 200)])
    (Some [ATrack 7 [TState 1 (Some 5); TState 2 None]; ATrack 8 [TState 1 (Some 6)]; ATrack 9 [TState 2 (Some 6)]]) (Some [(7, 70); (8, 80)]) = Some [(1, 102); (2, 200)].
Proof. reflexivity. Qed.
