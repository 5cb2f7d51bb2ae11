(** Lemmas about CacheModel. *)
From Coq Require Import ZArith List Bool Lia.
Import ListNotations.
From Verif Require Import CacheModel.
Local Open Scope Z_scope.

(** ---- specification of a history ---- *)
(** How many stores of handle p are outstanding; an erase never goes below 0. *)
Definition tick (p : Z) (n : nat) (o : op) : nat :=
  match o with
  | Store s => if s_addr s =? p then S n else n
  | Erase q => if q =? p then Nat.pred n else n
  end.
Definition outstanding (h : list op) (p : Z) : nat := fold_left (tick p) h 0%nat.
(** Plain counting. *)
Definition stores (h : list op) (p : Z) : nat := length (filter (fun o => match o with Store s => s_addr s =? p | Erase _ => false end) h).
Definition erases (h : list op) (p : Z) : nat := length (filter (fun o => match o with Store _ => false | Erase q => q =? p end) h).

Lemma outstanding_snoc h o p : outstanding (h ++ [o]) p = tick p (outstanding h p) o.
Proof. unfold outstanding. rewrite fold_left_app. reflexivity. Qed.
Lemma run_snoc h o : run (h ++ [o]) = do_op (run h) o.
Proof. unfold run. rewrite fold_left_app. reflexivity. Qed.
Lemma upd_eq {A} (f : Z -> A) p v : upd f p v p = v.
Proof. unfold upd. rewrite Z.eqb_refl. reflexivity. Qed.
Lemma upd_ne {A} (f : Z -> A) p q v : q <> p -> upd f p v q = f q.
Proof. intro H. unfold upd. apply Z.eqb_neq in H. rewrite H. reflexivity. Qed.
Lemma outstanding_le h p : (outstanding h p <= length h)%nat.
Proof.
  induction h as [|o h IH] using rev_ind; [cbn; lia|]. rewrite outstanding_snoc, app_length. cbn [length].
  destruct o as [s|q]; cbn [tick]; destruct (_ =? p); lia.
Qed.

(** Since when p has been in the cache. *)
Definition since (h : list op) (p : Z) (s : sptr) : Prop :=
  exists h1 h2, h = h1 ++ Store s :: h2 /\ s_addr s = p /\ outstanding h1 p = 0%nat /\
    forall m, (outstanding (h1 ++ Store s :: firstn m h2) p > 0)%nat.
Lemma since_snoc h p s o : since h p s -> (outstanding (h ++ [o]) p > 0)%nat -> since (h ++ [o]) p s.
Proof.
  intros (h1 & h2 & -> & E & H0 & H) Ho. exists h1, (h2 ++ [o]). split; [rewrite <- app_assoc; reflexivity|]. split; auto. split; auto.
  intro m. destruct (Nat.le_gt_cases m (length h2)) as [L|L].
  - rewrite firstn_app. replace (m - length h2)%nat with 0%nat by lia. cbn [firstn]. rewrite app_nil_r. apply H.
  - rewrite firstn_all2 by (rewrite app_length; cbn; lia). rewrite <- app_assoc in Ho. exact Ho.
Qed.
Lemma since_new h s : outstanding h (s_addr s) = 0%nat -> since (h ++ [Store s]) (s_addr s) s.
Proof.
  intro H. exists h, []. split; auto. split; auto. split; auto. intro m. destruct m; cbn [firstn]; rewrite outstanding_snoc; cbn [tick]; rewrite Z.eqb_refl; lia.
Qed.

(** The invariant. *)
Definition entry (c : cache) (n : nat) (h : list op) (p : Z) : Prop :=
  match n with
  | O => c_ptr c p = None /\ c_ref c p = None
  | S _ => c_ref c p = Some (Z.of_nat n) /\ exists s, c_ptr c p = Some s /\ since h p s
  end.
Lemma size_small z : 0 <= z < 2 ^ 64 -> size_t z = z.
Proof. intro H. apply Z.mod_small. exact H. Qed.
Lemma run_inv h : Z.of_nat (length h) < 2 ^ 64 -> forall p, p <> 0 -> entry (run h) (outstanding h p) h p.
Proof.
  induction h as [|o h IH] using rev_ind; intros HL p Hp.
  - cbn. auto.
  - rewrite app_length in HL. cbn [length] in HL. assert (HL' : Z.of_nat (length h) < 2 ^ 64) by lia. specialize (IH HL').
    pose proof (outstanding_le h p) as OL.
    rewrite run_snoc. pose proof (outstanding_snoc h o p) as OS. 
    assert (Keep : forall c', c_ptr c' p = c_ptr (run h) p -> c_ref c' p = c_ref (run h) p -> tick p (outstanding h p) o = outstanding h p -> entry c' (outstanding (h ++ [o]) p) (h ++ [o]) p).
    { intros c' E1 E2 E3. rewrite OS, E3. specialize (IH p Hp). unfold entry in *. destruct (outstanding h p) as [|n] eqn:O.
      - rewrite E1, E2. exact IH.
      - rewrite E1, E2. destruct IH as [R (s & S1 & S2)]. split; auto. exists s. split; auto. apply since_snoc; auto. rewrite OS, E3. lia. }
    destruct o as [s|q]; cbn [do_op].
    + unfold store. destruct (Z.eqb_spec (s_addr s) 0) as [Z0|Z0].
      { apply Keep; auto. cbn [tick]. destruct (Z.eqb_spec (s_addr s) p); congruence. }
      destruct (Z.eqb_spec (s_addr s) p) as [Ep|Np].
      * subst p. rewrite OS. cbn [tick]. rewrite Z.eqb_refl. specialize (IH _ Hp). destruct (outstanding h (s_addr s)) as [|n] eqn:O; unfold entry in IH.
        -- destruct IH as [E1 E2]. rewrite E1. cbn [fst]. cbn [entry c_ref c_ptr]. rewrite !upd_eq. split; auto. exists s. split; auto. apply since_new; auto.
        -- destruct IH as [R (s0 & S1 & S2)]. rewrite S1. cbn [fst entry c_ref c_ptr]. rewrite upd_eq. unfold ref_at. rewrite R. rewrite size_small by lia. split; [f_equal; lia|].
           exists s0. split; auto. apply since_snoc; auto. rewrite OS. cbn [tick]. rewrite Z.eqb_refl. lia.
      * assert (N : p <> s_addr s) by congruence. destruct (c_ptr (run h) (s_addr s)); apply Keep; cbn [fst c_ptr c_ref]; rewrite ?upd_ne by auto; auto; cbn [tick]; apply Z.eqb_neq in Np; rewrite Np; reflexivity.
    + unfold erase. destruct (Z.eqb_spec q 0) as [Z0|Z0].
      { apply Keep; auto. cbn [tick]. destruct (Z.eqb_spec q p); congruence. }
      destruct (Z.eqb_spec q p) as [Ep|Np].
      * subst q. rewrite OS. cbn [tick]. rewrite Z.eqb_refl. specialize (IH _ Hp). destruct (outstanding h p) as [|n] eqn:O; unfold entry in IH.
        -- destruct IH as [E1 E2]. rewrite E1. cbn [fst Nat.pred entry]. auto.
        -- destruct IH as [R (s0 & S1 & S2)]. rewrite S1. unfold ref_at. rewrite R. cbn [Nat.pred]. rewrite size_small by lia.
           destruct (Z.leb_spec (Z.of_nat (S n) - 1) 0) as [L|L]; cbn [fst].
           ++ destruct n as [|n]; [|lia]. cbn [entry c_ptr c_ref]. rewrite !upd_eq. auto.
           ++ destruct n as [|n]; [lia|]. cbn [entry c_ptr c_ref]. rewrite upd_eq. split; [f_equal; lia|]. exists s0. split; auto. apply since_snoc; auto. rewrite OS. cbn [tick]. rewrite Z.eqb_refl. cbn. lia.
      * assert (N : p <> q) by congruence. apply Z.eqb_neq in Np. destruct (c_ptr (run h) q) as [s0|].
        -- destruct (size_t (ref_at (run h) q - 1) <=? 0); apply Keep; cbn [fst c_ptr c_ref]; rewrite ?upd_ne by auto; auto; cbn [tick]; rewrite Np; reflexivity.
        -- apply Keep; auto. cbn [tick]. rewrite Np. reflexivity.
Qed.
Lemma balanced h p : (forall m, erases (firstn m h) p <= stores (firstn m h) p)%nat -> (outstanding h p + erases h p = stores h p)%nat.
Proof.
  induction h as [|o h IH] using rev_ind; intro H; [reflexivity|].
  assert (Hp : forall m, (erases (firstn m h) p <= stores (firstn m h) p)%nat).
  { intro m. specialize (H (min m (length h))). rewrite firstn_app in H. replace (min m (length h) - length h)%nat with 0%nat in H by lia. cbn [firstn] in H. rewrite app_nil_r in H.
    destruct (Nat.le_gt_cases m (length h)); [rewrite Nat.min_l in H by lia; auto|]. rewrite Nat.min_r in H by lia. rewrite firstn_all in H. rewrite firstn_all2 by lia. auto. }
  specialize (IH Hp). specialize (H (length (h ++ [o]))). rewrite firstn_all in H. rewrite outstanding_snoc.
  unfold erases, stores in *. rewrite !filter_app, !app_length in *. destruct o as [s|q]; cbn [filter tick] in *; destruct (_ =? p); cbn [length] in *; lia.
Qed.
