(** Proofs about images. *)
From Coq Require Import List ZArith Lia Bool FinFun.
Import ListNotations.
From Verif Require Import Base ImageModel ImageSpec.
Local Open Scope Z_scope.

Lemma padd_0 p : padd p 0 = p.
Proof. destruct p as [[b o]|]; cbn; auto. rewrite Z.add_0_r. reflexivity. Qed.
Lemma padd_padd p x y : padd (padd p x) y = padd p (x + y).
Proof. destruct p as [[b o]|]; cbn; auto. rewrite Z.add_assoc. reflexivity. Qed.
Definition seqZ (n : nat) : list Z := map Z.of_nat (seq 0 n).
Lemma seqZ_S n : seqZ (S n) = 0 :: map (fun i => i + 1) (seqZ n).
Proof.
  unfold seqZ. cbn [seq map]. f_equal. rewrite <- seq_shift, !map_map. apply map_ext. intro. lia.
Qed.
Lemma in_seqZ n x : In x (seqZ n) <-> 0 <= x < Z.of_nat n.
Proof.
  unfold seqZ. rewrite in_map_iff. split.
  - intros (y & <- & H). apply in_seq in H. lia.
  - intro H. exists (Z.to_nat x). split; [lia|]. apply in_seq. lia.
Qed.
Lemma nodup_seqZ n : NoDup (seqZ n).
Proof. apply FinFun.Injective_map_NoDup; [intros x y; lia|apply seq_NoDup]. Qed.

(** loads and stores *)
Lemma load_store m p v m' q : store m p v = Some m' -> load m' q = if (match p, q with Some (b, o), Some (b', o') => Nat.eqb b b' && (o =? o') | _, _ => false end) then Some v else load m q.
Proof.
  destruct p as [[b o]|]; [|discriminate]. cbn [store]. destruct (nth_error m b) as [[k|]|] eqn:E; try discriminate.
  destruct ((0 <=? o) && (o <? k_size k)) eqn:B; [|discriminate]. intro H. injection H as <-.
  destruct q as [[b' o']|]; [|reflexivity]. cbn [load]. destruct (Nat.eqb_spec b b') as [<-|N]; cbn [andb].
  - assert (L : (b < length m)%nat) by (apply nth_error_Some; congruence).
    rewrite nth_lupd_eq by auto. rewrite E. cbn [k_size k_byte]. destruct (Z.eqb_spec o o') as [<-|N].
    + rewrite B. rewrite Z.eqb_refl. reflexivity.
    + destruct (Z.eqb_spec o' o); [congruence|]. reflexivity.
  - rewrite nth_lupd_ne by auto. reflexivity.
Qed.
Lemma load_store_eq m p v m' : store m p v = Some m' -> load m' p = Some v.
Proof.
  intro H. rewrite (load_store _ _ _ _ _ H). destruct p as [[b o]|]; [|discriminate]. rewrite Nat.eqb_refl, Z.eqb_refl. reflexivity.
Qed.
Lemma load_store_ne m p v m' q : store m p v = Some m' -> p <> q -> load m' q = load m q.
Proof.
  intros H N. rewrite (load_store _ _ _ _ _ H). destruct p as [[b o]|]; [|discriminate]. destruct q as [[b' o']|]; auto.
  destruct (Nat.eqb_spec b b') as [<-|]; auto. destruct (Z.eqb_spec o o') as [<-|]; auto. congruence.
Qed.
Lemma load_can_store m p v x : load m p = Some x -> exists m', store m p v = Some m'.
Proof.
  destruct p as [[b o]|]; [|discriminate]. cbn. destruct (nth_error m b) as [[k|]|]; try discriminate.
  destruct ((0 <=? o) && (o <? k_size k)); [eauto|discriminate].
Qed.
Lemma ptr_dec (p q : ptr) : {p = q} + {p <> q}.
Proof. decide equality. decide equality; [apply Z.eq_dec|apply Nat.eq_dec]. Qed.
Lemma store_valid m p v m' q x : store m p v = Some m' -> load m q = Some x -> exists y, load m' q = Some y.
Proof.
  intros H L. destruct (ptr_dec p q) as [<-|N]; [exists v; eapply load_store_eq; eauto|].
  exists x. rewrite (load_store_ne _ _ _ _ _ H) by auto. auto.
Qed.

(** ---- copying along a list of (source, destination) pairs ---- *)
Fixpoint copy_fold (l : list (ptr * ptr)) (m : mem) : option mem :=
  match l with
  | [] => Some m
  | (s, d) :: r => match load m s with
                   | Some v => match store m d v with Some m' => copy_fold r m' | None => None end
                   | None => None
                   end
  end.
Lemma copy_fold_app a b m : copy_fold (a ++ b) m = match copy_fold a m with Some m' => copy_fold b m' | None => None end.
Proof.
  revert m; induction a as [|[s d] a IH]; intro m; cbn [app copy_fold]; auto.
  destruct (load m s); auto. destruct (store m d z); auto.
Qed.
Lemma copy_w_fold n : forall m src dst so sd,
  copy_w n m src dst so sd = copy_fold (map (fun i => (padd src (so * i), padd dst (sd * i))) (seqZ n)) m.
Proof.
  induction n as [|n IH]; intros; [reflexivity|]. rewrite seqZ_S. cbn [map copy_fold copy_w]. rewrite !Z.mul_0_r, !padd_0.
  destruct (load m src); auto. destruct (store m dst z); auto. rewrite IH, map_map. f_equal. apply map_ext. intro i.
  rewrite !padd_padd. f_equal; f_equal; lia.
Qed.
Lemma copy_h_fold nw n : forall m src dst so sd wo wd,
  copy_h n nw m src dst so sd wo wd =
  copy_fold (flat_map (fun j => map (fun i => (padd src (wo * i + so * j), padd dst (wd * i + sd * j))) (seqZ nw)) (seqZ n)) m.
Proof.
  induction n as [|n IH]; intros; [reflexivity|]. rewrite seqZ_S. cbn [flat_map copy_h]. rewrite copy_fold_app, copy_w_fold.
  assert (E : map (fun i => (padd src (wo * i), padd dst (wd * i))) (seqZ nw) =
    map (fun i => (padd src (wo * i + so * 0), padd dst (wd * i + sd * 0))) (seqZ nw)).
  { apply map_ext. intro i. rewrite !Z.mul_0_r, !Z.add_0_r. reflexivity. }
  rewrite E. destruct (copy_fold _ m); auto. rewrite IH. f_equal.
  rewrite !flat_map_concat_map, map_map. f_equal. apply map_ext. intro j. apply map_ext. intro i. rewrite !padd_padd. f_equal; f_equal; lia.
Qed.
Definition triples (nd nh nw : nat) : list (Z * Z * Z) :=
  flat_map (fun k => flat_map (fun j => map (fun i => (i, j, k)) (seqZ nw)) (seqZ nh)) (seqZ nd).
Lemma flat_map_map {A B C} (f : B -> list C) (g : A -> B) l : flat_map f (map g l) = flat_map (fun x => f (g x)) l.
Proof. induction l; cbn; auto. rewrite IHl. reflexivity. Qed.
Lemma map_flat_map {A B C} (f : B -> C) (g : A -> list B) l : map f (flat_map g l) = flat_map (fun x => map f (g x)) l.
Proof. induction l; cbn; auto. rewrite map_app, IHl. reflexivity. Qed.
Lemma copy_d_fold nh nw n : forall m src dst so sd ho hd wo wd,
  copy_d n nh nw m src dst so sd ho hd wo wd =
  copy_fold (map (fun t => let '(i, j, k) := t in (padd src (i * wo + j * ho + k * so), padd dst (i * wd + j * hd + k * sd))) (triples n nh nw)) m.
Proof.
  induction n as [|n IH]; intros; [reflexivity|]. unfold triples. rewrite seqZ_S. cbn [flat_map copy_d].
  rewrite map_app, copy_fold_app, copy_h_fold.
  assert (E : flat_map (fun j => map (fun i => (padd src (wo * i + ho * j), padd dst (wd * i + hd * j))) (seqZ nw)) (seqZ nh) =
    map (fun t => let '(i, j, k) := t in (padd src (i * wo + j * ho + k * so), padd dst (i * wd + j * hd + k * sd)))
      (flat_map (fun j => map (fun i => (i, j, 0)) (seqZ nw)) (seqZ nh))).
  { rewrite map_flat_map. rewrite !flat_map_concat_map. f_equal. apply map_ext. intro j. rewrite map_map. apply map_ext. intro i.
    f_equal; f_equal; lia. }
  rewrite E. destruct (copy_fold _ m); auto. rewrite IH. f_equal. unfold triples.
  rewrite flat_map_map, !map_flat_map, !flat_map_concat_map. f_equal. apply map_ext. intro k.
  rewrite !map_flat_map, !flat_map_concat_map. f_equal. apply map_ext. intro j.
  rewrite !map_map. apply map_ext. intro i. rewrite !padd_padd. f_equal; f_equal; lia.
Qed.
Lemma in_triples nd nh nw i j k : In (i, j, k) (triples nd nh nw) <-> 0 <= i < Z.of_nat nw /\ 0 <= j < Z.of_nat nh /\ 0 <= k < Z.of_nat nd.
Proof.
  unfold triples. rewrite in_flat_map. split.
  - intros (k' & Hk & H). apply in_flat_map in H as (j' & Hj & H). apply in_map_iff in H as (i' & E & Hi).
    injection E as -> -> ->. apply in_seqZ in Hk, Hj, Hi. auto.
  - intros (Hi & Hj & Hk). exists k. split; [apply in_seqZ; auto|]. apply in_flat_map. exists j. split; [apply in_seqZ; auto|].
    apply in_map_iff. exists i. split; auto. apply in_seqZ; auto.
Qed.
Lemma nodup_app {A} (a b : list A) : NoDup a -> NoDup b -> (forall x, In x a -> ~ In x b) -> NoDup (a ++ b).
Proof.
  induction 1 as [|x a Hx Ha IH]; intros Hb H; cbn [app]; auto. constructor.
  - rewrite in_app_iff. intros [X|X]; [contradiction|]. apply (H x); [left; auto|auto].
  - apply IH; auto. intros y Hy. apply H. right; auto.
Qed.
Lemma nodup_flat {A B} (f : A -> list B) (g : B -> A) l : NoDup l -> (forall x, In x l -> NoDup (f x)) ->
  (forall x y, In y (f x) -> g y = x) -> NoDup (flat_map f l).
Proof.
  intros H F G. induction H as [|x l Hx H IH]; cbn [flat_map]; [constructor|].
  apply nodup_app; [apply F; left; auto|apply IH; intros; apply F; right; auto|].
  intros y Hy Hy'. apply in_flat_map in Hy' as (x' & Hx' & Hy'). apply G in Hy, Hy'. congruence.
Qed.
Lemma nodup_triples nd nh nw : NoDup (triples nd nh nw).
Proof.
  unfold triples. apply (nodup_flat _ (fun t => snd t)); [apply nodup_seqZ| |].
  - intros k _. apply (nodup_flat _ (fun t => snd (fst t))); [apply nodup_seqZ| |].
    + intros j _. apply FinFun.Injective_map_NoDup; [intros x y H; congruence|apply nodup_seqZ].
    + intros j t H. apply in_map_iff in H as (i & <- & _). reflexivity.
  - intros k t H. apply in_flat_map in H as (j & _ & H). apply in_map_iff in H as (i & <- & _). reflexivity.
Qed.
Lemma nodup_map_inj {A B} (f : A -> B) l : NoDup l -> (forall x y, In x l -> In y l -> f x = f y -> x = y) -> NoDup (map f l).
Proof.
  induction 1 as [|x l Hx H IH]; intro I; cbn [map]; constructor.
  - rewrite in_map_iff. intros (y & E & Hy). apply Hx. rewrite (I x y); [auto|left; auto|right; auto|auto].
  - apply IH. intros; apply I; auto; right; auto.
Qed.

Lemma copy_fold_spec l : forall m, NoDup (map snd l) ->
  (forall s d, In (s, d) l -> (exists v, load m s = Some v) /\ (exists v, load m d = Some v) /\ ~ In s (map snd l)) ->
  exists m', copy_fold l m = Some m' /\ length m' = length m /\
    (forall s d, In (s, d) l -> load m' d = load m s) /\
    (forall p, ~ In p (map snd l) -> load m' p = load m p).
Proof.
  induction l as [|[s d] l IH]; intros m ND H; cbn [copy_fold].
  - exists m. repeat split; auto. contradiction.
  - cbn [map snd] in ND. inversion ND as [|x y Nd ND' [E1 E2]]. subst.
    destruct (H s d (or_introl eq_refl)) as ((v & Hv) & (v' & Hv') & Ns). rewrite Hv.
    destruct (load_can_store m d v v' Hv') as [m1 Hm1]. rewrite Hm1.
    destruct (IH m1 ND') as (m' & E & Len & H1 & H2).
    { intros s0 d0 Hin. destruct (H s0 d0 (or_intror Hin)) as ((u & Hu) & (u' & Hu') & Ns0).
      split; [eapply store_valid; eauto|]. split; [eapply store_valid; eauto|]. intro X. apply Ns0. right. auto. }
    exists m'. split; auto. split.
    { rewrite Len. destruct d as [[b o]|]; [|discriminate]. cbn in Hm1. destruct (nth_error m b) as [[k|]|]; try discriminate.
      destruct ((0 <=? o) && (o <? k_size k)); [|discriminate]. injection Hm1 as <-. apply lupd_length. }
    split.
    + intros s0 d0 [E0|Hin].
      * injection E0 as -> ->. rewrite H2 by auto. rewrite (load_store_eq _ _ _ _ Hm1). auto.
      * rewrite (H1 _ _ Hin). eapply load_store_ne; eauto. intro X; subst. destruct (H _ _ (or_intror Hin)) as (_ & _ & Y).
        apply Y. left. reflexivity.
    + intros p Np. rewrite H2 by (intro; apply Np; right; auto). eapply load_store_ne; eauto. intros <-. apply Np. left. reflexivity.
Qed.

(** ---- transforming in place ---- *)
Fixpoint tr_fold (op : Z -> Z) (l : list ptr) (m : mem) : option mem :=
  match l with
  | [] => Some m
  | p :: r => match load m p with
              | Some v => match store m p (op v) with Some m' => tr_fold op r m' | None => None end
              | None => None
              end
  end.
Lemma tr_fold_app op a b m : tr_fold op (a ++ b) m = match tr_fold op a m with Some m' => tr_fold op b m' | None => None end.
Proof.
  revert m; induction a as [|p a IH]; intro m; cbn [app tr_fold]; auto.
  destruct (load m p); auto. destruct (store m p (op z)); auto.
Qed.
Lemma tr0_fold op n : forall m p s, tr0 n op m p s = tr_fold op (map (fun i => padd p (s * i)) (seqZ n)) m.
Proof.
  induction n as [|n IH]; intros; [reflexivity|]. rewrite seqZ_S. cbn [map tr_fold tr0]. rewrite !Z.mul_0_r, !padd_0.
  destruct (load m p); auto. destruct (store m p (op z)); auto. rewrite IH, map_map. f_equal. apply map_ext. intro i.
  rewrite !padd_padd. f_equal; lia.
Qed.
Lemma tr1_fold op n0 n : forall m p s s0, tr1 n n0 op m p s s0 =
  tr_fold op (flat_map (fun j => map (fun i => padd p (s0 * i + s * j)) (seqZ n0)) (seqZ n)) m.
Proof.
  induction n as [|n IH]; intros; [reflexivity|]. rewrite seqZ_S. cbn [flat_map tr1]. rewrite tr_fold_app, tr0_fold.
  assert (E : map (fun i => padd p (s0 * i)) (seqZ n0) = map (fun i => padd p (s0 * i + s * 0)) (seqZ n0)).
  { apply map_ext. intro i. rewrite !Z.mul_0_r, !Z.add_0_r. reflexivity. }
  rewrite E. destruct (tr_fold op _ m); auto. rewrite IH. f_equal.
  rewrite flat_map_map, !flat_map_concat_map. f_equal. apply map_ext. intro j. apply map_ext. intro i. rewrite !padd_padd. f_equal; lia.
Qed.
Lemma tr2_fold op n1 n0 n : forall m p s s1 s0, tr2 n n1 n0 op m p s s1 s0 =
  tr_fold op (map (fun t => let '(i, j, k) := t in padd p (i * s0 + j * s1 + k * s)) (triples n n1 n0)) m.
Proof.
  induction n as [|n IH]; intros; [reflexivity|]. unfold triples. rewrite seqZ_S. cbn [flat_map tr2].
  rewrite map_app, tr_fold_app, tr1_fold.
  assert (E : flat_map (fun j => map (fun i => padd p (s0 * i + s1 * j)) (seqZ n0)) (seqZ n1) =
    map (fun t => let '(i, j, k) := t in padd p (i * s0 + j * s1 + k * s)) (flat_map (fun j => map (fun i => (i, j, 0)) (seqZ n0)) (seqZ n1))).
  { rewrite map_flat_map. rewrite !flat_map_concat_map. f_equal. apply map_ext. intro j. rewrite map_map. apply map_ext. intro i. f_equal; lia. }
  rewrite E. destruct (tr_fold op _ m); auto. rewrite IH. f_equal. unfold triples.
  rewrite flat_map_map, !map_flat_map, !flat_map_concat_map. f_equal. apply map_ext. intro k.
  rewrite !map_flat_map, !flat_map_concat_map. f_equal. apply map_ext. intro j.
  rewrite !map_map. apply map_ext. intro i. rewrite !padd_padd. f_equal; lia.
Qed.
Lemma tr_fold_spec op l : forall m, NoDup l -> (forall p, In p l -> exists v, load m p = Some v) ->
  exists m', tr_fold op l m = Some m' /\
    (forall p v, In p l -> load m p = Some v -> load m' p = Some (op v)) /\
    (forall p, ~ In p l -> load m' p = load m p).
Proof.
  induction l as [|d l IH]; intros m ND H; cbn [tr_fold].
  - exists m. repeat split; auto. contradiction.
  - inversion ND as [|x y Nd ND' [E1 E2]]. subst.
    destruct (H d (or_introl eq_refl)) as (v & Hv). rewrite Hv.
    destruct (load_can_store m d (op v) v Hv) as [m1 Hm1]. rewrite Hm1.
    destruct (IH m1 ND') as (m' & E & H1 & H2).
    { intros p Hp. destruct (H p (or_intror Hp)) as (u & Hu). eapply store_valid; eauto. }
    exists m'. split; auto. split.
    + intros p u [<-|Hin] Hu.
      * rewrite H2 by auto. rewrite (load_store_eq _ _ _ _ Hm1). congruence.
      * apply H1; auto. rewrite (load_store_ne _ _ _ _ _ Hm1); auto. intros <-. contradiction.
    + intros p Np. rewrite H2 by (intro; apply Np; right; auto). eapply load_store_ne; eauto. intros <-. apply Np. left. reflexivity.
Qed.
