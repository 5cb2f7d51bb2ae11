(** ShareProps.v -- C113: what f2w/f2f homographies and the simple containers share. *)
From Coq Require Import List Bool ZArith Lia Arith.
Import ListNotations.
From Verif Require Import Base ShareModel.

Section C.
Context {M : Type} (ident : M) (inv : M -> option M) (mul : M -> M -> M).
Notation st := (@st M). Notation op := (@op M).
Notation step := (step ident inv mul). Notation run := (run ident inv mul).

(** ---- specification ---- *)
Definition reachable (s : st) : Prop := exists p, run st0 p = Some s.
Definition box_ptrs (b : box) : list ptr := match b with BVec l => l | BMap m => map snd m end.
(** A pointer to c other than the one inside object f exists. *)
Definition seen_elsewhere (s : st) (f c : nat) : Prop :=
  In (Some c) (ptrs s) \/ (exists v, In v (vecs s) /\ In (Some c) v) \/ (exists m, In m (maps s) /\ In (Some c) (map snd m)) \/
  (exists g x, g <> f /\ nth_error (fs s) g = Some x /\ x_h x = Some c) \/ (exists b, In b (boxes s) /\ In (Some c) (box_ptrs b)).
(** Object f has a homography of its own. *)
Definition unique_copy (s : st) (f : nat) : Prop :=
  exists x c m, nth_error (fs s) f = Some x /\ x_h x = Some c /\ nth_error (cells s) c = Some m /\ ~ seen_elsewhere s f c.
(** Operations that hand out or exchange the homography of f. *)
Definition touches (f : nat) (o : op) : Prop :=
  o = FGet f \/ exists g, o = FAssign f g \/ o = FAssign g f.
Definition fresh_op (o : op) : Prop :=
  match o with FId _ | FNew _ _ _ | FMat _ _ _ | FCopy _ | FInv _ | FMul _ _ => True | _ => False end.

(** ---- invariant: pointers are to existing objects ---- *)
Definition okp (n : nat) (p : ptr) : Prop := match p with Some c => c < n | None => True end.
Definition wf (s : st) : Prop :=
  let n := length (cells s) in
  Forall (okp n) (ptrs s) /\ Forall (Forall (okp n)) (vecs s) /\ Forall (fun m => Forall (okp n) (map snd m)) (maps s) /\
  Forall (fun x => exists c, x_h x = Some c /\ c < n) (fs s) /\ Forall (fun b => Forall (okp n) (box_ptrs b)) (boxes s).
Lemma okp_mono n m p : n <= m -> okp n p -> okp m p.
Proof. destruct p; cbn; lia. Qed.
Lemma F_mono n m l : n <= m -> Forall (okp n) l -> Forall (okp m) l.
Proof. intros H. apply Forall_impl. intros p. apply okp_mono. exact H. Qed.
Lemma wf_grow (s : st) m : wf s -> wf (add_cell s m).
Proof.
  intros (A & B & C & D & E). assert (length (cells s) <= length (cells s ++ [m])) as Le by (rewrite app_length; lia).
  unfold wf. cbn. refine (conj _ (conj _ (conj _ (conj _ _)))).
  - eapply F_mono; eauto.
  - eapply Forall_impl; [|exact B]. intros l. apply F_mono. exact Le.
  - eapply Forall_impl; [|exact C]. intros l. apply F_mono. exact Le.
  - eapply Forall_impl; [|exact D]. intros x (c & X & Y). exists c. split; [exact X|lia].
  - eapply Forall_impl; [|exact E]. intros l. apply F_mono. exact Le.
Qed.
Lemma Forall_snoc {A} (P : A -> Prop) l x : Forall P l -> P x -> Forall P (l ++ [x]).
Proof. intros. apply Forall_app. split; [assumption|]. constructor; [assumption|constructor]. Qed.
Lemma Forall_lupd {A} (P : A -> Prop) l i x : Forall P l -> P x -> Forall P (lupd l i x).
Proof. intros H Hx. revert i; induction H; intros [|i]; cbn; constructor; auto. Qed.
Lemma Forall_nth {A} (P : A -> Prop) l i x : Forall P l -> nth_error l i = Some x -> P x.
Proof. intros H E. rewrite Forall_forall in H. apply H. eapply nth_error_In; exact E. Qed.
Lemma k_set_in m k p q : In q (map snd (k_set m k p)) -> q = p \/ In q (map snd m).
Proof.
  induction m as [|[k' p'] m IH]; cbn; [intros [H|[]]; auto|]. destruct (k <? k')%Z; [cbn; intros [H|H]; auto|]. destruct (k =? k')%Z; cbn; intros [H|H]; auto. apply IH in H. tauto.
Qed.
Lemma wf_fresh (s : st) m a b : wf s -> wf (fresh_f s m a b).
Proof.
  intros W. pose proof (wf_grow s m W) as (A & B & C & D & E). unfold fresh_f, wf. cbn in *. refine (conj A (conj B (conj C (conj _ E)))).
  apply Forall_snoc; [exact D|]. cbn. eexists; split; [reflexivity|]. rewrite app_length; cbn; lia.
Qed.
Lemma step_wf s o s' r : wf s -> step s o = Some (s', r) -> wf s'.
Proof.
  intros W H. pose proof W as (A & B & C & D & E).
  destruct o; cbn [ShareModel.step] in H.
  - injection H as <- _. pose proof (wf_grow s m W) as (A' & B' & C' & D' & E'). unfold wf. cbn in *. refine (conj _ (conj B' (conj C' (conj D' E')))). apply Forall_snoc; [exact A'|]. cbn. rewrite app_length; cbn; lia.
  - injection H as <- _. unfold wf. cbn. refine (conj _ (conj B (conj C (conj D E)))). apply Forall_snoc; [exact A|exact I].
  - destruct (nth_error (ptrs s) p) as [[c|]|]; try discriminate. injection H as <- _. unfold wf. cbn. rewrite lupd_length. auto.
  - destruct (nth_error (ptrs s) p) as [p0|]; [|discriminate]. destruct (cell s p0); [|discriminate]. injection H as <- _. exact W.
  - injection H as <- _. unfold wf. cbn. refine (conj A (conj _ (conj C (conj D E)))). apply Forall_snoc; [exact B|constructor].
  - destruct (nth_error (vecs s) v) as [l|] eqn:Hv; [|discriminate]. destruct (nth_error (ptrs s) p) as [x|] eqn:Hp; [|discriminate]. injection H as <- _. unfold wf. cbn. refine (conj A (conj _ (conj C (conj D E)))).
    apply Forall_lupd; [exact B|]. apply Forall_snoc; [exact (Forall_nth _ _ _ _ B Hv)|exact (Forall_nth _ _ _ _ A Hp)].
  - destruct (nth_error (vecs s) v) as [l|] eqn:Hv; [|discriminate]. destruct (nth_error (ptrs s) p) as [x|] eqn:Hp; [|discriminate]. destruct (i <? length l); [|discriminate]. injection H as <- _. unfold wf. cbn. refine (conj A (conj _ (conj C (conj D E)))).
    apply Forall_lupd; [exact B|]. apply Forall_lupd; [exact (Forall_nth _ _ _ _ B Hv)|exact (Forall_nth _ _ _ _ A Hp)].
  - destruct (nth_error (vecs s) v); [|discriminate]. injection H as <- _. exact W.
  - injection H as <- _. unfold wf. cbn. refine (conj A (conj B (conj _ (conj D E)))). apply Forall_snoc; [exact C|constructor].
  - destruct (nth_error (maps s) m) as [l|] eqn:Hv; [|discriminate]. destruct (nth_error (ptrs s) p) as [x|] eqn:Hp; [|discriminate]. injection H as <- _. unfold wf. cbn. refine (conj A (conj B (conj _ (conj D E)))).
    apply Forall_lupd; [exact C|]. apply Forall_forall. intros q Hq. apply k_set_in in Hq. destruct Hq as [->|Hq]; [exact (Forall_nth _ _ _ _ A Hp)|]. pose proof (Forall_nth _ _ _ _ C Hv) as X. cbn in X. rewrite Forall_forall in X. auto.
  - destruct (nth_error (maps s) m); [|discriminate]. injection H as <- _. exact W.
  - injection H as <- _. apply wf_fresh. exact W.
  - destruct (nth_error (ptrs s) p) as [[c|]|]; try discriminate. destruct (nth_error (cells s) c); [|discriminate]. injection H as <- _. apply wf_fresh; exact W.
  - injection H as <- _. apply wf_fresh. exact W.
  - destruct (nth_error (fs s) f) as [x|]; [|discriminate]. destruct (cell s (x_h x)); [|discriminate]. injection H as <- _. apply wf_fresh; exact W.
  - destruct (nth_error (fs s) f) as [x|]; [|discriminate]. destruct (nth_error (fs s) g) as [y|] eqn:Hg; [|discriminate]. injection H as <- _. unfold wf. cbn. refine (conj A (conj B (conj C (conj _ E)))). apply Forall_lupd; [exact D|exact (Forall_nth _ _ _ _ D Hg)].
  - destruct (nth_error (fs s) f) as [x|] eqn:Hf; [|discriminate]. injection H as <- _. unfold wf. cbn. refine (conj _ (conj B (conj C (conj D E)))). apply Forall_snoc; [exact A|]. destruct (Forall_nth _ _ _ _ D Hf) as (c & -> & Hc). exact Hc.
  - destruct (nth_error (fs s) f) as [x|]; [|discriminate]. destruct (cell s (x_h x)); [|discriminate]. injection H as <- _. exact W.
  - destruct (nth_error (fs s) f) as [x|]; [|discriminate]. destruct (cell s (x_h x)) as [m|]; [|discriminate]. destruct (inv m) as [i|]; injection H as <- _; [|exact W]. apply wf_fresh. apply wf_grow. exact W.
  - destruct (nth_error (fs s) f) as [x|]; [|discriminate]. destruct (nth_error (fs s) g) as [y|]; [|discriminate]. destruct (x_from x =? x_to y)%Z; [|injection H as <- _; exact W]. destruct (cell s (x_h x)); [|discriminate]. destruct (cell s (x_h y)); [|discriminate]. injection H as <- _. apply wf_fresh; exact W.
  - destruct (nth_error (vecs s) v) as [l|] eqn:Hv; [|discriminate]. injection H as <- _. unfold wf. cbn. refine (conj A (conj B (conj C (conj D _)))). apply Forall_snoc; [exact E|exact (Forall_nth _ _ _ _ B Hv)].
  - destruct (nth_error (maps s) m) as [l|] eqn:Hv; [|discriminate]. injection H as <- _. unfold wf. cbn. refine (conj A (conj B (conj C (conj D _)))). apply Forall_snoc; [exact E|exact (Forall_nth _ _ _ _ C Hv)].
  - destruct (nth_error (boxes s) b) as [[l|l]|]; try discriminate; injection H as <- _; exact W.
  - destruct (nth_error (boxes s) b) as [[l|l]|] eqn:Hb; try discriminate; injection H as <- _; unfold wf; cbn.
    + refine (conj A (conj _ (conj C (conj D E)))). apply Forall_snoc; [exact B|exact (Forall_nth _ _ _ _ E Hb)].
    + refine (conj A (conj B (conj _ (conj D E)))). apply Forall_snoc; [exact C|exact (Forall_nth _ _ _ _ E Hb)].
  - destruct (nth_error (boxes s) b) as [x|] eqn:Hb; [|discriminate]. injection H as <- _. unfold wf. cbn. refine (conj A (conj B (conj C (conj D _)))). apply Forall_snoc; [exact E|exact (Forall_nth _ _ _ _ E Hb)].
Qed.
Lemma run_ind (P : st -> Prop) : (forall s o s' r, P s -> step s o = Some (s', r) -> P s') -> forall p s s', P s -> run s p = Some s' -> P s'.
Proof.
  intros St p. induction p as [|o p IH]; intros s s' Ps H; cbn in H; [injection H as <-; exact Ps|].
  destruct (step s o) as [[s1 r]|] eqn:E; [|discriminate]. eauto.
Qed.
Lemma wf0 : wf st0.
Proof. unfold wf. cbn. auto. Qed.
Lemma reach_wf s : reachable s -> wf s.
Proof. intros [p H]. revert H. apply run_ind; [exact step_wf|exact wf0]. Qed.

(** The cell after the last one is seen by nobody. *)
Lemma fresh_unseen s f c : wf s -> length (cells s) <= c -> ~ seen_elsewhere s f c.
Proof.
  intros (A & B & C & D & E) Hc. rewrite !Forall_forall in *.
  assert (forall l, Forall (okp (length (cells s))) l -> ~ In (Some c) l) as K. { intros l Hl Hi. rewrite Forall_forall in Hl. specialize (Hl _ Hi). cbn in Hl. lia. }
  intros [H|[(v & Hv & H)|[(m & Hm & H)|[(g & x & Ng & Hg & H)|(b & Hb & H)]]]].
  - specialize (A _ H). cbn in A. lia.
  - exact (K _ (B _ Hv) H).
  - exact (K _ (C _ Hm) H).
  - destruct (D x) as (c' & X & Y); [eapply nth_error_In; exact Hg|]. rewrite H in X. injection X as <-. lia.
  - exact (K _ (E _ Hb) H).
Qed.
Lemma fresh_unique s m a b : wf s -> unique_copy (fresh_f s m a b) (length (fs s)) /\ step (fresh_f s m a b) (FRead (length (fs s))) = Some (fresh_f s m a b, OF m a b).
Proof.
  intros W. assert (nth_error (fs (fresh_f s m a b)) (length (fs s)) = Some (F2X (Some (length (cells s))) a b)) as E1.
  { cbn. rewrite nth_error_app2, Nat.sub_diag by lia. reflexivity. }
  assert (nth_error (cells (fresh_f s m a b)) (length (cells s)) = Some m) as E2. { cbn. rewrite nth_error_app2, Nat.sub_diag by lia. reflexivity. }
  split.
  - do 3 eexists. split; [exact E1|]. split; [reflexivity|]. split; [exact E2|].
    intros H. apply (fresh_unseen s (length (fs s)) (length (cells s)) W (le_n _)).
    destruct H as [H|[H|[H|[(g & x & Ng & Hg & H)|H]]]]; [left; exact H|right; left; exact H|right; right; left; exact H| |do 4 right; exact H].
    do 3 right. left. exists g, x. split; [exact Ng|]. split; [|exact H]. cbn in Hg. rewrite nth_error_app1 in Hg; [exact Hg|].
    assert (g < length (fs s ++ [F2X (Some (length (cells s))) a b])) as Lt by (apply nth_error_Some; congruence). rewrite app_length in Lt; cbn in Lt. lia.
  - cbn [ShareModel.step]. rewrite E1. cbn [x_h cell]. rewrite E2. reflexivity.
Qed.
(** Every way of making an f2w/f2f homography gives it a homography of its own. *)
Theorem C113_made_unique : forall s o s', reachable s -> fresh_op o -> step s o = Some (s', ODone) ->
  unique_copy s' (length (fs s)) /\
  (forall fr, o = FId fr -> step s' (FRead (length (fs s))) = Some (s', OF ident fr fr)) /\
  (forall p a b m, o = FNew p a b -> step s (PRead p) = Some (s, OVal m) -> step s' (FRead (length (fs s))) = Some (s', OF m a b)) /\
  (forall m a b, o = FMat m a b -> step s' (FRead (length (fs s))) = Some (s', OF m a b)) /\
  (forall f m a b, o = FCopy f -> step s (FRead f) = Some (s, OF m a b) -> step s' (FRead (length (fs s))) = Some (s', OF m a b)) /\
  (forall f m a b i, o = FInv f -> step s (FRead f) = Some (s, OF m a b) -> inv m = Some i -> step s' (FRead (length (fs s))) = Some (s', OF i b a)) /\
  (forall f g m n a b c, o = FMul f g -> step s (FRead f) = Some (s, OF m b c) -> step s (FRead g) = Some (s, OF n a b) -> step s' (FRead (length (fs s))) = Some (s', OF (mul m n) a c)).
Proof.
  intros s o s' R Fo H. pose proof (reach_wf s R) as W. 
  assert (forall m a b, s' = fresh_f s m a b \/ s' = fresh_f (add_cell s m) m a b -> unique_copy s' (length (fs s)) /\ step s' (FRead (length (fs s))) = Some (s', OF m a b)) as K.
  { intros m a b [->| ->]; [exact (fresh_unique s m a b W)|]. exact (fresh_unique (add_cell s m) m a b (wf_grow s m W)). }
  destruct o; try contradiction; cbn [ShareModel.step] in H.
  - injection H as <-. destruct (K _ _ _ (or_introl eq_refl)) as [K1 K2]. split; [exact K1|]. repeat split; intros; try discriminate. injection H as <-. exact K2.
  - destruct (nth_error (ptrs s) p) as [[c|]|] eqn:Hp; try discriminate. destruct (nth_error (cells s) c) as [m|] eqn:Hc; [|discriminate]. injection H as <-.
    destruct (K _ _ _ (or_introl eq_refl)) as [K1 K2]. split; [exact K1|]. repeat split; intros; try discriminate. injection H as <- <- <-. cbn [ShareModel.step] in H0. rewrite Hp in H0. cbn [cell] in H0. rewrite Hc in H0. injection H0 as <-. exact K2.
  - injection H as <-. destruct (K _ _ _ (or_introl eq_refl)) as [K1 K2]. split; [exact K1|]. repeat split; intros; try discriminate. injection H as <- <- <-. exact K2.
  - destruct (nth_error (fs s) f) as [x|] eqn:Hf; [|discriminate]. destruct (cell s (x_h x)) as [m|] eqn:Hc; [|discriminate]. injection H as <-.
    destruct (K _ _ _ (or_introl eq_refl)) as [K1 K2]. split; [exact K1|]. repeat split; intros; try discriminate. injection H as <-. cbn [ShareModel.step] in H0. rewrite Hf, Hc in H0. injection H0 as <- <- <-. exact K2.
  - destruct (nth_error (fs s) f) as [x|] eqn:Hf; [|discriminate]. destruct (cell s (x_h x)) as [m|] eqn:Hc; [|discriminate]. destruct (inv m) as [i|] eqn:Hi; [|discriminate]. injection H as <-.
    destruct (K _ _ _ (or_intror eq_refl)) as [K1 K2]. split; [exact K1|]. repeat split; intros; try discriminate. injection H as <-. cbn [ShareModel.step] in H0. rewrite Hf, Hc in H0. injection H0 as <- <- <-. rewrite Hi in H1. injection H1 as <-. exact K2.
  - destruct (nth_error (fs s) f) as [x|] eqn:Hf; [|discriminate]. destruct (nth_error (fs s) g) as [y|] eqn:Hg; [|discriminate]. destruct (x_from x =? x_to y)%Z; [|discriminate].
    destruct (cell s (x_h x)) as [m|] eqn:Hc; [|discriminate]. destruct (cell s (x_h y)) as [n|] eqn:Hd; [|discriminate]. injection H as <-.
    destruct (K _ _ _ (or_introl eq_refl)) as [K1 K2]. split; [exact K1|]. repeat split; intros; try discriminate. injection H as <- <-. cbn [ShareModel.step] in H0, H1. rewrite Hf, Hc in H0. rewrite Hg, Hd in H1. injection H0 as <- _ <-. injection H1 as <- <- _. exact K2.
Qed.
Print Assumptions C113_made_unique.

(** One step keeps an untouched object's own homography, and its content. *)
Definition holds (s : st) (f : nat) (m : M) (a b : Z) : Prop :=
  exists c, nth_error (fs s) f = Some (F2X (Some c) a b) /\ nth_error (cells s) c = Some m /\ ~ seen_elsewhere s f c.
Lemma seen_split s f c : ~ seen_elsewhere s f c <->
  ~ In (Some c) (ptrs s) /\ (forall v, In v (vecs s) -> ~ In (Some c) v) /\ (forall m, In m (maps s) -> ~ In (Some c) (map snd m)) /\
  (forall g x, g <> f -> nth_error (fs s) g = Some x -> x_h x <> Some c) /\ (forall b, In b (boxes s) -> ~ In (Some c) (box_ptrs b)).
Proof.
  split.
  - intros H. repeat split; intros; intro; apply H; unfold seen_elsewhere; eauto 10.
  - intros (A & B & C & D & E) [H|[(v & Hv & H)|[(m & Hm & H)|[(g & x & Ng & Hg & H)|(b & Hb & H)]]]]; [exact (A H)|exact (B _ Hv H)|exact (C _ Hm H)|exact (D _ _ Ng Hg H)|exact (E _ Hb H)].
Qed.
Lemma in_lupd {A} (l : list A) i x y : In y (lupd l i x) -> y = x \/ In y l.
Proof. revert i; induction l as [|a l IH]; intros [|i]; cbn; try tauto; intros [H|H]; auto. apply IH in H. tauto. Qed.
Lemma nth_snoc {A} (l : list A) a j y : nth_error (l ++ [a]) j = Some y -> nth_error l j = Some y \/ (j = length l /\ y = a).
Proof.
  intros H. destruct (Nat.lt_ge_cases j (length l)) as [Lt|Ge].
  - rewrite nth_error_app1 in H by exact Lt. auto.
  - rewrite nth_error_app2 in H by exact Ge. destruct (j - length l) as [|k] eqn:E.
    + cbn in H. injection H as <-. right. split; [lia|reflexivity].
    + cbn in H. destruct k; discriminate.
Qed.
Lemma nth_lupd {A} (l : list A) i j x y : nth_error (lupd l i x) j = Some y -> (i = j /\ y = x) \/ (i <> j /\ nth_error l j = Some y).
Proof.
  intros H. destruct (Nat.eq_dec i j) as [<-|N0]; [|rewrite nth_lupd_ne in H by exact N0; auto].
  assert (i < length l) as Lt. { rewrite <- (lupd_length l i x). apply nth_error_Some. rewrite H. discriminate. }
  rewrite nth_lupd_eq in H by exact Lt. injection H as <-. auto.
Qed.
Lemma holds_fresh s f m a b m' a' b' : wf s -> holds s f m a b -> holds (fresh_f s m' a' b') f m a b.
Proof.
  intros W (c & Hf & Hc & Hs). exists c. cbn.
  assert (f < length (fs s)) as Lf by (apply nth_error_Some; congruence). assert (c < length (cells s)) as Lc by (apply nth_error_Some; congruence).
  rewrite !nth_error_app1 by assumption. split; [exact Hf|]. split; [exact Hc|].
  apply seen_split in Hs. destruct Hs as (A & B & C & D & E). apply seen_split. cbn. refine (conj A (conj B (conj C (conj _ E)))).
  intros g x Ng Hg. apply nth_snoc in Hg. destruct Hg as [Hg|[-> ->]]; [eauto|]. cbn. intros X. injection X as X. lia.
Qed.
Lemma holds_cell s f m a b m' : holds s f m a b -> holds (add_cell s m') f m a b.
Proof.
  intros (c & Hf & Hc & Hs). exists c. cbn. rewrite nth_error_app1 by (apply nth_error_Some; congruence). split; [exact Hf|]. split; [exact Hc|].
  apply seen_split in Hs. apply seen_split. exact Hs.
Qed.
Lemma holds_step s o s' r f m a b : wf s -> holds s f m a b -> ~ touches f o -> step s o = Some (s', r) -> holds s' f m a b.
Proof.
  intros W Hh Nt H. pose proof Hh as (c & Hf & Hc & Hs). apply seen_split in Hs. destruct Hs as (A & B & C & D & E).
  assert (c < length (cells s)) as Lc by (apply nth_error_Some; congruence).
  destruct o; cbn [ShareModel.step] in H.
  - injection H as <- _. exists c. cbn. rewrite nth_error_app1 by exact Lc. split; [exact Hf|]. split; [exact Hc|]. apply seen_split. cbn. refine (conj _ (conj B (conj C (conj D E)))).
    intros X. apply in_app_iff in X. destruct X as [X|[X|[]]]; [auto|]. injection X as X. lia.
  - injection H as <- _. exists c. cbn. split; [exact Hf|]. split; [exact Hc|]. apply seen_split. cbn. refine (conj _ (conj B (conj C (conj D E)))).
    intros X. apply in_app_iff in X. destruct X as [X|[X|[]]]; [auto|discriminate].
  - destruct (nth_error (ptrs s) p) as [[c'|]|] eqn:Hp; try discriminate. injection H as <- _. exists c. cbn. split; [exact Hf|].
    rewrite nth_lupd_ne by (intros ->; apply A; eapply nth_error_In; exact Hp). split; [exact Hc|]. apply seen_split. cbn. auto.
  - destruct (nth_error (ptrs s) p) as [p0|]; [|discriminate]. destruct (cell s p0); [|discriminate]. injection H as <- _. exact Hh.
  - injection H as <- _. exists c. cbn. split; [exact Hf|]. split; [exact Hc|]. apply seen_split. cbn. refine (conj A (conj _ (conj C (conj D E)))).
    intros v X. apply in_app_iff in X. destruct X as [X|[<-|[]]]; [auto|]. intros [].
  - destruct (nth_error (vecs s) v) as [l|] eqn:Hv; [|discriminate]. destruct (nth_error (ptrs s) p) as [x|] eqn:Hp; [|discriminate]. injection H as <- _. exists c. cbn. split; [exact Hf|]. split; [exact Hc|]. apply seen_split. cbn. refine (conj A (conj _ (conj C (conj D E)))).
    intros w X. apply in_lupd in X. destruct X as [->|X]; [|auto]. intros X. apply in_app_iff in X. destruct X as [X|[->|[]]].
    + revert X. apply B. eapply nth_error_In; exact Hv.
    + apply A. eapply nth_error_In; exact Hp.
  - destruct (nth_error (vecs s) v) as [l|] eqn:Hv; [|discriminate]. destruct (nth_error (ptrs s) p) as [x|] eqn:Hp; [|discriminate]. destruct (i <? length l); [|discriminate]. injection H as <- _. exists c. cbn. split; [exact Hf|]. split; [exact Hc|]. apply seen_split. cbn. refine (conj A (conj _ (conj C (conj D E)))).
    intros w X. apply in_lupd in X. destruct X as [->|X]; [|auto]. intros X. apply in_lupd in X. destruct X as [<-|X].
    + apply A. eapply nth_error_In; exact Hp.
    + revert X. apply B. eapply nth_error_In; exact Hv.
  - destruct (nth_error (vecs s) v); [|discriminate]. injection H as <- _. exact Hh.
  - injection H as <- _. exists c. cbn. split; [exact Hf|]. split; [exact Hc|]. apply seen_split. cbn. refine (conj A (conj B (conj _ (conj D E)))).
    intros v X. apply in_app_iff in X. destruct X as [X|[<-|[]]]; [auto|]. intros [].
  - destruct (nth_error (maps s) m0) as [l|] eqn:Hv; [|discriminate]. destruct (nth_error (ptrs s) p) as [x|] eqn:Hp; [|discriminate]. injection H as <- _. exists c. cbn. split; [exact Hf|]. split; [exact Hc|]. apply seen_split. cbn. refine (conj A (conj B (conj _ (conj D E)))).
    intros w X. apply in_lupd in X. destruct X as [->|X]; [|auto]. intros X. apply k_set_in in X. destruct X as [<-|X].
    + apply A. eapply nth_error_In; exact Hp.
    + revert X. apply C. eapply nth_error_In; exact Hv.
  - destruct (nth_error (maps s) m0); [|discriminate]. injection H as <- _. exact Hh.
  - injection H as <- _. apply holds_fresh; assumption.
  - destruct (nth_error (ptrs s) p) as [[c'|]|]; try discriminate. destruct (nth_error (cells s) c'); [|discriminate]. injection H as <- _. apply holds_fresh; assumption.
  - injection H as <- _. apply holds_fresh; assumption.
  - destruct (nth_error (fs s) f0) as [x|]; [|discriminate]. destruct (cell s (x_h x)); [|discriminate]. injection H as <- _. apply holds_fresh; assumption.
  - destruct (nth_error (fs s) f0) as [x|]; [|discriminate]. destruct (nth_error (fs s) g) as [y|] eqn:Hg; [|discriminate]. injection H as <- _.
    assert (f0 <> f) as N1. { intros ->. apply Nt. right. exists g. auto. } assert (g <> f) as N2. { intros ->. apply Nt. right. exists f0. auto. }
    exists c. cbn. rewrite nth_lupd_ne by exact N1. split; [exact Hf|]. split; [exact Hc|]. apply seen_split. cbn. refine (conj A (conj B (conj C (conj _ E)))).
    intros k z Nk Hk. apply nth_lupd in Hk. destruct Hk as [[_ ->]|[_ Hk]]; eauto.
  - assert (f0 <> f) as N1. { intros ->. apply Nt. left. reflexivity. }
    destruct (nth_error (fs s) f0) as [x|] eqn:H0; [|discriminate]. injection H as <- _. exists c. cbn. split; [exact Hf|]. split; [exact Hc|]. apply seen_split. cbn. refine (conj _ (conj B (conj C (conj D E)))).
    intros X. apply in_app_iff in X. destruct X as [X|[X|[]]]; [auto|]. exact (D _ _ N1 H0 X).
  - destruct (nth_error (fs s) f0) as [x|]; [|discriminate]. destruct (cell s (x_h x)); [|discriminate]. injection H as <- _. exact Hh.
  - destruct (nth_error (fs s) f0) as [x|]; [|discriminate]. destruct (cell s (x_h x)) as [n|]; [|discriminate]. destruct (inv n) as [i|]; injection H as <- _; [|exact Hh].
    apply holds_fresh; [apply wf_grow; exact W|]. apply holds_cell. exact Hh.
  - destruct (nth_error (fs s) f0) as [x|]; [|discriminate]. destruct (nth_error (fs s) g) as [y|]; [|discriminate]. destruct (x_from x =? x_to y)%Z; [|injection H as <- _; exact Hh]. destruct (cell s (x_h x)); [|discriminate]. destruct (cell s (x_h y)); [|discriminate]. injection H as <- _. apply holds_fresh; assumption.
  - destruct (nth_error (vecs s) v) as [l|] eqn:Hv; [|discriminate]. injection H as <- _. exists c. cbn. split; [exact Hf|]. split; [exact Hc|]. apply seen_split. cbn. refine (conj A (conj B (conj C (conj D _)))).
    intros x X. apply in_app_iff in X. destruct X as [X|[<-|[]]]; [auto|]. cbn. apply B. eapply nth_error_In; exact Hv.
  - destruct (nth_error (maps s) m0) as [l|] eqn:Hv; [|discriminate]. injection H as <- _. exists c. cbn. split; [exact Hf|]. split; [exact Hc|]. apply seen_split. cbn. refine (conj A (conj B (conj C (conj D _)))).
    intros x X. apply in_app_iff in X. destruct X as [X|[<-|[]]]; [auto|]. cbn. apply C. eapply nth_error_In; exact Hv.
  - destruct (nth_error (boxes s) b0) as [[l|l]|]; try discriminate; injection H as <- _; exact Hh.
  - destruct (nth_error (boxes s) b0) as [[l|l]|] eqn:Hb; try discriminate; injection H as <- _; exists c; cbn; (split; [exact Hf|]); (split; [exact Hc|]); apply seen_split; cbn.
    + refine (conj A (conj _ (conj C (conj D E)))). intros v X. apply in_app_iff in X. destruct X as [X|[<-|[]]]; [auto|]. apply (E (BVec l)). eapply nth_error_In; exact Hb.
    + refine (conj A (conj B (conj _ (conj D E)))). intros v X. apply in_app_iff in X. destruct X as [X|[<-|[]]]; [auto|]. apply (E (BMap l)). eapply nth_error_In; exact Hb.
  - destruct (nth_error (boxes s) b0) as [x|] eqn:Hb; [|discriminate]. injection H as <- _. exists c. cbn. split; [exact Hf|]. split; [exact Hc|]. apply seen_split. cbn. refine (conj A (conj B (conj C (conj D _)))).
    intros y X. apply in_app_iff in X. destruct X as [X|[<-|[]]]; [auto|]. apply E. eapply nth_error_In; exact Hb.
Qed.
(** Nothing a program does, short of taking its homography or assigning, changes
    an f2w/f2f homography. *)
Theorem C113_unique_keeps : forall s f v q s', reachable s -> unique_copy s f -> step s (FRead f) = Some (s, v) ->
  (forall o, In o q -> ~ touches f o) -> run s q = Some s' -> unique_copy s' f /\ step s' (FRead f) = Some (s', v).
Proof.
  intros s f v q s' R (x & c & m & Hx & Hc & Hm & Hs) Hr Nt Hq. pose proof (reach_wf s R) as W.
  assert (holds s f m (x_from x) (x_to x)) as Hh. { exists c. destruct x as [h a b]. cbn in *. subst h. auto. }
  assert (v = OF m (x_from x) (x_to x)) as ->. { cbn [ShareModel.step] in Hr. rewrite Hx, Hc in Hr. cbn [cell] in Hr. rewrite Hm in Hr. injection Hr as <-. reflexivity. }
  assert (holds s' f m (x_from x) (x_to x)) as (c' & A & B & C).
  { clear R Hx Hc Hm Hs Hr. revert s W Hh Nt Hq. induction q as [|o q IH]; intros s W Hh Nt Hq; cbn in Hq; [injection Hq as <-; exact Hh|].
    destruct (step s o) as [[s1 r]|] eqn:E; [|discriminate]. apply (IH s1).
    - eapply step_wf; eauto.
    - eapply holds_step; eauto. apply Nt. left; reflexivity.
    - intros o' Ho. apply Nt. right; exact Ho.
    - exact Hq. }
  split.
  - exists (F2X (Some c') (x_from x) (x_to x)), c', m. auto.
  - cbn [ShareModel.step]. rewrite A. cbn [x_h cell]. rewrite B. reflexivity.
Qed.
Print Assumptions C113_unique_keeps.

(** homography() hands out the object itself: changing it changes f. *)
Theorem C113_accessor_shares : forall s f m a b m', reachable s -> step s (FRead f) = Some (s, OF m a b) ->
  exists s1 s2, step s (FGet f) = Some (s1, ODone) /\ step s1 (PSet (length (ptrs s)) m') = Some (s2, ODone) /\ step s2 (FRead f) = Some (s2, OF m' a b).
Proof.
  intros s f m a b m' R H. cbn [ShareModel.step] in H. destruct (nth_error (fs s) f) as [[h a0 b0]|] eqn:Hf; [|discriminate]. cbn [x_h x_from x_to] in H.
  destruct h as [c|]; [|discriminate]. cbn [cell] in H. destruct (nth_error (cells s) c) as [m0|] eqn:Hc; [|discriminate]. injection H as -> -> ->.
  eexists. eexists. cbn [ShareModel.step]. rewrite Hf. split; [reflexivity|]. cbn [x_h add_ptr ptrs]. rewrite nth_error_app2, Nat.sub_diag by lia. cbn [nth_error]. split; [reflexivity|].
  cbn [set_cell fs cells add_ptr]. rewrite Hf. unfold cell, set_cell. cbn [x_h x_from x_to cells add_ptr]. rewrite nth_lupd_eq by (apply nth_error_Some; congruence). reflexivity.
Qed.
Print Assumptions C113_accessor_shares.
(** "so we retain a unique copy" ends with assignment: afterwards both are one. *)
Theorem C113_assign_refuted : forall s f g m a b m', reachable s -> f <> g -> nth_error (fs s) f <> None -> step s (FRead g) = Some (s, OF m a b) ->
  exists s1 s2 s3, step s (FAssign f g) = Some (s1, ODone) /\ step s1 (FRead f) = Some (s1, OF m a b) /\ ~ unique_copy s1 f /\ ~ unique_copy s1 g /\
    step s1 (FGet f) = Some (s2, ODone) /\ step s2 (PSet (length (ptrs s)) m') = Some (s3, ODone) /\ step s3 (FRead g) = Some (s3, OF m' a b).
Proof.
  intros s f g m a b m' R Nfg Hf H. cbn [ShareModel.step] in H. destruct (nth_error (fs s) g) as [[h a0 b0]|] eqn:Hg; [|discriminate]. cbn [x_h x_from x_to] in H.
  destruct h as [c|]; [|discriminate]. cbn [cell] in H. destruct (nth_error (cells s) c) as [m0|] eqn:Hc; [|discriminate]. injection H as -> -> ->.
  destruct (nth_error (fs s) f) as [x|] eqn:Ef; [|congruence]. assert (f < length (fs s)) as Lf by (apply nth_error_Some; congruence).
  set (s1 := set_f s f (F2X (Some c) a b)).
  assert (nth_error (fs s1) f = Some (F2X (Some c) a b)) as F1 by (cbn; apply nth_lupd_eq; exact Lf).
  assert (nth_error (fs s1) g = Some (F2X (Some c) a b)) as G1 by (cbn; rewrite nth_lupd_ne by exact Nfg; exact Hg).
  exists s1. eexists. eexists. cbn [ShareModel.step]. rewrite Ef, Hg. split; [reflexivity|]. rewrite F1. cbn [x_h x_from x_to cell]. change (cells s1) with (cells s). rewrite Hc. split; [reflexivity|].
  split. { intros (y & d & n & Y1 & Y2 & Y3 & Y4). rewrite F1 in Y1. injection Y1 as <-. cbn in Y2. injection Y2 as <-. apply Y4. do 3 right. left. exists g, (F2X (Some c) a b). auto. }
  split. { intros (y & d & n & Y1 & Y2 & Y3 & Y4). rewrite G1 in Y1. injection Y1 as <-. cbn in Y2. injection Y2 as <-. apply Y4. do 3 right. left. exists f, (F2X (Some c) a b). auto. }
  split; [reflexivity|]. cbn [add_ptr ptrs]. change (ptrs s1) with (ptrs s). rewrite nth_error_app2, Nat.sub_diag by lia. cbn [nth_error]. split; [reflexivity|].
  cbn [set_cell add_ptr fs cells]. rewrite G1. unfold cell, set_cell. cbn [x_h x_from x_to cells add_ptr]. change (cells s1) with (cells s). rewrite nth_lupd_eq by (apply nth_error_Some; congruence). reflexivity.
Qed.
Print Assumptions C113_assign_refuted.
(** A null pointer is followed, not refused. *)
Theorem C113_null_refuted : forall s p a b, nth_error (ptrs s) p = Some None -> step s (FNew p a b) = None.
Proof. intros s p a b H. cbn [ShareModel.step]. rewrite H. reflexivity. Qed.
Print Assumptions C113_null_refuted.

(** ---- containers ---- *)
Lemma box_keeps s o s' r b x : step s o = Some (s', r) -> nth_error (boxes s) b = Some x -> nth_error (boxes s') b = Some x.
Proof.
  intros H Hb. assert (forall y, nth_error (boxes s ++ [y]) b = Some x) as K. { intros y. rewrite nth_error_app1; [exact Hb|]. apply nth_error_Some. congruence. }
  destruct o; cbn [ShareModel.step] in H;
  repeat match type of H with
  | (match ?e with _ => _ end) = Some _ => destruct e; try discriminate
  end; injection H as <- _; cbn; auto.
Qed.
(** A simple set holds the pointers it was made from, in order, whatever happens
    to the vector it was made from or to vectors it gave out; so do its copies. *)
Theorem C113_set : forall s v l s1 q s2, nth_error (vecs s) v = Some l -> step s (BNewV v) = Some (s1, ODone) -> run s1 q = Some s2 ->
  step s2 (BSize (length (boxes s))) = Some (s2, ONum (length l)) /\
  exists s3, step s2 (BGet (length (boxes s))) = Some (s3, ODone) /\ nth_error (vecs s3) (length (vecs s2)) = Some l /\
    step s3 (VRead (length (vecs s2))) = Some (s3, OList (look s2 l)).
Proof.
  intros s v l s1 q s2 Hv H Hq. cbn [ShareModel.step] in H. rewrite Hv in H. injection H as <-.
  assert (nth_error (boxes s2) (length (boxes s)) = Some (BVec l)) as Hb.
  { revert Hq. apply (run_ind (fun s => nth_error (boxes s) _ = _)); [intros; eapply box_keeps; eauto|]. cbn. rewrite nth_error_app2, Nat.sub_diag by lia. reflexivity. }
  cbn [ShareModel.step]. rewrite Hb. split; [reflexivity|]. eexists. split; [reflexivity|]. cbn [add_vec vecs]. rewrite nth_error_app2, Nat.sub_diag by lia. split; reflexivity.
Qed.
Print Assumptions C113_set.
Theorem C113_map : forall s v l s1 q s2, nth_error (maps s) v = Some l -> step s (BNewK v) = Some (s1, ODone) -> run s1 q = Some s2 ->
  step s2 (BSize (length (boxes s))) = Some (s2, ONum (length l)) /\
  exists s3, step s2 (BGet (length (boxes s))) = Some (s3, ODone) /\ nth_error (maps s3) (length (maps s2)) = Some l /\
    step s3 (KRead (length (maps s2))) = Some (s3, OMap (lookk s2 l)).
Proof.
  intros s v l s1 q s2 Hv H Hq. cbn [ShareModel.step] in H. rewrite Hv in H. injection H as <-.
  assert (nth_error (boxes s2) (length (boxes s)) = Some (BMap l)) as Hb.
  { revert Hq. apply (run_ind (fun s => nth_error (boxes s) _ = _)); [intros; eapply box_keeps; eauto|]. cbn. rewrite nth_error_app2, Nat.sub_diag by lia. reflexivity. }
  cbn [ShareModel.step]. rewrite Hb. split; [reflexivity|]. eexists. split; [reflexivity|]. cbn [add_map maps]. rewrite nth_error_app2, Nat.sub_diag by lia. split; reflexivity.
Qed.
Print Assumptions C113_map.
Theorem C113_box_copy : forall s b s1 q s2, step s (BCopy b) = Some (s1, ODone) -> run s1 q = Some s2 ->
  nth_error (boxes s2) (length (boxes s)) = nth_error (boxes s) b /\ nth_error (boxes s2) b = nth_error (boxes s) b.
Proof.
  intros s b s1 q s2 H Hq. cbn [ShareModel.step] in H. destruct (nth_error (boxes s) b) as [x|] eqn:Hb; [|discriminate]. injection H as <-.
  assert (forall k, nth_error (boxes (add_box s x)) k = Some x -> nth_error (boxes s2) k = Some x) as K.
  { intros k Hk. revert Hq. apply (run_ind (fun s => nth_error (boxes s) k = _)); [intros; eapply box_keeps; eauto|exact Hk]. }
  split; apply K; cbn; [rewrite nth_error_app2, Nat.sub_diag by lia; reflexivity|]. rewrite nth_error_app1; [exact Hb|]. apply nth_error_Some. congruence.
Qed.
Print Assumptions C113_box_copy.
(** The elements themselves are shared: only writing through a pointer changes
    what a set shows, and it shows in every container with that pointer. *)
Theorem C113_elements_shared : forall s o s' r l, reachable s -> Forall (okp (length (cells s))) l -> step s o = Some (s', r) ->
  ((forall p m, o <> PSet p m) -> look s' l = look s l) /\
  (forall p c m i, o = PSet p m -> nth_error (ptrs s) p = Some (Some c) -> nth_error l i = Some (Some c) -> nth_error (look s' l) i = Some (Some m)) /\
  (forall p c m i c', o = PSet p m -> nth_error (ptrs s) p = Some (Some c) -> nth_error l i = Some (Some c') -> c' <> c -> nth_error (look s' l) i = nth_error (look s l) i).
Proof.
  intros s o s' r l R Hl H. pose proof (reach_wf s R) as (A & _). refine (conj _ (conj _ _)).
  - intros Np. assert (exists t, cells s' = cells s ++ t) as [t Ht].
    { destruct o; cbn [ShareModel.step] in H; try (exfalso; eapply Np; reflexivity);
      repeat match type of H with (match ?e with _ => _ end) = Some _ => destruct e; try discriminate end;
      injection H as <- _; cbn; try (exists []; rewrite app_nil_r; reflexivity); try (eexists; reflexivity).
      all: rewrite <- app_assoc; eexists; reflexivity. }
    unfold look. apply map_ext_in. intros p Hp. rewrite Forall_forall in Hl. specialize (Hl p Hp). destruct p as [c|]; [|reflexivity]. cbn in *. rewrite Ht, nth_error_app1 by exact Hl. reflexivity.
  - intros p c m i -> Hp Hi. cbn [ShareModel.step] in H. rewrite Hp in H. injection H as <- _. unfold look. rewrite nth_error_map, Hi. cbn.
    rewrite nth_lupd_eq; [reflexivity|]. exact (Forall_nth _ _ _ _ A Hp).
  - intros p c m i c' -> Hp Hi Nc. cbn [ShareModel.step] in H. rewrite Hp in H. injection H as <- _. unfold look. rewrite !nth_error_map, Hi. cbn. rewrite nth_lupd_ne by congruence. reflexivity.
Qed.
Print Assumptions C113_elements_shared.
End C.

(** ---- the hypotheses are met ---- *)
Definition inv1 (m : nat) : option nat := if m =? 0 then None else Some (100 - m).
Example C113_ex1 : exists s, run 1 inv1 Nat.mul st0 [PNew 5; FNew 0 3%Z 4%Z; PSet 0 6; FCopy 0; FMat 7 4%Z 8%Z; FMul 2 0; FInv 0] = Some s /\
  step 1 inv1 Nat.mul s (FRead 0) = Some (s, OF 5 3%Z 4%Z) /\ step 1 inv1 Nat.mul s (FRead 3) = Some (s, OF 35 3%Z 8%Z) /\ step 1 inv1 Nat.mul s (FRead 4) = Some (s, OF 95 4%Z 3%Z) /\
  unique_copy s 0.
Proof.
  eexists. split; [vm_compute; reflexivity|]. do 3 (split; [vm_compute; reflexivity|]).
  eexists _, _, _. split; [reflexivity|]. split; [reflexivity|]. split; [reflexivity|].
  intros [H|[(v & Hv & H)|[(m & Hm & H)|[(g & x & Ng & Hg & H)|(b & Hb & H)]]]]; cbn in *; try tauto.
  - destruct H as [H|[]]; discriminate.
  - destruct g as [|[|[|[|[|g]]]]]; cbn in Hg; try congruence; try (injection Hg as <-; discriminate). destruct g; discriminate.
Qed.
Example C113_ex2 : exists s, run 1 inv1 Nat.mul st0 [PNew 5; PNew 6; VNew; VPush 0 0; VPush 0 1; BNewV 0; VStore 0 0 1; BGet 0; VPush 1 0; PSet 1 9; BGet 0] = Some s /\
  step 1 inv1 Nat.mul s (BSize 0) = Some (s, ONum 2) /\ step 1 inv1 Nat.mul s (VRead 2) = Some (s, OList [Some 5; Some 9]) /\ step 1 inv1 Nat.mul s (VRead 0) = Some (s, OList [Some 9; Some 9]).
Proof. eexists. split; [vm_compute; reflexivity|]. vm_compute. auto. Qed.
