(** CacheProps.v -- C42, C69, C70. *)
From Coq Require Import ZArith List Bool Lia.
Import ListNotations.
From Verif Require Import CacheModel CacheProofs.
Local Open Scope Z_scope.

(** C42: after any history of fewer than 2^64 stores and erases, a handle is
    retrievable exactly when it is not NULL and has outstanding stores. *)
Theorem C42_retrievable h p : Z.of_nat (length h) < 2 ^ 64 ->
  (p = 0 -> get (run h) p = NullPointer) /\
  (p <> 0 -> outstanding h p = 0%nat -> get (run h) p = NoEntry) /\
  (p <> 0 -> (outstanding h p > 0)%nat -> exists s, get (run h) p = Got s /\ since h p s).
Proof.
  intro HL. unfold get. split; [|split].
  - intros ->. reflexivity.
  - intros Hp O. pose proof (run_inv h HL p Hp) as I. rewrite O in I. cbn in I. destruct I as [I _]. apply Z.eqb_neq in Hp. rewrite Hp, I. reflexivity.
  - intros Hp O. pose proof (run_inv h HL p Hp) as I. destruct (outstanding h p) as [|n]; [lia|]. destruct I as [_ (s & S1 & S2)]. apply Z.eqb_neq in Hp. rewrite Hp, S1. eauto.
Qed.
Print Assumptions C42_retrievable.
(** When no prefix of the history erases more often than it stores, the number
    outstanding is stores minus erases: the handle dies with the erase that
    matches the last store, not before. *)
Theorem C42_balanced h p : Z.of_nat (length h) < 2 ^ 64 -> p <> 0 ->
  (forall m, erases (firstn m h) p <= stores (firstn m h) p)%nat ->
  (exists s, get (run h) p = Got s) <-> (stores h p > erases h p)%nat.
Proof.
  intros HL Hp Hb. pose proof (balanced h p Hb) as B. destruct (C42_retrievable h p HL) as (_ & R1 & R2). split.
  - intros [s Hs]. destruct (outstanding h p) eqn:O; [rewrite R1 in Hs by auto; discriminate|lia].
  - intro H. destruct R2 as (s & Hs & _); auto; [lia|eauto].
Qed.
Print Assumptions C42_balanced.
(** Erasing an unknown handle, and storing or erasing NULL, change nothing. *)
Theorem C42_no_ops c : (forall o, store c (mkSp 0 o) = (c, NullPointer)) /\ erase c 0 = (c, NullPointer) /\
  (forall p, p <> 0 -> get c p = NoEntry -> erase c p = (c, Done)).
Proof.
  split; [|split]; try reflexivity. intros p Hp H. unfold get in H. unfold erase. apply Z.eqb_neq in Hp. rewrite Hp in *. destruct (c_ptr c p); congruence.
Qed.
Print Assumptions C42_no_ops.
Example C42_nonvacuous :
  let h := [Erase 8; Store (mkSp 8 1); Store (mkSp 8 2); Erase 8; Store (mkSp 9 3)] in
  outstanding h 8 = 1%nat /\ get (run h) 8 = Got (mkSp 8 1) /\ get (run (h ++ [Erase 8])) 8 = NoEntry /\ get (run h) 9 = Got (mkSp 9 3) /\
  (forall m, erases (firstn m (tl h)) 8 <= stores (firstn m (tl h)) 8)%nat.
Proof.
  repeat split; try reflexivity. intro m. cbn [tl]. do 5 (destruct m as [|m]; [cbn; lia|]). cbn. destruct m; cbn; lia.
Qed.

(** C69: algorithm handles.  A call is legal when the object it makes is at an
    address no cached (hence live) object has, and when destroy is the one for
    the handle's own type. *)
Definition fresh (k : caches) (m : option sptr) : Prop := match m with Some s => s_addr s <> 0 /\ get (k_all k) (s_addr s) = NoEntry | None => True end.
Definition legal (k : caches) (c : call) : Prop :=
  match c with
  | Create _ m => fresh k m
  | Clone _ _ m => fresh k m
  | SetType _ _ (Replaced m) => fresh k m
  | SetType _ _ _ => True
  | Destroy i p => forall j s, get (k_type k j) p = Got s -> j = i
  end.
Inductive history : caches -> Prop :=
| h_start : history empty_caches
| h_call k c : history k -> legal k c -> history (do_call k c).

Definition kinv (k : caches) : Prop := forall p,
  match c_ptr (k_all k) p with
  | None => c_ref (k_all k) p = None /\ forall i, c_ptr (k_type k i) p = None /\ c_ref (k_type k i) p = None
  | Some s => s_addr s = p /\ p <> 0 /\ c_ref (k_all k) p = Some 1 /\
      exists i, c_ptr (k_type k i) p = Some s /\ c_ref (k_type k i) p = Some 1 /\ forall j, j <> i -> c_ptr (k_type k j) p = None /\ c_ref (k_type k j) p = None
  end.
Lemma updn_eq {A} (f : nat -> A) i v : updn f i v i = v.
Proof. unfold updn. rewrite Nat.eqb_refl. reflexivity. Qed.
Lemma updn_ne {A} (f : nat -> A) i j v : j <> i -> updn f i v j = f j.
Proof. intro H. unfold updn. apply Nat.eqb_neq in H. rewrite H. reflexivity. Qed.
Lemma fresh_none k s : kinv k -> fresh k (Some s) -> s_addr s <> 0 /\ c_ptr (k_all k) (s_addr s) = None.
Proof. intros I [F1 F2]. split; auto. unfold get in F2. apply Z.eqb_neq in F1. rewrite F1 in F2. destruct (c_ptr (k_all k) (s_addr s)); congruence. Qed.
Lemma store2_inv k i s : kinv k -> s_addr s <> 0 -> c_ptr (k_all k) (s_addr s) = None ->
  exists k', store2 k i s = (k', Done) /\ kinv k' /\ c_ptr (k_all k') (s_addr s) = Some s /\ c_ptr (k_type k' i) (s_addr s) = Some s.
Proof.
  intros I F1 F2. pose proof (I (s_addr s)) as I0. rewrite F2 in I0. destruct I0 as [_ I0]. destruct (I0 i) as [I1 _].
  unfold store2, store. pose proof F1 as F1'. apply Z.eqb_neq in F1'. rewrite F1', F2, I1. eexists. split; [reflexivity|]. split; [|split; cbn [k_all k_type c_ptr]; rewrite ?updn_eq; cbn [c_ptr]; apply upd_eq].
  intro p. cbn [k_all k_type c_ptr c_ref]. destruct (Z.eq_dec p (s_addr s)) as [->|N].
  - rewrite !upd_eq. split; auto. split; auto. split; auto. exists i. rewrite updn_eq. cbn [c_ptr c_ref]. rewrite !upd_eq. split; auto. split; auto. intros j Hj. rewrite updn_ne by auto. apply I0.
  - rewrite !upd_ne by auto. specialize (I p).
    assert (E : forall j, c_ptr (updn (k_type k) i {| c_ptr := upd (c_ptr (k_type k i)) (s_addr s) (Some s); c_ref := upd (c_ref (k_type k i)) (s_addr s) (Some 1) |} j) p = c_ptr (k_type k j) p /\
                c_ref (updn (k_type k) i {| c_ptr := upd (c_ptr (k_type k i)) (s_addr s) (Some s); c_ref := upd (c_ref (k_type k i)) (s_addr s) (Some 1) |} j) p = c_ref (k_type k j) p).
    { intro j. destruct (Nat.eq_dec j i) as [->|Nj]; [rewrite updn_eq; cbn [c_ptr c_ref]; rewrite !upd_ne by auto; auto|rewrite updn_ne by auto; auto]. }
    destruct (c_ptr (k_all k) p) as [s0|].
    + destruct I as (A1 & A2 & A3 & i0 & A4 & A5 & A6). repeat (split; auto). exists i0. destruct (E i0) as [-> ->]. split; [exact A4|]. split; [exact A5|]. intros j Hj. destruct (E j) as [-> ->]. apply A6; auto.
    + destruct I as [A1 A2]. split; auto. intro j. destruct (E j) as [-> ->]. apply A2.
Qed.
Lemma erase_one c p s : p <> 0 -> c_ptr c p = Some s -> c_ref c p = Some 1 -> erase c p = (mkCache (upd (c_ptr c) p None) (upd (c_ref c) p None), Done).
Proof. intros H1 H2 H3. unfold erase. apply Z.eqb_neq in H1. rewrite H1, H2. unfold ref_at. rewrite H3. reflexivity. Qed.
Lemma erase_none c p : p <> 0 -> c_ptr c p = None -> erase c p = (c, Done).
Proof. intros H1 H2. unfold erase. apply Z.eqb_neq in H1. rewrite H1, H2. reflexivity. Qed.
Lemma erase2_inv k i p : kinv k -> p <> 0 -> (forall j s, get (k_type k j) p = Got s -> j = i) ->
  exists k', erase2 k i p = (k', Done) /\ kinv k' /\ c_ptr (k_all k') p = None /\ (forall q, q <> p -> c_ptr (k_all k') q = c_ptr (k_all k) q).
Proof.
  intros I Hp L. pose proof (I p) as I0. unfold erase2. destruct (c_ptr (k_all k) p) as [s|] eqn:E.
  - destruct I0 as (A1 & A2 & A3 & i0 & A4 & A5 & A6).
    assert (i0 = i). { apply (L i0 s). unfold get. pose proof Hp as Hp'. apply Z.eqb_neq in Hp'. rewrite Hp', A4. reflexivity. } subst i0.
    rewrite (erase_one _ _ _ Hp E A3), (erase_one _ _ _ Hp A4 A5). eexists. split; [reflexivity|]. split; [|split].
    + intro q. cbn [k_all k_type c_ptr c_ref]. destruct (Z.eq_dec q p) as [->|N].
      * rewrite !upd_eq. split; auto. intro j. destruct (Nat.eq_dec j i) as [->|Nj]; [rewrite updn_eq; cbn [c_ptr c_ref]; rewrite !upd_eq; auto|rewrite updn_ne by auto; auto].
      * rewrite !upd_ne by auto. specialize (I q).
        match goal with |- context[updn (k_type k) i ?c] => assert (E' : forall j, c_ptr (updn (k_type k) i c j) q = c_ptr (k_type k j) q /\ c_ref (updn (k_type k) i c j) q = c_ref (k_type k j) q) by
          (intro j; destruct (Nat.eq_dec j i) as [->|Nj]; [rewrite updn_eq; cbn [c_ptr c_ref]; rewrite !upd_ne by auto; auto|rewrite updn_ne by auto; auto]) end.
        destruct (c_ptr (k_all k) q) as [s0|].
        -- destruct I as (B1 & B2 & B3 & j0 & B4 & B5 & B6). repeat (split; auto). exists j0. destruct (E' j0) as [-> ->]. split; [exact B4|]. split; [exact B5|]. intros j Hj. destruct (E' j) as [-> ->]. apply B6; auto.
        -- destruct I as [B1 B2]. split; auto. intro j. destruct (E' j) as [-> ->]. apply B2.
    + cbn [k_all c_ptr]. apply upd_eq.
    + intros q N. cbn [k_all c_ptr]. apply upd_ne; auto.
  - destruct I0 as [A1 A2]. destruct (A2 i) as [A3 A4]. rewrite (erase_none _ _ Hp E), (erase_none _ _ Hp A3). eexists. split; [reflexivity|]. split; [|split]; auto.
    intro q. cbn [k_all k_type]. specialize (I q). assert (E' : forall j, updn (k_type k) i (k_type k i) j = k_type k j) by (intro j; unfold updn; destruct (Nat.eqb_spec j i); congruence).
    destruct (c_ptr (k_all k) q) as [s0|].
    + destruct I as (B1 & B2 & B3 & j0 & B4 & B5 & B6). repeat (split; auto). exists j0. rewrite E'. split; [exact B4|]. split; [exact B5|]. intros j Hj. rewrite E'. apply B6; auto.
    + destruct I as [B1 B2]. split; auto. intro j. rewrite E'. apply B2.
Qed.
Lemma kinv_get k p : kinv k -> forall i s, get (k_type k i) p = Got s -> get (k_all k) p = Got s /\ s_addr s = p /\ p <> 0 /\ forall j s', get (k_type k j) p = Got s' -> j = i.
Proof.
  intros I i s H. unfold get in *. destruct (Z.eqb_spec p 0) as [Z0|Z0]; [discriminate|]. specialize (I p). destruct (c_ptr (k_type k i) p) as [s0|] eqn:E; [|discriminate]. injection H as ->.
  destruct (c_ptr (k_all k) p) as [s1|].
  - destruct I as (B1 & B2 & B3 & j0 & B4 & B5 & B6). assert (j0 = i) by (destruct (Nat.eq_dec i j0) as [->|N]; auto; destruct (B6 i N); congruence). subst j0.
    assert (s1 = s) by congruence. subst s1. repeat (split; auto). intros j s' H'. destruct (Nat.eq_dec j i) as [->|N]; auto. destruct (B6 j N) as [X _]. rewrite X in H'. discriminate.
  - destruct I as [_ B]. destruct (B i). congruence.
Qed.
Lemma set_type_inv k i p n : kinv k -> legal k (SetType i p n) -> kinv (fst (fst (set_type_config k i p n))).
Proof.
  intros I L. unfold set_type_config. destruct (Z.eqb_spec p 0) as [->|Np].
  - destruct n as [|[s|]|]; cbn [fst]; auto. destruct (fresh_none k s I L) as [F1 F2].
    assert (E : (0 =? s_addr s) = false) by (apply Z.eqb_neq; congruence). rewrite E. cbn [Z.eqb].
    destruct (store2_inv k i s I F1 F2) as (k' & -> & I' & _). exact I'.
  - destruct (get (k_type k i) p) as [|s0| |] eqn:G; auto. destruct (kinv_get k p I i s0 G) as (G1 & G2 & _ & G3).
    destruct n as [|o|]; cbn [fst]; auto. destruct (Z.eqb_spec (s_addr s0) (match o with Some s => s_addr s | None => 0 end)) as [E|E]; auto. rewrite G2 in *.
    pose proof Np as Np'. apply Z.eqb_neq in Np'. rewrite Np'. destruct (erase2_inv k i p I Np G3) as (k1 & -> & I1 & N1 & O1).
    destruct o as [s|]; [|exact I1]. destruct (fresh_none k s I L) as [F1 F2].
    destruct (store2_inv k1 i s I1 F1) as (k' & -> & I' & _); [|exact I']. destruct (Z.eq_dec (s_addr s) p) as [->|N]; auto. rewrite O1; auto.
Qed.
Lemma history_inv k : history k -> kinv k.
Proof.
  induction 1 as [|k c H I L]; [intro p; cbn; auto|]. destruct c as [i m|i p|i p m|i p n]; cbn [do_call].
  - unfold create. destruct m as [s|]; [|exact I]. destruct (fresh_none k s I L) as [F1 F2]. destruct (store2_inv k i s I F1 F2) as (k' & -> & I' & _). exact I'.
  - unfold destroy. destruct (Z.eqb_spec p 0) as [->|Np]; [destruct k; exact I|]. destruct (erase2_inv k i p I Np L) as (k' & -> & I' & _). exact I'.
  - unfold clone. destruct (p =? 0); auto. destruct (get (k_type k i) p) as [|s0| |]; auto. destruct m as [s|]; auto. destruct (fresh_none k s I L) as [F1 F2]. destruct (store2_inv k i s I F1 F2) as (k' & -> & I' & _). exact I'.
  - apply set_type_inv; auto.
Qed.
(** In every legal history the general and the typed functions agree about
    every handle: the handle of a live algorithm belongs to exactly one type
    and both find the same object; otherwise neither finds it. *)
Theorem C69_agree k p : history k ->
  (forall s, get (k_all k) p = Got s <-> exists i, get (k_type k i) p = Got s) /\
  (forall i j s s', get (k_type k i) p = Got s -> get (k_type k j) p = Got s' -> i = j /\ s = s').
Proof.
  intro H. apply history_inv in H. split.
  - intro s. split.
    + intro G. unfold get in *. destruct (p =? 0); [discriminate|]. specialize (H p). destruct (c_ptr (k_all k) p) as [s1|]; [|discriminate]. injection G as ->.
      destruct H as (_ & _ & _ & i & E & _). exists i. rewrite E. reflexivity.
    + intros [i G]. apply (kinv_get k p H i s G).
  - intros i j s s' G1 G2. destruct (kinv_get k p H i s G1) as (A & _ & _ & B). pose proof (B j s' G2) as E. split; [congruence|]. subst j. congruence.
Qed.
Print Assumptions C69_agree.
(** After destroy the handle is gone everywhere; after create, clone and a
    replacing set_type_config, the handle given out is found everywhere. *)
Theorem C69_destroy k i p : history k -> legal k (Destroy i p) -> p <> 0 ->
  exists k', destroy k i p = (k', Handle 0) /\ get (k_all k') p = NoEntry /\ (forall j, get (k_type k' j) p = NoEntry) /\
  (forall q, q <> p -> get (k_all k') q = get (k_all k) q).
Proof.
  intros H L Np. apply history_inv in H. unfold destroy. destruct (erase2_inv k i p H Np L) as (k' & -> & I' & E & O). exists k'. split; [reflexivity|].
  unfold get. pose proof Np as Np'. apply Z.eqb_neq in Np'. rewrite Np'. split; [rewrite E; reflexivity|]. split.
  - intro j. specialize (I' p). rewrite E in I'. destruct I' as [_ I']. destruct (I' j) as [-> _]. reflexivity.
  - intros q Nq. rewrite O; auto.
Qed.
Print Assumptions C69_destroy.
Theorem C69_create k i s : history k -> fresh k (Some s) ->
  exists k', create k i (Some s) = (k', Handle (s_addr s)) /\ get (k_all k') (s_addr s) = Got s /\ get (k_type k' i) (s_addr s) = Got s.
Proof.
  intros H L. apply history_inv in H. destruct (fresh_none k s H L) as [F1 F2]. destruct (store2_inv k i s H F1 F2) as (k' & E & I' & S1 & S2).
  unfold create. rewrite E. exists k'. split; [reflexivity|]. unfold get. apply Z.eqb_neq in F1. rewrite F1, S1, S2. auto.
Qed.
Print Assumptions C69_create.
(** Whatever create or clone answers: a handle other than 0 is found everywhere with
    the object made; 0 means that there was nothing to make or to clone, an error that the
    handle was not live or its clone null, and then nothing has changed. *)
Theorem C69_answers k i p made k' a : history k -> fresh k made ->
  (create k i made = (k', a) \/ clone k i p made = (k', a)) ->
  match a with
  | Handle h => (h = 0 /\ k' = k /\ (made = None \/ p = 0)) \/
      (h <> 0 /\ exists s, made = Some s /\ s_addr s = h /\ get (k_all k') h = Got s /\ get (k_type k' i) h = Got s)
  | Error => k' = k /\ (made = None \/ forall s, get (k_type k i) p <> Got s)
  end.
Proof.
  intros H Fr C. apply history_inv in H. assert (forall s, made = Some s -> exists k', store2 k i s = (k', Done) /\ s_addr s <> 0 /\ get (k_all k') (s_addr s) = Got s /\ get (k_type k' i) (s_addr s) = Got s) as St.
  { intros s ->. destruct (fresh_none k s H Fr) as [F1 F2]. destruct (store2_inv k i s H F1 F2) as (k2 & E & I' & S1 & S2). exists k2. split; [exact E|]. split; [exact F1|]. unfold get. apply Z.eqb_neq in F1. rewrite F1, S1, S2. auto. }
  destruct C as [C|C].
  - unfold create in C. destruct made as [s|]; [|injection C as <- <-; left; auto]. destruct (St s eq_refl) as (k2 & E & N & G1 & G2). rewrite E in C. injection C as <- <-. right. split; [exact N|]. exists s. auto.
  - unfold clone in C. destruct (Z.eqb_spec p 0) as [->|Np]; [injection C as <- <-; left; auto|]. destruct (get (k_type k i) p) as [|o| |] eqn:G; try (injection C as <- <-; split; [reflexivity|]; right; discriminate).
    destruct made as [s|]; [|injection C as <- <-; auto]. destruct (St s eq_refl) as (k2 & E & N & G1 & G2). rewrite E in C. injection C as <- <-. right. split; [exact N|]. exists s. auto.
Qed.
Print Assumptions C69_answers.
Theorem C69_set_type_config k i p o s : history k -> get (k_type k i) p = Got o -> fresh k (Some s) ->
  exists k', set_type_config k i p (Replaced (Some s)) = (k', Handle 0, s_addr s) /\
    get (k_all k') (s_addr s) = Got s /\ get (k_type k' i) (s_addr s) = Got s /\ get (k_all k') p = NoEntry.
Proof.
  intros H G L. apply history_inv in H. destruct (fresh_none k s H L) as [F1 F2]. destruct (kinv_get k p H i o G) as (G1 & G2 & G0 & G3).
  unfold set_type_config. pose proof G0 as G0'. apply Z.eqb_neq in G0'. rewrite G0', G, G2.
  assert (N : s_addr s <> p). { intros E. unfold get in G1. rewrite G0' in G1. rewrite E in F2. rewrite F2 in G1. discriminate. }
  assert (E : (p =? s_addr s) = false) by (apply Z.eqb_neq; congruence). rewrite E, G0'.
  destruct (erase2_inv k i p H G0 G3) as (k1 & -> & I1 & N1 & O1).
  destruct (store2_inv k1 i s I1 F1) as (k' & E' & I' & S1 & S2); [rewrite O1; auto|]. rewrite E'. exists k'. split; [reflexivity|].
  unfold get. apply Z.eqb_neq in F1. rewrite F1, S1, S2, G0'. split; auto. split; auto.
  assert (X : c_ptr (k_all k') p = c_ptr (k_all k1) p).
  { unfold store2 in E'. unfold store in E'. rewrite F1 in E'. destruct (c_ptr (k_all k1) (s_addr s)); destruct (c_ptr (k_type k1 i) (s_addr s)); injection E' as <-; cbn [k_all c_ptr]; rewrite ?upd_ne by auto; reflexivity. }
  rewrite X, N1. reflexivity.
Qed.
Print Assumptions C69_set_type_config.
Example C69_nonvacuous : exists k, history k /\ get (k_all k) 8 = NoEntry /\ get (k_all k) 16 = Got (mkSp 16 2) /\ get (k_type k 1) 24 = Got (mkSp 24 3) /\ get (k_all k) 24 = Got (mkSp 24 3) /\ fresh k (Some (mkSp 8 7)).
Proof.
  exists (do_call (do_call (do_call empty_caches (Create 0 (Some (mkSp 8 1)))) (Create 1 (Some (mkSp 24 3)))) (SetType 0 8 (Replaced (Some (mkSp 16 2))))).
  split; [|repeat split; try reflexivity; discriminate].
  apply h_call; [apply h_call; [apply h_call; [apply h_start|]|]|]; repeat split; try reflexivity; discriminate.
Qed.
(** Destroying a handle with another type's function is not caught: the
    general functions lose the object, the typed ones keep it. *)
Theorem C69_wrong_type_refuted : exists k p s, history k /\ get (k_type k 0) p = Got s /\
  snd (destroy k 1 p) = Handle 0 /\ get (k_all (fst (destroy k 1 p))) p = NoEntry /\ get (k_type (fst (destroy k 1 p)) 0) p = Got s.
Proof.
  exists (do_call empty_caches (Create 0 (Some (mkSp 8 1)))), 8, (mkSp 8 1). split; [|repeat split; reflexivity].
  apply h_call; [apply h_start|]. repeat split; try reflexivity; discriminate.
Qed.
Print Assumptions C69_wrong_type_refuted.
(** If configuration leaves no algorithm, the caller's pointer is left naming a
    handle that has just been released. *)
Theorem C69_stale_pointer_refuted : exists k p s, history k /\ get (k_type k 0) p = Got s /\
  exists k', set_type_config k 0 p (Replaced None) = (k', Error, p) /\ get (k_all k') p = NoEntry.
Proof.
  exists (do_call empty_caches (Create 0 (Some (mkSp 8 1)))), 8, (mkSp 8 1). split; [|split; [reflexivity|eexists; split; reflexivity]].
  apply h_call; [apply h_start|]. repeat split; try reflexivity; discriminate.
Qed.
Print Assumptions C69_stale_pointer_refuted.

(** C70: camera maps made from parallel arrays.  [last_of f items] is the
    camera of the last pair with that frame. *)
Definition last_of (f : Z) (items : list (Z * Z)) : option Z :=
  fold_left (fun acc (it : Z * Z) => if fst it =? f then Some (snd it) else acc) items None.
Definition sorted (l : list Z) : Prop := forall i j x y, (i < j)%nat -> nth_error l i = Some x -> nth_error l j = Some y -> x < y.
Definition mfind (f : Z) (m : list (Z * sptr)) : option sptr := option_map snd (find (fun e => fst e =? f) m).
Fixpoint keys_above (b : option Z) (m : list (Z * sptr)) : Prop :=
  match m with [] => True | (f, _) :: r => match b with Some x => x < f | None => True end /\ keys_above (Some f) r end.
Lemma keys_above_weaken b f m : (match b with Some x => x < f | None => True end) -> keys_above (Some f) m -> keys_above b m.
Proof. destruct m as [|[g s] r]; cbn; auto. destruct b; intros; intuition lia. Qed.
Lemma fset_above b m f s : keys_above b m -> (match b with Some x => x < f | None => True end) -> keys_above b (fset m f s).
Proof.
  revert b. induction m as [|[g t] r IH]; intros b Hm Hb; cbn [fset].
  - cbn. auto.
  - cbn in Hm. destruct Hm as [H1 H2]. destruct (Z.ltb_spec f g); [cbn; auto|]. destruct (Z.eqb_spec f g) as [->|N].
    + cbn. auto.
    + cbn. split; auto. apply IH; auto. lia.
Qed.
Lemma find_above f m : keys_above (Some f) m -> find (fun e : Z * sptr => fst e =? f) m = None.
Proof.
  intro H. assert (G : forall m b, f <= b -> keys_above (Some b) m -> find (fun e : Z * sptr => fst e =? f) m = None); [|apply (G m f); auto; lia].
  clear. induction m as [|[g t] r IH]; intros b Hb H; cbn; auto. cbn in H. destruct (Z.eqb_spec g f); [lia|]. apply (IH g); [lia|tauto].
Qed.
Lemma mfind_fset b m f s g : keys_above b m -> mfind g (fset m f s) = if f =? g then Some s else mfind g m.
Proof.
  revert b. unfold mfind. induction m as [|[h t] r IH]; intros b Hm; cbn [fset].
  - cbn. destruct (f =? g); reflexivity.
  - cbn in Hm. destruct Hm as [H1 H2]. destruct (Z.ltb_spec f h).
    + cbn [find fst]. destruct (f =? g); reflexivity.
    + destruct (Z.eqb_spec f h) as [->|N]; cbn [find fst].
      * destruct (Z.eqb_spec h g) as [->|Ng]; reflexivity.
      * destruct (Z.eqb_spec h g) as [->|Ng]; [destruct (Z.eqb_spec f g); [congruence|reflexivity]|]. eapply IH; eauto.
Qed.
Lemma above_sorted m b : keys_above b m -> sorted (map fst m).
Proof.
  revert b. induction m as [|[f s] r IH]; intros b H; [intros [|i] [|j] x y; discriminate|]. cbn in H. destruct H as [_ H].
  intros [|i] [|j] x y Hij X Y; cbn in X, Y; try lia.
  - injection X as <-. clear - H Y. revert f j H Y. induction r as [|[g t] r IH]; intros f j H Y; [destruct j; discriminate|]. cbn in H. destruct j as [|j]; cbn in Y; [injection Y as <-; tauto|].
    destruct H as [H1 H2]. specialize (IH _ _ H2 Y). lia.
  - apply (IH _ H i j x y); auto; lia.
Qed.
Lemma map_loop_ok c : forall items m, keys_above None m ->
  match map_loop c items m with
  | Some m' => keys_above None m' /\ (forall f p, In (f, p) items -> exists s, get c p = Got s) /\
      forall f, mfind f m' = match fold_left (fun acc (it : Z * Z) => if fst it =? f then Some (snd it) else acc) items None with
                             | Some p => match get c p with Got s => Some s | _ => None end | None => mfind f m end
  | None => exists f p, In (f, p) items /\ forall s, get c p <> Got s
  end.
Proof.
  induction items as [|[f p] r IH]; intros m Hm; cbn [map_loop].
  - split; auto. split; [intros f p []|]. intro f. reflexivity.
  - assert (Bad : (forall s, get c p <> Got s) -> exists f0 p0, In (f0, p0) ((f, p) :: r) /\ forall s, get c p0 <> Got s) by (intro X; exists f, p; split; [left; auto|auto]).
    destruct (get c p) as [|s| |] eqn:G; try (apply Bad; discriminate).
    specialize (IH (fset m f s) (fset_above _ _ _ _ Hm I)). destruct (map_loop c r (fset m f s)) as [m'|].
    + destruct IH as (I1 & I2 & I3). split; auto. split.
      * intros f0 p0 [E|E]; [injection E as <- <-; eauto|eauto].
      * intro f0. rewrite I3. cbn [fold_left fst snd]. clear I3. 
        assert (A : forall l acc, fold_left (fun acc (it : Z * Z) => if fst it =? f0 then Some (snd it) else acc) l acc =
          match fold_left (fun acc (it : Z * Z) => if fst it =? f0 then Some (snd it) else acc) l None with Some x => Some x | None => acc end).
        { clear. induction l as [|it l IH]; intro acc; cbn [fold_left]; [destruct acc; reflexivity|]. rewrite IH. rewrite (IH (if fst it =? f0 then Some (snd it) else None)). destruct (fold_left _ l None); auto. destruct (fst it =? f0); auto. }
        rewrite (A r (if f =? f0 then Some p else None)). destruct (fold_left _ r None); auto. rewrite (mfind_fset _ _ _ _ _ Hm). destruct (f =? f0); [rewrite G; reflexivity|reflexivity].
    + destruct IH as (f0 & p0 & X & Y). exists f0, p0. split; [right; auto|auto].
Qed.
(** camera_map_new succeeds exactly when every handle is live; the map has, for
    each frame, the camera of the last pair naming it, in frame order. *)
Theorem C70_camera_map_new c items :
  match camera_map_new c items with
  | Some m => sorted (map fst m) /\ (forall f p, In (f, p) items -> exists s, get c p = Got s) /\
      forall f, mfind f m = match last_of f items with Some p => match get c p with Got s => Some s | _ => None end | None => None end
  | None => exists f p, In (f, p) items /\ forall s, get c p <> Got s
  end.
Proof.
  pose proof (map_loop_ok c items [] I) as H. unfold camera_map_new. destruct (map_loop c items []) as [m|]; auto.
  destruct H as (H1 & H2 & H3). split; [eapply above_sorted; eauto|]. split; auto. 
Qed.
Print Assumptions C70_camera_map_new.
Example C70_nonvacuous : let c := run [Store (mkSp 8 1); Store (mkSp 16 2)] in
  camera_map_new c [(5, 8); (2, 16); (5, 16)] = Some [(2, mkSp 16 2); (5, mkSp 16 2)] /\ camera_map_new c [(1, 8); (2, 24)] = None.
Proof. split; reflexivity. Qed.
(** get_map: one array element per camera, in order, and every handle given out
    gains one reference: it can be destroyed once without invalidating the
    handle the caller had. *)
Definition all_addressed (m : list (Z * sptr)) : Prop := Forall (fun e => s_addr (snd e) <> 0) m.
Theorem C70_get_map c m : all_addressed m ->
  camera_map_get_map c m = (fold_left do_op (map (fun e => Store (snd e)) m) c, map (fun e => (fst e mod 2 ^ 32, s_addr (snd e))) m, true).
Proof.
  unfold camera_map_get_map. revert c. induction m as [|[f s] r IH]; intros c H; cbn [get_map_loop map fold_left]; auto. inversion H as [|? ? H1 H2]; subst. cbn [snd] in *.
  destruct (store c s) as [c' res] eqn:E. assert (res = Done). { unfold store in E. apply Z.eqb_neq in H1. rewrite H1 in E. destruct (c_ptr c (s_addr s)); congruence. } subst res.
  rewrite IH by auto. cbn [do_op]. rewrite E. reflexivity.
Qed.
Print Assumptions C70_get_map.
(** It fails exactly if a camera of the map is null; then only a part is given out. *)
Theorem C70_get_map_fails c m : snd (camera_map_get_map c m) = true <-> all_addressed m.
Proof.
  unfold camera_map_get_map. revert c. induction m as [|[f s] r IH]; intro c; cbn [get_map_loop]; [split; [constructor|reflexivity]|].
  destruct (store c s) as [c' res] eqn:E. destruct (Z.eqb_spec (s_addr s) 0) as [Z0|Z0].
  - unfold store in E. rewrite Z0 in E. cbn [Z.eqb] in E. injection E as <- <-. cbn [snd]. split; [discriminate|]. intros A. inversion A. contradiction.
  - assert (res = Done) as ->. { unfold store in E. apply Z.eqb_neq in Z0. rewrite Z0 in E. destruct (c_ptr c (s_addr s)); congruence. }
    specialize (IH c'). destruct (get_map_loop c' r) as [[c'' out] ok]. cbn [snd] in *. rewrite IH. split; [intros A; constructor; [exact Z0|exact A]|intros A; inversion A; assumption].
Qed.
Print Assumptions C70_get_map_fails.
Theorem C70_get_map_references h m p : Z.of_nat (length h + length m) < 2 ^ 64 -> all_addressed m -> p <> 0 ->
  let c' := fst (fst (camera_map_get_map (run h) m)) in
  c' = run (h ++ map (fun e => Store (snd e)) m) /\
  outstanding (h ++ map (fun e => Store (snd e)) m) p = (outstanding h p + length (filter (fun e => (s_addr (snd e) =? p)%Z) m))%nat.
Proof.
  intros HL A Hp. rewrite C70_get_map by auto. cbn [fst]. split.
  - unfold run. rewrite fold_left_app. reflexivity.
  - unfold outstanding. rewrite fold_left_app. generalize (fold_left (tick p) h 0%nat). clear. induction m as [|[f s] r IH]; intro n; cbn [map fold_left filter tick snd]; [cbn; lia|].
    rewrite IH. destruct (s_addr s =? p); cbn [length]; lia.
Qed.
Print Assumptions C70_get_map_references.
(** Frame numbers of 2^32 and more come back changed, and can collide. *)
Theorem C70_wide_frames_refuted : exists c m, all_addressed m /\ sorted (map fst m) /\ length m = 2%nat /\
  snd (fst (camera_map_get_map c m)) = [(0, 8); (0, 16)].
Proof.
  exists empty_cache, [(0, mkSp 8 1); (2 ^ 32, mkSp 16 2)]. split; [repeat constructor; discriminate|]. split; [|split; reflexivity].
  apply (above_sorted _ None). cbn. lia.
Qed.
Print Assumptions C70_wide_frames_refuted.

(** C71: check_type_config gives the verdict of the type's check for a live
    configuration handle and false otherwise; check_impl_configuration answers
    false for every algorithm and configuration, also when the algorithm
    accepts the configuration. *)
Theorem C71_check_type_config blocks cb verdict :
  (forall b, get blocks cb = Got b -> check_type_config blocks cb verdict = verdict b) /\
  ((forall b, get blocks cb <> Got b) -> check_type_config blocks cb verdict = false).
Proof. unfold check_type_config. split; [intros b ->; reflexivity|]. intro H. destruct (get blocks cb) as [|b| |]; auto. exfalso. apply (H b); auto. Qed.
Print Assumptions C71_check_type_config.
Theorem C71_check_impl_refuted k blocks algo cb verdict : check_impl_configuration k blocks algo cb verdict = false.
Proof. unfold check_impl_configuration. destruct (get (k_all k) algo), (get blocks cb); reflexivity. Qed.
Print Assumptions C71_check_impl_refuted.
Example C71_nonvacuous : get (k_all (do_call empty_caches (Create 0 (Some (mkSp 8 1))))) 8 = Got (mkSp 8 1) /\ get (run [Store (mkSp 40 2)]) 40 = Got (mkSp 40 2).
Proof. split; reflexivity. Qed.
