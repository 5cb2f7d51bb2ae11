(** ApiProofs2.v -- the invariant of ApiModel.v's worlds. *)
From Coq Require Import ZArith List Bool Arith Lia.
Import ListNotations.
From Verif Require Import Base CacheModel ApiModel ApiProofs ApiSpec.

Definition cached (w : world) (t : nat) : Prop := exists k p s, c_ptr (cache_of w k) p = Some s /\ s_obj s = t.
Definition b2n (b : bool) : nat := if b then 1 else 0.
Definition addrs_ok (h : heap) : Prop := (forall o o' a, addr_at h o = Some a -> addr_at h o' = Some a -> o = o') /\ (forall o a, addr_at h o = Some a -> a <> 0%Z).
Definition caches_ok (w : world) : Prop := forall k p s, c_ptr (cache_of w k) p = Some s ->
  s_addr s = p /\ addr_at (w_heap w) (s_obj s) = Some p /\ exists c, con_at (w_heap w) (s_obj s) = Some c /\ cls_of c = k.
Definition WInvb (w : world) (b : nat -> bool) : Prop :=
  (forall t, b t = true <-> cached w t) /\ RInv (w_heap w) (fun t => cnt (w_ext w) t + b2n (b t)) /\ addrs_ok (w_heap w) /\ caches_ok w.
Definition WInv (w : world) : Prop := exists b, WInvb w b.

Lemma kept_addr h h' : kept h h' -> forall o a, addr_at h' o = Some a -> addr_at h o = Some a.
Proof. unfold addr_at. intros K o a. destruct (cell_at h' o) as [x|] eqn:E; cbn; [|discriminate]. destruct (K _ _ E) as (y & -> & Y & _). cbn. congruence. Qed.
Lemma kept_con h h' : kept h h' -> forall o c, con_at h' o = Some c -> con_at h o = Some c.
Proof. unfold con_at. intros K o a. destruct (cell_at h' o) as [x|] eqn:E; cbn; [|discriminate]. destruct (K _ _ E) as (y & -> & _ & Y). cbn. congruence. Qed.
Lemma kept_addrs h h' : kept h h' -> addrs_ok h -> addrs_ok h'.
Proof. intros K [A B]. split; [intros o o' a H1 H2; eapply A; eapply kept_addr; eauto|intros o a H; eapply B; eapply kept_addr; eauto]. Qed.
(** An object kept alive stays what it was. *)
Lemma kept_live h h' o x : kept h h' -> cell_at h' o = Some x -> forall a c, addr_at h o = Some a -> con_at h o = Some c -> addr_at h' o = Some a /\ con_at h' o = Some c.
Proof. unfold addr_at, con_at. intros K E a c. destruct (K _ _ E) as (y & -> & Y1 & Y2). rewrite E. cbn. intros. split; congruence. Qed.
Lemma grown_addr h h' o a : grown h h' -> addr_at h o = Some a -> addr_at h' o = Some a.
Proof. unfold addr_at. intros G. destruct (cell_at h o) as [x|] eqn:E; [|discriminate]. destruct (G _ _ E) as (y & -> & Y & _). cbn. congruence. Qed.
Lemma object_iff w o a c : object w o a c <-> addr_at (w_heap w) o = Some a /\ con_at (w_heap w) o = Some c.
Proof.
  unfold object, addr_at, con_at, cell_at. destruct (nth o (w_heap w) None) as [[n x y]|]; cbn; split.
  - intros [m H]. injection H as -> -> ->. auto.
  - intros [H1 H2]. injection H1 as ->. injection H2 as ->. eauto.
  - intros [m H]. discriminate.
  - intros [H _]. discriminate.
Qed.
Lemma cell_object h o x : cell_at h o = Some x -> addr_at h o = Some (x_addr x) /\ con_at h o = Some (x_con x).
Proof. unfold addr_at, con_at. intros ->. auto. Qed.

Lemma cache_with w k c k' : cache_of (with_cache w k c) k' = if cls_eqb k' k then c else cache_of w k'.
Proof. destruct k, k'; reflexivity. Qed.
Lemma heap_with w k c : w_heap (with_cache w k c) = w_heap w. Proof. destruct k; reflexivity. Qed.
Lemma ext_with w k c : w_ext (with_cache w k c) = w_ext w. Proof. destruct k; reflexivity. Qed.
Lemma alg_with w k c : w_alg (with_cache w k c) = w_alg w. Proof. destruct k; reflexivity. Qed.
Lemma cls_eqb_spec a b : reflect (a = b) (cls_eqb a b).
Proof. destruct a, b; constructor; congruence. Qed.
Lemma cache_heap w h k : cache_of (with_heap w h) k = cache_of w k. Proof. destruct k; reflexivity. Qed.
Lemma cache_ext w e k : cache_of (with_ext w e) k = cache_of w k. Proof. destruct k; reflexivity. Qed.
Lemma upd_eq {A} (f : Z -> A) p v : upd f p v p = v. Proof. unfold upd. rewrite Z.eqb_refl. reflexivity. Qed.
Lemma upd_ne {A} (f : Z -> A) p v q : q <> p -> upd f p v q = f q. Proof. unfold upd. destruct (Z.eqb_spec q p); congruence. Qed.

(** Worlds that agree on everything but the object they are about. *)
Definition same_rest (w w' : world) (k : cls) : Prop := w_ext w' = w_ext w /\ w_alg w' = w_alg w /\ forall k', k' <> k -> cache_of w' k' = cache_of w k'.

Lemma store_in_ok w k o a c : WInv w -> addr_at (w_heap w) o = Some a -> con_at (w_heap w) o = Some c -> cls_of c = k ->
  exists w', store_in k w o = Some (w', true) /\ WInv w' /\ grown (w_heap w) (w_heap w') /\ kept (w_heap w) (w_heap w') /\ length (w_heap w') = length (w_heap w) /\
    same_rest w w' k /\ cache_of w' k = fst (store (cache_of w k) (mkSp a o)) /\ obj_of (cache_of w' k) a = Some o.
Proof.
  intros (b & B & R & A & C) Ha Hc Hk. destruct A as [A1 A2]. unfold store_in.
  destruct (cell_at (w_heap w) o) as [x|] eqn:E; [|unfold addr_at in Ha; rewrite E in Ha; discriminate].
  assert (Ex : x_addr x = a) by (unfold addr_at in Ha; rewrite E in Ha; cbn in Ha; congruence). rewrite Ex.
  assert (Na : a <> 0%Z) by (eapply A2; eauto). unfold store. cbn [s_addr]. destruct (Z.eqb_spec a 0); [contradiction|].
  destruct (c_ptr (cache_of w k) a) as [s|] eqn:Ep.
  - eexists. split; [reflexivity|]. rewrite heap_with. destruct (C _ _ _ Ep) as (S1 & S2 & _).
    assert (So : s_obj s = o) by (eapply A1; eauto).
    assert (Hp : forall k' p, c_ptr (cache_of (with_cache w k (mkCache (c_ptr (cache_of w k)) (upd (c_ref (cache_of w k)) a (Some (size_t (ref_at (cache_of w k) a + 1)))))) k') p = c_ptr (cache_of w k') p).
    { intros k' p. rewrite cache_with. destruct (cls_eqb_spec k' k) as [->|]; reflexivity. }
    split; [|split; [intros t y Hy; eauto|split; [apply kept_refl|split; [reflexivity|split; [|split]]]]].
    + exists b. split; [|split; [|split]].
      * intro t. rewrite B. unfold cached. split; intros (k' & p & s' & H1 & H2); exists k', p, s'; rewrite Hp in *; auto.
      * rewrite heap_with, ext_with. exact R.
      * rewrite heap_with. split; assumption.
      * intros k' p s'. rewrite Hp, heap_with. apply C.
    + split; [apply ext_with|split; [apply alg_with|]]. intros k' N. rewrite cache_with. destruct (cls_eqb_spec k' k); congruence.
    + rewrite cache_with. destruct (cls_eqb_spec k k); [|congruence]. reflexivity.
    + rewrite cache_with. destruct (cls_eqb_spec k k); [|congruence]. unfold obj_of, get. cbn [c_ptr]. destruct (Z.eqb_spec a 0); [contradiction|]. rewrite Ep, So. reflexivity.
  - destruct (acquire_rinv _ _ _ _ R E) as (h' & Q1 & Q2 & Q3 & Q4 & Q5). rewrite Q1. eexists. split; [reflexivity|]. rewrite heap_with.
    set (c1 := mkCache (upd (c_ptr (cache_of w k)) a (Some (mkSp a o))) (upd (c_ref (cache_of w k)) a (Some 1%Z))).
    cbn [w_heap with_heap].
    assert (Hp : forall k' p s', c_ptr (cache_of (with_cache (with_heap w h') k c1) k') p = Some s' <-> (k' = k /\ p = a /\ s' = mkSp a o) \/ c_ptr (cache_of w k') p = Some s').
    { intros k' p s'. rewrite cache_with. destruct (cls_eqb_spec k' k) as [->|N].
      - unfold c1. cbn [c_ptr]. destruct (Z.eq_dec p a) as [->|Np]; [rewrite upd_eq|rewrite upd_ne by exact Np].
        + split; [intro H; injection H as <-; auto|intros [(_ & _ & ->)|H]; [reflexivity|congruence]].
        + split; [auto|intros [(_ & H & _)|H]; [contradiction|exact H]].
      - rewrite cache_heap. split; [auto|intros [(H & _ & _)|H]; [contradiction|exact H]]. }
    assert (Nc : b o = false).
    { destruct (b o) eqn:Eb; [|reflexivity]. exfalso. apply B in Eb. destruct Eb as (k' & p & s & H1 & H2). destruct (C _ _ _ H1) as (S1 & S2 & c' & S3 & S4).
      rewrite H2 in *. assert (p = a) by congruence. subst p. assert (k' = k) by congruence. subst k'. congruence. }
    split; [|split; [exact Q4|split; [exact Q3|split; [exact Q5|split; [|split]]]]].
    + exists (fun t => if Nat.eqb t o then true else b t). split; [|split; [|split]].
      * intro t. split.
        -- destruct (Nat.eqb_spec t o) as [->|N].
           ++ intros _. exists k, a, (mkSp a o). split; [apply Hp; auto|reflexivity].
           ++ intro Hb. apply B in Hb. destruct Hb as (k' & p & s & H1 & H2). exists k', p, s. split; [apply Hp; auto|exact H2].
        -- intros (k' & p & s & H1 & H2). destruct (Nat.eqb_spec t o) as [->|N]; [reflexivity|]. apply Hp in H1. destruct H1 as [(-> & -> & ->)|H1]; [cbn in H2; congruence|]. apply B. exists k', p, s. auto.
      * rewrite heap_with, ext_with. cbn [w_heap with_heap w_ext]. eapply RInv_ext; [|exact Q2]. intro t. unfold at_. cbn beta. destruct (Nat.eqb_spec t o) as [->|]; [rewrite Nc; cbn; lia|cbn; lia].
      * rewrite heap_with. eapply kept_addrs; [exact Q3|]. split; assumption.
      * intros k' p s' H1. rewrite heap_with. cbn [w_heap with_heap]. apply Hp in H1. destruct H1 as [(-> & -> & ->)|H1].
        -- cbn. split; [reflexivity|]. split; [eapply grown_addr; eauto|]. exists c. split; [eapply grown_con; eauto|exact Hk].
        -- destruct (C _ _ _ H1) as (S1 & S2 & c' & S3 & S4). split; [exact S1|]. split; [eapply grown_addr; eauto|]. exists c'. split; [eapply grown_con; eauto|exact S4].
    + split; [rewrite ext_with; reflexivity|split; [rewrite alg_with; reflexivity|]]. intros k' N. rewrite cache_with, cache_heap. destruct (cls_eqb_spec k' k); congruence.
    + rewrite cache_with. destruct (cls_eqb_spec k k); [|congruence]. reflexivity.
    + rewrite cache_with. destruct (cls_eqb_spec k k); [|congruence]. unfold obj_of, get, c1. cbn [c_ptr]. destruct (Z.eqb_spec a 0); [contradiction|]. rewrite upd_eq. reflexivity.
Qed.

Lemma erase_in_ok w k p : WInv w ->
  exists w', erase_in k w p = Some (w', negb (p =? 0)%Z) /\ WInv w' /\ kept (w_heap w) (w_heap w') /\ same_rest w w' k /\ cache_of w' k = fst (erase (cache_of w k) p).
Proof.
  intros (b & B & R & A & C). unfold erase_in, erase.
  assert (Triv : forall c, c_ptr c = c_ptr (cache_of w k) -> WInv (with_cache w k c)).
  { intros c Hc. assert (Hp : forall k' q, c_ptr (cache_of (with_cache w k c) k') q = c_ptr (cache_of w k') q).
    { intros k' q. rewrite cache_with. destruct (cls_eqb_spec k' k) as [->|]; [rewrite Hc|]; reflexivity. }
    exists b. split; [|split; [|split]].
    - intro t. rewrite B. unfold cached. split; intros (k' & q & s' & H1 & H2); exists k', q, s'; rewrite Hp in *; auto.
    - rewrite heap_with, ext_with. exact R.
    - rewrite heap_with. exact A.
    - intros k' q s'. rewrite Hp, heap_with. apply C. }
  assert (Rest : forall c, same_rest w (with_cache w k c) k).
  { intro c. split; [apply ext_with|split; [apply alg_with|]]. intros k' N. rewrite cache_with. destruct (cls_eqb_spec k' k); congruence. }
  assert (Self : forall w0 c, cache_of (with_cache w0 k c) k = c).
  { intros w0 c. rewrite cache_with. destruct (cls_eqb_spec k k); congruence. }
  destruct (Z.eqb_spec p 0) as [->|Np].
  { eexists. split; [reflexivity|]. rewrite heap_with. split; [apply Triv; reflexivity|]. split; [apply kept_refl|]. split; [apply Rest|apply Self]. }
  destruct (c_ptr (cache_of w k) p) as [s|] eqn:Ep.
  - destruct (size_t (ref_at (cache_of w k) p - 1) <=? 0)%Z.
    + set (c1 := mkCache (upd (c_ptr (cache_of w k)) p None) (upd (c_ref (cache_of w k)) p None)). cbn [c_ptr c1]. rewrite upd_eq.
      destruct (C _ _ _ Ep) as (S1 & S2 & c & S3 & S4).
      assert (Bs : b (s_obj s) = true) by (apply B; exists k, p, s; auto).
      destruct (release_rinv _ _ (s_obj s) R) as (h' & Q1 & Q2 & Q3 & Q4); [rewrite Bs; cbn; lia|]. rewrite Q1.
      eexists. split; [reflexivity|]. rewrite heap_with. cbn [w_heap with_heap].
      assert (Hp : forall k' q s', c_ptr (cache_of (with_cache (with_heap w h') k c1) k') q = Some s' <-> c_ptr (cache_of w k') q = Some s' /\ ~ (k' = k /\ q = p)).
      { intros k' q s'. rewrite cache_with. destruct (cls_eqb_spec k' k) as [->|N].
        - unfold c1. cbn [c_ptr]. destruct (Z.eq_dec q p) as [->|Nq]; [rewrite upd_eq|rewrite upd_ne by exact Nq].
          + split; [discriminate|intros [_ H]; exfalso; auto].
          + split; [intro H; split; [exact H|intros [_ H']; contradiction]|intros [H _]; exact H].
        - rewrite cache_heap. split; [intro H; split; [exact H|intros [H' _]; contradiction]|intros [H _]; exact H]. }
      assert (Uniq : forall k' q s', c_ptr (cache_of w k') q = Some s' -> s_obj s' = s_obj s -> k' = k /\ q = p).
      { intros k' q s' H1 H2. destruct (C _ _ _ H1) as (T1 & T2 & c' & T3 & T4). rewrite H2 in *. split; congruence. }
      split; [|split; [exact Q3|split; [|apply Self]]].
      * exists (fun t => if Nat.eqb t (s_obj s) then false else b t). split; [|split; [|split]].
        -- intro t. split.
           ++ destruct (Nat.eqb_spec t (s_obj s)) as [->|N]; [discriminate|]. intro Hb. apply B in Hb. destruct Hb as (k' & q & s' & H1 & H2). exists k', q, s'. split; [|exact H2]. apply Hp. split; [exact H1|]. intros [-> ->]. congruence.
           ++ intros (k' & q & s' & H1 & H2). apply Hp in H1. destruct H1 as [H1 H3]. destruct (Nat.eqb_spec t (s_obj s)) as [->|N]; [exfalso; eauto|]. apply B. exists k', q, s'. auto.
        -- rewrite heap_with, ext_with. cbn [w_heap with_heap w_ext]. eapply RInv_ext; [|exact Q2]. intro t. unfold minus1. cbn beta. destruct (Nat.eqb_spec t (s_obj s)) as [->|]; [rewrite Bs; cbn; lia|reflexivity].
        -- rewrite heap_with. eapply kept_addrs; eauto.
        -- intros k' q s' H1. rewrite heap_with. cbn [w_heap with_heap]. apply Hp in H1. destruct H1 as [H1 H3]. destruct (C _ _ _ H1) as (T1 & T2 & c' & T3 & T4). split; [exact T1|].
           assert (Live : exists x, cell_at h' (s_obj s') = Some x).
           { apply (RInv_live _ _ _ Q2). unfold minus1. destruct (Nat.eqb_spec (s_obj s') (s_obj s)) as [Es|N]; [exfalso; eauto|].
             assert (Hb : b (s_obj s') = true) by (apply B; exists k', q, s'; auto). rewrite Hb. cbn. lia. }
           destruct Live as [x Hx]. destruct (kept_live _ _ _ _ Q3 Hx _ _ T2 T3). split; [assumption|]. exists c'. auto.
      * split; [rewrite ext_with; reflexivity|split; [rewrite alg_with; reflexivity|]]. intros k' N. rewrite cache_with, cache_heap. destruct (cls_eqb_spec k' k); congruence.
    + cbn [c_ptr]. rewrite Ep. eexists. split; [reflexivity|]. rewrite heap_with. split; [apply Triv; reflexivity|]. split; [apply kept_refl|]. split; [apply Rest|apply Self].
  - eexists. split; [reflexivity|]. rewrite heap_with. split; [apply Triv; reflexivity|]. split; [apply kept_refl|]. split; [apply Rest|apply Self].
Qed.
