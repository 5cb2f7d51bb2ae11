(** ApiProofs3.v -- every legal call keeps the invariant. *)
From Coq Require Import ZArith List Bool Arith Lia.
Import ListNotations.
From Verif Require Import Base CacheModel ApiModel ApiProofs ApiSpec ApiProofs2.

Lemma make_ok w a con : WInv w -> can_make w a con ->
  exists h, make (w_heap w) a con = Some (h, length (w_heap w)) /\ WInv (with_ext (with_heap w h) (length (w_heap w) :: w_ext w)) /\ grown (w_heap w) h /\
    cell_at h (length (w_heap w)) = Some (mkCell 1 a con) /\
    (forall t x, cell_at h t = Some x -> t <> length (w_heap w) -> exists y, cell_at (w_heap w) t = Some y /\ x_addr x = x_addr y /\ x_con x = x_con y).
Proof.
  intros (b & B & R & (A1 & A2) & C) (M1 & M2 & M3).
  destruct (make_rinv (w_heap w) _ a con R) as (h & Q1 & Q2 & Q3 & Q4 & Q5 & Q6).
  { intros l t Hl Ht. destruct (M3 l t Hl Ht) as (a' & n & Ho). apply object_iff in Ho. destruct Ho. eauto. }
  exists h. split; [exact Q1|]. split; [|split; [exact Q3|split; [exact Q4|exact Q5]]].
  assert (Old : forall t a', addr_at h t = Some a' -> t = length (w_heap w) /\ a' = a \/ t <> length (w_heap w) /\ addr_at (w_heap w) t = Some a').
  { intros t a' H. destruct (Nat.eq_dec t (length (w_heap w))) as [->|N].
    - left. unfold addr_at in H. rewrite Q4 in H. cbn in H. split; congruence.
    - right. split; [exact N|]. unfold addr_at in H. destruct (cell_at h t) as [x|] eqn:E; [|discriminate]. destruct (Q5 _ _ E N) as (y & Y1 & Y2 & _). unfold addr_at. rewrite Y1. cbn in *. congruence. }
  assert (Fr : forall t, addr_at (w_heap w) t <> Some a).
  { intros t H. unfold addr_at in H. destruct (cell_at (w_heap w) t) as [x|] eqn:E; [|discriminate]. apply (M2 t (x_con x)). apply object_iff. unfold addr_at, con_at. rewrite E. cbn in *. auto. }
  exists b. split; [|split; [|split]].
  - intro t. rewrite B. unfold cached. split; intros (k & p & s & H1 & H2); exists k, p, s; rewrite cache_ext, cache_heap in *; auto.
  - cbn [w_heap w_ext with_ext with_heap]. eapply RInv_ext; [|exact Q2]. intro t. unfold at_. cbn [count_occ]. destruct (Nat.eq_dec (length (w_heap w)) t) as [<-|N]; [rewrite Nat.eqb_refl; lia|]. destruct (Nat.eqb_spec t (length (w_heap w))); [congruence|lia].
  - cbn [w_heap with_ext with_heap]. split.
    + intros o o' a' H1 H2. apply Old in H1, H2. destruct H1 as [[-> ->]|[N1 H1]], H2 as [[-> E2]|[N2 H2]]; try reflexivity.
      * exfalso. exact (Fr _ H2).
      * subst a'. exfalso. exact (Fr _ H1).
      * eapply A1; eauto.
    + intros o a' H. apply Old in H. destruct H as [[-> ->]|[N H]]; [exact M1|eapply A2; eauto].
  - intros k p s. rewrite cache_ext, cache_heap. cbn [w_heap with_ext with_heap]. intro H. destruct (C _ _ _ H) as (S1 & S2 & c & S3 & S4).
    split; [exact S1|]. split; [eapply grown_addr; eauto|]. exists c. split; [eapply grown_con; eauto|exact S4].
Qed.
Lemma remove1_cnt o l : In o l -> forall t, cnt (remove1 o l) t = minus1 (cnt l) o t.
Proof.
  induction l as [|y l IH]; intros H t; [destruct H|]. cbn [remove1]. destruct (Nat.eqb_spec o y) as [->|N].
  - unfold minus1. cbn [count_occ]. destruct (Nat.eqb_spec t y) as [->|N]; [destruct (Nat.eq_dec y y); [lia|congruence]|]. destruct (Nat.eq_dec y t); [congruence|lia].
  - assert (Hi : In o l) by (destruct H; [congruence|assumption]). cbn [count_occ]. rewrite (IH Hi). unfold minus1. cbn [count_occ].
    destruct (Nat.eqb_spec t o) as [Et|N'], (Nat.eq_dec y t) as [Ey|Ny]; try congruence; reflexivity.
Qed.
Lemma drop_ext_ok w e o : WInv (with_ext w e) -> In o e ->
  exists h, release (w_heap w) o = Some h /\ WInv (with_ext (with_heap w h) (remove1 o e)) /\ kept (w_heap w) h.
Proof.
  intros (b & B & R & A & C) Hi. cbn [w_heap w_ext with_ext] in *.
  destruct (release_rinv _ _ o R) as (h & Q1 & Q2 & Q3 & Q4); [apply (count_occ_In Nat.eq_dec) in Hi; lia|].
  exists h. split; [exact Q1|]. split; [|exact Q3].
  exists b. split; [|split; [|split]].
  - intro t. rewrite B. unfold cached. split; intros (k & p & s & H1 & H2); exists k, p, s; rewrite cache_ext in *; try rewrite cache_heap in *; auto.
  - cbn [w_heap w_ext with_ext with_heap]. eapply RInv_ext; [|exact Q2]. intro t. cbn beta. rewrite (remove1_cnt o e Hi t). unfold minus1. destruct (Nat.eqb_spec t o) as [->|]; [|reflexivity].
    apply (count_occ_In Nat.eq_dec) in Hi. lia.
  - cbn [w_heap with_ext with_heap]. eapply kept_addrs; eauto.
  - intros k p s. rewrite cache_ext, cache_heap. cbn [w_heap with_ext with_heap]. intro H. assert (H0 := H). rewrite <- (cache_ext w e) in H. destruct (C _ _ _ H) as (S1 & S2 & c & S3 & S4). cbn [w_heap with_ext] in *.
    assert (Hb : b (s_obj s) = true) by (apply B; exists k, p, s; auto).
    destruct (RInv_live _ _ (s_obj s) Q2) as [x Hx].
    { unfold minus1. rewrite Hb. destruct (Nat.eqb_spec (s_obj s) o) as [<-|]; [|cbn; lia]. apply (count_occ_In Nat.eq_dec) in Hi. cbn. lia. }
    destruct (kept_live _ _ _ _ Q3 Hx _ _ S2 S3). split; [exact S1|]. split; [assumption|]. exists c. auto.
Qed.
Lemma release_two h f o h' : RInv h f -> 2 <= f o -> release h o = Some h' -> grown h h'.
Proof.
  intros R Hf Q. destruct (RInv_live h f o R) as [x E]; [lia|]. destruct R as (R1 & _ & _). destruct (R1 _ _ E) as [Q1 _].
  unfold release, drop in Q. rewrite E in Q. destruct (x_refs x) as [|[|n]] eqn:Er; [lia|lia|]. injection Q as <-.
  intros t y Hy. rewrite cell_lupd by (eapply cell_len; eauto). destruct (Nat.eqb_spec t o) as [->|]; [|eauto]. rewrite E in Hy. injection Hy as <-. eexists. split; [reflexivity|auto].
Qed.
Lemma store_in_ext k w e o : store_in k (with_ext w e) o = option_map (fun r => (with_ext (fst r) e, snd r)) (store_in k w o).
Proof.
  unfold store_in. cbn [w_heap with_ext]. destruct (cell_at (w_heap w) o) as [x|]; [|reflexivity]. rewrite cache_ext. destruct (store (cache_of w k) (mkSp (x_addr x) o)) as [c []]; try (destruct k; reflexivity).
  destruct (c_ptr (cache_of w k) (x_addr x)); [destruct k; reflexivity|]. destruct (acquire (w_heap w) o); [destruct k|]; reflexivity.
Qed.
Definition object_of (w : world) (x : cxx) : nat := match x with XOld o => o | _ => length (w_heap w) end.
Lemma hand_ok w k eh x : WInv w -> can_give k w x ->
  exists w' v, hand k eh w x = Some (w', v) /\ WInv w' /\ grown (w_heap w) (w_heap w') /\ same_rest w w' k /\
    match x with
    | XThrow | XNull => w' = w /\ v = (VHandle 0, eh)
    | _ => exists a c, v = (VHandle a, false) /\ a <> 0%Z /\ object w' (object_of w x) a c /\ cls_of c = k /\ obj_of (cache_of w' k) a = Some (object_of w x) /\
             cache_of w' k = fst (store (cache_of w k) (mkSp a (object_of w x))) /\ match x with XNew a' c' => a = a' /\ c = c' | XOld o => object w o a c | _ => True end
    end.
Proof.
  intros I G. destruct x as [| |o|a con]; cbn [hand].
  - exists w, (VHandle 0, eh). split; [reflexivity|]. split; [exact I|]. split; [intros t y Hy; eauto|]. split; [|auto]. split; [reflexivity|split; [reflexivity|auto]].
  - exists w, (VHandle 0, eh). split; [reflexivity|]. split; [exact I|]. split; [intros t y Hy; eauto|]. split; [|auto]. split; [reflexivity|split; [reflexivity|auto]].
  - destruct G as (a & c & Ho & Hk). pose proof Ho as Ho'. apply object_iff in Ho. destruct Ho as [Oa Oc].
    destruct (store_in_ok w k o a c I Oa Oc Hk) as (w' & S1 & S2 & S3 & S4 & S5 & S6 & S7 & S8). rewrite S1.
    assert (Oa' := grown_addr _ _ _ _ S3 Oa). assert (Oc' := grown_con _ _ _ _ S3 Oc).
    destruct (cell_at (w_heap w) o) as [y|] eqn:E; [|unfold addr_at in Oa; rewrite E in Oa; discriminate].
    exists w', (VHandle (x_addr y), false). split; [reflexivity|]. split; [exact S2|]. split; [exact S3|]. split; [exact S6|].
    assert (Ey : x_addr y = a) by (unfold addr_at in Oa; rewrite E in Oa; cbn in Oa; congruence).
    exists a, c. rewrite Ey. split; [reflexivity|]. split; [destruct I as (b & _ & _ & (_ & A2) & _); eapply A2; eauto|]. split; [apply object_iff; auto|]. split; [exact Hk|]. split; [exact S8|]. split; [exact S7|exact Ho'].
  - destruct G as [G Hk]. destruct (make_ok w a con I G) as (h & M1 & M2 & M3 & M4 & M5). rewrite M1. set (o := length (w_heap w)) in *.
    assert (Oa : addr_at h o = Some a) by (unfold addr_at; rewrite M4; reflexivity). assert (Oc : con_at h o = Some con) by (unfold con_at; rewrite M4; reflexivity).
    destruct (store_in_ok _ k o a con M2 Oa Oc Hk) as (w2 & S1 & S2 & S3 & S4 & S5 & (E1 & E2 & E3) & S7 & S8).
    rewrite store_in_ext in S1. destruct (store_in k (with_heap w h) o) as [[w1 ok]|] eqn:Es; [|discriminate]. cbn in S1. injection S1 as Ew Eo. subst w2 ok. cbn [w_heap with_ext] in S3.
    destruct (drop_ext_ok w1 (o :: w_ext w) o S2 (or_introl eq_refl)) as (h2 & D1 & D2 & D3). rewrite D1.
    cbn [remove1] in D2. rewrite Nat.eqb_refl in D2.
    assert (X1 : w_ext w1 = w_ext w).
    { clear - Es. unfold store_in in Es. destruct (cell_at (w_heap (with_heap w h)) o); [|discriminate]. destruct (store (cache_of (with_heap w h) k) (mkSp (x_addr c) o)) as [cc []]; try (injection Es as <-; rewrite ext_with; reflexivity).
      destruct (c_ptr (cache_of (with_heap w h) k) (x_addr c)); [injection Es as <-; rewrite ext_with; reflexivity|]. destruct (acquire (w_heap (with_heap w h)) o); [|discriminate]. injection Es as <-. rewrite ext_with. reflexivity. }
    assert (Ew2 : with_ext (with_heap w1 h2) (w_ext w) = with_heap w1 h2) by (rewrite <- X1; reflexivity). rewrite Ew2 in D2.
    exists (with_heap w1 h2), (VHandle a, false). split; [reflexivity|]. split; [exact D2|].
    assert (G2 : grown (w_heap w1) h2).
    { destruct S2 as (b & B & R & _ & _). eapply release_two; [exact R| |exact D1]. cbn [w_ext with_ext count_occ]. destruct (Nat.eq_dec o o); [|congruence].
      assert (Hb : b o = true).
      { apply B. unfold obj_of, get in S8. destruct (a =? 0)%Z eqn:Ea; [discriminate|]. destruct (c_ptr (cache_of (with_ext w1 (o :: w_ext w)) k) a) as [s|] eqn:Ep; [|discriminate]. exists k, a, s. split; [exact Ep|congruence]. }
      rewrite Hb. cbn. lia. }
    assert (G3 : grown h h2) by (eapply grown_trans; eauto).
    split; [eapply grown_trans; [exact M3|exact G3]|]. split.
    + split; [exact X1|]. split; [exact E2|]. intros k' N. rewrite cache_heap. specialize (E3 k' N). rewrite !cache_ext, cache_heap in E3. exact E3.
    + exists a, con. cbn [object_of]. fold o. split; [reflexivity|]. split; [apply G|]. split; [apply object_iff; split; [eapply grown_addr; eauto|eapply grown_con; eauto]|]. split; [exact Hk|].
      rewrite cache_heap. rewrite cache_ext in S8, S7. split; [exact S8|]. split; [|auto]. rewrite S7, cache_ext, cache_heap. reflexivity.
Qed.
Lemma obj_of_live w k p o : WInv w -> obj_of (cache_of w k) p = Some o -> p <> 0%Z /\ exists c, object w o p c /\ cls_of c = k.
Proof.
  intros (b & B & R & A & C) H. unfold obj_of, get in H. destruct (Z.eqb_spec p 0); [discriminate|]. destruct (c_ptr (cache_of w k) p) as [s|] eqn:E; [|discriminate]. injection H as <-.
  destruct (C _ _ _ E) as (S1 & S2 & c & S3 & S4). split; [assumption|]. exists c. split; [apply object_iff; auto|exact S4].
Qed.
Lemma objs_of_in w : WInv w -> forall ps os, objs_of (w_trk w) ps = Some os -> length os = length ps /\ forall t, In t os -> exists a n, object w t a (CTrk n).
Proof.
  intros I ps. induction ps as [|p ps IH]; cbn; intros os H; [injection H as <-; split; [reflexivity|intros t []]|].
  destruct (obj_of (w_trk w) p) as [o|] eqn:E; [|discriminate]. destruct (objs_of (w_trk w) ps) as [r|]; [|discriminate]. injection H as <-.
  destruct (IH r eq_refl) as [L Q]. split; [cbn; congruence|]. intros t [<-|Ht]; [|auto]. destruct (obj_of_live w KTrk p o I E) as (_ & c & Ho & Hk). destruct c; try discriminate. eauto.
Qed.
(** What a call does to the world besides the class it gives or takes a handle
    of. *)
Definition takes (c : api) : option (cls * Z) := match c with ImgDestroy p => Some (KImg, p) | TrkDestroy p => Some (KTrk, p) | SetDestroy p => Some (KSet, p) | _ => None end.
Definition got_of (w : world) (c : api) : option cxx :=
  match c with
  | ImgNew (Some i) a => Some (XNew a (CImg i))
  | ImgFromSptr o | SetFromSptr o => Some (match o with Some o => XOld o | None => XNull end)
  | TrkNew a => Some (XNew a (CTrk 0))
  | SetNew ps a => match objs_of (w_trk w) ps with Some os => Some (XNew a (CSet os)) | None => None end
  | SetFromFile _ x | Load _ _ x | Convert _ _ x | Track _ _ _ _ _ x => Some x
  | _ => None
  end.
Lemma step_ok w c : WInv w -> legal w c ->
  exists w' r e, step w c = Some (w', r, e) /\ WInv w' /\ w_alg w' = w_alg w /\ (takes c = None -> (forall o, c <> CxxDrop o) -> grown (w_heap w) (w_heap w')) /\
    (forall k, cache_of w' k =
       match takes c with
       | Some (k', p) => if cls_eqb k k' then fst (erase (cache_of w k) p) else cache_of w k
       | None =>
         match gives c, fst r, got_of w c with
         | Some k', VHandle a, Some x => if cls_eqb k k' && negb (a =? 0)%Z then fst (store (cache_of w k) (mkSp a (object_of w x))) else cache_of w k
         | _, _, _ => cache_of w k
         end
       end).
Proof.
  intros I Hl.
  assert (GR : grown (w_heap w) (w_heap w)) by (intros t y Hy; eauto).
  assert (Plain : forall (v : value) (eh : bool) (e : list event), exists w' r e', Some (w, (v, eh), e) = Some (w', r, e') /\ WInv w' /\ w_alg w' = w_alg w /\ (takes c = None -> (forall o, c <> CxxDrop o) -> grown (w_heap w) (w_heap w')) /\ (forall k, cache_of w' k = cache_of w k)).
  { intros v eh e. do 3 eexists. split; [reflexivity|]. auto. }
  assert (Hand : forall k eh x ev, can_give k w x -> gives c = Some k -> takes c = None -> got_of w c = Some x ->
    exists w' r e, with_events (hand k eh w x) ev = Some (w', r, e) /\ WInv w' /\ w_alg w' = w_alg w /\ (takes c = None -> (forall o, c <> CxxDrop o) -> grown (w_heap w) (w_heap w')) /\
      (forall k0, cache_of w' k0 = match takes c with Some (k', p) => if cls_eqb k0 k' then fst (erase (cache_of w k0) p) else cache_of w k0 | None =>
         match gives c, fst r, got_of w c with
         | Some k', VHandle a, Some x => if cls_eqb k0 k' && negb (a =? 0)%Z then fst (store (cache_of w k0) (mkSp a (object_of w x))) else cache_of w k0
         | _, _, _ => cache_of w k0
         end end)).
  { intros k eh x ev Hx Hg Ht Hgot. destruct (hand_ok w k eh x I Hx) as (w' & v & H1 & H2 & H3 & (X1 & X2 & X3) & H5). rewrite H1. cbn [with_events].
    exists w', v, ev. split; [reflexivity|]. split; [exact H2|]. split; [exact X2|]. split; [auto|]. intro k0. rewrite Ht, Hg, Hgot.
    assert (Store : forall a, v = (VHandle a, false) -> a <> 0%Z -> cache_of w' k = fst (store (cache_of w k) (mkSp a (object_of w x))) ->
       cache_of w' k0 = match fst v with VHandle a => if cls_eqb k0 k && negb (a =? 0)%Z then fst (store (cache_of w k0) (mkSp a (object_of w x))) else cache_of w k0 | _ => cache_of w k0 end).
    { intros a -> Na Hc. cbn [fst]. destruct (Z.eqb_spec a 0); [contradiction|]. rewrite andb_true_r. destruct (cls_eqb_spec k0 k) as [->|N]; [exact Hc|apply X3; exact N]. }
    destruct x as [| |o|a con].
    - destruct H5 as [-> ->]. cbn. rewrite andb_false_r. reflexivity.
    - destruct H5 as [-> ->]. cbn. rewrite andb_false_r. reflexivity.
    - destruct H5 as (a & c' & Hv & Na & _ & _ & _ & Hc & _). eapply Store; eauto.
    - destruct H5 as (a' & c' & Hv & Na & _ & _ & _ & Hc & _). eapply Store; eauto. }
  assert (Erase : forall k p, takes c = Some (k, p) -> exists w' r e, (match erase_in k w p with Some (w, ok) => plain w VVoid (negb ok) | None => None end) = Some (w', r, e) /\ WInv w' /\ w_alg w' = w_alg w /\
      (takes c = None -> (forall o, c <> CxxDrop o) -> grown (w_heap w) (w_heap w')) /\ (forall k0, cache_of w' k0 = if cls_eqb k0 k then fst (erase (cache_of w k0) p) else cache_of w k0)).
  { intros k p Ht. destruct (erase_in_ok w k p I) as (w' & H1 & H2 & H3 & (X1 & X2 & X3) & H5). rewrite H1. do 3 eexists. split; [reflexivity|]. split; [exact H2|]. split; [exact X2|].
    split; [congruence|]. intro k0. destruct (cls_eqb_spec k0 k) as [->|N]; [exact H5|apply X3; exact N]. }
  assert (Read : forall k p d eh f, exists w' r e, read_in k w p d eh f = Some (w', r, e) /\ WInv w' /\ w_alg w' = w_alg w /\ (takes c = None -> (forall o, c <> CxxDrop o) -> grown (w_heap w) (w_heap w')) /\ (forall k, cache_of w' k = cache_of w k)).
  { intros k p d eh f. unfold read_in. destruct (obj_of (cache_of w k) p) as [o|] eqn:E; [|apply Plain]. destruct (obj_of_live w k p o I E) as (_ & cc & (n & Hn) & _). unfold cell_at. rewrite Hn. apply Plain. }
  destruct c; cbn [step legal takes gives got_of] in *.
  - destruct Hl as (i & -> & Hm). apply Hand; auto. split; [exact Hm|reflexivity].
  - apply Hand; auto. destruct o; [apply Hl|exact Logic.I].
  - (* ImgToSptr *)
    destruct (obj_of (w_img w) p) as [o|] eqn:E; [|apply Plain]. destruct (obj_of_live w KImg p o I E) as (_ & cc & (n & Hn) & _).
    destruct I as (b & B & R & A & C). destruct (acquire_rinv _ _ o _ R Hn) as (h' & Q1 & Q2 & Q3 & Q4 & Q5). rewrite Q1.
    do 3 eexists. split; [reflexivity|]. split; [|split; [reflexivity|split; [intros _ _; exact Q4|intro k; rewrite cache_ext, cache_heap; reflexivity]]].
    exists b. split; [|split; [|split]].
    + intro t. rewrite B. unfold cached. split; intros (k & q & s & H1 & H2); exists k, q, s; rewrite cache_ext, cache_heap in *; auto.
    + cbn [w_heap w_ext with_ext with_heap]. eapply RInv_ext; [|exact Q2]. intro t. unfold at_. cbn [count_occ]. destruct (Nat.eq_dec o t) as [<-|N]; [rewrite Nat.eqb_refl; lia|]. destruct (Nat.eqb_spec t o); [congruence|lia].
    + cbn [w_heap with_ext with_heap]. eapply kept_addrs; eauto.
    + intros k q s. rewrite cache_ext, cache_heap. cbn [w_heap with_ext with_heap]. intro H. destruct (C _ _ _ H) as (S1 & S2 & c & S3 & S4).
      split; [exact S1|]. split; [eapply grown_addr; eauto|]. exists c. split; [eapply grown_con; eauto|exact S4].
  - apply Erase. reflexivity.
  - apply Read.
  - apply Read.
  - apply Read.
  - apply Read.
  - apply Read.
  - apply Hand; auto. split; [exact Hl|reflexivity].
  - apply Erase. reflexivity.
  - apply Read.
  - apply Read.
  - destruct (objs_of (w_trk w) ps) as [os|] eqn:E.
    + apply Hand; auto. split; [apply Hl; reflexivity|reflexivity].
    + do 3 eexists. split; [reflexivity|]. split; [exact I|]. split; [reflexivity|]. split; [auto|]. intro k. reflexivity.
  - apply Hand; auto. destruct o; [apply Hl|exact Logic.I].
  - destruct file as [f|]; [|exfalso; apply (proj1 Hl); reflexivity]. apply Hand; auto. apply Hl.
  - apply Erase. reflexivity.
  - apply Read.
  - destruct file as [f|]; [|exfalso; apply Hl; reflexivity]. destruct (obj_of (w_set w) p); apply Plain.
  - destruct file as [f|]; [|exfalso; apply (proj1 Hl); reflexivity]. destruct (obj_of (w_alg w IO) a); [apply Hand; auto; apply Hl|].
    do 3 eexists. split; [reflexivity|]. split; [exact I|]. split; [reflexivity|]. split; [auto|]. intro k. cbn. rewrite andb_false_r. reflexivity.
  - destruct file as [f|]; [|exfalso; apply Hl; reflexivity]. destruct (obj_of (w_img w) p), (obj_of (w_alg w IO) a); apply Plain.
  - destruct (obj_of (w_img w) p), (obj_of (w_alg w CONV) a); [apply Hand; auto| | |];
      do 3 eexists; (split; [reflexivity|]; split; [exact I|]; split; [reflexivity|]; split; [auto|]; intro k; cbn; rewrite andb_false_r; reflexivity).
  - destruct (obj_of (w_alg w TRACKER) a), (obj_of (w_set w) prev), (obj_of (w_img w) p), (match mask with None => Some None | Some m => option_map Some (obj_of (w_img w) m) end);
      [apply Hand; auto|..]; do 3 eexists; (split; [reflexivity|]; split; [exact I|]; split; [reflexivity|]; split; [auto|]; intro k; cbn; rewrite andb_false_r; reflexivity).
  - destruct (make_ok w addr con I Hl) as (h & M1 & M2 & M3 & M4 & M5). rewrite M1. do 3 eexists. split; [reflexivity|]. split; [exact M2|]. split; [reflexivity|]. split; [auto|]. intro k. rewrite cache_ext, cache_heap. reflexivity.
  - assert (I' : WInv (with_ext w (w_ext w))) by (destruct w; exact I). destruct (drop_ext_ok w (w_ext w) o I' Hl) as (h & D1 & D2 & D3). rewrite D1.
    do 3 eexists. split; [reflexivity|]. split; [exact D2|]. split; [reflexivity|]. split; [intros _ H; exfalso; exact (H o eq_refl)|]. intro k. rewrite cache_ext, cache_heap. reflexivity.
Qed.
