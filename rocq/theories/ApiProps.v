(** ApiProps.v -- C109: image container, track, track set and algorithm calls
    through the C interface. *)
From Coq Require Import ZArith List Bool Arith Lia.
Import ListNotations.
From Verif Require Import Base CacheModel ApiModel ApiProofs ApiSpec ApiProofs2 ApiProofs3.
From Verif Require ImageModel.

Lemma hist_inv algs w l : hist algs w l -> WInv w /\ w_alg w = algs.
Proof.
  induction 1 as [|w l c w' r e H [IH1 IH2] HL HS].
  - split; [|reflexivity]. exists (fun _ => false). split; [|split; [|split]].
    + intro t. split; [discriminate|]. intros ([] & p & s & H & _); discriminate.
    + split; [|split].
      * intros o x Hx. destruct o; discriminate.
      * reflexivity.
      * intros o m t Ho. destruct o; discriminate.
    + split; intros o; [intros o' a Ho|intros a Ho]; destruct o; discriminate.
    + intros [] p s H; discriminate.
  - destruct (step_ok w c IH1 HL) as (w1 & r1 & e1 & S1 & S2 & S3 & _). rewrite HS in S1. injection S1 as -> -> ->. split; [exact S2|congruence].
Qed.
(** No legal call after a legal history touches a deleted object. *)
Theorem C109_safe algs w l c : hist algs w l -> legal w c -> exists w' r e, step w c = Some (w', r, e).
Proof. intros H HL. destruct (hist_inv _ _ _ H) as [I _]. destruct (step_ok w c I HL) as (w' & r & e & S1 & _). eauto. Qed.
Print Assumptions C109_safe.
(** Objects are there exactly as long as somebody may use them. *)
Theorem C109_lifetime algs w l o : hist algs w l -> exists_ w o <-> held w o.
Proof.
  intro H. destruct (hist_inv _ _ _ H) as [(b & B & R & A & C) _]. unfold exists_. fold (cell_at (w_heap w) o).
  assert (Out : forall t, 0 < cnt (w_ext w) t + b2n (b t) -> held w t).
  { intros t Ht. destruct (b t) eqn:Eb.
    - apply B in Eb. destruct Eb as (k & p & s & H1 & H2). apply held_handle with (k := k) (p := p). unfold obj_of, get. destruct (C _ _ _ H1) as (_ & S2 & _).
      destruct (Z.eqb_spec p 0) as [->|]; [destruct A as [_ A2]; exfalso; exact (A2 _ _ S2 eq_refl)|]. rewrite H1. congruence.
    - apply held_cxx. cbn in Ht. apply (count_occ_In Nat.eq_dec). lia. }
  split.
  - intro Hx. destruct (cell_at (w_heap w) o) as [x|] eqn:E; [|congruence]. destruct R as (R1 & R2 & R3). destruct (R1 _ _ E) as [Q1 Q2].
    destruct (Nat.eq_dec (cnt (w_ext w) o + b2n (b o)) 0) as [Z0|]; [|apply Out; lia].
    assert (Hi : In o (members (w_heap w))) by (apply (count_occ_In Nat.eq_dec); lia). apply in_members in Hi. destruct Hi as (s & m & H1 & H2).
    assert (Hs : held w s).
    { apply Out. unfold con_at in H1. destruct (cell_at (w_heap w) s) as [y|] eqn:Ey; [|discriminate]. destruct (R1 _ _ Ey) as [Y1 Y2].
      assert (Zs : cnt (members (w_heap w)) s = 0).
      { apply count_occ_not_In. intro Hi. apply in_members in Hi. destruct Hi as (s' & m' & H3 & H4). destruct (R3 _ _ _ H3 H4) as [n Hn]. unfold con_at in Hn. rewrite Ey in Hn. cbn in *. congruence. }
      lia. }
    assert (exists a, addr_at (w_heap w) s = Some a) as [a Ha] by (unfold con_at in H1; unfold addr_at; destruct (cell_at (w_heap w) s); [cbn; eauto|discriminate]).
    apply held_member with (s := s) (a := a) (l := m); auto. apply object_iff. auto.
  - intro Hh. induction Hh as [o Hi|k p o Ho|s a m o Hs IH Ho Hi].
    + destruct (RInv_live _ _ o R) as [x Hx]; [apply (count_occ_In Nat.eq_dec) in Hi; lia|congruence].
    + destruct (obj_of_live w k p o) as (_ & c & (n & Hn) & _); [exists b; unfold WInvb; auto|exact Ho|]. unfold cell_at. congruence.
    + destruct R as (_ & _ & R3). apply object_iff in Ho. destruct (R3 s m o (proj2 Ho) Hi) as [n Hn]. intro Hz. unfold con_at in Hn. rewrite Hz in Hn. discriminate.
Qed.
Print Assumptions C109_lifetime.

(** A handle is usable exactly while it was handed out more often than given
    back. *)
Definition entry_ok (c : cache) (p : Z) (n : nat) : Prop := match n with 0 => c_ptr c p = None | _ => (exists s, c_ptr c p = Some s) /\ c_ref c p = Some (Z.of_nat n) end.
Lemma store_entry c a o p n : p <> 0%Z -> a <> 0%Z -> (Z.of_nat (S n) < 2 ^ 64)%Z -> entry_ok c p n -> entry_ok (fst (store c (mkSp a o))) p (if (p =? a)%Z then S n else n).
Proof.
  intros Np Na Hn E. unfold store. cbn [s_addr]. destruct (Z.eqb_spec a 0); [contradiction|]. destruct (c_ptr c a) as [s|] eqn:Ea; cbn [fst]; destruct (Z.eqb_spec p a) as [->|N].
  - destruct n as [|n]; cbn [entry_ok c_ptr c_ref fst] in *; [congruence|]. destruct E as [E1 E2]. split; [eauto|]. rewrite upd_eq. unfold ref_at. rewrite E2. f_equal. unfold size_t. rewrite Z.mod_small; lia.
  - destruct n; cbn [entry_ok c_ptr c_ref fst] in *; [exact E|]. rewrite upd_ne by exact N. exact E.
  - destruct n as [|n]; cbn [entry_ok c_ptr c_ref fst] in *; [|destruct E as [[s Hs] _]; congruence]. rewrite !upd_eq. eauto.
  - destruct n; cbn [entry_ok c_ptr c_ref fst] in *; rewrite !upd_ne by exact N; exact E.
Qed.
Lemma erase_entry c a p n : p <> 0%Z -> (Z.of_nat n < 2 ^ 64)%Z -> entry_ok c p n -> entry_ok (fst (erase c a)) p (if (p =? a)%Z then pred n else n).
Proof.
  intros Np Hn E. unfold erase. destruct (Z.eqb_spec a 0) as [->|Na]; [destruct (Z.eqb_spec p 0); [contradiction|exact E]|].
  destruct (c_ptr c a) as [s|] eqn:Ea; cbn [fst]; destruct (Z.eqb_spec p a) as [->|N].
  - destruct n as [|n]; cbn [entry_ok c_ptr c_ref fst] in E; [congruence|]. destruct E as [E1 E2]. unfold ref_at. rewrite E2. unfold size_t. rewrite Z.mod_small by lia. cbn [pred].
    destruct (Z.leb_spec (Z.of_nat (S n) - 1) 0) as [Q|Q]; cbn [fst].
    + assert (n = 0) by lia. subst n. cbn [entry_ok c_ptr c_ref fst]. apply upd_eq.
    + destruct n; [lia|]. cbn [entry_ok c_ptr c_ref fst]. rewrite upd_eq. split; [exact E1|]. f_equal. lia.
  - destruct (size_t (ref_at c a - 1) <=? 0)%Z; destruct n; cbn [entry_ok c_ptr c_ref fst] in *; rewrite ?upd_ne by exact N; exact E.
  - destruct n as [|n]; cbn [entry_ok c_ptr c_ref fst] in *; [exact Ea|destruct E as [[s Hs] _]; congruence].
  - exact E.
Qed.
Lemma open_len k p l : open k p l <= length l.
Proof. induction l as [|e l IH]; cbn; [lia|]. destruct (handed k p e); [lia|]. destruct (given_back k p e); lia. Qed.
Lemma given_back_takes k p c r : given_back k p (c, r) = match takes c with Some (k', q) => cls_eqb k k' && (p =? q)%Z | None => false end.
Proof. destruct c; reflexivity. Qed.
Lemma handed_gives k p c v eh : handed k p (c, (v, eh)) = match v, gives c with VHandle q, Some k' => cls_eqb k k' && (p =? q)%Z | _, _ => false end.
Proof. destruct v; reflexivity. Qed.
Lemma takes_gives c : takes c <> None -> gives c = None.
Proof. destruct c; cbn; congruence. Qed.
Lemma got_some w c w' q eh e : legal w c -> step w c = Some (w', (VHandle q, eh), e) -> gives c <> None -> q <> 0%Z -> got_of w c <> None.
Proof.
  intros HL HS Hg Hq. destruct c; cbn [gives got_of] in *; try congruence.
  - destruct HL as (i & -> & _). discriminate.
  - cbn [step] in HS. destruct (objs_of (w_trk w) ps); [discriminate|]. injection HS as _ <- _ _. congruence.
Qed.
Theorem C109_open algs w l k p : hist algs w l -> (Z.of_nat (length l) < 2 ^ 64)%Z -> p <> 0%Z ->
  (exists o, obj_of (cache_of w k) p = Some o) <-> 0 < open k p l.
Proof.
  intros H HL Np. assert (E : entry_ok (cache_of w k) p (open k p l)).
  { induction H as [|w l c w' r e H IH HLe HS]; [destruct k; reflexivity|]. cbn [length] in HL. specialize (IH ltac:(lia)). destruct (hist_inv _ _ _ H) as [I _].
    destruct (step_ok w c I HLe) as (w1 & r1 & e1 & S1 & _ & _ & _ & S5). rewrite HS in S1. injection S1 as -> -> ->. specialize (S5 k). rewrite S5. clear S5.
    pose proof (open_len k p l) as OL. destruct r1 as [v eh]. cbn [fst open]. rewrite given_back_takes, handed_gives.
    destruct (takes c) as [[k' q]|] eqn:Et.
    - rewrite (takes_gives c) by congruence. assert (Hv : match v with VHandle _ | _ => false end = false) by (destruct v; reflexivity).
      replace (match v with VHandle _ | _ => false end) with false by (destruct v; reflexivity).
      destruct (cls_eqb_spec k k') as [->|N]; cbn [andb]; [|exact IH]. pose proof (erase_entry (cache_of w k') q p (open k' p l) Np ltac:(lia) IH) as Q. destruct (p =? q)%Z; exact Q.
    - destruct (gives c) as [k'|] eqn:Eg; [|destruct v; exact IH]. destruct v as [q| | | | |]; try exact IH.
      destruct (Z.eqb_spec q 0) as [->|Nq].
      + cbn [negb]. rewrite !andb_false_r. destruct (Z.eqb_spec p 0); [contradiction|]. rewrite andb_false_r. destruct (got_of w c); exact IH.
      + pose proof (got_some w c w1 q eh e1 HLe HS ltac:(congruence) Nq) as Hg. destruct (got_of w c) as [x|]; [|congruence]. cbn [negb]. rewrite andb_true_r.
        destruct (cls_eqb_spec k k') as [->|N]; cbn [andb]; [|exact IH]. pose proof (store_entry (cache_of w k') q (object_of w x) p (open k' p l) Np Nq ltac:(lia) IH) as Q. destruct (p =? q)%Z; exact Q. }
  unfold obj_of, get. destruct (Z.eqb_spec p 0); [contradiction|]. destruct (open k p l); cbn in E.
  - rewrite E. split; [intros [o Ho]; discriminate|lia].
  - destruct E as [[s Es] _]. rewrite Es. split; [lia|eauto].
Qed.
Print Assumptions C109_open.

(** ---- objects and handles from one call to the next ---- *)
Lemma step_objects w c w' r e o a k : WInv w -> legal w c -> step w c = Some (w', r, e) -> object w o a k -> exists_ w' o -> object w' o a k.
Proof.
  intros I HL HS Ho Hx. destruct (step_ok w c I HL) as (w1 & r1 & e1 & S1 & _ & _ & S4 & _). rewrite HS in S1. injection S1 as -> -> ->.
  assert (K : kept (w_heap w) (w_heap w1) -> object w1 o a k).
  { intro Kp. apply object_iff in Ho. destruct Ho as [H1 H2]. unfold exists_ in Hx. fold (cell_at (w_heap w1) o) in Hx. destruct (cell_at (w_heap w1) o) as [x|] eqn:E; [|congruence]. apply object_iff. eapply kept_live; eauto. }
  assert (G : grown (w_heap w) (w_heap w1) -> object w1 o a k).
  { intro Gr. apply object_iff in Ho. apply object_iff. destruct Ho. split; [eapply grown_addr; eauto|eapply grown_con; eauto]. }
  destruct c; try (apply G; apply S4; [reflexivity|congruence]); apply K; cbn [step] in HS.
  - destruct (erase_in_ok w KImg p I) as (w2 & E1 & _ & E3 & _). rewrite E1 in HS. injection HS as <- _ _. exact E3.
  - destruct (erase_in_ok w KTrk p I) as (w2 & E1 & _ & E3 & _). rewrite E1 in HS. injection HS as <- _ _. exact E3.
  - destruct (erase_in_ok w KSet p I) as (w2 & E1 & _ & E3 & _). rewrite E1 in HS. injection HS as <- _ _. exact E3.
  - assert (I' : WInv (with_ext w (w_ext w))) by (destruct w; exact I). destruct (drop_ext_ok w (w_ext w) o0 I' HL) as (h & D1 & _ & D3). rewrite D1 in HS. injection HS as <- _ _. exact D3.
Qed.
(** While it is valid a handle stands for one object, which does not change. *)
Theorem C109_stable algs w l c w' r e k p o o' : hist algs w l -> legal w c -> step w c = Some (w', r, e) ->
  obj_of (cache_of w k) p = Some o -> obj_of (cache_of w' k) p = Some o' -> o' = o /\ forall a x, object w o a x <-> object w' o a x.
Proof.
  intros H HL HS H1 H2. destruct (hist_inv _ _ _ H) as [I _]. destruct (step_ok w c I HL) as (w1 & r1 & e1 & S1 & I1 & _ & _ & S5). rewrite HS in S1. injection S1 as -> -> ->.
  destruct (obj_of_live _ _ _ _ I H1) as (Np & x & Hx & Hk). destruct (obj_of_live _ _ _ _ I1 H2) as (_ & x' & Hx' & _).
  assert (Eo : o' = o).
  { specialize (S5 k). rewrite S5 in H2. clear S5. unfold obj_of, get in H1. destruct (Z.eqb_spec p 0); [contradiction|]. destruct (c_ptr (cache_of w k) p) as [s|] eqn:Es; [|discriminate]. injection H1 as H1.
    assert (G0 : obj_of (cache_of w k) p = Some o) by (unfold obj_of, get; destruct (Z.eqb_spec p 0); [contradiction|]; rewrite Es; congruence).
    assert (Er : forall q, obj_of (fst (erase (cache_of w k) q)) p = Some o' -> o' = o).
    { intros q. unfold erase. destruct (Z.eqb_spec q 0); [cbn [fst]; congruence|]. destruct (c_ptr (cache_of w k) q) eqn:Eq; [|cbn [fst]; congruence].
      destruct (_ <=? 0)%Z; cbn [fst]; unfold obj_of, get; cbn [c_ptr]; destruct (Z.eqb_spec p 0); try contradiction.
      - destruct (Z.eq_dec p q) as [->|N]; [rewrite upd_eq; discriminate|]. rewrite upd_ne by exact N. rewrite Es. congruence.
      - rewrite Es. congruence. }
    assert (St : forall a b, obj_of (fst (store (cache_of w k) (mkSp a b))) p = Some o' -> o' = o).
    { intros a b. unfold store. cbn [s_addr]. destruct (Z.eqb_spec a 0); [cbn [fst]; congruence|]. destruct (c_ptr (cache_of w k) a) eqn:Eq; cbn [fst]; unfold obj_of, get; cbn [c_ptr]; destruct (Z.eqb_spec p 0); try contradiction.
      - rewrite Es. congruence.
      - destruct (Z.eq_dec p a) as [->|N]; [rewrite Es in Eq; discriminate|]. rewrite upd_ne by exact N. rewrite Es. congruence. }
    destruct (takes c) as [[k' q]|].
    - destruct (cls_eqb k k'); [eapply Er; eauto|congruence].
    - destruct (gives c) as [k'|]; [|congruence]. destruct (fst r1); try congruence. destruct (got_of w c) as [y|]; [|congruence]. destruct (cls_eqb k k' && negb (p0 =? 0)%Z); [eapply St; eauto|congruence]. }
  subst o'. split; [reflexivity|]. assert (Hxx : exists_ w1 o) by (destruct Hx' as [n Hn]; unfold exists_; rewrite Hn; discriminate).
  intros a y. split; intro Hy.
  - exact (step_objects w c w1 r1 e1 o a y I HL HS Hy Hxx).
  - apply object_iff in Hy. destruct Hy as [Y1 Y2]. assert (Q : object w1 o p x) by exact (step_objects w c w1 r1 e1 o p x I HL HS Hx Hxx).
    apply object_iff in Q. destruct Q as [Q1 Q2]. assert (a = p) by congruence. assert (y = x) by congruence. subst. exact Hx.
Qed.
Print Assumptions C109_stable.
(** A call that gives no handle or reports an error changes nothing. *)
Theorem C109_failure algs w l c w' p eh e : hist algs w l -> legal w c -> step w c = Some (w', (VHandle p, eh), e) ->
  (p = 0%Z -> w' = w) /\ (p <> 0%Z -> eh = false /\ exists k o x, gives c = Some k /\ obj_of (cache_of w' k) p = Some o /\ object w' o p x /\ cls_of x = k).
Proof.
  intros H HL HS. destruct (hist_inv _ _ _ H) as [I _].
  assert (Hand : forall k he x ev, can_give k w x -> gives c = Some k -> with_events (hand k he w x) ev = Some (w', (VHandle p, eh), e) ->
    (p = 0%Z -> w' = w) /\ (p <> 0%Z -> eh = false /\ exists k o x, gives c = Some k /\ obj_of (cache_of w' k) p = Some o /\ object w' o p x /\ cls_of x = k)).
  { intros k he x ev Hx Hg Hw. destruct (hand_ok w k he x I Hx) as (w1 & v & H1 & _ & _ & _ & H5). rewrite H1 in Hw. cbn in Hw. injection Hw as -> -> _.
    destruct x.
    - destruct H5 as [-> H5]. injection H5 as -> ->. split; congruence.
    - destruct H5 as [-> H5]. injection H5 as -> ->. split; congruence.
    - destruct H5 as (a & y & H5 & Na & Ho & Hk & Hc & _). injection H5 as -> ->. split; [congruence|]. intros _. split; [reflexivity|]. eauto 10.
    - destruct H5 as (a & y & H5 & Na & Ho & Hk & Hc & _). injection H5 as -> ->. split; [congruence|]. intros _. split; [reflexivity|]. eauto 10. }
  assert (Zero : forall e0 b, Some (w, (VHandle 0, b), e0) = Some (w', (VHandle p, eh), e) ->
    (p = 0%Z -> w' = w) /\ (p <> 0%Z -> eh = false /\ exists k o x, gives c = Some k /\ obj_of (cache_of w' k) p = Some o /\ object w' o p x /\ cls_of x = k)).
  { intros e0 b Q. injection Q as <- <- <- <-. split; congruence. }
  destruct c; cbn [step legal gives] in *; try discriminate;
    try (match type of HS with (match ?x with _ => _ end) = _ => destruct x as [[? ?]|]; discriminate end);
    try (unfold read_in in HS; destruct (obj_of _ _); [destruct (cell_at _ _); [|discriminate]|]; unfold num_of in HS; repeat (match type of HS with context[match ?x with _ => _ end] => destruct x end); discriminate).
  - destruct HL as (i & -> & Hm). eapply Hand; [| |exact HS]; [split; [exact Hm|reflexivity]|reflexivity].
  - eapply Hand; [| |exact HS]; [destruct o; [apply HL|exact Logic.I]|reflexivity].
  - destruct (obj_of (w_img w) p0); [|discriminate]. destruct (acquire _ _); discriminate.
  - eapply Hand; [| |exact HS]; [split; [exact HL|reflexivity]|reflexivity].
  - destruct (objs_of (w_trk w) ps) as [os|]; [|eapply Zero; exact HS]. eapply Hand; [| |exact HS]; [split; [apply HL; reflexivity|reflexivity]|reflexivity].
  - eapply Hand; [| |exact HS]; [destruct o; [apply HL|exact Logic.I]|reflexivity].
  - destruct file; [|discriminate]. eapply Hand; [| |exact HS]; [apply HL|reflexivity].
  - destruct file; [|discriminate]. destruct (obj_of (w_set w) p0); discriminate.
  - destruct file; [|discriminate]. destruct (obj_of (w_alg w IO) a); [|eapply Zero; exact HS]. eapply Hand; [| |exact HS]; [apply HL|reflexivity].
  - destruct file; [|discriminate]. destruct (obj_of (w_img w) p0), (obj_of (w_alg w IO) a); discriminate.
  - destruct (obj_of (w_img w) p0), (obj_of (w_alg w CONV) a); try (eapply Zero; exact HS). eapply Hand; [| |exact HS]; [apply HL|reflexivity].
  - destruct (obj_of (w_alg w TRACKER) a), (obj_of (w_set w) prev), (obj_of (w_img w) p0), (match mask with None => Some None | Some m => option_map Some (obj_of (w_img w) m) end); try (eapply Zero; exact HS).
    eapply Hand; [| |exact HS]; [apply HL|reflexivity].
  - destruct (release _ _); discriminate.
Qed.
Print Assumptions C109_failure.

(** ---- what the algorithm calls do ---- *)
(** A handle is good for a class when it stands for an object. *)
Definition stands (c : cache) (p : Z) (o : nat) : Prop := exists s, get c p = Got s /\ s_obj s = o.
Lemma stands_iff c p o : stands c p o <-> obj_of c p = Some o.
Proof. unfold stands, obj_of. split; [intros (s & -> & ->); reflexivity|]. destruct (get c p); try discriminate. intro H. injection H as <-. eauto. Qed.
(** The new handle is for what the algorithm returned. *)
Definition result_is (w w' : world) (k : cls) (x : cxx) (r : ret) : Prop :=
  match x with
  | XThrow | XNull => w' = w /\ r = (VHandle 0, true)
  | XOld o => exists a c, object w o a c /\ r = (VHandle a, false) /\ stands (cache_of w' k) a o
  | XNew a c => exists o, r = (VHandle a, false) /\ stands (cache_of w' k) a o /\ object w' o a c /\ ~ exists_ w o
  end.
Lemma hand_result w k x : WInv w -> can_give k w x -> exists w' r, hand k true w x = Some (w', r) /\ result_is w w' k x r.
Proof.
  intros I G. destruct (hand_ok w k true x I G) as (w' & r & H1 & _ & _ & _ & H5). exists w', r. split; [exact H1|]. destruct x; cbn [result_is]; auto.
  - destruct H5 as (a & c & -> & _ & _ & _ & H6 & _ & H7). exists a, c. split; [exact H7|]. split; [reflexivity|]. apply stands_iff. exact H6.
  - destruct H5 as (a & c & -> & _ & H4 & _ & H6 & _ & (<- & <-)). exists (length (w_heap w)). split; [reflexivity|]. split; [apply stands_iff; exact H6|]. split; [exact H4|].
    unfold exists_. intro Hx. apply Hx. apply nth_overflow. lia.
Qed.
Theorem C109_load algs w l a f x : hist algs w l -> legal w (Load a (Some f) x) ->
  (forall ao, stands (algs IO) a ao -> exists w' r, step w (Load a (Some f) x) = Some (w', r, [EvLoad ao f]) /\ result_is w w' KImg x r) /\
  ((forall ao, ~ stands (algs IO) a ao) -> step w (Load a (Some f) x) = Some (w, (VHandle 0, true), [])).
Proof.
  intros H HL. destruct (hist_inv _ _ _ H) as [I Ea]. cbn [step]. rewrite Ea. split.
  - intros ao Ha. apply stands_iff in Ha. rewrite Ha. destruct (hand_result w KImg x I (proj2 HL)) as (w' & r & H1 & H2). rewrite H1. exists w', r. split; [reflexivity|exact H2].
  - intro Hn. destruct (obj_of (algs IO) a) as [ao|] eqn:E; [apply stands_iff in E; destruct (Hn _ E)|reflexivity].
Qed.
Print Assumptions C109_load.
Theorem C109_convert algs w l a p x : hist algs w l -> legal w (Convert a p x) ->
  (forall ao o, stands (algs CONV) a ao -> stands (w_img w) p o -> exists w' r, step w (Convert a p x) = Some (w', r, [EvConvert ao o]) /\ result_is w w' KImg x r) /\
  ((forall ao, ~ stands (algs CONV) a ao) \/ (forall o, ~ stands (w_img w) p o) -> step w (Convert a p x) = Some (w, (VHandle 0, true), [])).
Proof.
  intros H HL. destruct (hist_inv _ _ _ H) as [I Ea]. cbn [step]. rewrite Ea. split.
  - intros ao o Ha Ho. apply stands_iff in Ha, Ho. rewrite Ha, Ho. destruct (hand_result w KImg x I HL) as (w' & r & H1 & H2). rewrite H1. exists w', r. split; [reflexivity|exact H2].
  - intro Hn. destruct (obj_of (w_img w) p) as [o|] eqn:E1; [|reflexivity]. destruct (obj_of (algs CONV) a) as [ao|] eqn:E2; [|reflexivity].
    apply stands_iff in E1, E2. destruct Hn as [Hn|Hn]; destruct (Hn _ ltac:(eassumption)).
Qed.
Print Assumptions C109_convert.
(** The mask: absent (the call without one) or the object of a valid handle.  A
    NULL mask handle is an error, not "no mask". *)
Definition mask_is (w : world) (m : option Z) (mo : option nat) : Prop :=
  match m, mo with None, None => True | Some p, Some o => stands (w_img w) p o | _, _ => False end.
Theorem C109_track algs w l a prev fr p m x : hist algs w l -> legal w (Track a prev fr p m x) ->
  (forall ao po o mo, stands (algs TRACKER) a ao -> stands (w_set w) prev po -> stands (w_img w) p o -> mask_is w m mo ->
     exists w' r, step w (Track a prev fr p m x) = Some (w', r, [EvTrack ao po (fr mod 2 ^ 32)%Z o mo]) /\ result_is w w' KSet x r) /\
  ((forall ao, ~ stands (algs TRACKER) a ao) \/ (forall o, ~ stands (w_set w) prev o) \/ (forall o, ~ stands (w_img w) p o) \/ (forall mo, ~ mask_is w m mo) ->
     step w (Track a prev fr p m x) = Some (w, (VHandle 0, true), [])).
Proof.
  intros H HL. destruct (hist_inv _ _ _ H) as [I Ea]. cbn [step]. rewrite Ea. split.
  - intros ao po o mo Ha Hp Ho Hm. apply stands_iff in Ha, Hp, Ho. rewrite Ha, Hp, Ho.
    assert (Em : match m with None => Some None | Some m => option_map Some (obj_of (w_img w) m) end = Some mo).
    { destruct m, mo; cbn in Hm; try contradiction; [|reflexivity]. apply stands_iff in Hm. rewrite Hm. reflexivity. }
    rewrite Em. destruct (hand_result w KSet x I HL) as (w' & r & H1 & H2). rewrite H1. exists w', r. split; [reflexivity|exact H2].
  - intro Hn. destruct (obj_of (algs TRACKER) a) as [ao|] eqn:E1; [|reflexivity]. destruct (obj_of (w_set w) prev) as [po|] eqn:E2; [|reflexivity]. destruct (obj_of (w_img w) p) as [o|] eqn:E3; [|reflexivity].
    destruct (match m with None => Some None | Some m => option_map Some (obj_of (w_img w) m) end) as [mo|] eqn:E4; [|reflexivity].
    apply stands_iff in E1, E2, E3. destruct Hn as [Hn|[Hn|[Hn|Hn]]]; try (destruct (Hn _ ltac:(eassumption))).
    exfalso. destruct m as [q|]; [|exact (Hn None Logic.I)]. destruct (obj_of (w_img w) q) as [qo|] eqn:Eq; [|discriminate]. apply (Hn (Some qo)). apply stands_iff. exact Eq.
Qed.
Print Assumptions C109_track.
Theorem C109_null_mask_refuted algs w l a prev fr p x : hist algs w l -> legal w (Track a prev fr p (Some 0%Z) x) ->
  step w (Track a prev fr p (Some 0%Z) x) = Some (w, (VHandle 0, true), []).
Proof. intros H HL. apply (C109_track algs w l a prev fr p (Some 0%Z) x H HL). right. right. right. intros [o|]; cbn; [|auto]. intros (s & Hs & _). discriminate. Qed.
Print Assumptions C109_null_mask_refuted.
Theorem C109_save_write w a f p ok :
  (forall ao o, stands (w_alg w IO) a ao -> stands (w_img w) p o -> step w (Save a (Some f) p ok) = Some (w, (VVoid, negb ok), [EvSave ao f o])) /\
  ((forall ao, ~ stands (w_alg w IO) a ao) \/ (forall o, ~ stands (w_img w) p o) -> step w (Save a (Some f) p ok) = Some (w, (VVoid, true), [])) /\
  (forall o, stands (w_set w) p o -> step w (SetWrite p (Some f) ok) = Some (w, (VVoid, negb ok), [EvWrite o f])) /\
  ((forall o, ~ stands (w_set w) p o) -> step w (SetWrite p (Some f) ok) = Some (w, (VVoid, true), [])).
Proof.
  cbn [step]. split; [|split; [|split]].
  - intros ao o Ha Ho. apply stands_iff in Ha, Ho. rewrite Ha, Ho. reflexivity.
  - intro Hn. destruct (obj_of (w_img w) p) as [o|] eqn:E1; [|reflexivity]. destruct (obj_of (w_alg w IO) a) as [ao|] eqn:E2; [|reflexivity].
    apply stands_iff in E1, E2. destruct Hn as [Hn|Hn]; destruct (Hn _ ltac:(eassumption)).
  - intros o Ho. apply stands_iff in Ho. rewrite Ho. reflexivity.
  - intro Hn. destruct (obj_of (w_set w) p) as [o|] eqn:E1; [|reflexivity]. apply stands_iff in E1. destruct (Hn _ E1).
Qed.
Print Assumptions C109_save_write.

(** ---- contents ---- *)
(** An image container gives back the image it was made from: same memory, same
    sizes and steps. *)
Theorem C109_image algs w l i a w' r e : hist algs w l -> legal w (ImgNew (Some i) a) -> step w (ImgNew (Some i) a) = Some (w', r, e) ->
  r = (VHandle a, false) /\ step w' (ImgGet a) = Some (w', (VImage (Some i), false), []) /\ step w' (ImgSize a) = Some (w', (VNum (ImageModel.img_size i), false), []) /\
  step w' (ImgWidth a) = Some (w', (VNum (ImageModel.i_w i), false), []) /\ step w' (ImgHeight a) = Some (w', (VNum (ImageModel.i_h i), false), []) /\ step w' (ImgDepth a) = Some (w', (VNum (ImageModel.i_d i), false), []).
Proof.
  intros H (i' & Ei & Hm) HS. injection Ei as <-. destruct (hist_inv _ _ _ H) as [I _]. cbn [step] in HS.
  destruct (hand_ok w KImg false (XNew a (CImg i)) I (conj Hm eq_refl)) as (w1 & v & H1 & _ & _ & _ & H5). rewrite H1 in HS. injection HS as -> -> _.
  destruct H5 as (a' & c & Er & _ & (n & Ho) & _ & Hc & _ & (Ea & Ec)). subst a' c. subst r. split; [reflexivity|]. cbn [object_of] in *. change (cache_of w' KImg) with (w_img w') in Hc.
  cbn [step]. unfold read_in, cell_at, num_of. cbn [cache_of]. rewrite Hc, Ho. repeat split; reflexivity.
Qed.
Print Assumptions C109_image.
(** A track set has the tracks it was made from, and keeps them, whatever is
    done to their handles afterwards, for as long as its own handle is good. *)
Inductive runs : world -> world -> Prop :=
| runs0 w : runs w w
| runs1 w w1 w2 c r e : runs w w1 -> legal w1 c -> step w1 c = Some (w2, r, e) -> runs w w2.
Lemma runs_inv w w2 : WInv w -> runs w w2 -> WInv w2.
Proof. induction 2 as [|w w1 w2 c r e R IH HL HS]; auto. destruct (step_ok w1 c (IH H) HL) as (w3 & r3 & e3 & S1 & S2 & _). congruence. Qed.
Lemma back_object w c w' r e o a k : WInv w -> legal w c -> step w c = Some (w', r, e) -> o < length (w_heap w) -> object w' o a k -> object w o a k.
Proof.
  intros I HL HS Lo Ho. destruct (nth o (w_heap w) None) as [[n b y]|] eqn:E.
  - assert (Q : object w o b y) by (exists n; exact E). assert (Q' : object w' o b y) by (eapply step_objects; eauto; destruct Ho as [m Hm]; unfold exists_; rewrite Hm; discriminate).
    apply object_iff in Ho, Q'. destruct Ho, Q'. assert (a = b) by congruence. assert (k = y) by congruence. subst. exact Q.
  - exfalso. (* the dead stay dead *)
    destruct (step_ok w c I HL) as (w1 & r1 & e1 & S1 & _). rewrite HS in S1. injection S1 as <- _ _. destruct Ho as [m Hm].
    assert (K : forall h', kept (w_heap w) h' -> w_heap w' = h' -> False).
    { intros h' K E'. unfold kept, cell_at in K. rewrite <- E' in K. destruct (K _ _ Hm) as (z & Hz & _). congruence. }
    assert (Hand : forall k' eh x ev, can_give k' w x -> with_events (hand k' eh w x) ev = Some (w', r, e) -> False).
    { intros k' eh x ev Hx Hw. unfold hand in Hw. destruct x as [| |o'|a' con].
      - injection Hw as <- _ _. congruence.
      - injection Hw as <- _ _. congruence.
      - destruct Hx as (a1 & c1 & Hx & Hk). apply object_iff in Hx. destruct Hx as [X1 X2]. destruct (store_in_ok w k' o' a1 c1 I X1 X2 Hk) as (w2 & S1 & _ & _ & S4 & _). rewrite S1 in Hw.
        destruct (cell_at (w_heap w) o'); [|discriminate]. injection Hw as <- _ _. exact (K _ S4 eq_refl).
      - destruct Hx as [Hx Hk]. destruct (make_ok w a' con I Hx) as (h & M1 & M2 & M3 & M4 & M5). rewrite M1 in Hw.
        destruct (store_in_ok _ k' (length (w_heap w)) a' con M2 ltac:(unfold addr_at; cbn [w_heap with_ext with_heap]; rewrite M4; reflexivity) ltac:(unfold con_at; cbn [w_heap with_ext with_heap]; rewrite M4; reflexivity) Hk) as (w2 & S1 & S2 & _ & S4 & _).
        rewrite store_in_ext in S1. destruct (store_in k' (with_heap w h) (length (w_heap w))) as [[w3 ok]|]; [|discriminate]. cbn in S1. injection S1 as <- ->. cbn [w_heap with_ext with_heap] in S4.
        destruct (drop_ext_ok w3 (length (w_heap w) :: w_ext w) (length (w_heap w)) S2 (or_introl eq_refl)) as (h2 & D1 & _ & D3). rewrite D1 in Hw. injection Hw as <- _ _. cbn [w_heap with_heap] in Hm.
        destruct (D3 _ _ Hm) as (z & Z1 & _). destruct (S4 _ _ Z1) as (y & Y1 & _). destruct (M5 _ _ Y1 ltac:(lia)) as (u & U1 & _). unfold cell_at in U1. congruence. }
    destruct c; cbn [step legal] in *; try (eapply Hand; [|exact HS]; fail);
      try (unfold read_in in HS; destruct (obj_of _ _); [destruct (cell_at _ _); [|discriminate]|]; injection HS as <- _ _; congruence).
    + destruct HL as (i & -> & Hmk). eapply Hand; [|exact HS]. split; [exact Hmk|reflexivity].
    + eapply Hand; [|exact HS]. destruct o0; [apply HL|exact Logic.I].
    + destruct (obj_of (w_img w) p) as [o'|] eqn:Eo; [|injection HS as <- _ _; congruence]. destruct (obj_of_live w KImg p o' I Eo) as (_ & cc & (n & Hn) & _).
      destruct I as (b & B & R & A & C). destruct (acquire_rinv _ _ o' _ R Hn) as (h' & Q1 & _ & Q3 & _). rewrite Q1 in HS. injection HS as <- _ _. exact (K _ Q3 eq_refl).
    + destruct (erase_in_ok w KImg p I) as (w2 & E1 & _ & E3 & _). rewrite E1 in HS. injection HS as <- _ _. exact (K _ E3 eq_refl).
    + eapply Hand; [|exact HS]. split; [exact HL|reflexivity].
    + destruct (erase_in_ok w KTrk p I) as (w2 & E1 & _ & E3 & _). rewrite E1 in HS. injection HS as <- _ _. exact (K _ E3 eq_refl).
    + destruct (objs_of (w_trk w) ps) as [os|]; [|injection HS as <- _ _; congruence]. eapply Hand; [|exact HS]. split; [apply HL; reflexivity|reflexivity].
    + eapply Hand; [|exact HS]. destruct o0; [apply HL|exact Logic.I].
    + destruct file; [|discriminate]. eapply Hand; [|exact HS]. apply HL.
    + destruct (erase_in_ok w KSet p I) as (w2 & E1 & _ & E3 & _). rewrite E1 in HS. injection HS as <- _ _. exact (K _ E3 eq_refl).
    + destruct file; [|discriminate]. destruct (obj_of (w_set w) p); injection HS as <- _ _; congruence.
    + destruct file; [|discriminate]. destruct (obj_of (w_alg w IO) a0); [eapply Hand; [|exact HS]; apply HL|injection HS as <- _ _; congruence].
    + destruct file; [|discriminate]. destruct (obj_of (w_img w) p), (obj_of (w_alg w IO) a0); injection HS as <- _ _; congruence.
    + destruct (obj_of (w_img w) p), (obj_of (w_alg w CONV) a0); try (injection HS as <- _ _; congruence). eapply Hand; [|exact HS]; apply HL.
    + destruct (obj_of (w_alg w TRACKER) a0), (obj_of (w_set w) prev), (obj_of (w_img w) p), (match mask with None => Some None | Some m => option_map Some (obj_of (w_img w) m) end); try (injection HS as <- _ _; congruence).
      eapply Hand; [|exact HS]; apply HL.
    + destruct (make_ok w addr con I HL) as (h & M1 & _ & _ & _ & M5). rewrite M1 in HS. injection HS as <- _ _. cbn [w_heap with_ext with_heap] in Hm. destruct (M5 _ _ Hm ltac:(lia)) as (u & U1 & _). unfold cell_at in U1. congruence.
    + assert (I' : WInv (with_ext w (w_ext w))) by (destruct w; exact I). destruct (drop_ext_ok w (w_ext w) o0 I' HL) as (h & D1 & _ & D3). rewrite D1 in HS. injection HS as <- _ _. exact (K _ D3 eq_refl).
Qed.
Lemma acquire_len h o h' : acquire h o = Some h' -> length h' = length h.
Proof. unfold acquire. destruct (cell_at h o); [|discriminate]. intro H. injection H as <-. apply lupd_len. Qed.
Lemma acquires_len os : forall h h', acquires h os = Some h' -> length h' = length h.
Proof. induction os as [|o os IH]; cbn; intros h h' H; [congruence|]. destruct (acquire h o) eqn:E; [|discriminate]. apply acquire_len in E. apply IH in H. congruence. Qed.
Lemma drop_len h o h' l : drop h o = Some (h', l) -> length h' = length h.
Proof. unfold drop. destruct (cell_at h o) as [x|]; [|discriminate]. destruct (x_refs x) as [|[|n]]; [discriminate|..]; intro H; injection H as <- _; apply lupd_len. Qed.
Lemma drops_len os : forall h h', drops h os = Some h' -> length h' = length h.
Proof. induction os as [|o os IH]; cbn; intros h h' H; [congruence|]. destruct (drop h o) as [[h1 l]|] eqn:E; [|discriminate]. apply drop_len in E. apply IH in H. congruence. Qed.
Lemma release_len h o h' : release h o = Some h' -> length h' = length h.
Proof. unfold release. destruct (drop h o) as [[h1 l]|] eqn:E; [|discriminate]. intro H. apply drops_len in H. apply drop_len in E. congruence. Qed.
Lemma make_len h a c h' o : make h a c = Some (h', o) -> length h' = S (length h).
Proof. unfold make. destruct (acquires _ _) eqn:E; [|discriminate]. intro H. injection H as <- _. apply acquires_len in E. rewrite app_length. cbn. lia. Qed.
Lemma store_len k w o w' b : store_in k w o = Some (w', b) -> length (w_heap w') = length (w_heap w).
Proof.
  unfold store_in. destruct (cell_at (w_heap w) o) as [x|]; [|discriminate]. destruct (store _ _) as [c []]; try (intro H; injection H as <- _; rewrite heap_with; reflexivity).
  destruct (c_ptr _ _); [intro H; injection H as <- _; rewrite heap_with; reflexivity|]. destruct (acquire _ _) eqn:E; [|discriminate]. intro H; injection H as <- _; rewrite heap_with. cbn. eapply acquire_len; eauto.
Qed.
Lemma erase_len k w p w' b : erase_in k w p = Some (w', b) -> length (w_heap w') = length (w_heap w).
Proof.
  unfold erase_in. destruct (erase _ _) as [c []]; try (intro H; injection H as <- _; rewrite heap_with; reflexivity).
  destruct (c_ptr _ _) as [s|]; [destruct (c_ptr c p)|]; try (intro H; injection H as <- _; rewrite heap_with; reflexivity).
  destruct (release _ _) eqn:E; [|discriminate]. intro H; injection H as <- _; rewrite heap_with. cbn. eapply release_len; eauto.
Qed.
Lemma hand_len k eh w x w' r : hand k eh w x = Some (w', r) -> length (w_heap w) <= length (w_heap w').
Proof.
  unfold hand. destruct x as [| |o|a c].
  - intro H. injection H as <- _. lia.
  - intro H. injection H as <- _. lia.
  - destruct (store_in k w o) as [[w1 []]|] eqn:E; [destruct (cell_at (w_heap w) o); [|discriminate]| |discriminate]; intro H; injection H as <- _; apply store_len in E; lia.
  - destruct (make _ _ _) as [[h o]|] eqn:E; [|discriminate]. destruct (store_in _ _ _) as [[w1 ok]|] eqn:E1; [|discriminate]. destruct (release _ _) eqn:E2; [|discriminate]. intro H. injection H as <- _.
    apply make_len in E. apply store_len in E1. apply release_len in E2. cbn [w_heap with_heap] in *. lia.
Qed.
Lemma step_len w c w' r e : step w c = Some (w', r, e) -> length (w_heap w) <= length (w_heap w').
Proof.
  assert (Hand : forall k eh x ev, with_events (hand k eh w x) ev = Some (w', r, e) -> length (w_heap w) <= length (w_heap w')).
  { intros k eh x ev H. destruct (hand k eh w x) as [[w1 v]|] eqn:E; [|discriminate]. injection H as <- _ _. eapply hand_len; eauto. }
  assert (Er : forall k p, (match erase_in k w p with Some (w, ok) => plain w VVoid (negb ok) | None => None end) = Some (w', r, e) -> length (w_heap w) <= length (w_heap w')).
  { intros k p H. destruct (erase_in k w p) as [[w1 ok]|] eqn:E; [|discriminate]. injection H as <- _ _. apply erase_len in E. lia. }
  assert (Pl : forall v e0, Some (w, v, e0) = Some (w', r, e) -> length (w_heap w) <= length (w_heap w')) by (intros v e0 H; injection H as <- _ _; lia).
  destruct c; cbn [step]; intro HS; try (eapply Hand; exact HS); try (eapply Er; exact HS);
    try (unfold read_in in HS; destruct (obj_of _ _); [destruct (cell_at _ _); [|discriminate]|]; eapply Pl; exact HS).
  - destruct img; [eapply Hand; exact HS|discriminate].
  - destruct (obj_of (w_img w) p); [|eapply Pl; exact HS]. destruct (acquire _ _) eqn:E; [|discriminate]. injection HS as <- _ _. apply acquire_len in E. cbn. lia.
  - destruct (objs_of _ _); [eapply Hand; exact HS|eapply Pl; exact HS].
  - destruct file; [eapply Hand; exact HS|discriminate].
  - destruct file; [|discriminate]. destruct (obj_of _ _); eapply Pl; exact HS.
  - destruct file; [|discriminate]. destruct (obj_of _ _); [eapply Hand; exact HS|eapply Pl; exact HS].
  - destruct file; [|discriminate]. destruct (obj_of (w_img w) p), (obj_of (w_alg w IO) a); eapply Pl; exact HS.
  - destruct (obj_of (w_img w) p), (obj_of (w_alg w CONV) a); try (eapply Pl; exact HS). eapply Hand; exact HS.
  - destruct (obj_of (w_alg w TRACKER) a), (obj_of (w_set w) prev), (obj_of (w_img w) p), (match mask with None => Some None | Some m => option_map Some (obj_of (w_img w) m) end); try (eapply Pl; exact HS). eapply Hand; exact HS.
  - destruct (make _ _ _) as [[h o]|] eqn:E; [|discriminate]. injection HS as <- _ _. apply make_len in E. cbn. lia.
  - destruct (release _ _) eqn:E; [|discriminate]. injection HS as <- _ _. apply release_len in E. cbn. lia.
Qed.
Lemma runs_object w w2 o a k : WInv w -> runs w w2 -> object w o a k -> (exists_ w2 o -> object w2 o a k) /\ o < length (w_heap w2).
Proof.
  intros I R Ho. induction R as [w|w w1 w2 c r e R IH HL HS].
  - split; [auto|]. apply object_iff in Ho. destruct Ho as [Ha _]. unfold addr_at in Ha. destruct (cell_at (w_heap w) o) eqn:E; [|discriminate]. eapply cell_len; eauto.
  - specialize (IH I Ho). destruct IH as [IH1 IH2]. pose proof (runs_inv _ _ I R) as I1. split; [|pose proof (step_len _ _ _ _ _ HS); lia].
    intro Hx. assert (exists n b y, nth o (w_heap w2) None = Some (mkCell n b y)) as (n & b & y & E).
    { unfold exists_ in Hx. destruct (nth o (w_heap w2) None) as [[n b y]|]; [eauto|congruence]. }
    assert (Q : object w1 o b y) by (eapply back_object; eauto; exists n; exact E).
    assert (Q1 : object w1 o a k) by (apply IH1; destruct Q as [m Hm]; unfold exists_; rewrite Hm; discriminate).
    eapply step_objects; eauto.
Qed.
Lemma objs_of_nth c ps : forall os, objs_of c ps = Some os -> length os = length ps /\ forall i p, nth_error ps i = Some p -> exists t, nth_error os i = Some t /\ stands c p t.
Proof.
  induction ps as [|q ps IH]; cbn; intros os H; [injection H as <-; split; [reflexivity|intros [|i] p Hp; discriminate]|].
  destruct (obj_of c q) as [o|] eqn:E; [|discriminate]. destruct (objs_of c ps) as [r|]; [|discriminate]. injection H as <-. destruct (IH r eq_refl) as [L Q]. split; [cbn; congruence|].
  intros [|i] p Hp; cbn in Hp; [|apply Q; exact Hp]. injection Hp as <-. exists o. split; [reflexivity|apply stands_iff; exact E].
Qed.
Theorem C109_set algs w l ps a w1 eh e w2 : hist algs w l -> legal w (SetNew ps a) -> step w (SetNew ps a) = Some (w1, (VHandle a, eh), e) -> a <> 0%Z ->
  exists o os, stands (w_set w1) a o /\ length os = length ps /\ (forall i p, nth_error ps i = Some p -> exists t, nth_error os i = Some t /\ stands (w_trk w) p t) /\
    (runs w1 w2 -> exists_ w2 o -> object w2 o a (CSet os) /\ (forall t, In t os -> exists_ w2 t /\ forall b n, object w t b (CTrk n) -> object w2 t b (CTrk n)) /\
     (stands (w_set w2) a o -> step w2 (SetSize a) = Some (w2, (VNum (Z.of_nat (length ps)), false), []))).
Proof.
  intros H HL HS Na. destruct (hist_inv _ _ _ H) as [I _]. pose proof HS as HS0. cbn [step] in HS. destruct (objs_of (w_trk w) ps) as [os|] eqn:Eo; [|injection HS as _ E _ _; congruence].
  destruct (hand_ok w KSet false (XNew a (CSet os)) I (conj (HL os Eo) eq_refl)) as (w3 & v & H1 & H2 & H3 & _ & H5). rewrite H1 in HS. injection HS as -> -> _.
  destruct H5 as (a' & c & E' & _ & Ho & _ & Hc & _ & (Ea & Ec)). subst a' c. cbn [object_of] in *. change (cache_of w1 KSet) with (w_set w1) in Hc. destruct (objs_of_nth _ _ _ Eo) as [L Q].
  exists (length (w_heap w)), os. split; [apply stands_iff; exact Hc|]. split; [exact L|]. split; [exact Q|].
  intros R Hx. destruct (runs_object w1 w2 _ _ _ H2 R Ho) as [R1 _]. specialize (R1 Hx). split; [exact R1|]. pose proof (runs_inv _ _ H2 R) as I2. split.
  - intros t Ht. destruct I2 as (b & _ & (_ & _ & R3) & _). apply object_iff in R1. destruct (R3 _ _ t (proj2 R1) Ht) as [n Hn].
    assert (Ex : exists_ w2 t) by (unfold exists_; unfold con_at, cell_at in Hn; destruct (nth t (w_heap w2) None); [discriminate|discriminate Hn]).
    split; [exact Ex|]. intros b' n' Hb. assert (Hb1 : object w1 t b' (CTrk n')).
    { apply object_iff in Hb. destruct Hb. apply object_iff. split; [eapply grown_addr; eauto|eapply grown_con; eauto]. }
    destruct (runs_object w1 w2 _ _ _ H2 R Hb1) as [R4 _]. auto.
  - intro Hs. apply stands_iff in Hs. cbn [step]. unfold read_in. cbn [cache_of]. rewrite Hs. destruct R1 as [n Hn]. unfold cell_at. rewrite Hn. cbn. rewrite L. reflexivity.
Qed.
Print Assumptions C109_set.

(** An error and an empty image look the same to image_container_width: it has
    no error handle. *)
Theorem C109_silent_refuted : exists w l p q, hist (fun _ => empty_cache) w l /\ ~ (exists o, stands (w_img w) p o) /\ (exists o, stands (w_img w) q o) /\
  (exists w1, step w (ImgWidth p) = Some (w1, (VNum 0, false), [])) /\ (exists w1, step w (ImgWidth q) = Some (w1, (VNum 0, false), [])).
Proof.
  assert (HL : legal (world0 (fun _ => empty_cache)) (ImgNew (Some ImageModel.img_default) 8)).
  { exists ImageModel.img_default. split; [reflexivity|]. split; [lia|]. split; [|intros l t H; discriminate]. intros o c [n Hn]. destruct o; discriminate. }
  destruct (C109_safe _ _ _ _ (hist0 _) HL) as (w & r & e & S1). exists w, [(ImgNew (Some ImageModel.img_default) 8, r)], 0%Z, 8%Z.
  split; [eapply hist_step; [apply hist0|exact HL|exact S1]|]. 
  destruct (C109_image _ _ _ _ _ _ _ _ (hist0 _) HL S1) as (-> & _ & _ & W & _).
  split; [intros (o & s & Hs & _); discriminate|]. split.
  - destruct (hist_inv _ _ _ (hist_step _ _ _ _ _ _ _ (hist0 _) HL S1)) as [I _].
    destruct (C109_failure _ _ _ _ _ _ _ _ (hist0 _) HL S1) as [_ F]. destruct F as (_ & k & o & x & G & Ho & _); [lia|]. injection G as <-. exists o. apply stands_iff. exact Ho.
  - split; [exists w; reflexivity|exists w; exact W].
Qed.
Print Assumptions C109_silent_refuted.

(** A small session: two tracks, a set of them, the track handles given back,
    the set's size asked, the set given back: then nothing is left. *)
Definition session : list api := [TrkNew 16; TrkNew 32; SetNew [16; 32; 16]%Z 48; TrkDestroy 16; TrkDestroy 32].
Fixpoint play (w : world) (cs : list api) : option (world * list ret) :=
  match cs with [] => Some (w, []) | c :: r => match step w c with Some (w, v, _) => option_map (fun x => (fst x, v :: snd x)) (play w r) | None => None end end.
Example C109_nonvacuous :
  (exists w, play (world0 (fun _ => empty_cache)) (session ++ [SetSize 48; TrkSize 16]) =
     Some (w, [(VHandle 16, false); (VHandle 32, false); (VHandle 48, false); (VVoid, false); (VVoid, false); (VNum 3, false); (VNum 0, true)]) /\ map (option_map x_refs) (w_heap w) = [Some 2; Some 1; Some 1]) /\
  (exists w v, play (world0 (fun _ => empty_cache)) (session ++ [SetDestroy 48]) = Some (w, v) /\ w_heap w = [None; None; None]).
Proof. split; [eexists; split; [vm_compute; reflexivity|vm_compute; reflexivity]|do 2 eexists; split; [vm_compute; reflexivity|vm_compute; reflexivity]]. Qed.
Example C109_legal : legal (world0 (fun _ => empty_cache)) (TrkNew 16).
Proof. split; [lia|]. split; [intros o c [n Hn]; destruct o; discriminate|intros l t H; discriminate]. Qed.
