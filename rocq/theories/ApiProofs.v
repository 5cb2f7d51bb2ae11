(** ApiProofs.v -- reference counts: nothing is deleted too early or kept too
    long, over the heap of ApiModel.v. *)
From Coq Require Import ZArith List Bool Arith Lia.
Import ListNotations.
From Verif Require Import Base CacheModel ApiModel.

Definition con_at (h : heap) (o : nat) : option content := option_map x_con (cell_at h o).
Definition addr_at (h : heap) (o : nat) : option Z := option_map x_addr (cell_at h o).
Definition mem1 (c : option cell) : list nat := match c with Some x => match x_con x with CSet l => l | _ => [] end | None => [] end.
Definition members (h : heap) : list nat := flat_map mem1 h.
Notation cnt := (count_occ Nat.eq_dec).
Definition RInv (h : heap) (f : nat -> nat) : Prop :=
  (forall o x, cell_at h o = Some x -> x_refs x = f o + cnt (members h) o /\ 0 < x_refs x) /\
  (forall o, cell_at h o = None -> f o = 0) /\
  (forall o l t, con_at h o = Some (CSet l) -> In t l -> exists n, con_at h t = Some (CTrk n)).

Lemma cell_len h o x : cell_at h o = Some x -> o < length h.
Proof. intro H. destruct (Nat.lt_ge_cases o (length h)) as [L|L]; auto. unfold cell_at in H. rewrite nth_overflow in H by lia. discriminate. Qed.
Lemma cell_lupd h o c t : o < length h -> cell_at (lupd h o c) t = if Nat.eqb t o then c else cell_at h t.
Proof.
  unfold cell_at. revert o t. induction h as [|a h IH]; intros o t L; [cbn in L; lia|]. destruct o as [|o].
  - destruct t; reflexivity.
  - destruct t; [reflexivity|]. cbn in L. cbn. apply IH. lia.
Qed.
Lemma lupd_len {A} (l : list A) n x : length (lupd l n x) = length l.
Proof. revert n. induction l; intros [|n]; cbn; auto. Qed.
Lemma cnt_lupd h o c t : o < length h -> cnt (members (lupd h o c)) t + cnt (mem1 (cell_at h o)) t = cnt (members h) t + cnt (mem1 c) t.
Proof.
  unfold cell_at, members. revert o. induction h as [|a h IH]; intros o L; [cbn in L; lia|]. destruct o as [|o].
  - cbn [lupd flat_map nth]. rewrite !count_occ_app. lia.
  - cbn in L. cbn [lupd flat_map nth]. rewrite !count_occ_app. specialize (IH o ltac:(lia)). lia.
Qed.
Lemma cnt_app_heap h c t : cnt (members (h ++ [c])) t = cnt (members h) t + cnt (mem1 c) t.
Proof. unfold members. rewrite flat_map_app, count_occ_app. cbn. rewrite app_nil_r. reflexivity. Qed.
Lemma in_members h t : In t (members h) -> exists o l, con_at h o = Some (CSet l) /\ In t l.
Proof.
  unfold members. intro H. apply in_flat_map in H. destruct H as (c & H1 & H2). apply In_nth with (d := None) in H1. destruct H1 as (o & Ho & Hc).
  unfold mem1 in H2. destruct c as [x|]; [|contradiction]. destruct (x_con x) as [| |l] eqn:E; try contradiction.
  exists o, l. unfold con_at, cell_at. rewrite Hc. cbn. rewrite E. auto.
Qed.
Lemma members_in h o l t : con_at h o = Some (CSet l) -> In t l -> In t (members h).
Proof.
  unfold con_at. destruct (cell_at h o) as [x|] eqn:E; cbn; [|discriminate]. intros H I. injection H as H. unfold members. apply in_flat_map.
  exists (Some x). split; [rewrite <- E; apply nth_In; eapply cell_len; eauto|]. unfold mem1. rewrite H. exact I.
Qed.
Lemma RInv_ext h f g : (forall t, f t = g t) -> RInv h f -> RInv h g.
Proof.
  intros E (R1 & R2 & R3). split; [|split]; auto.
  - intros o x H. rewrite <- E. auto.
  - intros o H. rewrite <- E. auto.
Qed.
Lemma RInv_live h f o : RInv h f -> 0 < f o -> exists x, cell_at h o = Some x.
Proof. intros (_ & R2 & _) H. destruct (cell_at h o) eqn:E; eauto. apply R2 in E. lia. Qed.

(** Survivors keep their address and content. *)
Definition kept (h h' : heap) : Prop := forall t x, cell_at h' t = Some x -> exists y, cell_at h t = Some y /\ x_addr x = x_addr y /\ x_con x = x_con y.
Lemma kept_refl h : kept h h. Proof. intros t x H. eauto. Qed.
Lemma kept_trans a b c : kept a b -> kept b c -> kept a c.
Proof. intros A B t x H. destruct (B _ _ H) as (y & Y1 & Y2 & Y3). destruct (A _ _ Y1) as (z & Z1 & Z2 & Z3). exists z. repeat split; congruence. Qed.
(** Nothing died. *)
Definition grown (h h' : heap) : Prop := forall t x, cell_at h t = Some x -> exists y, cell_at h' t = Some y /\ x_addr x = x_addr y /\ x_con x = x_con y.
Lemma grown_con h h' o c : grown h h' -> con_at h o = Some c -> con_at h' o = Some c.
Proof.
  unfold con_at. intros G H. destruct (cell_at h o) as [x|] eqn:E; [|discriminate]. destruct (G _ _ E) as (y & Y1 & _ & Y2). rewrite Y1. cbn in *. congruence.
Qed.
Definition at_ (o : nat) (t : nat) : nat := if Nat.eqb t o then 1 else 0.

Lemma acquire_rinv h f o x : RInv h f -> cell_at h o = Some x ->
  exists h', acquire h o = Some h' /\ RInv h' (fun t => f t + at_ o t) /\ kept h h' /\ grown h h' /\ length h' = length h.
Proof.
  intros R E. unfold acquire. rewrite E. eexists. split; [reflexivity|]. pose proof (cell_len _ _ _ E) as L. set (x' := mkCell (S (x_refs x)) (x_addr x) (x_con x)).
  assert (G : grown h (lupd h o (Some x'))).
  { intros t y Hy. rewrite cell_lupd by exact L. destruct (Nat.eqb_spec t o) as [->|]; [|eauto]. rewrite E in Hy. injection Hy as <-. exists x'. auto. }
  assert (K : kept h (lupd h o (Some x'))).
  { intros t y. rewrite cell_lupd by exact L. destruct (Nat.eqb_spec t o) as [->|]; [|eauto]. intro Hy. injection Hy as <-. exists x. auto. }
  split; [|split; [exact K|split; [exact G|apply lupd_len]]].
  destruct R as (R1 & R2 & R3).
  assert (C : forall t, cnt (members (lupd h o (Some x'))) t = cnt (members h) t).
  { intro t. pose proof (cnt_lupd h o (Some x') t L) as Q. rewrite E in Q. cbn in Q. lia. }
  split; [|split].
  - intros t y. rewrite cell_lupd by exact L. rewrite C. unfold at_. destruct (Nat.eqb_spec t o) as [->|].
    + intro Hy. injection Hy as <-. cbn. destruct (R1 _ _ E). lia.
    + intro Hy. destruct (R1 _ _ Hy). lia.
  - intros t. rewrite cell_lupd by exact L. unfold at_. destruct (Nat.eqb_spec t o) as [->|]; [discriminate|]. intro Hy. rewrite (R2 _ Hy). reflexivity.
  - intros t l u Ht Hu. unfold con_at in Ht. destruct (cell_at (lupd h o (Some x')) t) as [y|] eqn:Ey; [|discriminate]. destruct (K _ _ Ey) as (z & Z1 & _ & Z2).
    destruct (R3 t l u) as [n Hn]; auto; [unfold con_at; rewrite Z1; cbn in *; congruence|]. exists n. eapply grown_con; eauto.
Qed.
Lemma grown_trans a b c : grown a b -> grown b c -> grown a c.
Proof. intros A B t x H. destruct (A _ _ H) as (y & Y1 & Y2 & Y3). destruct (B _ _ Y1) as (z & Z1 & Z2 & Z3). exists z. repeat split; congruence. Qed.
Lemma acquires_rinv os : forall h f, RInv h f -> (forall o, In o os -> exists x, cell_at h o = Some x) ->
  exists h', acquires h os = Some h' /\ RInv h' (fun t => f t + cnt os t) /\ kept h h' /\ grown h h' /\ length h' = length h.
Proof.
  induction os as [|o os IH]; intros h f R Hl.
  - exists h. split; [reflexivity|]. split; [eapply RInv_ext; [|exact R]; intro; cbn; lia|]. split; [apply kept_refl|]. split; [intros t x H; eauto|reflexivity].
  - destruct (Hl o (or_introl eq_refl)) as [x E]. destruct (acquire_rinv h f o x R E) as (h1 & A1 & A2 & A3 & A4 & A5).
    destruct (IH h1 _ A2) as (h2 & B1 & B2 & B3 & B4 & B5).
    { intros t Ht. destruct (Hl t (or_intror Ht)) as [y Hy]. destruct (A4 _ _ Hy) as (z & Hz & _). eauto. }
    exists h2. cbn [acquires]. rewrite A1. split; [exact B1|]. split; [|split; [|split; [|congruence]]].
    + eapply RInv_ext; [|exact B2]. intro t. cbn [count_occ]. unfold at_. destruct (Nat.eq_dec o t) as [->|N]; [rewrite Nat.eqb_refl; lia|]. destruct (Nat.eqb_spec t o); [congruence|lia].
    + eapply kept_trans; eauto.
    + eapply grown_trans; eauto.
Qed.

Definition minus1 (f : nat -> nat) (o t : nat) : nat := if Nat.eqb t o then pred (f t) else f t.
Lemma drop_rinv h f o : RInv h f -> 0 < f o ->
  exists h' l, drop h o = Some (h', l) /\ RInv h' (fun t => minus1 f o t + cnt l t) /\ kept h h' /\
    (forall t, In t l -> exists n, con_at h' t = Some (CTrk n)) /\ ((exists n, con_at h o = Some (CTrk n)) -> l = []) /\
    (forall t x, t <> o -> cell_at h t = Some x -> cell_at h' t = Some x) /\ length h' = length h.
Proof.
  intros R Hf. destruct (RInv_live h f o R Hf) as [x E]. pose proof R as (R1 & R2 & R3). destruct (R1 _ _ E) as [Q1 Q2]. pose proof (cell_len _ _ _ E) as L.
  unfold drop. rewrite E. destruct (x_refs x) as [|[|n]] eqn:Er; [lia| |].
  - (* deleted *)
    assert (Hm : cnt (members h) o = 0) by lia. set (l := match x_con x with CSet l => l | _ => [] end).
    exists (lupd h o None), l. split; [reflexivity|].
    assert (Hl : mem1 (cell_at h o) = l) by (rewrite E; reflexivity).
    assert (C : forall t, cnt (members (lupd h o None)) t + cnt l t = cnt (members h) t).
    { intro t. pose proof (cnt_lupd h o None t L) as Q. rewrite Hl in Q. cbn in Q. lia. }
    assert (K : kept h (lupd h o None)).
    { intros t y. rewrite cell_lupd by exact L. destruct (Nat.eqb_spec t o) as [->|]; [discriminate|eauto]. }
    assert (Ho : forall t, In t l -> exists m, con_at h t = Some (CTrk m)).
    { intros t Ht. eapply R3; [|exact Ht]. unfold con_at. rewrite E. cbn. unfold l in Ht. destruct (x_con x); try contradiction; reflexivity. }
    assert (Ne : forall t, In t l -> t <> o).
    { intros t Ht ->. destruct (Ho _ Ht) as [m Hm']. unfold con_at in Hm'. rewrite E in Hm'. cbn in Hm'. unfold l in Ht. destruct (x_con x); try contradiction. discriminate. }
    split; [|split; [exact K|split; [|split; [|split; [|apply lupd_len]]]]].
    + split; [|split].
      * intros t y. rewrite cell_lupd by exact L. unfold minus1. destruct (Nat.eqb_spec t o) as [->|]; [discriminate|]. intro Hy. destruct (R1 _ _ Hy). specialize (C t). lia.
      * intros t. rewrite cell_lupd by exact L. unfold minus1. destruct (Nat.eqb_spec t o) as [->|Nt].
        -- intros _. assert (Z0 : cnt l o = 0) by (apply count_occ_not_In; intro Hi; exact (Ne _ Hi eq_refl)). lia.
        -- intro Hy. rewrite (R2 _ Hy). apply count_occ_not_In. intro Hi. destruct (Ho _ Hi) as [m Hc]. unfold con_at in Hc. rewrite Hy in Hc. discriminate.
      * intros t m u Ht Hu. unfold con_at in Ht. destruct (cell_at (lupd h o None) t) as [y|] eqn:Ey; [|discriminate]. destruct (K _ _ Ey) as (z & Z1 & _ & Z2).
        assert (Ct : con_at h t = Some (CSet m)) by (unfold con_at; rewrite Z1; cbn in *; congruence).
        destruct (R3 t m u Ct Hu) as [k Hk]. exists k. unfold con_at. rewrite cell_lupd by exact L. destruct (Nat.eqb_spec u o) as [->|]; [|exact Hk].
        exfalso. assert (Hi : In o (members h)) by (eapply members_in; eauto). apply (count_occ_In Nat.eq_dec) in Hi. lia.
    + intros t Ht. destruct (Ho t Ht) as [m Hm']. exists m. unfold con_at. rewrite cell_lupd by exact L. destruct (Nat.eqb_spec t o) as [->|]; [exfalso; exact (Ne _ Ht eq_refl)|exact Hm'].
    + intros [m Hm']. unfold con_at in Hm'. rewrite E in Hm'. cbn in Hm'. injection Hm' as Hm'. unfold l. rewrite Hm'. reflexivity.
    + intros t y Nt Hy. rewrite cell_lupd by exact L. destruct (Nat.eqb_spec t o); [contradiction|exact Hy].
  - (* one less *)
    set (x' := mkCell (S n) (x_addr x) (x_con x)). exists (lupd h o (Some x')), []. split; [reflexivity|].
    assert (G : grown h (lupd h o (Some x'))).
    { intros t y Hy. rewrite cell_lupd by exact L. destruct (Nat.eqb_spec t o) as [->|]; [|eauto]. rewrite E in Hy. injection Hy as <-. exists x'. auto. }
    assert (K : kept h (lupd h o (Some x'))).
    { intros t y. rewrite cell_lupd by exact L. destruct (Nat.eqb_spec t o) as [->|]; [|eauto]. intro Hy. injection Hy as <-. exists x. auto. }
    assert (C : forall t, cnt (members (lupd h o (Some x'))) t = cnt (members h) t).
    { intro t. pose proof (cnt_lupd h o (Some x') t L) as Q. rewrite E in Q. cbn in Q. lia. }
    split; [|split; [exact K|split; [|split; [|split; [|apply lupd_len]]]]].
    + split; [|split].
      * intros t y. rewrite cell_lupd by exact L. rewrite C. unfold minus1. destruct (Nat.eqb_spec t o) as [->|]; intro Hy; cbn [count_occ].
        -- injection Hy as <-. cbn. lia.
        -- destruct (R1 _ _ Hy). lia.
      * intros t. rewrite cell_lupd by exact L. unfold minus1. destruct (Nat.eqb_spec t o) as [->|]; [discriminate|]. intro Hy. rewrite (R2 _ Hy). reflexivity.
      * intros t l u Ht Hu. unfold con_at in Ht. destruct (cell_at (lupd h o (Some x')) t) as [y|] eqn:Ey; [|discriminate]. destruct (K _ _ Ey) as (z & Z1 & _ & Z2).
        destruct (R3 t l u) as [m Hm]; auto; [unfold con_at; rewrite Z1; cbn in *; congruence|]. exists m. eapply grown_con; eauto.
    + intros t [].
    + reflexivity.
    + intros t y Nt Hy. rewrite cell_lupd by exact L. destruct (Nat.eqb_spec t o); [contradiction|exact Hy].
Qed.
Lemma drops_rinv l : forall h f, RInv h (fun t => f t + cnt l t) -> (forall t, In t l -> exists n, con_at h t = Some (CTrk n)) ->
  exists h', drops h l = Some h' /\ RInv h' f /\ kept h h' /\ length h' = length h.
Proof.
  induction l as [|o l IH]; intros h f R Ht.
  - exists h. split; [reflexivity|]. split; [eapply RInv_ext; [|exact R]; intro; cbn; lia|]. split; [apply kept_refl|reflexivity].
  - destruct (drop_rinv h _ o R) as (h1 & l1 & D1 & D2 & D3 & _ & D5 & D6 & D7); [cbn; destruct (Nat.eq_dec o o); [lia|congruence]|].
    rewrite (D5 (Ht o (or_introl eq_refl))) in *. 
    assert (R1 : RInv h1 (fun t => f t + cnt l t)).
    { eapply RInv_ext; [|exact D2]. intro t. unfold minus1. cbn [count_occ]. destruct (Nat.eqb_spec t o) as [->|N].
      - destruct (Nat.eq_dec o o); [lia|congruence].
      - destruct (Nat.eq_dec o t); [congruence|lia]. }
    destruct (IH h1 f R1) as (h2 & B1 & B2 & B3 & B4).
    { intros t Hi. destruct (RInv_live h1 _ t R1) as [y Hy]; [apply (count_occ_In Nat.eq_dec) in Hi; lia|].
      destruct (D3 _ _ Hy) as (z & Z1 & _ & Z3). destruct (Ht t (or_intror Hi)) as [n Hn]. exists n. unfold con_at in *. rewrite Hy. rewrite Z1 in Hn. cbn in *. congruence. }
    exists h2. cbn [drops]. rewrite D1. split; [exact B1|]. split; [exact B2|]. split; [eapply kept_trans; eauto|congruence].
Qed.
Lemma release_rinv h f o : RInv h f -> 0 < f o -> exists h', release h o = Some h' /\ RInv h' (minus1 f o) /\ kept h h' /\ length h' = length h.
Proof.
  intros R Hf. destruct (drop_rinv h f o R Hf) as (h1 & l & D1 & D2 & D3 & D4 & _ & _ & D7). destruct (drops_rinv l h1 _ D2 D4) as (h2 & B1 & B2 & B3 & B4).
  exists h2. unfold release. rewrite D1. split; [exact B1|]. split; [exact B2|]. split; [eapply kept_trans; eauto|congruence].
Qed.
Lemma make_rinv h f addr con : RInv h f -> (forall l t, con = CSet l -> In t l -> exists n, con_at h t = Some (CTrk n)) ->
  exists h' , make h addr con = Some (h', length h) /\ RInv h' (fun t => f t + at_ (length h) t) /\ grown h h' /\ cell_at h' (length h) = Some (mkCell 1 addr con) /\
    (forall t x, cell_at h' t = Some x -> t <> length h -> exists y, cell_at h t = Some y /\ x_addr x = x_addr y /\ x_con x = x_con y) /\ length h' = S (length h).
Proof.
  intros R Hm. unfold make. set (l := match con with CSet l => l | _ => [] end).
  assert (Hl : forall t, In t l -> exists n, con_at h t = Some (CTrk n)).
  { intros t Ht. unfold l in Ht. destruct con; try contradiction. eauto. }
  destruct (acquires_rinv l h f R) as (h1 & A1 & A2 & A3 & A4 & A5).
  { intros t Ht. destruct (Hl t Ht) as [n Hn]. unfold con_at in Hn. destruct (cell_at h t); eauto. discriminate. }
  rewrite A1. set (c := mkCell 1 addr con). exists (h1 ++ [Some c]). rewrite A5. split; [reflexivity|].
  assert (Cn : forall t, t <> length h -> cell_at (h1 ++ [Some c]) t = cell_at h1 t).
  { intros t N. unfold cell_at. destruct (Nat.lt_ge_cases t (length h1)) as [Q|Q]; [apply app_nth1; exact Q|]. rewrite app_nth2 by exact Q. rewrite (nth_overflow h1) by exact Q.
    destruct (t - length h1) as [|k] eqn:Ek; [lia|]. cbn. destruct k; reflexivity. }
  assert (Co : cell_at (h1 ++ [Some c]) (length h) = Some c).
  { unfold cell_at. rewrite app_nth2 by lia. rewrite A5, Nat.sub_diag. reflexivity. }
  assert (Nn : cell_at h1 (length h) = None) by (unfold cell_at; apply nth_overflow; lia).
  assert (C : forall t, cnt (members (h1 ++ [Some c])) t = cnt (members h1) t + cnt l t) by (intro t; rewrite cnt_app_heap; reflexivity).
  destruct A2 as (R1 & R2 & R3).
  assert (G1 : grown h1 (h1 ++ [Some c])).
  { intros t x Hx. exists x. rewrite Cn; auto. intros ->. congruence. }
  assert (Zl : cnt l (length h) = 0).
  { specialize (R2 _ Nn). cbn in R2. lia. }
  assert (Fl : f (length h) = 0).
  { specialize (R2 _ Nn). cbn in R2. lia. }
  assert (Zm : cnt (members h1) (length h) = 0).
  { apply count_occ_not_In. intro Hi. apply in_members in Hi. destruct Hi as (o & l' & H1 & H2). destruct (R3 _ _ _ H1 H2) as [n Hn]. unfold con_at in Hn. rewrite Nn in Hn. discriminate. }
  split; [|split; [|split; [exact Co|split]]].
  - split; [|split].
    + intros t x Hx. rewrite C. destruct (Nat.eq_dec t (length h)) as [->|N].
      * rewrite Co in Hx. injection Hx as <-. cbn. unfold at_. rewrite Nat.eqb_refl. lia.
      * rewrite Cn in Hx by exact N. destruct (R1 _ _ Hx). unfold at_. destruct (Nat.eqb_spec t (length h)); [contradiction|lia].
    + intros t Hx. destruct (Nat.eq_dec t (length h)) as [->|N]; [congruence|]. rewrite Cn in Hx by exact N. specialize (R2 _ Hx). cbn in R2. unfold at_. destruct (Nat.eqb_spec t (length h)); [contradiction|lia].
    + intros o l' t Ho Ht. destruct (Nat.eq_dec o (length h)) as [->|N].
      * unfold con_at in Ho. rewrite Co in Ho. cbn in Ho. injection Ho as Ho. destruct (Hm l' t Ho Ht) as [n Hn]. exists n. eapply grown_con; [exact G1|]. eapply grown_con; [exact A4|exact Hn].
      * unfold con_at in Ho. rewrite Cn in Ho by exact N. destruct (R3 o l' t Ho Ht) as [n Hn]. exists n. eapply grown_con; [exact G1|exact Hn].
  - eapply grown_trans; eauto.
  - intros t x Hx N. rewrite Cn in Hx by exact N. destruct (A3 _ _ Hx) as (y & Y). eauto.
  - rewrite app_length. cbn. lia.
Qed.
