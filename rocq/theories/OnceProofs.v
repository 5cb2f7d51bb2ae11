(** The invariant of OnceModel. *)
From Coq Require Import List Bool Lia PeanoNat.
Import ListNotations.
From Verif Require Import OnceModel.

(** Holding the lock of load_plugins_once / of instance. *)
Definition in_once (p : pc) : bool :=
  match p with
  | OCheck2 | ORegister _ | OWrite | OUnlock _ | OUnwind => true
  | ICheck Once | ILock Once | ICheck2 Once | INew Once | IWrite Once _ | IUnlock Once | IUnwind Once | IRet Once _ => true
  | _ => false
  end.
Definition in_inst (p : pc) : bool :=
  match p with ICheck2 _ | INew _ | IWrite _ _ | IUnlock _ | IUnwind _ => true | _ => false end.
(** Facts that depend on where a thread is. *)
Definition pc_ok (M : nat) (s : state) (p : pc) : Prop :=
  match p with
  | ORegister k => first s = true /\ done s = [] /\ k <= M
  | OWrite => first s = true /\ done s = seq 0 M
  | OUnlock b => first s = false
  | ORet b => first s = false
  | ICheck Once | ILock Once | ICheck2 Once | IUnlock Once | IUnwind Once | IRet Once _ | INew Once | IWrite Once _ => first s = true /\ done s = []
  | _ => True
  end /\
  match p with
  | IRet _ o => inst s = Some o /\ o = 0
  | INew _ => inst s = None /\ made s = 0
  | IWrite _ o => inst s = None /\ o = 0 /\ made s = 1
  | IUnlock _ => inst s = Some 0
  | IUnwind _ => inst s = None
  | _ => True
  end.
Definition writing (p : pc) : bool := match p with OWrite => true | _ => false end.
Definition making (p : pc) : bool := match p with IWrite _ _ => true | _ => false end.
Definition winner (p : pc) : bool := match p with OUnlock true | ORet true => true | _ => false end.
Fixpoint wins (l : list event) : nat := match l with [] => 0 | Returned _ true _ :: r => S (wins r) | _ :: r => wins r end.

Record inv (M : nat) (s : state) : Prop := mkInv {
  i_once : forall t, once_lock s = Some t <-> in_once (pcs s t) = true;
  i_inst : forall t, inst_lock s = Some t <-> in_inst (pcs s t) = true;
  i_pc : forall t, pc_ok M s (pcs s t);
  i_first : first s = false -> done s = seq 0 M;
  i_open : first s = true -> (forall t, writing (pcs s t) = false) -> done s = [];
  i_obj : match inst s with None => (forall t, making (pcs s t) = false) -> made s = 0 | Some o => o = 0 /\ made s = 1 end;
  i_win : (first s = true -> wins (log s) = 0 /\ forall t, winner (pcs s t) = false) /\
          (forall t, winner (pcs s t) = true -> wins (log s) = 0 /\ forall u, winner (pcs s u) = true -> u = t) /\ wins (log s) <= 1;
  i_log : forall e, In e (log s) -> match e with Returned _ _ l => l = seq 0 M | Instance _ o => o = 0 | Raised _ => True end }.

Lemma set_pc_eq f t p : set_pc f t p t = p.
Proof. unfold set_pc. rewrite Nat.eqb_refl. reflexivity. Qed.
Lemma set_pc_ne f t u p : u <> t -> set_pc f t p u = f u.
Proof. intro H. unfold set_pc. destruct (Nat.eqb_spec u t); congruence. Qed.
Lemma inv_init M : inv M init.
Proof.
  split; cbn; try tauto; try discriminate; auto.
  - intro t. split; discriminate.
  - intro t. split; discriminate.
  - intro t. split; exact I.
  - split; [intros _; split; auto|]. split; [intros t X; discriminate|lia].
Qed.

Lemma frame_once M s s' p : in_once p = false -> inst s' = inst s -> made s' = made s -> (first s = false -> first s' = false) -> pc_ok M s p -> pc_ok M s' p.
Proof.
  intros H1 H2 H3 H4 [P1 P2]. split; [|rewrite H2, H3; exact P2].
  destruct p as [| | | |k| |b|b| |c|c|c|c|c o|c|c|c o]; try destruct c; cbn in *; try discriminate; auto.
Qed.
Lemma frame_inst M s s' p : in_inst p = false -> first s' = first s -> done s' = done s -> (forall o, inst s = Some o -> inst s' = Some o) -> pc_ok M s p -> pc_ok M s' p.
Proof.
  intros H1 H2 H3 H4 [P1 P2]. split; [rewrite H2, H3; exact P1|].
  destruct p as [| | | |k| |b|b| |c|c|c|c|c o|c|c|c o]; try destruct c; cbn in *; try discriminate; auto; destruct P2; auto.
Qed.
Lemma frame_same M s s' p : first s' = first s -> done s' = done s -> inst s' = inst s -> made s' = made s -> pc_ok M s p -> pc_ok M s' p.
Proof. intros H1 H2 H3 H4 [P1 P2]. split; rewrite ?H1, ?H2, ?H3, ?H4; auto. Qed.

Section Step.
Variables (M : nat) (s : state) (t : nat).
Hypothesis HI : inv M s.
Lemma other_once u : once_lock s = Some t -> u <> t -> in_once (pcs s u) = false.
Proof. intros H N. destruct (in_once (pcs s u)) eqn:E; auto. apply (i_once M s HI) in E. congruence. Qed.
Lemma other_inst u : inst_lock s = Some t -> u <> t -> in_inst (pcs s u) = false.
Proof. intros H N. destruct (in_inst (pcs s u)) eqn:E; auto. apply (i_inst M s HI) in E. congruence. Qed.
(** A step that changes only the place of [t]. *)
Lemma inv_goto p q : pcs s t = p -> in_once q = in_once p -> in_inst q = in_inst p -> writing q = writing p -> making q = making p ->
  (winner q = true -> winner p = true) -> pc_ok M s q -> inv M (goto s t q).
Proof.
  intros Hp E1 E2 E3 E4 E5 Hq. destruct HI as [I1 I2 I3 I4 I5 I6 I7 I8]. unfold goto.
  assert (W : forall u, writing (set_pc (pcs s) t q u) = writing (pcs s u)) by (intro u; destruct (Nat.eq_dec u t) as [->|N]; [rewrite set_pc_eq, E3, Hp; auto|rewrite set_pc_ne by auto; auto]).
  assert (K : forall u, making (set_pc (pcs s) t q u) = making (pcs s u)) by (intro u; destruct (Nat.eq_dec u t) as [->|N]; [rewrite set_pc_eq, E4, Hp; auto|rewrite set_pc_ne by auto; auto]).
  assert (V : forall u, winner (set_pc (pcs s) t q u) = true -> winner (pcs s u) = true) by (intro u; destruct (Nat.eq_dec u t) as [->|N]; [rewrite set_pc_eq, Hp; auto|rewrite set_pc_ne by auto; auto]).
  split; cbn [first once_lock inst inst_lock made done pcs log]; auto.
  - intro u. destruct (Nat.eq_dec u t) as [->|N]; [rewrite set_pc_eq, E1, <- Hp; auto|rewrite set_pc_ne by auto; auto].
  - intro u. destruct (Nat.eq_dec u t) as [->|N]; [rewrite set_pc_eq, E2, <- Hp; auto|rewrite set_pc_ne by auto; auto].
  - intro u. destruct (Nat.eq_dec u t) as [->|N]; [rewrite set_pc_eq|rewrite set_pc_ne by auto]; (eapply frame_same; [..|eauto]; reflexivity).
  - intros F HW. apply I5; auto. intro u. rewrite <- W. auto.
  - destruct (inst s); auto. intro HK. apply I6. intro u. rewrite <- K. auto.
  - destruct I7 as (J1 & J2 & J3). split; [|split; auto].
    + intro F. destruct (J1 F) as [J4 J5]. split; auto. intro u. destruct (winner (set_pc (pcs s) t q u)) eqn:X; auto. apply V in X. rewrite J5 in X. discriminate.
    + intros u Hu. apply V in Hu. destruct (J2 u Hu) as [J4 J5]. split; auto.
Qed.
End Step.
Ltac split_pc u t := destruct (Nat.eq_dec u t) as [->|?]; [rewrite ?set_pc_eq|rewrite ?set_pc_ne by auto].
Lemma inv_step M s t s' : inv M s -> step M s t s' -> inv M s'.
Proof.
  intros HI Hs. pose proof HI as [I1 I2 I3 I4 I5 I6 I7 I8].
  pose proof (I1 t) as L1. pose proof (I2 t) as L2. pose proof (I3 t) as L3.
  destruct Hs as [P|P|P F|P F|P F|P F|P F|k P F|k P|P|P|b P|b P|P|c o P F|c P F|c P F|c P F|c o P F|c P|c P|c o P|c o P F|P|P|o P|o P];
    rewrite P in L1, L2, L3; cbn [in_once in_inst] in L1, L2; destruct L3 as [L3 L4].
  - eapply inv_goto; eauto; try reflexivity. split; exact I.
  - eapply inv_goto; eauto; try reflexivity. split; exact I.
  - eapply inv_goto; eauto; try reflexivity; try discriminate. split; cbn; auto.
  - eapply inv_goto; eauto; try reflexivity. split; exact I.
  - (* lock *) split; cbn [first once_lock inst inst_lock made done pcs log]; auto.
    + intro u. split_pc u t; [cbn; tauto|]. rewrite <- I1, F. split; [intro X; injection X; intros; congruence|discriminate].
    + intro u. split_pc u t; [cbn; rewrite L2; tauto|auto].
    + intro u. split_pc u t; [split; exact I|]. eapply frame_same; [..|apply I3]; reflexivity.
    + intros F1 HW. apply I5; auto. intro u. specialize (HW u). destruct (Nat.eq_dec u t) as [->|N]; [rewrite P; auto|rewrite set_pc_ne in HW by auto; auto].
    + destruct (inst s); auto. intro HK. apply I6. intro u. specialize (HK u). destruct (Nat.eq_dec u t) as [->|N]; [rewrite P; auto|rewrite set_pc_ne in HK by auto; auto].
    + destruct I7 as (J1 & J2 & J3). split; [|split; auto].
      * intro F1. destruct (J1 F1) as [J4 J5]. split; auto. intro u. split_pc u t; auto.
      * intros u Hu. destruct (Nat.eq_dec u t) as [->|N]; [rewrite set_pc_eq in Hu; discriminate|]. rewrite set_pc_ne in Hu by auto. destruct (J2 u Hu) as [J4 J5]. split; auto.
        intros v Hv. destruct (Nat.eq_dec v t) as [->|N2]; [rewrite set_pc_eq in Hv; discriminate|]. rewrite set_pc_ne in Hv by auto. auto.
  - eapply inv_goto; eauto; try reflexivity. split; cbn; auto. split; auto. apply I5; auto. intro u.
    destruct (writing (pcs s u)) eqn:X; auto. assert (in_once (pcs s u) = true) by (destruct (pcs s u); try discriminate; auto). apply I1 in H.
    assert (once_lock s = Some t) by (apply L1; auto). assert (u = t) by congruence. subst. rewrite P in X. discriminate.
  - eapply inv_goto; eauto; try reflexivity; try discriminate. split; cbn; auto.
  - eapply inv_goto; eauto; try reflexivity. split; cbn; auto. cbn in L3. destruct L3 as (A & B & C). auto.
  - eapply inv_goto; eauto; try reflexivity. split; exact I.
  - (* loaded *) cbn in L3. destruct L3 as (A & B & C). assert (HL : once_lock s = Some t) by (apply L1; auto).
    split; cbn [first once_lock inst inst_lock made done pcs log]; auto.
    + intro u. split_pc u t; [cbn; tauto|auto].
    + intro u. split_pc u t; [cbn; tauto|auto].
    + intro u. split_pc u t; [split; cbn; auto; rewrite B; auto|]. eapply frame_once; [eapply other_once; eauto|..|apply I3]; auto.
    + congruence.
    + intros F1 HW. specialize (HW t). rewrite set_pc_eq in HW. discriminate.
    + destruct (inst s); auto. intro HK. apply I6. intro u. specialize (HK u). destruct (Nat.eq_dec u t) as [->|N]; [rewrite P; auto|rewrite set_pc_ne in HK by auto; auto].
    + destruct I7 as (J1 & J2 & J3). split; [|split; auto].
      * intro F1. destruct (J1 F1) as [J4 J5]. split; auto. intro u. split_pc u t; auto.
      * intros u Hu. destruct (Nat.eq_dec u t) as [->|N]; [rewrite set_pc_eq in Hu; discriminate|]. rewrite set_pc_ne in Hu by auto. destruct (J2 u Hu) as [J4 J5]. split; auto.
        intros v Hv. destruct (Nat.eq_dec v t) as [->|N2]; [rewrite set_pc_eq in Hv; discriminate|]. rewrite set_pc_ne in Hv by auto. auto.
  - (* write *) cbn in L3. destruct L3 as (A & B). assert (HL : once_lock s = Some t) by (apply L1; auto).
    split; cbn [first once_lock inst inst_lock made done pcs log]; auto.
    + intro u. split_pc u t; [cbn; tauto|auto].
    + intro u. split_pc u t; [cbn; tauto|auto].
    + intro u. split_pc u t; [split; cbn; auto|]. eapply frame_once; [eapply other_once; eauto|..|apply I3]; auto.
    + discriminate.
    + destruct (inst s); auto. intro HK. apply I6. intro u. specialize (HK u). destruct (Nat.eq_dec u t) as [->|N]; [rewrite P; auto|rewrite set_pc_ne in HK by auto; auto].
    + destruct I7 as (J1 & J2 & J3). destruct (J1 A) as [J4 J5]. split; [discriminate|]. split; [|lia].
      intros u Hu. split; auto. destruct (Nat.eq_dec u t) as [->|N]; [|rewrite set_pc_ne in Hu by auto; rewrite J5 in Hu; discriminate].
      intros v Hv. destruct (Nat.eq_dec v t) as [->|N2]; auto. rewrite set_pc_ne in Hv by auto. rewrite J5 in Hv. discriminate.
  - (* unlock *) cbn in L3. assert (HL : once_lock s = Some t) by (apply L1; auto).
    split; cbn [first once_lock inst inst_lock made done pcs log]; auto.
    + intro u. split_pc u t; [cbn; split; discriminate|]. rewrite (other_once M s t HI u HL) by auto. split; discriminate.
    + intro u. split_pc u t; [cbn; tauto|auto].
    + intro u. split_pc u t; [split; cbn; auto|]. eapply frame_same; [..|apply I3]; reflexivity.
    + intros F1. congruence.
    + destruct (inst s); auto. intro HK. apply I6. intro u. specialize (HK u). destruct (Nat.eq_dec u t) as [->|N]; [rewrite P; auto|rewrite set_pc_ne in HK by auto; auto].
    + destruct I7 as (J1 & J2 & J3). split; [congruence|]. split; auto.
      assert (V : forall u, winner (set_pc (pcs s) t (ORet b) u) = winner (pcs s u)) by (intro u; split_pc u t; [rewrite P; reflexivity|auto]).
      intros u Hu. rewrite V in Hu. destruct (J2 u Hu) as [J4 J5]. split; auto. intros v Hv. rewrite V in Hv. auto.
  - (* return *) cbn in L3.
    split; cbn [first once_lock inst inst_lock made done pcs log]; auto.
    + intro u. split_pc u t; [cbn; tauto|auto].
    + intro u. split_pc u t; [cbn; tauto|auto].
    + intro u. split_pc u t; [split; exact I|]. eapply frame_same; [..|apply I3]; reflexivity.
    + intros F1. congruence.
    + destruct (inst s); auto. intro HK. apply I6. intro u. specialize (HK u). destruct (Nat.eq_dec u t) as [->|N]; [rewrite P; auto|rewrite set_pc_ne in HK by auto; auto].
    + destruct I7 as (J1 & J2 & J3). split; [congruence|]. split.
      * intros u Hu. destruct (Nat.eq_dec u t) as [->|N]; [rewrite set_pc_eq in Hu; discriminate|]. rewrite set_pc_ne in Hu by auto. destruct (J2 u Hu) as [J4 J5].
        split.
        { destruct b; cbn [wins]; auto. exfalso. apply N. symmetry. apply J5. rewrite P. reflexivity. }
        intros v Hv. destruct (Nat.eq_dec v t) as [->|N2]; [rewrite set_pc_eq in Hv; discriminate|]. rewrite set_pc_ne in Hv by auto. auto.
      * destruct b; cbn [wins]; auto. assert (X : winner (pcs s t) = true) by (rewrite P; auto). apply J2 in X. lia.
    + intros e [<-|He]; [apply I4; auto|apply (I8 e He)].
  - (* unwind *) assert (HL : once_lock s = Some t) by (apply L1; auto).
    split; cbn [first once_lock inst inst_lock made done pcs log]; auto.
    + intro u. split_pc u t; [cbn; split; discriminate|]. rewrite (other_once M s t HI u HL) by auto. split; discriminate.
    + intro u. split_pc u t; [cbn; tauto|auto].
    + intro u. split_pc u t; [split; exact I|]. eapply frame_same; [..|apply I3]; reflexivity.
    + intros F1 HW. apply I5; auto. intro u. specialize (HW u). destruct (Nat.eq_dec u t) as [->|N]; [rewrite P; auto|rewrite set_pc_ne in HW by auto; auto].
    + destruct (inst s); auto. intro HK. apply I6. intro u. specialize (HK u). destruct (Nat.eq_dec u t) as [->|N]; [rewrite P; auto|rewrite set_pc_ne in HK by auto; auto].
    + destruct I7 as (J1 & J2 & J3). cbn [wins]. split; [|split; auto].
      * intro F1. destruct (J1 F1) as [J4 J5]. split; auto. intro u. split_pc u t; auto.
      * intros u Hu. destruct (Nat.eq_dec u t) as [->|N]; [rewrite set_pc_eq in Hu; discriminate|]. rewrite set_pc_ne in Hu by auto. destruct (J2 u Hu) as [J4 J5]. split; auto.
        intros v Hv. destruct (Nat.eq_dec v t) as [->|N2]; [rewrite set_pc_eq in Hv; discriminate|]. rewrite set_pc_ne in Hv by auto. auto.
    + intros e [<-|He]; [exact I|apply (I8 e He)].
  - eapply inv_goto; eauto; try reflexivity; try discriminate; try (destruct c; reflexivity). split; [destruct c; exact L3|]. rewrite F in I6. destruct I6 as [-> _]. cbn. rewrite F. auto.
  - eapply inv_goto; eauto; try reflexivity; try discriminate; try (destruct c; reflexivity). split; [destruct c; exact L3|exact I].
  - (* ilock *) split; cbn [first once_lock inst inst_lock made done pcs log]; auto.
    + intro u. split_pc u t; [destruct c; cbn; exact L1|auto].
    + intro u. split_pc u t; [cbn; tauto|]. rewrite <- I2, F. split; [intro X; injection X; intros; congruence|discriminate].
    + intro u. split_pc u t; [split; [destruct c; exact L3|exact I]|]. eapply frame_same; [..|apply I3]; reflexivity.
    + intros F1 HW. apply I5; auto. intro u. specialize (HW u). destruct (Nat.eq_dec u t) as [->|N]; [rewrite P; auto|rewrite set_pc_ne in HW by auto; auto].
    + destruct (inst s); auto. intro HK. apply I6. intro u. specialize (HK u). destruct (Nat.eq_dec u t) as [->|N]; [rewrite P; auto|rewrite set_pc_ne in HK by auto; auto].
    + destruct I7 as (J1 & J2 & J3). split; [|split; auto].
      * intro F1. destruct (J1 F1) as [J4 J5]. split; auto. intro u. split_pc u t; auto.
      * intros u Hu. destruct (Nat.eq_dec u t) as [->|N]; [rewrite set_pc_eq in Hu; discriminate|]. rewrite set_pc_ne in Hu by auto. destruct (J2 u Hu) as [J4 J5]. split; auto.
        intros v Hv. destruct (Nat.eq_dec v t) as [->|N2]; [rewrite set_pc_eq in Hv; discriminate|]. rewrite set_pc_ne in Hv by auto. auto.
  - (* icheck2 null *) eapply inv_goto; eauto; try reflexivity; try discriminate; try (destruct c; reflexivity). split; [destruct c; exact L3|]. cbn. split; auto. rewrite F in I6. apply I6.
    intro u. destruct (making (pcs s u)) eqn:X; auto. assert (in_inst (pcs s u) = true) by (destruct (pcs s u); try discriminate; auto). apply I2 in H.
    assert (inst_lock s = Some t) by (apply L2; auto). assert (u = t) by congruence. subst. rewrite P in X. discriminate.
  - eapply inv_goto; eauto; try reflexivity; try discriminate; try (destruct c; reflexivity). split; [destruct c; exact L3|]. cbn. rewrite F in I6 |- *. destruct I6 as [-> _]. auto.
  - (* new *) cbn in L4. destruct L4 as [A B]. assert (HL : inst_lock s = Some t) by (apply L2; auto).
    split; cbn [first once_lock inst inst_lock made done pcs log]; auto.
    + intro u. split_pc u t; [destruct c; cbn; exact L1|auto].
    + intro u. split_pc u t; [cbn; tauto|auto].
    + intro u. split_pc u t; [split; [destruct c; exact L3|]; cbn; rewrite B; auto|]. eapply frame_inst; [eapply other_inst; eauto|..|apply I3]; auto.
    + intros F1 HW. apply I5; auto. intro u. specialize (HW u). destruct (Nat.eq_dec u t) as [->|N]; [rewrite P; auto|rewrite set_pc_ne in HW by auto; auto].
    + rewrite A. intro HK. specialize (HK t). rewrite set_pc_eq in HK. discriminate.
    + destruct I7 as (J1 & J2 & J3). split; [|split; auto].
      * intro F1. destruct (J1 F1) as [J4 J5]. split; auto. intro u. split_pc u t; auto.
      * intros u Hu. destruct (Nat.eq_dec u t) as [->|N]; [rewrite set_pc_eq in Hu; discriminate|]. rewrite set_pc_ne in Hu by auto. destruct (J2 u Hu) as [J4 J5]. split; auto.
        intros v Hv. destruct (Nat.eq_dec v t) as [->|N2]; [rewrite set_pc_eq in Hv; discriminate|]. rewrite set_pc_ne in Hv by auto. auto.
  - eapply inv_goto; eauto; try reflexivity; try discriminate; try (destruct c; reflexivity). split; [destruct c; exact L3|]. cbn in L4 |- *. tauto.
  - (* iwrite *) cbn in L4. destruct L4 as (A & -> & B). assert (HL : inst_lock s = Some t) by (apply L2; auto).
    split; cbn [first once_lock inst inst_lock made done pcs log]; auto.
    + intro u. split_pc u t; [destruct c; cbn; exact L1|auto].
    + intro u. split_pc u t; [cbn; tauto|auto].
    + intro u. split_pc u t; [split; [destruct c; exact L3|]; cbn; auto|]. eapply frame_inst; [eapply other_inst; eauto|..|apply I3]; auto. intros o X. congruence.
    + intros F1 HW. apply I5; auto. intro u. specialize (HW u). destruct (Nat.eq_dec u t) as [->|N]; [rewrite P; auto|rewrite set_pc_ne in HW by auto; auto].
    + destruct I7 as (J1 & J2 & J3). split; [|split; auto].
      * intro F1. destruct (J1 F1) as [J4 J5]. split; auto. intro u. split_pc u t; auto.
      * intros u Hu. destruct (Nat.eq_dec u t) as [->|N]; [rewrite set_pc_eq in Hu; discriminate|]. rewrite set_pc_ne in Hu by auto. destruct (J2 u Hu) as [J4 J5]. split; auto.
        intros v Hv. destruct (Nat.eq_dec v t) as [->|N2]; [rewrite set_pc_eq in Hv; discriminate|]. rewrite set_pc_ne in Hv by auto. auto.
  - (* iunlock *) cbn in L4. assert (HL : inst_lock s = Some t) by (apply L2; auto).
    split; cbn [first once_lock inst inst_lock made done pcs log]; auto.
    + intro u. split_pc u t; [destruct c; cbn; exact L1|auto].
    + intro u. split_pc u t; [cbn; split; discriminate|]. rewrite (other_inst M s t HI u HL) by auto. split; discriminate.
    + intro u. split_pc u t; [split; [destruct c; exact L3|]; cbn; split; congruence|]. eapply frame_same; [..|apply I3]; reflexivity.
    + intros F1 HW. apply I5; auto. intro u. specialize (HW u). destruct (Nat.eq_dec u t) as [->|N]; [rewrite P; auto|rewrite set_pc_ne in HW by auto; auto].
    + destruct (inst s); auto. intro HK. apply I6. intro u. specialize (HK u). destruct (Nat.eq_dec u t) as [->|N]; [rewrite P; auto|rewrite set_pc_ne in HK by auto; auto].
    + destruct I7 as (J1 & J2 & J3). split; [|split; auto].
      * intro F1. destruct (J1 F1) as [J4 J5]. split; auto. intro u. split_pc u t; auto.
      * intros u Hu. destruct (Nat.eq_dec u t) as [->|N]; [rewrite set_pc_eq in Hu; discriminate|]. rewrite set_pc_ne in Hu by auto. destruct (J2 u Hu) as [J4 J5]. split; auto.
        intros v Hv. destruct (Nat.eq_dec v t) as [->|N2]; [rewrite set_pc_eq in Hv; discriminate|]. rewrite set_pc_ne in Hv by auto. auto.
  - (* iunwind client *) assert (HL : inst_lock s = Some t) by (apply L2; auto).
    split; cbn [first once_lock inst inst_lock made done pcs log]; auto.
    + intro u. split_pc u t; [cbn; exact L1|auto].
    + intro u. split_pc u t; [cbn; split; discriminate|]. rewrite (other_inst M s t HI u HL) by auto. split; discriminate.
    + intro u. split_pc u t; [split; exact I|]. eapply frame_same; [..|apply I3]; reflexivity.
    + intros F1 HW. apply I5; auto. intro u. specialize (HW u). destruct (Nat.eq_dec u t) as [->|N]; [rewrite P; auto|rewrite set_pc_ne in HW by auto; auto].
    + destruct (inst s); auto. intro HK. apply I6. intro u. specialize (HK u). destruct (Nat.eq_dec u t) as [->|N]; [rewrite P; auto|rewrite set_pc_ne in HK by auto; auto].
    + destruct I7 as (J1 & J2 & J3). cbn [wins]. split; [|split; auto].
      * intro F1. destruct (J1 F1) as [J4 J5]. split; auto. intro u. split_pc u t; auto.
      * intros u Hu. destruct (Nat.eq_dec u t) as [->|N]; [rewrite set_pc_eq in Hu; discriminate|]. rewrite set_pc_ne in Hu by auto. destruct (J2 u Hu) as [J4 J5]. split; auto.
        intros v Hv. destruct (Nat.eq_dec v t) as [->|N2]; [rewrite set_pc_eq in Hv; discriminate|]. rewrite set_pc_ne in Hv by auto. auto.
    + intros e [<-|He]; [exact I|apply (I8 e He)].
  - (* iunwind once *) assert (HL : inst_lock s = Some t) by (apply L2; auto).
    split; cbn [first once_lock inst inst_lock made done pcs log]; auto.
    + intro u. split_pc u t; [cbn; exact L1|auto].
    + intro u. split_pc u t; [cbn; split; discriminate|]. rewrite (other_inst M s t HI u HL) by auto. split; discriminate.
    + intro u. split_pc u t; [split; exact I|]. eapply frame_same; [..|apply I3]; reflexivity.
    + intros F1 HW. apply I5; auto. intro u. specialize (HW u). destruct (Nat.eq_dec u t) as [->|N]; [rewrite P; auto|rewrite set_pc_ne in HW by auto; auto].
    + destruct (inst s); auto. intro HK. apply I6. intro u. specialize (HK u). destruct (Nat.eq_dec u t) as [->|N]; [rewrite P; auto|rewrite set_pc_ne in HK by auto; auto].
    + destruct I7 as (J1 & J2 & J3). split; [|split; auto].
      * intro F1. destruct (J1 F1) as [J4 J5]. split; auto. intro u. split_pc u t; auto.
      * intros u Hu. destruct (Nat.eq_dec u t) as [->|N]; [rewrite set_pc_eq in Hu; discriminate|]. rewrite set_pc_ne in Hu by auto. destruct (J2 u Hu) as [J4 J5]. split; auto.
        intros v Hv. destruct (Nat.eq_dec v t) as [->|N2]; [rewrite set_pc_eq in Hv; discriminate|]. rewrite set_pc_ne in Hv by auto. auto.
  - (* iret client *)
    split; cbn [first once_lock inst inst_lock made done pcs log]; auto.
    + intro u. split_pc u t; [cbn; exact L1|auto].
    + intro u. split_pc u t; [cbn; exact L2|auto].
    + intro u. split_pc u t; [split; exact I|]. eapply frame_same; [..|apply I3]; reflexivity.
    + intros F1 HW. apply I5; auto. intro u. specialize (HW u). destruct (Nat.eq_dec u t) as [->|N]; [rewrite P; auto|rewrite set_pc_ne in HW by auto; auto].
    + destruct (inst s); auto. intro HK. apply I6. intro u. specialize (HK u). destruct (Nat.eq_dec u t) as [->|N]; [rewrite P; auto|rewrite set_pc_ne in HK by auto; auto].
    + destruct I7 as (J1 & J2 & J3). cbn [wins]. split; [|split; auto].
      * intro F1. destruct (J1 F1) as [J4 J5]. split; auto. intro u. split_pc u t; auto.
      * intros u Hu. destruct (Nat.eq_dec u t) as [->|N]; [rewrite set_pc_eq in Hu; discriminate|]. rewrite set_pc_ne in Hu by auto. destruct (J2 u Hu) as [J4 J5]. split; auto.
        intros v Hv. destruct (Nat.eq_dec v t) as [->|N2]; [rewrite set_pc_eq in Hv; discriminate|]. rewrite set_pc_ne in Hv by auto. auto.
    + intros e [<-|He]; [cbn in L4; tauto|apply (I8 e He)].
  - eapply inv_goto; eauto; try reflexivity. split; cbn; auto. cbn in L3. destruct L3. repeat split; auto. lia.
Qed.
Lemma reachable_inv M s : reachable M s -> inv M s.
Proof. induction 1; [apply inv_init|eapply inv_step; eauto]. Qed.
