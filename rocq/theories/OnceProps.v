(** OnceProps.v -- C41. *)
From Coq Require Import List Bool Lia PeanoNat.
Import ListNotations.
From Verif Require Import OnceModel OnceProofs.

(** C41: in every execution of any number of threads, with any number of calls
    and exceptions: a caller that got an answer saw every module registered,
    once; at most one call answered true; the modules are never registered a
    second time by a completed registration. *)
Definition answered_true (e : event) : bool := match e with Returned _ true _ => true | _ => false end.
Lemma wins_count l : wins l = length (filter answered_true l).
Proof. induction l as [|[t [|] m|t o|t] l IH]; cbn; auto. Qed.
Theorem C41_loaded_exactly_once M s : reachable M s ->
  (forall t b loaded, In (Returned t b loaded) (log s) -> loaded = seq 0 M) /\
  length (filter answered_true (log s)) <= 1 /\
  (done s = [] \/ done s = seq 0 M).
Proof.
  intro H. apply reachable_inv in H. destruct H as [I1 I2 I3 I4 I5 I6 I7 I8]. split; [|split].
  - intros t b l Hin. apply (I8 _ Hin).
  - rewrite <- wins_count. tauto.
  - destruct (first s) eqn:F; [|right; auto].
    destruct (once_lock s) as [t|] eqn:L.
    + destruct (writing (pcs s t)) eqn:W.
      * right. specialize (I3 t). destruct (pcs s t); try discriminate. destruct I3 as [[_ X] _]. exact X.
      * left. apply I5; auto. intro u. destruct (writing (pcs s u)) eqn:X; auto.
        assert (Y : in_once (pcs s u) = true) by (destruct (pcs s u); try discriminate; auto). apply I1 in Y. assert (u = t) by congruence. subst. congruence.
    + left. apply I5; auto. intro u. destruct (writing (pcs s u)) eqn:X; auto.
      assert (Y : in_once (pcs s u) = true) by (destruct (pcs s u); try discriminate; auto). apply I1 in Y. congruence.
Qed.
Print Assumptions C41_loaded_exactly_once.
(** instance(): one object, the same for everybody. *)
Theorem C41_one_instance M s : reachable M s ->
  made s <= 1 /\ (forall t u o o', In (Instance t o) (log s) -> In (Instance u o') (log s) -> o = o').
Proof.
  intro H. apply reachable_inv in H. destruct H as [I1 I2 I3 I4 I5 I6 I7 I8]. split.
  - destruct (inst s) as [o|]; [lia|]. destruct (inst_lock s) as [t|] eqn:E.
    + destruct (making (pcs s t)) eqn:W.
      * specialize (I3 t). destruct (pcs s t); try discriminate. destruct I3 as [_ X]. lia.
      * rewrite I6; [lia|]. intro u. destruct (making (pcs s u)) eqn:X; auto.
        assert (Y : in_inst (pcs s u) = true) by (destruct (pcs s u); try discriminate; auto). apply I2 in Y. assert (u = t) by congruence. subst. congruence.
    + rewrite I6; [lia|]. intro u. destruct (making (pcs s u)) eqn:X; auto.
      assert (Y : in_inst (pcs s u) = true) by (destruct (pcs s u); try discriminate; auto). apply I2 in Y. congruence.
  - intros t u o o' H1 H2. pose proof (I8 _ H1) as X1. pose proof (I8 _ H2) as X2. cbn in X1, X2. congruence.
Qed.
Print Assumptions C41_one_instance.
(** No deadlock: while a thread is inside a call, some thread inside a call can
    take a step. *)
Theorem C41_no_deadlock M s t : reachable M s -> pcs s t <> Out -> exists u s', pcs s u <> Out /\ step M s u s'.
Proof.
  intros H. apply reachable_inv in H. destruct H as [I1 I2 I3 I4 I5 I6 I7 I8].
  assert (Inst : forall u, in_inst (pcs s u) = true -> exists s', step M s u s').
  { intros u Hu. specialize (I3 u). destruct (pcs s u) as [| | | |k| |b|b| |c|c|c|c|c o|c|c|c o] eqn:P; try discriminate.
    - destruct (inst s) as [o|] eqn:E; eexists; [eapply s_icheck2_some|eapply s_icheck2_null]; eauto.
    - eexists. eapply s_new; eauto.
    - eexists. eapply s_iwrite; eauto.
    - destruct I3 as [_ X]. eexists. eapply s_iunlock; eauto.
    - destruct c; eexists; [eapply s_iunwind_client|eapply s_iunwind_once]; eauto. }
  assert (Holder : forall u c, pcs s u = ILock c -> exists v s', pcs s v <> Out /\ step M s v s').
  { intros u c P. destruct (inst_lock s) as [v|] eqn:E.
    - pose proof (proj1 (I2 v) eq_refl) as Hv. destruct (Inst v Hv) as [s' Hs]. exists v, s'. split; auto. destruct (pcs s v); try discriminate; congruence.
    - exists u. eexists. split; [congruence|]. eapply s_ilock; eauto. }
  assert (Step : forall u, pcs s u <> Out -> (forall c, pcs s u <> ILock c) -> pcs s u <> OLock -> exists s', step M s u s').
  { intros u N1 N2 N3. pose proof (I3 u) as K. destruct (pcs s u) as [| | | |k| |b|b| |c|c|c|c|c o|c|c|c o] eqn:P; try congruence.
    - destruct (first s) eqn:F; eexists; [eapply s_check_first|eapply s_check_done]; eauto.
    - destruct (first s) eqn:F; eexists; [eapply s_check2_first|eapply s_check2_done]; eauto.
    - destruct K as [(_ & _ & K) _]. destruct (Nat.eq_dec k M) as [->|N]; eexists; [eapply s_loaded; eauto|eapply s_load; eauto; lia].
    - eexists. eapply s_write; eauto.
    - eexists. eapply s_unlock; eauto.
    - eexists. eapply s_ret; eauto.
    - eexists. eapply s_unwind; eauto.
    - destruct (inst s) as [o|] eqn:E; eexists; [eapply s_icheck_some|eapply s_icheck_null]; eauto.
    - apply Inst. rewrite P. reflexivity.
    - apply Inst. rewrite P. reflexivity.
    - apply Inst. rewrite P. reflexivity.
    - apply Inst. rewrite P. reflexivity.
    - apply Inst. rewrite P. reflexivity.
    - destruct c; eexists; [eapply s_iret_client|eapply s_iret_once]; eauto. }
  intro N. destruct (pcs s t) as [| | | |k| |b|b| |c|c|c|c|c o|c|c|c o] eqn:P; try congruence;
    try (destruct (Step t) as [s' Hs]; [congruence|congruence|congruence|]; exists t, s'; split; [congruence|auto]; fail).
  - destruct (once_lock s) as [v|] eqn:E.
    + pose proof (proj1 (I1 v) eq_refl) as Hv. destruct (pcs s v) as [| | | |k| |b|b| |c|c|c|c|c o|c|c|c o] eqn:Pv; try discriminate;
        try (destruct (Step v) as [s' Hs]; [congruence|congruence|congruence|]; exists v, s'; split; [congruence|auto]; fail).
      eapply Holder; eauto.
    + exists t. eexists. split; [congruence|]. eapply s_lock; eauto.
  - eapply Holder; eauto.
Qed.
Print Assumptions C41_no_deadlock.

(** A run with an exception, a retry and a second caller. *)
Tactic Notation "go" hyp(R) constr(T) constr(c) := let R' := fresh "R" in eassert (R' : reachable _ _) by (eapply r_step with (t := T); [exact R|eapply c; first [reflexivity|assumption|lia]]); clear R; rename R' into R; cbn [goto init first once_lock inst inst_lock made done pcs log app seq] in R.
Example C41_nonvacuous : exists s, reachable 2 s /\ In (Raised 0) (log s) /\ In (Returned 1 true [0; 1]) (log s) /\ In (Returned 0 false [0; 1]) (log s) /\ length (log s) = 3.
Proof.
  pose proof (r_init 2) as R.
  go R 0 s_call_once.
  go R 0 s_check_first.
  go R 0 s_lock.
  go R 0 s_check2_first.
  go R 0 s_icheck_null.
  go R 0 s_ilock.
  go R 0 s_icheck2_null.
  go R 0 s_new.
  go R 0 s_iwrite.
  go R 0 s_iunlock.
  go R 0 s_iret_once.
  go R 0 s_load_throw.
  go R 1 s_call_once.
  go R 1 s_check_first.
  go R 0 s_unwind.
  go R 1 s_lock.
  go R 1 s_check2_first.
  go R 1 s_icheck_some.
  go R 1 s_iret_once.
  go R 1 s_load.
  go R 1 s_load.
  go R 1 s_loaded.
  go R 1 s_write.
  go R 1 s_unlock.
  go R 1 s_ret.
  go R 0 s_call_once.
  go R 0 s_check_done.
  go R 0 s_ret.
  eexists. split; [exact R|]. cbn. auto 6.
Qed.
(** Both functions read the flag without a lock while another thread may be
    writing it: a data race, for which C++11 gives no meaning.  The theorems
    above therefore hold on a sequentially consistent machine only. *)
Theorem C41_no_data_race_refuted M :
  (exists s t u, reachable M s /\ t <> u /\ pcs s t = OCheck /\ pcs s u = OWrite) /\
  (exists s t u c o, reachable M s /\ t <> u /\ pcs s t = ICheck Client /\ pcs s u = IWrite c o).
Proof.
  assert (H0 : exists s, reachable M s /\ pcs s 0 = IWrite Once 0 /\ pcs s 1 = Out).
  { pose proof (r_init M) as R.
    go R 0 s_call_once.
    go R 0 s_check_first.
    go R 0 s_lock.
    go R 0 s_check2_first.
    go R 0 s_icheck_null.
    go R 0 s_ilock.
    go R 0 s_icheck2_null.
    go R 0 s_new.
    eexists. split; [exact R|]. split; reflexivity. }
  destruct H0 as (s & Hr & P0 & P1). split.
  - assert (H1 : exists s', reachable M s' /\ pcs s' 0 = ORegister 0 /\ pcs s' 1 = Out).
    { pose proof (r_step _ _ _ _ Hr (s_iwrite M _ 0 _ _ P0)) as R.
      go R 0 s_iunlock. go R 0 s_iret_once.
      eexists. split; [exact R|]. split; [reflexivity|cbn; exact P1]. }
    assert (Hk : forall k, k <= M -> exists s', reachable M s' /\ pcs s' 0 = ORegister k /\ pcs s' 1 = Out).
    { induction k as [|k IH]; intro Hk; auto. destruct IH as (s' & R & Q0 & Q1); [lia|]. eexists. split; [|split].
      - eapply r_step with (t := 0); [exact R|]. eapply s_load; eauto.
      - apply set_pc_eq.
      - cbn. exact Q1. }
    destruct (Hk M) as (s' & R & Q0 & Q1); [lia|].
    go R 0 s_loaded. go R 1 s_call_once.
    eexists. exists 1, 0. split; [exact R|]. split; [lia|]. split; reflexivity.
  - go Hr 1 s_call_inst. eexists. exists 1, 0, Once, 0. split; [exact Hr|]. split; [lia|]. split; [reflexivity|cbn; exact P0].
Qed.
Print Assumptions C41_no_data_race_refuted.
