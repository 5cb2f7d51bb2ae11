(** ProcRunProps.v -- C139: data and exit of a running process. *)
From Coq Require Import List Arith ZArith Bool Ascii Lia.
Import ListNotations.
From Verif Require Import Base ProcRunModel ProcRunSpec.
Open Scope nat_scope.

Definition P (t : str) (o : out) : Prop := exists rest, written o = t ++ rest /\ (is_open o = true -> rest = bytes o).
Definition Q (t : str) (o : out) : Prop :=
  (ours o = false -> is_open o = false) /\ (ours o = true -> is_open o = false -> writer o = false /\ written o = t).
Definition fine (e : ending) : Prop := match e with Exit v => (0 <= v < 256)%Z | Signal n _ => (0 < n < 127)%Z end.
Definition cmd_ok (c : cmd) : Prop :=
  match child c with
  | Gone e => pid c = false /\ code c = status e /\ fine e
  | Zombie e => pid c = true /\ fine e
  | _ => pid c = true
  end.
Definition zombie (c : cmd) : bool := match child c with Zombie _ => true | _ => false end.
Definition is_stolen (c : cmd) : bool := match child c with Stolen => true | _ => false end.
Definition cnt (f : cmd -> bool) (l : list cmd) : Z := Z.of_nat (length (filter f l)).
Definition away (o : out) : Z := if ours o then 0%Z else 1%Z.
Definition stolen (l : list cmd) : Prop := exists c, In c l /\ child c = Stolen.
Record Inv (s : sys) : Prop := { i_ne : cmds s <> []; i_cmds : Forall cmd_ok (cmds s); i_left : cmds_left s = cnt pid (cmds s);
  i_w : g_writer (p_sig s) = Z.ltb 0 (cmds_left s); i_g : g_open (p_sig s) = false -> g_writer (p_sig s) = false;
  i_b : (0 < cnt zombie (cmds s))%Z -> g_byte (p_sig s) = true;
  i_l : left s = (opens s + away (p_out s) + away (p_err s))%Z }.
Definition closed (s : sys) : Prop := is_open (p_out s) = false /\ is_open (p_err s) = false /\ g_open (p_sig s) = false.
Definition J (t1 t2 : str) (s : sys) : Prop :=
  P t1 (p_out s) /\ P t2 (p_err s) /\
  match st s with
  | Executing => if dead s then closed s else Q t1 (p_out s) /\ Q t2 (p_err s) /\ Inv s
  | Error => selerr s = true \/ stolen (cmds s)
  | _ => True
  end.

Lemma cnt_cons f c l : cnt f (c :: l) = ((if f c then 1 else 0) + cnt f l)%Z.
Proof. unfold cnt. cbn [filter]. destruct (f c); cbn [length]; lia. Qed.
Lemma cnt_pos f l : (0 <= cnt f l)%Z.
Proof. unfold cnt. lia. Qed.
Lemma cnt_nil f : cnt f [] = 0%Z.
Proof. reflexivity. Qed.

Definition reap1 (c : cmd) : cmd := match child c with Zombie e => if pid c then Cmd (Gone e) false (status e) else c | _ => c end.

Lemma reap_spec : forall l n w z l' n' w' z', Forall cmd_ok l -> (cnt zombie l <= n)%Z -> reap l n w z = (l', n', w', z') ->
  l' = map reap1 l /\ n' = (n - cnt zombie l)%Z /\
  w' = (if Z.ltb 0 (cnt zombie l) && Z.eqb n (cnt zombie l) then false else w) /\
  z' = (if Z.ltb 0 (cnt is_stolen l) then Error else z).
Proof.
  induction l as [|c l IH]; intros n w z l' n' w' z' F LE H.
  - cbn in H. inversion H; subst. cbn. repeat split; lia.
  - inversion F as [|? ? F1 F2]; subst. cbn [reap] in H. cbn [map].
    rewrite !cnt_cons in *. pose proof (cnt_pos zombie l) as PZ. pose proof (cnt_pos is_stolen l) as PS.
    assert (K1 : zombie c = match child c with Zombie _ => true | _ => false end) by reflexivity.
    assert (K2 : is_stolen c = match child c with Stolen => true | _ => false end) by reflexivity.
    assert (K3 : reap1 c = match child c with Zombie e => if pid c then Cmd (Gone e) false (status e) else c | _ => c end) by reflexivity.
    unfold cmd_ok in F1.
    destruct (child c) as [|e|e|] eqn:K; try rewrite K in *; rewrite K1, K2, K3; rewrite K1 in LE; cbv beta iota in LE |- *.
    + rewrite F1 in H. destruct (reap l n w z) as [[[r n1] w1] z1] eqn:R. inversion H; subst.
      assert (LE2 := R); apply IH in LE2; [|exact F2|lia]; destruct LE2 as (A & B & C & D). rewrite A, B, C, D. rewrite !Z.add_0_l. auto.
    + destruct F1 as [F1 _]. rewrite F1 in *.
      destruct (reap l (n - 1) (if Z.eqb (n - 1) 0 then false else w) z) as [[[r n1] w1] z1] eqn:R. inversion H; subst.
      assert (LE2 := R); apply IH in LE2; [|exact F2|lia]; destruct LE2 as (A & B & C & D). rewrite A, B, C, D. rewrite Z.add_0_l.
      repeat split; try lia.
      destruct (Z.eqb_spec (n - 1) 0); destruct (Z.ltb_spec 0 (cnt zombie l)); destruct (Z.eqb_spec (n - 1) (cnt zombie l));
        destruct (Z.ltb_spec 0 (1 + cnt zombie l)); destruct (Z.eqb_spec n (1 + cnt zombie l)); cbn [andb]; try reflexivity; lia.
    + destruct F1 as [F1 _]. rewrite F1 in H. destruct (reap l n w z) as [[[r n1] w1] z1] eqn:R. inversion H; subst.
      assert (LE2 := R); apply IH in LE2; [|exact F2|lia]; destruct LE2 as (A & B & C & D). rewrite A, B, C, D. rewrite !Z.add_0_l. auto.
    + rewrite F1 in H. destruct (reap l n w Error) as [[[r n1] w1] z1] eqn:R. inversion H; subst.
      assert (LE2 := R); apply IH in LE2; [|exact F2|lia]; destruct LE2 as (A & B & C & D). rewrite A, B, C, D. rewrite !Z.add_0_l.
      repeat split; auto. destruct (Z.ltb_spec 0 (cnt is_stolen l)), (Z.ltb_spec 0 (1 + cnt is_stolen l)); auto; lia.
Qed.
Lemma reap1_ok l : Forall cmd_ok l -> Forall cmd_ok (map reap1 l).
Proof. induction 1 as [|c l H _ IH]; cbn; constructor; auto. unfold reap1, cmd_ok in *. destruct (child c) as [|e|e|] eqn:K; cbn; try rewrite K; auto.
  destruct H as [H1 H2]. rewrite H1. cbn. auto. Qed.
Lemma reap1_zombie l : Forall cmd_ok l -> cnt zombie (map reap1 l) = 0%Z.
Proof. induction 1 as [|c l H _ IH]; cbn [map]; auto. rewrite cnt_cons, IH. unfold cmd_ok in H.
  assert (K1 : zombie c = match child c with Zombie _ => true | _ => false end) by reflexivity.
  assert (K3 : reap1 c = match child c with Zombie e => if pid c then Cmd (Gone e) false (status e) else c | _ => c end) by reflexivity.
  rewrite K3. destruct (child c) as [|e|e|] eqn:K; try rewrite K1; auto. destruct H as [-> _]. reflexivity. Qed.
Lemma reap1_pid l : Forall cmd_ok l -> cnt pid (map reap1 l) = (cnt pid l - cnt zombie l)%Z.
Proof. induction 1 as [|c l H _ IH]; cbn [map]; auto. rewrite !cnt_cons, IH. unfold cmd_ok in H.
  assert (K1 : zombie c = match child c with Zombie _ => true | _ => false end) by reflexivity.
  assert (K3 : reap1 c = match child c with Zombie e => if pid c then Cmd (Gone e) false (status e) else c | _ => c end) by reflexivity.
  rewrite K3, K1. destruct (child c) as [|e|e|] eqn:K; try lia. destruct H as [-> _]. cbn [pid]. lia. Qed.
Lemma zombie_le l : Forall cmd_ok l -> (cnt zombie l + cnt is_stolen l <= cnt pid l)%Z.
Proof. induction 1 as [|c l H _ IH]; [cbn; lia|]. rewrite !cnt_cons. unfold cmd_ok in H.
  assert (K1 : zombie c = match child c with Zombie _ => true | _ => false end) by reflexivity.
  assert (K2 : is_stolen c = match child c with Stolen => true | _ => false end) by reflexivity.
  rewrite K1, K2. destruct (child c) as [|e|e|] eqn:K; try rewrite H; try lia.
  - destruct H as [-> _]. lia.
  - destruct H as [-> _]. lia. Qed.
Lemma stolen_cnt l : stolen l <-> (0 < cnt is_stolen l)%Z.
Proof.
  induction l as [|c l IH]; [split; [intros (c & [] & _)|cbn; lia]|]. rewrite cnt_cons. pose proof (cnt_pos is_stolen l). unfold is_stolen at 1. split.
  - intros (d & [E|I] & K); [subst; rewrite K; lia|]. assert (stolen l) by (exists d; auto). apply IH in H0. destruct (child c); lia.
  - intros L. destruct (child c) eqn:K; [| | |exists c; cbn; auto]; assert (Z : stolen l) by (apply IH; lia); destruct Z as (d & I & Kd); exists d; cbn; auto.
Qed.
Lemma stolen_reap1 l : stolen l -> stolen (map reap1 l).
Proof. intros (c & I & K). exists (reap1 c). split; [apply in_map; auto|]. unfold reap1. rewrite K. exact K. Qed.

Definition got (b : option str) : str := match b with Some b => b | None => [] end.
Definition op1 (o : out) : Z := if is_open o then 1%Z else 0%Z.
Lemma read_ok t o o' b k : read_out o = (o', b, k) -> P t o ->
  P (t ++ got b) o' /\ (Q t o -> Q (t ++ got b) o') /\ ours o' = ours o /\ k = (op1 o - op1 o')%Z /\ (is_open o = false -> is_open o' = false).
Proof.
  unfold read_out, P, Q, op1. intros H (rest & W & B).
  destruct (is_open o) eqn:O; cbn [andb] in H.
  - destruct (in_set o).
    + specialize (B eq_refl). subst rest. destruct (bytes o) as [|c r] eqn:E.
      * rewrite app_nil_r in W. destruct (writer o) eqn:Wr; inversion H; subst; cbn [got is_open ours written writer bytes]; rewrite !app_nil_r.
        -- split; [exists []; rewrite app_nil_r; auto|]. split; [|split; [auto|split; [lia|congruence]]]. intros [Q1 Q2]. split; auto; intros; congruence.
        -- split; [exists []; rewrite app_nil_r; auto|]. split; [|split; [auto|split; [lia|congruence]]]. intros [Q1 Q2]. split; auto.
      * inversion H; subst. cbn [got is_open ours written writer bytes]. split.
        -- exists (skipn 1024 (c :: r)). split; auto. rewrite W, <- app_assoc. f_equal. symmetry. exact (firstn_skipn 1024 (c :: r)).
        -- split; [|split; [auto|split; [lia|congruence]]]. intros [Q1 Q2]. split; auto; intros; congruence.
    + inversion H; subst. cbn [got]. rewrite app_nil_r, O. split; [exists rest; auto|]. split; [tauto|split; [auto|split; [lia|auto]]].
  - inversion H; subst. cbn [got]. rewrite app_nil_r, O. split; [exists rest; split; [auto|intros; congruence]|]. split; [tauto|split; [auto|split; [lia|auto]]].
Qed.
Lemma P_write t b o : P t o -> P t (write_to b o).
Proof. intros (r & W & B). unfold write_to. destruct (writer o); [|exists r; auto]. exists (r ++ b). cbn. split; [rewrite W, app_assoc; auto|]. intros O. rewrite O, (B O). auto. Qed.
Lemma Q_write t b o : Q t o -> Q t (write_to b o).
Proof. intros H. unfold write_to. destruct (writer o) eqn:W; [|exact H]. destruct H as [A B]. split; cbn; [exact A|]. intros O C. destruct (B O C). congruence. Qed.
Lemma P_close t o : P t o -> P t (close_writer o).
Proof. intros (r & W & B). exists r. auto. Qed.
Lemma Q_close t o : Q t o -> Q t (close_writer o).
Proof. intros [A B]. split; cbn; [auto|]. intros O C. destruct (B O C). auto. Qed.
Lemma P_shut t o : P t o -> P t (shut o).
Proof. intros (r & W & B). exists r. cbn. split; auto. discriminate. Qed.
Lemma P_set t b o : P t o -> P t (put_set b o).
Proof. intros (r & W & B). exists r. auto. Qed.
Lemma Q_set t b o : Q t o -> Q t (put_set b o).
Proof. intros [A B]. split; cbn; auto. Qed.

Lemma kid_spec k : forall l i l', change_kid i k l = Some l' ->
  (stolen l -> stolen l') /\ (k = Stolen \/ (exists e, k = Zombie e /\ fine e) -> Forall cmd_ok l -> Forall cmd_ok l' /\ cnt pid l' = cnt pid l /\ (0 < cnt pid l)%Z).
Proof.
  induction l as [|c l IH]; intros [|i] l' H; cbn in H; try discriminate.
  - destruct (child c) eqn:K; try discriminate. inversion H; subst. split.
    + intros (d & [E|I] & D); [subst; congruence|]. exists d. cbn. auto.
    + intros Hk F. inversion F; subst. unfold cmd_ok in H2. rewrite K in H2. rewrite !cnt_cons. cbn [pid]. rewrite H2. pose proof (cnt_pos pid l).
      split; [constructor; auto|split; lia]. unfold cmd_ok. cbn. destruct Hk as [->|(e & -> & Fe)]; auto.
  - destruct (change_kid i k l) eqn:E; inversion H; subst. destruct (IH _ _ E) as [A B]. split.
    + intros (d & [X|I] & D); [subst; exists d; cbn; auto|]. destruct A as (d' & I' & D'); [exists d; auto|]. exists d'. cbn. auto.
    + intros Hk F. inversion F; subst. destruct (B Hk H3) as (B1 & B2 & B3). rewrite !cnt_cons. split; [constructor; auto|]. destruct (pid c); split; lia.
Qed.

Lemma J_intro t1 t2 s : P t1 (p_out s) -> P t2 (p_err s) ->
  (st s = Executing -> dead s = true -> closed s) -> (st s = Executing -> dead s = false -> Q t1 (p_out s) /\ Q t2 (p_err s) /\ Inv s) ->
  (st s = Error -> selerr s = true \/ stolen (cmds s)) -> J t1 t2 s.
Proof. intros A B C D E. split; [auto|split; [auto|]]. destruct (st s); auto. destruct (dead s); auto. Qed.
Lemma J_closed t1 t2 s : J t1 t2 s -> st s = Executing -> dead s = true -> closed s.
Proof. intros (_ & _ & X) E D. rewrite E, D in X. exact X. Qed.
Lemma J_live t1 t2 s : J t1 t2 s -> st s = Executing -> dead s = false -> Q t1 (p_out s) /\ Q t2 (p_err s) /\ Inv s.
Proof. intros (_ & _ & X) E D. rewrite E, D in X. exact X. Qed.
Lemma J_err t1 t2 s : J t1 t2 s -> st s = Error -> selerr s = true \/ stolen (cmds s).
Proof. intros (_ & _ & X) E. rewrite E in X. exact X. Qed.

Lemma J_pipes t1 t2 u1 u2 s o e g l : J t1 t2 s -> P u1 o -> P u2 e ->
  (closed s -> is_open o = false /\ is_open e = false /\ g_open g = false) ->
  (Q t1 (p_out s) -> Q t2 (p_err s) -> Inv s -> Q u1 o /\ Q u2 e /\ Inv (with_pipes s o e g l)) ->
  J u1 u2 (with_pipes s o e g l).
Proof.
  intros Js A B C D. apply J_intro; cbn; auto.
  - intros E X. apply C. eapply J_closed; eauto.
  - intros E X. destruct (J_live _ _ _ Js E X) as (Q1 & Q2 & I). auto.
  - intros E. eapply J_err; eauto.
Qed.
Lemma J_moved t1 t2 m s : possible m -> J t1 t2 s -> J t1 t2 (moved m s).
Proof.
  intros Pm Js. assert (Js2 := Js). destruct Js as (A & B & _).
  assert (KK : forall i k l, change_kid i k (cmds s) = Some l -> k = Stolen \/ (exists e, k = Zombie e /\ fine e) ->
    J t1 t2 (with_cmds s (on_sigchld (p_sig s)) l (cmds_left s) (st s))).
  { intros i k l Ek Hk. destruct (kid_spec _ _ _ _ Ek) as [S1 S2]. apply J_intro; cbn; auto.
    - intros E X. apply (J_closed _ _ _ Js2 E X).
    - intros E X. destruct (J_live _ _ _ Js2 E X) as (Q1 & Q2 & I). split; [auto|split; [auto|]]. destruct I. destruct (S2 Hk i_cmds0) as (F1 & F2 & F3).
      constructor; cbn; auto.
      + intros ->. rewrite cnt_nil in F2. lia.
      + congruence.
      + intros _. rewrite i_w0, i_left0. apply Z.ltb_lt. auto.
    - intros E. destruct (J_err _ _ _ Js2 E); auto. }
  destruct m as [[|] b|[|]|i e|i|]; cbn [moved].
  - apply (J_pipes t1 t2 t1 t2); auto using P_write. + intros C; unfold closed in C; unfold write_to; destruct (writer (p_err s)); cbn; tauto.
    + intros Q1 Q2 I. split; [auto|split; [auto using Q_write|]]. destruct I. unfold write_to. destruct (writer (p_err s)); constructor; cbn; auto.
  - apply (J_pipes t1 t2 t1 t2); auto using P_write. + intros C; unfold closed in C; unfold write_to; destruct (writer (p_out s)); cbn; tauto.
    + intros Q1 Q2 I. split; [auto using Q_write|split; [auto|]]. destruct I. unfold write_to. destruct (writer (p_out s)); constructor; cbn; auto.
  - apply (J_pipes t1 t2 t1 t2); auto using P_close. intros Q1 Q2 I. split; [auto|split; [auto using Q_close|]]. destruct I. constructor; cbn; auto.
  - apply (J_pipes t1 t2 t1 t2); auto using P_close. intros Q1 Q2 I. split; [auto using Q_close|split; [auto|]]. destruct I. constructor; cbn; auto.
  - destruct (change_kid i (Zombie e) (cmds s)) eqn:E; auto. eapply KK; [exact E|]. right. exists e. split; [auto|destruct e; exact Pm].
  - destruct (change_kid i Stolen (cmds s)) eqn:E; auto. eapply KK; eauto.
  - apply (J_pipes t1 t2 t1 t2); auto. intros Q1 Q2 I. split; [auto|split; [auto|]]. destruct I. constructor; cbn; auto.
    intros Z. rewrite i_w0, i_left0. apply Z.ltb_lt. pose proof (zombie_le _ i_cmds0). pose proof (cnt_pos is_stolen (cmds s)). lia.
Qed.
Lemma J_moves t1 t2 ms : Forall possible ms -> forall s, J t1 t2 s -> J t1 t2 (fold_left (fun s m => moved m s) ms s).
Proof. induction 1; intros s Js; cbn [fold_left]; auto using J_moved. Qed.
Definition busy (s : sys) : Prop := st s = Executing \/ st s = Error.
Definition same (s s' : sys) : Prop := killed s' = killed s /\ expired s' = expired s /\ selerr s' = selerr s /\ stray s' = stray s.
Lemma same_dead s s' : same s s' -> dead s' = dead s.
Proof. intros (A & B & C & _). unfold dead. congruence. Qed.
Lemma same_refl s : same s s.
Proof. repeat split. Qed.
Lemma same_trans a b c : same a b -> same b c -> same a c.
Proof. unfold same. intuition congruence. Qed.

Lemma reap_error : forall l n w l' n' w' z', reap l n w Error = (l', n', w', z') -> z' = Error /\ (stolen l -> stolen l').
Proof.
  assert (T : forall c c' l l', (stolen l -> stolen l') -> (child c = Stolen -> child c' = Stolen) -> stolen (c :: l) -> stolen (c' :: l')).
  { intros c c' l l' A B (d & [E|I] & D); [subst; exists c'; cbn; auto|]. destruct A as (x & X & Y); [exists d; auto|]. exists x. cbn. auto. }
  induction l as [|c l IH]; intros n w l' n' w' z' H; cbn [reap] in H.
  - inversion H; subst. auto.
  - destruct (pid c); [destruct (child c) eqn:K|].
    + destruct (reap l n w Error) as [[[r n1] w1] z1] eqn:R. inversion H; subst. apply IH in R. destruct R as [R1 R2]. split; eauto.
    + destruct (reap l (n - 1) (if Z.eqb (n - 1) 0 then false else w) Error) as [[[r n1] w1] z1] eqn:R. inversion H; subst. apply IH in R. destruct R as [R1 R2]. split; auto. apply T; auto. congruence.
    + destruct (reap l n w Error) as [[[r n1] w1] z1] eqn:R. inversion H; subst. apply IH in R. destruct R as [R1 R2]. split; eauto.
    + destruct (reap l n w Error) as [[[r n1] w1] z1] eqn:R. inversion H; subst. apply IH in R. destruct R as [R1 R2]. split; eauto.
    + destruct (reap l n w Error) as [[[r n1] w1] z1] eqn:R. inversion H; subst. apply IH in R. destruct R as [R1 R2]. split; eauto.
Qed.
Lemma J_sig t1 t2 s : busy s -> J t1 t2 s -> J t1 t2 (scan_sig s) /\ busy (scan_sig s) /\ same s (scan_sig s).
Proof.
  intros Bz Js. assert (Js2 := Js). destruct Js as (A & B & _). unfold scan_sig.
  destruct (g_open (p_sig s)) eqn:GO; cbn [andb]; [|auto using same_refl].
  destruct (g_set (p_sig s)); [|auto using same_refl].
  destruct (g_byte (p_sig s)) eqn:GB.
  - unfold destroy. cbn [with_pipes cmds cmds_left p_sig g_writer st g_open g_set g_byte].
    destruct (reap (cmds s) (cmds_left s) (g_writer (p_sig s)) (st s)) as [[[l n] w] z] eqn:R.
    assert (ND : st s = Executing -> dead s = false).
    { intros E. destruct (dead s) eqn:D; auto. destruct (J_closed _ _ _ Js2 E D) as (_ & _ & X). congruence. }
    destruct (st s) eqn:E; try (destruct Bz; congruence).
    + specialize (ND eq_refl). destruct (J_live _ _ _ Js2 E ND) as (Q1 & Q2 & I). destruct I.
      pose proof (zombie_le _ i_cmds0) as ZL. pose proof (cnt_pos is_stolen (cmds s)). pose proof (cnt_pos zombie (cmds s)).
      apply reap_spec in R; [|assumption|lia]. destruct R as (-> & -> & -> & ->).
      split; [|split].
      * apply J_intro; cbn; auto.
        -- intros _ D. change (dead s = true) in D. congruence.
        -- intros _ _. split; [auto|split; [auto|]]. constructor; cbn; auto using reap1_ok.
           ++ intros X. apply map_eq_nil in X. auto.
           ++ rewrite reap1_pid; auto. lia.
           ++ rewrite i_w0. destruct (Z.ltb_spec 0 (cnt zombie (cmds s))); cbn [andb].
              ** destruct (Z.eqb_spec (cmds_left s) (cnt zombie (cmds s))); destruct (Z.ltb_spec 0 (cmds_left s)); destruct (Z.ltb_spec 0 (cmds_left s - cnt zombie (cmds s))); auto; lia.
              ** replace (cmds_left s - cnt zombie (cmds s))%Z with (cmds_left s) by lia. reflexivity.
           ++ discriminate.
           ++ rewrite reap1_zombie; auto. lia.
           ++ rewrite i_l0. unfold opens. cbn. rewrite GO. reflexivity.
        -- intros Z. right. apply stolen_reap1, stolen_cnt. destruct (Z.ltb_spec 0 (cnt is_stolen (cmds s))); [auto|discriminate].
      * unfold busy. cbn. destruct (Z.ltb 0 (cnt is_stolen (cmds s))); auto.
      * repeat split.
    + apply reap_error in R. destruct R as [-> R]. split; [|split].
      * apply J_intro; cbn; auto; try discriminate. intros _. destruct (J_err _ _ _ Js2 E); auto.
      * right. reflexivity.
      * repeat split.
  - destruct (g_writer (p_sig s)) eqn:GW; (split; [|split; [exact Bz|repeat split]]).
    + apply (J_pipes t1 t2 t1 t2); auto. * intros (_ & _ & X). congruence.
      * intros Q1 Q2 I. split; [auto|split; [auto|]]. destruct I. constructor; cbn; auto; try congruence; try discriminate; try (intros Z; specialize (i_b0 Z); congruence). rewrite i_l0. unfold opens. cbn. rewrite GO. reflexivity.
    + apply (J_pipes t1 t2 t1 t2); auto. * intros (_ & _ & X). congruence.
      * intros Q1 Q2 I. split; [auto|split; [auto|]]. destruct I. constructor; cbn; auto; try congruence; try discriminate; try (intros Z; specialize (i_b0 Z); congruence).
        rewrite i_l0. unfold opens. cbn. rewrite GO. lia.
Qed.
Definition said (err : bool) (r : option (bool * str)) : str := match r with Some (x, b) => if Bool.eqb x err then b else [] | None => [] end.
Lemma Inv_outs s o e ko ke : Inv s -> ours o = ours (p_out s) -> ours e = ours (p_err s) -> ko = (op1 (p_out s) - op1 o)%Z -> ke = (op1 (p_err s) - op1 e)%Z ->
  Inv (with_pipes s o e (p_sig s) (left s - ko - ke)).
Proof.
  intros I A B C D. destruct I. constructor; cbn; auto. rewrite i_l0. unfold opens, away, op1 in *. cbn. rewrite A, B, C, D. lia.
Qed.
Lemma J_outs t1 t2 s o e bo be ko ke : J t1 t2 s -> read_out (p_out s) = (o, bo, ko) -> read_out (p_err s) = (e, be, ke) ->
  J (t1 ++ got bo) (t2 ++ got be) (with_pipes s o e (p_sig s) (left s - ko - ke)).
Proof.
  intros Js R1 R2. assert (Js2 := Js). destruct Js as (A & B & _).
  destruct (read_ok _ _ _ _ _ R1 A) as (P1 & Q1 & O1 & K1 & C1). destruct (read_ok _ _ _ _ _ R2 B) as (P2 & Q2 & O2 & K2 & C2).
  apply (J_pipes t1 t2); auto.
  - intros (X & Y & Z). auto.
  - intros X Y I. split; [auto|split; [auto|]]. apply Inv_outs; auto.
Qed.
Lemma J_out t1 t2 s o bo ko : J t1 t2 s -> read_out (p_out s) = (o, bo, ko) ->
  J (t1 ++ got bo) t2 (with_pipes s o (p_err s) (p_sig s) (left s - ko)).
Proof.
  intros Js R1. assert (Js2 := Js). destruct Js as (A & B & _).
  destruct (read_ok _ _ _ _ _ R1 A) as (P1 & Q1 & O1 & K1 & C1).
  apply (J_pipes t1 t2); auto.
  - intros (X & Y & Z). auto.
  - intros X Y I. split; [auto|split; [auto|]]. replace (left s - ko)%Z with (left s - ko - 0)%Z by lia. apply Inv_outs; auto. lia.
Qed.
Lemma J_scan t1 t2 w s s' r : busy s -> J t1 t2 s -> scan w s = (s', r) ->
  (exists t1' t2', J t1' t2' s' /\ (w = true -> t1' = t1 ++ said false r /\ t2' = t2 ++ said true r)) /\ busy s' /\ same s s' /\ (w = false -> r = None).
Proof.
  intros Bz Js H. unfold scan in H.
  destruct (read_out (p_out s)) as [[o bo] ko] eqn:R1. cbn [with_pipes p_out p_err p_sig left] in H.
  destruct (read_out (p_err s)) as [[e be] ke] eqn:R2.
  set (s1 := with_pipes s o (p_err s) (p_sig s) (left s - ko)) in *.
  set (s2 := with_pipes s1 o e (p_sig s) (left s - ko - ke)) in *.
  assert (J1 := J_out _ _ _ _ _ _ Js R1). assert (J2 := J_outs _ _ _ _ _ _ _ _ _ Js R1 R2). fold s1 in J1.
  change (J (t1 ++ got bo) (t2 ++ got be) s2) in J2.
  destruct (J_sig _ _ s2 Bz J2) as (J3 & B3 & S3).
  destruct bo as [bo|]; destruct w.
  - inversion H; subst. split; [|repeat split; auto; discriminate]. exists (t1 ++ bo), t2. split; auto. cbn. rewrite app_nil_r. auto.
  - destruct be as [be|]; inversion H; subst; (split; [|split; [auto|split; [exact S3|auto]]]); eexists _, _; (split; [exact J3|discriminate]).
  - destruct be as [be|]; inversion H; subst.
    + split; [|repeat split; auto; discriminate]. exists (t1 ++ []), (t2 ++ be). split; auto.
    + split; [|split; [auto|split; [exact S3|auto]]]. eexists _, _. split; [exact J3|]. auto.
  - destruct be as [be|]; inversion H; subst; (split; [|split; [auto|split; [exact S3|auto]]]); eexists _, _; (split; [exact J3|discriminate]).
Qed.
Lemma J_kill t1 t2 s : J t1 t2 s -> J t1 t2 (kill s).
Proof.
  intros Js. assert (Js2 := Js). destruct Js as (A & B & _). unfold kill. destruct (st s) eqn:E; auto.
  apply J_intro; cbn; auto using P_shut; try discriminate. intros _ _. repeat split.
Qed.
Lemma kill_st s : st (kill s) = st s.
Proof. unfold kill. destruct (st s) eqn:E; auto. Qed.
Lemma kill_selerr s : selerr (kill s) = selerr s.
Proof. unfold kill. destruct (st s) eqn:E; auto. Qed.
Lemma kill_closed s : st s = Executing -> closed (kill s).
Proof. intros E. unfold kill. rewrite E. repeat split. Qed.
Lemma J_flags t1 t2 s k e r : J t1 t2 (kill s) -> k || e || r = true -> (r = true \/ r = selerr (kill s)) -> J t1 t2 (with_flags (kill s) k e r).
Proof.
  intros Js D R. assert (Js2 := Js). destruct Js as (A & B & _). apply J_intro; cbn; auto.
  - intros E _. rewrite kill_st in E. apply kill_closed in E. exact E.
  - intros E X. unfold dead in X. cbn in X. congruence.
  - intros E. destruct R as [->| ->]; auto. apply (J_err _ _ _ Js2 E).
Qed.
Definition heard (err : bool) (r : round) : str := match r with Report x b => if Bool.eqb x err then b else [] | _ => [] end.
Lemma busy_kill s : busy s -> busy (kill s).
Proof. unfold busy. rewrite kill_st. auto. Qed.
Lemma moved_st m s : st (moved m s) = st s.
Proof. destruct m as [[|] b|[|]|i e|i|]; cbn [moved]; auto; destruct (change_kid _ _ _); auto. Qed.
Lemma moves_st ms : forall s, st (fold_left (fun s m => moved m s) ms s) = st s.
Proof. induction ms as [|m ms IH]; intros s; cbn [fold_left]; auto. rewrite IH. apply moved_st. Qed.
Lemma J_put t1 t2 s a b c : J t1 t2 s -> J t1 t2 (with_pipes s (put_set a (p_out s)) (put_set b (p_err s)) (Sigp (g_open (p_sig s)) c (g_byte (p_sig s)) (g_writer (p_sig s))) (left s)).
Proof.
  intros Js. assert (Js2 := Js). destruct Js as (A & B & _). apply (J_pipes t1 t2); auto using P_set.
  intros Q1 Q2 I. split; [auto using Q_set|split; [auto using Q_set|]]. destruct I. constructor; cbn; auto.
Qed.
Lemma J_wfp t1 t2 w t s s' r : busy s -> Forall possible (moves t) -> J t1 t2 s -> wait_for_pipe w t s = (s', r) ->
  (exists t1' t2', J t1' t2' s' /\ (w = true -> t1' = t1 ++ heard false r /\ t2' = t2 ++ heard true r)) /\ busy s' /\ (r = AllClosed -> closed s') /\
  (w = false -> forall x b, r <> Report x b).
Proof.
  intros Bz Fm Js H. unfold wait_for_pipe in H. destruct (scan w s) as [s1 q] eqn:Sc.
  destruct (J_scan _ _ _ _ _ _ Bz Js Sc) as ((u1 & u2 & J1 & T) & B1 & _ & N).
  destruct q as [[x b]|].
  - inversion H; subst. split; [exists u1, u2; split; auto|split; [auto|split; [discriminate|]]]. intros W. specialize (N W). discriminate.
  - cbn [said] in T. rewrite !app_nil_r in T.
    set (s2 := with_pipes s1 (put_set false (p_out s1)) (put_set false (p_err s1)) (Sigp (g_open (p_sig s1)) false (g_byte (p_sig s1)) (g_writer (p_sig s1))) (left s1)) in *.
    assert (J2 : J u1 u2 s2) by (apply J_put; exact J1).
    assert (B2 : busy s2) by exact B1.
    assert (K : forall q, q <> AllClosed -> (forall x b, q <> Report x b) -> forall z, J u1 u2 z -> busy z -> s' = z -> r = q ->
      (exists t1' t2', J t1' t2' s' /\ (w = true -> t1' = t1 ++ heard false r /\ t2' = t2 ++ heard true r)) /\ busy s' /\ (r = AllClosed -> closed s') /\ (w = false -> forall x b, r <> Report x b)).
    { intros q N1 N2 z Jz Bzz -> ->. split; [exists u1, u2; split; [auto|]|split; [auto|split; [intros; congruence|auto]]].
      intros W. destruct q; cbn [heard]; rewrite ?app_nil_r; auto. destruct (N2 err b eq_refl). }
    destruct (late t); [inversion H; subst; apply (K ExpiredNow) with s2; auto; discriminate|].
    destruct (negb (is_open (p_out s2) || is_open (p_err s2) || g_open (p_sig s2))) eqn:AC.
    { inversion H; subst. split; [exists u1, u2; split; [auto|cbn [heard]; rewrite !app_nil_r; auto]|split; [auto|split; [|discriminate]]].
      intros _. apply negb_true_iff, orb_false_iff in AC. destruct AC as [AC A3]. apply orb_false_iff in AC. destruct AC as [A1 A2]. repeat split; auto. }
    assert (J3 : J u1 u2 (fold_left (fun s m => moved m s) (moves t) s2)) by (apply J_moves; auto).
    assert (B3 : busy (fold_left (fun s m => moved m s) (moves t) s2)) by (unfold busy; rewrite moves_st; exact B2).
    set (s3 := fold_left (fun s m => moved m s) (moves t) s2) in *. clearbody s3.
    destruct (result t) as [a b c| |].
    + eapply (K Again); [discriminate|discriminate| | |inversion H; reflexivity|inversion H; reflexivity]; [apply J_put; exact J3|exact B3].
    + eapply (K ExpiredNow); [discriminate|discriminate| | |inversion H; reflexivity|inversion H; reflexivity]; auto.
    + eapply (K Again); [discriminate|discriminate| | |inversion H; reflexivity|inversion H; reflexivity].
      * apply J_flags; auto using J_kill. cbn. apply orb_true_r.
      * unfold busy. cbn. apply (busy_kill s3). exact B3.
Qed.
Definition ret_said (err : bool) (r : ret) : str := match r with Data x b => if Bool.eqb x err then b else [] | _ => [] end.
Lemma J_loop w user : forall ts t1 t2 s s' r, busy s -> sound_turns ts -> J t1 t2 s -> wait_loop w user ts s = (s', r) ->
  (exists t1' t2', J t1' t2' s' /\ (w = true -> t1' = t1 ++ ret_said false r /\ t2' = t2 ++ ret_said true r)) /\ busy s' /\
  (r = NoPipe -> st s' = Executing -> dead s' = false -> closed s') /\ (w = false -> forall x b, r <> Data x b).
Proof.
  induction ts as [|t ts IH]; intros t1 t2 s s' r Bz F Js H; cbn [wait_loop] in H; destruct (Z.ltb_spec 0 (left s)) as [L|L].
  - inversion H; subst. cbn [ret_said]. rewrite !app_nil_r. split; [exists t1, t2; auto|split; [auto|split; [discriminate|discriminate]]].
  - inversion H; subst. cbn [ret_said]. rewrite !app_nil_r. split; [exists t1, t2; auto|split; [auto|split; [|discriminate]]].
    intros _ E D. destruct (J_live _ _ _ Js E D) as (_ & _ & I). destruct I. unfold opens, away, closed in *.
    destruct (is_open (p_out s')), (is_open (p_err s')), (g_open (p_sig s')), (ours (p_out s')), (ours (p_err s')); auto; lia.
  - inversion F as [|? ? F1 F2]; subst. destruct (wait_for_pipe w t s) as [s1 q] eqn:Wp.
    destruct (J_wfp _ _ _ _ _ _ _ Bz F1 Js Wp) as ((u1 & u2 & J1 & T) & B1 & C & N).
    destruct q as [x b| | |].
    + inversion H; subst. split; [exists u1, u2; auto|split; [auto|split; [discriminate|]]]. intros W. exfalso. exact (N W x b eq_refl).
    + destruct (IH _ _ _ _ _ B1 F2 J1 H) as ((v1 & v2 & J2 & T2) & R). split; [|exact R]. exists v1, v2. split; [exact J2|]. intros W.
      destruct (T W) as [-> ->]. destruct (T2 W) as [-> ->]. cbn [heard]. rewrite !app_nil_r. auto.
    + assert (T0 : w = true -> u1 = t1 ++ [] /\ u2 = t2 ++ []) by exact T.
      destruct user; inversion H; subst.
      * split; [exists u1, u2; auto|split; [auto|split; [discriminate|discriminate]]].
      * split; [exists u1, u2; split; [|exact T0]|split; [|split; [|discriminate]]].
        -- rewrite <- (kill_selerr s1). apply J_flags; auto using J_kill.
        -- unfold busy. cbn. apply busy_kill. exact B1.
        -- intros _ _ D. unfold dead in D. cbn in D. discriminate.
    + inversion H; subst. split; [exists u1, u2; auto|split; [auto|split; [auto|discriminate]]].
  - inversion H; subst. cbn [ret_said]. rewrite !app_nil_r. split; [exists t1, t2; auto|split; [auto|split; [|discriminate]]].
    intros _ E D. destruct (J_live _ _ _ Js E D) as (_ & _ & I). destruct I. unfold opens, away, closed in *.
    destruct (is_open (p_out s')), (is_open (p_err s')), (g_open (p_sig s')), (ours (p_out s')), (ours (p_err s')); auto; lia.
Qed.
Lemma J_wfd t1 t2 w user ts s s' r : sound_turns ts -> J t1 t2 s -> wait_for_data w user ts s = (s', r) ->
  (exists t1' t2', J t1' t2' s' /\ (w = true -> t1' = t1 ++ ret_said false r /\ t2' = t2 ++ ret_said true r)) /\
  (st s = Executing -> busy s') /\ (st s <> Executing -> s' = s /\ r = NoPipe) /\
  (r = NoPipe -> st s' = Executing -> dead s' = false -> closed s') /\ (w = false -> forall x b, r <> Data x b).
Proof.
  intros F Js H. unfold wait_for_data in H.
  destruct (st s) eqn:E; try (inversion H; subst; split; [exists t1, t2; split; [exact Js|cbn; rewrite !app_nil_r; auto]|split; [congruence|split; [auto|split; [congruence|discriminate]]]]).
  destruct (killed s || expired s) eqn:K.
  - inversion H; subst. split; [exists t1, t2; split; [exact Js|cbn; rewrite !app_nil_r; auto]|split; [intros _; left; exact E|split; [congruence|split; [|discriminate]]]].
    intros _ _ D. unfold dead in D. rewrite K in D. discriminate.
  - destruct (J_loop _ _ _ _ _ _ _ _ (or_introl E) F Js H) as (A & B & C & D). split; [exact A|split; [auto|split; [congruence|auto]]].
Qed.
Lemma cleanup_J t1 t2 s z v : P t1 (p_out s) -> P t2 (p_err s) -> z <> Executing -> (z = Error -> selerr s = true \/ stolen (cmds s)) -> J t1 t2 (cleanup (with_state s z v)).
Proof. intros A B N E. apply J_intro; cbn; auto using P_shut; congruence. Qed.
Lemma J_start n o e : 0 < n -> J [] [] (executed n o e).
Proof.
  intros N.
  assert (RC : forall k, cnt pid (repeat (Cmd Running true 0%Z) k) = Z.of_nat k /\ cnt zombie (repeat (Cmd Running true 0%Z) k) = 0%Z /\ Forall cmd_ok (repeat (Cmd Running true 0%Z) k)).
  { induction k as [|k (A & B & C)]; cbn [repeat]; [repeat split; constructor|]. rewrite !cnt_cons, A, B. split; [cbn [pid]; lia|split; [reflexivity|constructor; auto]]. reflexivity. }
  destruct (RC n) as (A & B & C). unfold executed. apply J_intro; cbn [p_out p_err st dead killed expired selerr cmds]; try discriminate.
  - exists []. auto.
  - exists []. auto.
  - intros _ _. split; [split; cbn; [auto|congruence]|split; [split; cbn; [auto|congruence]|]].
    constructor; cbn [cmds cmds_left p_sig g_writer g_open g_byte left p_out p_err]; auto; try discriminate.
    + destruct n; [lia|discriminate].
    + symmetry. apply Z.ltb_lt. lia.
    + rewrite B. lia.
    + unfold opens, away. cbn. destruct o, e; reflexivity.
Qed.

Definition whole (c : cmd) : Prop := exists e, child c = Gone e /\ code c = status e /\ fine e.
Lemma all_gone s : Inv s -> g_open (p_sig s) = false -> Forall whole (cmds s).
Proof.
  intros I G. destruct I. specialize (i_g0 G). rewrite i_w0 in i_g0. apply Z.ltb_ge in i_g0. rewrite i_left0 in i_g0. clear - i_cmds0 i_g0.
  induction i_cmds0 as [|c l H F IH]; constructor; rewrite cnt_cons in i_g0; pose proof (cnt_pos pid l).
  - unfold cmd_ok in H. unfold whole. destruct (child c) as [|e|e|]; try (rewrite H in i_g0; lia).
    + destruct H as [H _]. rewrite H in i_g0. lia.
    + exists e. destruct H as (H1 & H2 & H3). auto.
  - apply IH. destruct (pid c); lia.
Qed.
Lemma verdict e : fine e -> match e with
  | Exit v => if_exited (status e) = true /\ exit_status (status e) = v
  | Signal n _ => if_exited (status e) = false /\ if_signaled (status e) = true end.
Proof.
  assert (L7 : forall z, Z.land z 127 = (z mod 128)%Z) by (intros z; change 127%Z with (Z.ones 7); rewrite Z.land_ones; [reflexivity|lia]).
  intros F. unfold if_exited, exit_status, if_signaled. destruct e as [v|n core]; cbn [fine status] in *; rewrite !L7.
  - replace (v * 256)%Z with ((v * 2) * 128)%Z by lia. rewrite Z.mod_mul by lia. split; [reflexivity|].
    change 255%Z with (Z.ones 8). rewrite Z.land_ones, Z.shiftr_div_pow2 by lia. replace (v * 2 * 128)%Z with (v * 2 ^ 8)%Z by (change (2 ^ 8)%Z with 256%Z; lia).
    rewrite Z.div_mul by (change (2 ^ 8)%Z with 256%Z; lia). apply Z.mod_small. change (2 ^ 8)%Z with 256%Z. lia.
  - assert (M : ((n + (if core then 128 else 0)) mod 128 = n)%Z).
    { destruct core; [replace (n + 128)%Z with (n + 1 * 128)%Z by lia; rewrite Z.mod_add by lia|rewrite Z.add_0_r]; apply Z.mod_small; lia. }
    rewrite M. split; [apply Z.eqb_neq; lia|]. cbv zeta. apply andb_true_intro. split; apply Z.ltb_lt; lia.
Qed.
Lemma last_whole l d : l <> [] -> Forall whole l -> whole (last l d).
Proof.
  intros N F. rewrite Forall_forall in F. apply F. rewrite (app_removelast_last d N) at 2. apply in_or_app. right. left. reflexivity.
Qed.
Lemma whole_reaped l : Forall whole l -> Forall reaped l.
Proof. apply Forall_impl. intros c (e & A & B & _). exists e. auto. Qed.

Definition outcome (d : cmd) (s' : sys) : Prop :=
 match st s' with
 | Executing => False
 | Killed => killed s' = true
 | Expired => expired s' = true /\ killed s' = false
 | Exited => dead s' = false /\ Forall reaped (cmds s') /\ child (last (cmds s') d) = Gone (Exit (value s'))
 | Exception => dead s' = false /\ Forall reaped (cmds s') /\ exists n core, child (last (cmds s') d) = Gone (Signal n core)
 | Error => selerr s' = true \/ exists c, In c (cmds s') /\ child c = Stolen
 end.
Lemma J_exit t1 t2 user ts s s' r : sound_turns ts -> J t1 t2 s -> wait_for_exit user ts s = (s', r) ->
  (exists t1' t2', J t1' t2' s') /\ (st s = Executing -> r = Some 1%Z -> forall d, outcome d s') /\ (st s = Executing -> r <> Some 1%Z -> busy s').
Proof.
  intros F Js H. unfold wait_for_exit in H. destruct (st s) eqn:E; try (inversion H; subst; split; [exists t1, t2; exact Js|split; congruence]).
  destruct (wait_for_data false user ts s) as [s1 q] eqn:W.
  destruct (J_wfd _ _ _ _ _ _ _ _ F Js W) as ((u1 & u2 & J1 & _) & B1 & _ & C & N). specialize (B1 E).
  assert (K : q = NoPipe -> (exists t1' t2', J t1' t2' s') /\ (Executing = Executing -> r = Some 1%Z -> forall d, outcome d s') /\ (Executing = Executing -> r <> Some 1%Z -> busy s')).
  { intros ->. specialize (C eq_refl). assert (J1' := J1). destruct J1' as (P1 & P2 & _). unfold outcome. destruct (st s1) eqn:E1; try (destruct B1; congruence).
    - destruct (selerr s1) eqn:SE; [|destruct (killed s1) eqn:KK; [|destruct (expired s1) eqn:EE]].
      + inversion H; subst. split; [|split; [|congruence]].
        * exists u1, u2. apply J_intro; cbn; auto using P_shut; try discriminate.
        * intros _ _ d. cbn. auto.
      + inversion H; subst. split; [|split; [|congruence]].
        * exists u1, u2. apply cleanup_J; auto; discriminate.
        * intros _ _ d. cbn. auto.
      + inversion H; subst. split; [|split; [|congruence]].
        * exists u1, u2. apply cleanup_J; auto; discriminate.
        * intros _ _ d. cbn. auto.
      + assert (D : dead s1 = false) by (unfold dead; rewrite SE, KK, EE; reflexivity).
        destruct (C eq_refl D) as (C1 & C2 & C3). destruct (J_live _ _ _ J1 E1 D) as (_ & _ & I).
        pose proof (all_gone _ I C3) as AG. destruct I. pose proof (last_whole _ (Cmd Running false 0%Z) i_ne0 AG) as (en & L1 & L2 & L3).
        assert (LD : forall d, child (last (cmds s1) d) = Gone en).
        { intros d. rewrite <- L1. f_equal. clear - i_ne0. induction (cmds s1) as [|c [|c' l] IH]; [congruence|reflexivity|]. cbn [last] in *. apply IH. discriminate. }
        rewrite L2 in H. pose proof (verdict _ L3) as V. destruct en as [v|n core]; destruct V as [V1 V2].
        * rewrite V1, V2 in H. inversion H; subst. split; [|split; [|congruence]].
          -- exists u1, u2. apply cleanup_J; auto; discriminate.
          -- intros _ _ d. cbn. split; [exact D|split; [apply whole_reaped; exact AG|apply LD]].
        * rewrite V1, V2 in H. inversion H; subst. split; [|split; [|congruence]].
          -- exists u1, u2. apply cleanup_J; auto; discriminate.
          -- intros _ _ d. cbn. split; [exact D|split; [apply whole_reaped; exact AG|eauto]].
    - inversion H; subst. pose proof (J_err _ _ _ J1 E1) as JE. split; [|split; [|congruence]].
      + exists u1, u2. apply J_intro; cbn; auto using P_shut; congruence.
      + intros _ _ d. cbn. rewrite E1. exact JE. }
  destruct q as [|x b| |]; try (apply K; reflexivity).
  - inversion H; subst. split; [exists u1, u2; exact J1|split; [congruence|auto]].
  - exfalso. apply (N eq_refl x b). reflexivity.
  - inversion H; subst. split; [exists u1, u2; exact J1|split; [congruence|auto]].
Qed.

Lemma told_app err rs rs' : told err (rs ++ rs') = told err rs ++ told err rs'.
Proof. induction rs as [|r rs IH]; cbn [told app]; auto. destruct r as [|[|x b| |]|]; auto. destruct (Bool.eqb x err); auto. rewrite IH, app_assoc. auto. Qed.
Lemma J_op x s s' r t1 t2 : sound x -> J t1 t2 s -> do_op x s = (s', r) ->
  exists t1' t2', J t1' t2' s' /\ (asking x -> t1' = t1 ++ told false [r] /\ t2' = t2 ++ told true [r]).
Proof.
  intros Sx Js H. destruct x as [m|w user ts|user ts|]; cbn [do_op sound asking] in *.
  - inversion H; subst. exists t1, t2. split; [apply J_moved; auto|]. cbn. rewrite !app_nil_r. auto.
  - destruct (wait_for_data w user ts s) as [s1 q] eqn:W. inversion H; subst.
    destruct (J_wfd _ _ _ _ _ _ _ _ Sx Js W) as ((u1 & u2 & J1 & T) & _). exists u1, u2. split; [exact J1|]. intros A. destruct (T A) as [-> ->].
    destruct q as [|x b| |]; cbn; auto. destruct (Bool.eqb x false), (Bool.eqb x true); rewrite ?app_nil_r; auto.
  - destruct (wait_for_exit user ts s) as [s1 q] eqn:W. inversion H; subst. destruct (J_exit _ _ _ _ _ _ _ Sx Js W) as ((u1 & u2 & J1) & _). exists u1, u2. split; [exact J1|tauto].
  - inversion H; subst. exists t1, t2. split; [apply J_kill; auto|]. cbn. rewrite !app_nil_r. auto.
Qed.
Lemma J_ops : forall xs s s' rs t1 t2, Forall sound xs -> J t1 t2 s -> do_ops xs s = (s', rs) ->
  exists t1' t2', J t1' t2' s' /\ (Forall asking xs -> t1' = t1 ++ told false rs /\ t2' = t2 ++ told true rs).
Proof.
  induction xs as [|x xs IH]; intros s s' rs t1 t2 F Js H; cbn [do_ops] in H.
  - inversion H; subst. exists t1, t2. split; auto. cbn. rewrite !app_nil_r. auto.
  - inversion F as [|? ? F1 F2]; subst. destruct (do_op x s) as [s1 r] eqn:D. destruct (do_ops xs s1) as [s2 rs2] eqn:R. inversion H; subst.
    destruct (J_op _ _ _ _ _ _ F1 Js D) as (u1 & u2 & J1 & T1). destruct (IH _ _ _ _ _ F2 J1 R) as (v1 & v2 & J2 & T2).
    exists v1, v2. split; [exact J2|]. intros A. inversion A as [|? ? A1 A2]; subst. destruct (T1 A1) as [-> ->]. destruct (T2 A2) as [-> ->].
    change (r :: rs2) with ([r] ++ rs2). rewrite !told_app, !app_assoc. auto.
Qed.

(** Which calls can have killed the process, or let it expire. *)
Lemma scan_sig_flags s : killed (scan_sig s) = killed s /\ expired (scan_sig s) = expired s.
Proof.
  unfold scan_sig, destroy. destruct (g_open (p_sig s) && g_set (p_sig s)); auto. destruct (g_byte (p_sig s)); [|destruct (g_writer (p_sig s)); auto].
  cbn [with_pipes cmds cmds_left p_sig g_writer st]. destruct (reap _ _ _ _) as [[[l n] w] z]. auto.
Qed.
Lemma scan_flags w s s' q : scan w s = (s', q) -> killed s' = killed s /\ expired s' = expired s.
Proof.
  unfold scan. destruct (read_out (p_out s)) as [[o bo] ko]. cbn [with_pipes p_out p_err p_sig left].
  destruct (read_out (p_err s)) as [[e be] ke]. intros H.
  destruct bo, w; try destruct be; inversion H; subst; auto; match goal with |- context [scan_sig ?x] => destruct (scan_sig_flags x) as [-> ->]; auto end.
Qed.
Lemma moves_flags ms : forall s, killed (fold_left (fun s m => moved m s) ms s) = killed s /\ expired (fold_left (fun s m => moved m s) ms s) = expired s.
Proof.
  induction ms as [|m ms IH]; intros s; cbn [fold_left]; auto. destruct (IH (moved m s)) as [-> ->].
  destruct m as [[|] b|[|]|i e|i|]; cbn [moved]; auto; destruct (change_kid _ _ _); auto.
Qed.
Lemma wfp_flags w t s s' r : wait_for_pipe w t s = (s', r) -> (killed s' = true -> killed s = true) /\ (expired s' = true -> expired s = true).
Proof.
  unfold wait_for_pipe. destruct (scan w s) as [s1 q] eqn:Sc. destruct (scan_flags _ _ _ _ Sc) as [K E]. rewrite <- K, <- E. clear.
  destruct q as [[x b]|]; [intros H; inversion H; subst; auto|]. cbv zeta.
  match goal with |- context [fold_left _ (moves t) ?x] => set (s2 := x) in *; destruct (moves_flags (moves t) s2) as [K E] end.
  destruct (late t); [intros H; inversion H; subst; auto|].
  match goal with |- context [if ?b then _ else _] => destruct b end; [intros H; inversion H; subst; auto|].
  set (s3 := fold_left (fun s m => moved m s) (moves t) s2) in *. clearbody s3.
  change (killed s1) with (killed s2). change (expired s1) with (expired s2). clearbody s2.
  destruct (result t); intros H; inversion H; subst; cbn; rewrite ?K, ?E; auto.
  split; [discriminate|]. unfold kill. destruct (st s3); cbn; rewrite ?E; auto.
Qed.
Lemma loop_flags w user : forall ts s s' r, wait_loop w user ts s = (s', r) -> (killed s' = true -> killed s = true) /\ (expired s' = true -> expired s = true \/ user = false).
Proof.
  induction ts as [|t ts IH]; intros s s' r H; cbn [wait_loop] in H; destruct (Z.ltb 0 (left s)); try (inversion H; subst; auto; fail).
  destruct (wait_for_pipe w t s) as [s1 q] eqn:W. destruct (wfp_flags _ _ _ _ _ W) as [K E]. destruct q; try (inversion H; subst; auto; fail).
  - destruct (IH _ _ _ H) as [K2 E2]. split; auto. intros X. destruct (E2 X); auto.
  - destruct user; inversion H; subst; auto. split; [discriminate|auto].
Qed.
Lemma wfd_flags w user ts s s' r : wait_for_data w user ts s = (s', r) -> (killed s' = true -> killed s = true) /\ (expired s' = true -> expired s = true \/ user = false).
Proof.
  unfold wait_for_data. destruct (st s); try (intros H; inversion H; subst; auto; fail). destruct (killed s || expired s); [intros H; inversion H; subst; auto|]. apply loop_flags.
Qed.
Lemma wfe_flags user ts s s' r : wait_for_exit user ts s = (s', r) -> (killed s' = true -> killed s = true) /\ (expired s' = true -> expired s = true \/ user = false).
Proof.
  unfold wait_for_exit. destruct (st s); try (intros H; inversion H; subst; auto; fail).
  destruct (wait_for_data false user ts s) as [s1 q] eqn:W. destruct (wfd_flags _ _ _ _ _ _ W) as [K E]. intros H.
  assert (G : killed s' = killed s1 /\ expired s' = expired s1); [|destruct G as [-> ->]; auto].
  destruct q; try (inversion H; subst; auto; fail); apply (f_equal fst) in H; cbn [fst] in H; rewrite <- H;
    destruct (st s1) eqn:?; try (split; reflexivity); destruct (selerr s1) eqn:?; try (split; reflexivity);
    destruct (killed s1) eqn:?; try (split; cbn; congruence); destruct (expired s1) eqn:?; try (split; cbn; congruence);
    destruct (if_exited _); try (split; cbn; congruence); destruct (if_signaled _); split; cbn; congruence.
Qed.
(** A call during which the process's own timeout may pass. *)
Definition own_timeout (x : op) : Prop := match x with WaitData _ user _ | WaitExit user _ => user = false | _ => False end.
Lemma ops_flags : forall xs s s' rs, do_ops xs s = (s', rs) -> (killed s' = true -> killed s = true \/ In Kill xs) /\ (expired s' = true -> expired s = true \/ Exists own_timeout xs).
Proof.
  induction xs as [|x xs IH]; intros s s' rs H; cbn [do_ops] in H.
  - inversion H; subst. auto.
  - destruct (do_op x s) as [s1 r] eqn:D. destruct (do_ops xs s1) as [s2 rs2] eqn:R. inversion H; subst.
    assert (G : (killed s1 = true -> killed s = true \/ x = Kill) /\ (expired s1 = true -> expired s = true \/ own_timeout x)).
    { destruct x as [m|w user ts|user ts|]; cbn [do_op own_timeout] in *.
      - inversion D; subst. destruct (moves_flags [m] s) as [A B]. cbn [fold_left] in A, B. rewrite A, B. auto.
      - destruct (wait_for_data w user ts s) as [z q] eqn:W. inversion D; subst. destruct (wfd_flags _ _ _ _ _ _ W). auto.
      - destruct (wait_for_exit user ts s) as [z q] eqn:W. inversion D; subst. destruct (wfe_flags _ _ _ _ _ W). auto.
      - inversion D; subst. unfold kill. destruct (st s); cbn; auto. }
    destruct (IH _ _ _ R) as [K E]. destruct G as [GK GE]. split.
    + intros X. destruct (K X) as [Y|Y]; [|cbn; auto]. destruct (GK Y); [auto|subst; cbn; auto].
    + intros X. destruct (E X) as [Y|Y]; [|auto]. destruct (GE Y); auto.
Qed.

(** The theorems. *)
Theorem C139_data : forall n o e xs s rs, 0 < n -> Forall sound xs -> Forall asking xs -> do_ops xs (executed n o e) = (s, rs) ->
  forall err, exists rest, written (stream err s) = told err rs ++ rest /\ (is_open (stream err s) = true -> rest = bytes (stream err s)).
Proof.
  intros n o e xs s rs N F A H err. destruct (J_ops _ _ _ _ _ _ F (J_start n o e N) H) as (t1 & t2 & (P1 & P2 & _) & T). destruct (T A) as [-> ->].
  destruct err; [exact P2|exact P1].
Qed.

Theorem C139_finished : forall n o e xs s rs user ts s', 0 < n -> Forall sound xs -> Forall asking xs -> do_ops xs (executed n o e) = (s, rs) ->
  sound_turns ts -> wait_for_data true user ts s = (s', NoPipe) -> st s' = Executing -> dead s' = false ->
  (forall err, ours (stream err s') = true -> written (stream err s') = told err rs /\ writer (stream err s') = false) /\ Forall reaped (cmds s').
Proof.
  intros n o e xs s rs user ts s' N F A H Ft W E D. destruct (J_ops _ _ _ _ _ _ F (J_start n o e N) H) as (t1 & t2 & J1 & T). destruct (T A) as [-> ->].
  destruct (J_wfd _ _ _ _ _ _ _ _ Ft J1 W) as ((u1 & u2 & J2 & T2) & _ & _ & C & _). destruct (T2 eq_refl) as [-> ->]. cbn [ret_said app] in J2. rewrite !app_nil_r in J2.
  destruct (C eq_refl E D) as (C1 & C2 & C3). destruct (J_live _ _ _ J2 E D) as (Q1 & Q2 & I). split; [|apply whole_reaped, all_gone; auto].
  intros [|] O; cbn [stream] in *; [destruct Q2 as [_ Q]|destruct Q1 as [_ Q]]; destruct (Q O); auto.
Qed.

Theorem C139_exit : forall n o e xs s rs user ts s', 0 < n -> Forall sound xs -> do_ops xs (executed n o e) = (s, rs) -> sound_turns ts ->
  st s = Executing -> wait_for_exit user ts s = (s', Some 1%Z) ->
  match st s' with
  | Executing => False
  | Killed => In Kill xs
  | Expired => user = false \/ Exists own_timeout xs
  | Exited => Forall reaped (cmds s') /\ forall d, child (last (cmds s') d) = Gone (Exit (value s'))
  | Exception => Forall reaped (cmds s') /\ forall d, exists n core, child (last (cmds s') d) = Gone (Signal n core)
  | Error => selerr s' = true \/ exists c, In c (cmds s') /\ child c = Stolen
  end /\
  (st s' = Exited \/ st s' = Exception -> killed s' = false /\ expired s' = false) /\
  (forall user ts, wait_for_exit user ts s' = (s', Some 1%Z)) /\ (forall wanted user ts, wait_for_data wanted user ts s' = (s', NoPipe)) /\ kill s' = s'.
Proof.
  intros n o e xs s rs user ts s' N F H Ft E W. destruct (J_ops _ _ _ _ _ _ F (J_start n o e N) H) as (t1 & t2 & J1 & _).
  destruct (J_exit _ _ _ _ _ _ _ Ft J1 W) as (_ & O & _). specialize (O E eq_refl).
  destruct (ops_flags _ _ _ _ H) as [OK OE]. destruct (wfe_flags _ _ _ _ _ W) as [WK WE].
  assert (NE : st s' <> Executing). { intros X. specialize (O (Cmd Running true 0%Z)). unfold outcome in O. rewrite X in O. exact O. }
  split; [|split; [|split; [|split]]].
  - unfold outcome in O. destruct (st s') eqn:Z.
    + congruence.
    + split; [apply (O (Cmd Running true 0%Z))|intros d; apply (O d)].
    + split; [apply (O (Cmd Running true 0%Z))|intros d; apply (O d)].
    + specialize (O (Cmd Running true 0%Z)). destruct (OK (WK O)); [discriminate|auto].
    + specialize (O (Cmd Running true 0%Z)). destruct O as [O _]. destruct (WE O) as [X|X]; auto. destruct (OE X); [discriminate|auto].
    + exact (O (Cmd Running true 0%Z)).
  - intros X. specialize (O (Cmd Running true 0%Z)). unfold outcome in O.
    assert (D : dead s' = false) by (destruct X as [X|X]; rewrite X in O; apply O). unfold dead in D. apply orb_false_iff in D. destruct D as [D _]. apply orb_false_iff in D. exact D.
  - intros u l. unfold wait_for_exit. destruct (st s'); congruence.
  - intros w u l. unfold wait_for_data. destruct (st s'); congruence.
  - unfold kill. destruct (st s'); congruence.
Qed.

(** Progress. *)
Definition ready (s : sys) : Prop := in_set (p_out s) = readable (p_out s) /\ in_set (p_err s) = readable (p_err s) /\ g_set (p_sig s) = sig_readable (p_sig s).
Definition calmed (s : sys) : Prop := is_open (p_out s) = false /\ is_open (p_err s) = false /\ (g_open (p_sig s) = true -> g_byte (p_sig s) = false).
Definition wr (s : sys) : str * str := (written (p_out s), written (p_err s)).
Definition run (s : sys) : Prop := st s = Executing /\ dead s = false /\ quiet s.
Lemma quiet_writers s : quiet s -> writer (p_out s) = false /\ writer (p_err s) = false.
Proof. intros [_ W]. split; [apply (W false)|apply (W true)]. Qed.
Lemma quiet_intro s : Forall ended (cmds s) -> writer (p_out s) = false -> writer (p_err s) = false -> quiet s.
Proof. intros A B C. split; auto. intros [|]; auto. Qed.
Lemma no_stolen l : Forall ended l -> cnt is_stolen l = 0%Z.
Proof. induction 1 as [|c l H F IH]; auto. rewrite cnt_cons, IH. unfold ended in H. unfold is_stolen. destruct (child c); auto; destruct H. Qed.
Lemma ended_reap1 l : Forall ended l -> Forall ended (map reap1 l).
Proof. induction 1 as [|c l H F IH]; cbn [map]; constructor; auto. unfold reap1, ended in *. destruct (child c) eqn:K; try rewrite K; auto. destruct (pid c); [exact I|rewrite K; auto]. Qed.
Lemma ended_pid l : Forall cmd_ok l -> Forall ended l -> cnt pid l = cnt zombie l.
Proof.
  induction 1 as [|c l H F IH]; intros E; auto. inversion E as [|? ? E1 E2]; subst. rewrite !cnt_cons, (IH E2). f_equal. unfold cmd_ok, ended, zombie in *.
  destruct (child c); try (destruct E1; fail); destruct H as [-> _]; reflexivity.
Qed.
Lemma read_quiet o o' b k : read_out o = (o', b, k) -> writer o = false ->
  written o' = written o /\ writer o' = false /\ (forall d, b = Some d -> d <> []) /\ (b = None -> in_set o = readable o -> is_open o' = false).
Proof.
  unfold read_out, readable. intros H W. destruct (is_open o) eqn:O; cbn [andb] in H; [destruct (in_set o) eqn:I|].
  - destruct (bytes o) as [|c r] eqn:B.
    + rewrite W in H. inversion H; subst. split; [auto|split; [auto|split; [discriminate|auto]]].
    + inversion H; subst. split; [auto|split; [auto|split; [|discriminate]]]. intros d X. inversion X. discriminate.
  - inversion H; subst. split; [auto|split; [auto|split; [discriminate|]]]. intros _ X. rewrite W, orb_true_r in X. cbn in X. discriminate.
  - inversion H; subst. split; [auto|split; [auto|split; [discriminate|auto]]].
Qed.
Lemma sig_quiet t1 t2 s : J t1 t2 s -> run s -> run (scan_sig s) /\ wr (scan_sig s) = wr s /\ is_open (p_out (scan_sig s)) = is_open (p_out s) /\ is_open (p_err (scan_sig s)) = is_open (p_err s) /\
  (g_set (p_sig s) = sig_readable (p_sig s) -> g_open (p_sig (scan_sig s)) = true -> g_byte (p_sig (scan_sig s)) = false) /\
  (g_set (p_sig s) = sig_readable (p_sig s) -> (g_open (p_sig s) = true -> g_byte (p_sig s) = false) -> g_open (p_sig (scan_sig s)) = false).
Proof.
  intros Js (E & D & Qs). destruct (J_live _ _ _ Js E D) as (_ & _ & I). destruct I. destruct (quiet_writers _ Qs) as [W1 W2]. destruct Qs as [Q1 _].
  pose proof (ended_pid _ i_cmds0 Q1) as PZ. pose proof (cnt_pos zombie (cmds s)) as NN.
  unfold scan_sig, sig_readable. destruct (g_open (p_sig s)) eqn:GO; cbn [andb].
  - destruct (g_set (p_sig s)) eqn:GS.
    + destruct (g_byte (p_sig s)) eqn:GB.
      * unfold destroy. cbn [with_pipes cmds cmds_left p_sig g_writer st g_open g_set g_byte].
        destruct (reap (cmds s) (cmds_left s) (g_writer (p_sig s)) (st s)) as [[[l n] w] z] eqn:R.
        apply reap_spec in R; [|assumption|lia]. destruct R as (-> & -> & -> & ->). rewrite (no_stolen _ Q1). cbn [Z.ltb Z.compare].
        split; [|split; [reflexivity|split; [reflexivity|split; [reflexivity|split; [reflexivity|intros _ X; specialize (X eq_refl); discriminate]]]]].
        split; [exact E|split; [exact D|]]. apply quiet_intro; auto. cbn. apply ended_reap1; auto.
      * assert (Z0 : cnt zombie (cmds s) = 0%Z). { destruct (Z.eq_dec (cnt zombie (cmds s)) 0); auto. assert (X : (0 < cnt zombie (cmds s))%Z) by lia. apply i_b0 in X. discriminate. }
        rewrite i_w0, i_left0, PZ, Z0. cbn [Z.ltb Z.compare].
        split; [|split; [reflexivity|split; [reflexivity|split; [reflexivity|split; [reflexivity|reflexivity]]]]].
        split; [exact E|split; [exact D|]]. apply quiet_intro; auto.
    + split; [split; [exact E|split; [exact D|apply quiet_intro; auto]]|split; [reflexivity|split; [reflexivity|split; [reflexivity|]]]].
      assert (X : false = g_byte (p_sig s) || negb (g_writer (p_sig s)) -> False); [|split; [intros Y; destruct (X Y)|intros Y; destruct (X Y)]].
      intros Y. symmetry in Y. apply orb_false_iff in Y. destruct Y as [Y1 Y2]. apply negb_false_iff in Y2. rewrite i_w0, i_left0, PZ in Y2. apply Z.ltb_lt in Y2. apply i_b0 in Y2. congruence.
  - split; [split; [exact E|split; [exact D|apply quiet_intro; auto]]|split; [reflexivity|split; [reflexivity|split; [reflexivity|split; [congruence|auto]]]]].
Qed.

Lemma quiet_scan t1 t2 s s' q : J t1 t2 s -> run s -> scan true s = (s', q) ->
  run s' /\ wr s' = wr s /\ (forall x b, q = Some (x, b) -> b <> []) /\
  (q = None -> ready s -> calmed s' /\ (calmed s -> closed s')).
Proof.
  intros Js R H. assert (R0 := R). destruct R as (E & D & Qs). destruct (quiet_writers _ Qs) as [W1 W2]. unfold scan in H.
  destruct (read_out (p_out s)) as [[o bo] ko] eqn:R1. cbn [with_pipes p_out p_err p_sig left] in H.
  destruct (read_out (p_err s)) as [[e be] ke] eqn:R2.
  destruct (read_quiet _ _ _ _ R1 W1) as (A1 & A2 & A3 & A4). destruct (read_quiet _ _ _ _ R2 W2) as (B1 & B2 & B3 & B4).
  set (s1 := with_pipes s o (p_err s) (p_sig s) (left s - ko)) in *.
  set (s2 := with_pipes s1 o e (p_sig s) (left s - ko - ke)) in *.
  destruct bo as [bo|].
  - inversion H; subst. split; [split; [exact E|split; [exact D|apply quiet_intro; [apply Qs|exact A2|exact W2]]]|split; [|split; [|discriminate]]].
    + unfold wr. cbn. rewrite A1. reflexivity.
    + intros x b X. inversion X; subst. apply A3. reflexivity.
  - assert (R3 : run s2) by (split; [exact E|split; [exact D|apply quiet_intro; [apply Qs|exact A2|exact B2]]]).
    assert (W3 : wr s2 = wr s) by (unfold wr; cbn; rewrite A1, B1; reflexivity).
    destruct be as [be|].
    + inversion H; subst. split; [exact R3|split; [exact W3|split; [|discriminate]]]. intros x b X. inversion X; subst. apply B3. reflexivity.
    + inversion H; subst.
      assert (J2 : J (t1 ++ []) (t2 ++ []) s2) by exact (J_outs _ _ _ _ _ _ _ _ _ Js R1 R2).
      destruct (sig_quiet _ _ _ J2 R3) as (S1 & S2 & S3 & S4 & S5 & S6). split; [exact S1|split; [rewrite S2; exact W3|split; [discriminate|]]].
      intros _ (Y1 & Y2 & Y3). specialize (A4 eq_refl Y1). specialize (B4 eq_refl Y2). cbn [s2 with_pipes p_out p_err] in S3, S4. split.
      * unfold calmed. rewrite S3, S4. auto.
      * intros (_ & _ & G). unfold closed. rewrite S3, S4. auto.
Qed.
Lemma quiet_turn t1 t2 s s' r : J t1 t2 s -> run s -> wait_for_pipe true calm s = (s', r) ->
  run s' /\ wr s' = wr s /\
  match r with Report _ b => b <> [] | Again => ready s' /\ (ready s -> calmed s' /\ ~ calmed s) | ExpiredNow => False | AllClosed => True end.
Proof.
  intros Js R H. unfold wait_for_pipe in H. destruct (scan true s) as [s1 q] eqn:Sc.
  destruct (quiet_scan _ _ _ _ _ Js R Sc) as (R1 & W1 & B & C).
  destruct q as [[x b]|]; [inversion H; subst; split; [auto|split; [auto|exact (B x b eq_refl)]]|].
  cbn [calm late moves fold_left result] in H. specialize (C eq_refl).
  destruct R1 as (E1 & D1 & Q1). destruct (quiet_writers _ Q1) as [X1 X2].
  assert (RR : forall a b c, run (with_pipes s1 (put_set a (p_out s1)) (put_set b (p_err s1)) (Sigp (g_open (p_sig s1)) c (g_byte (p_sig s1)) (g_writer (p_sig s1))) (left s1))).
  { intros a b c. split; [exact E1|split; [exact D1|apply quiet_intro; [apply Q1|exact X1|exact X2]]]. }
  match type of H with context [if ?b then _ else _] => destruct b eqn:AC end.
  - inversion H; subst. split; [apply RR|split; [exact W1|exact I]].
  - inversion H; subst. split; [apply RR|split; [exact W1|]]. split.
    + unfold ready. cbn. auto.
    + intros Y. destruct (C Y) as [Y1 Y2]. split; [exact Y1|]. intros Z. destruct (Y2 Z) as (Z1 & Z2 & Z3). cbn in AC. rewrite Z1, Z2, Z3 in AC. discriminate.
Qed.
Lemma quiet_loop user t1 t2 s s' r : J t1 t2 s -> run s -> wait_loop true user (repeat calm 3) s = (s', r) ->
  run s' /\ wr s' = wr s /\ match r with Data _ b => b <> [] | NoPipe => True | _ => False end.
Proof.
  intros Js R H. unfold repeat in H. assert (Fm : Forall possible (moves calm)) by constructor.
  assert (BZ : forall z, run z -> busy z) by (intros z (X & _); left; exact X).
  cbn [wait_loop] in H. destruct (Z.ltb 0 (left s)); [|inversion H; subst; auto].
  destruct (wait_for_pipe true calm s) as [s1 r1] eqn:W1. destruct (quiet_turn _ _ _ _ _ Js R W1) as (A1 & A2 & A3).
  destruct (J_wfp _ _ _ _ _ _ _ (BZ _ R) Fm Js W1) as ((u1 & u2 & J1 & _) & _).
  destruct r1; [inversion H; subst; auto| |destruct A3|inversion H; subst; auto]. destruct A3 as [A3 _]. rewrite <- A2.
  destruct (Z.ltb 0 (left s1)); [|inversion H; subst; auto].
  destruct (wait_for_pipe true calm s1) as [s2 r2] eqn:W2. destruct (quiet_turn _ _ _ _ _ J1 A1 W2) as (B1 & B2 & B3).
  destruct (J_wfp _ _ _ _ _ _ _ (BZ _ A1) Fm J1 W2) as ((v1 & v2 & J2 & _) & _).
  destruct r2; [inversion H; subst; auto| |destruct B3|inversion H; subst; auto]. destruct B3 as [B3 B4]. destruct (B4 A3) as [B5 _]. rewrite <- B2.
  destruct (Z.ltb 0 (left s2)); [|inversion H; subst; auto].
  destruct (wait_for_pipe true calm s2) as [s3 r3] eqn:W3. destruct (quiet_turn _ _ _ _ _ J2 B1 W3) as (C1 & C2 & C3).
  destruct r3; [inversion H; subst; auto| |destruct C3|inversion H; subst; auto]. destruct C3 as [_ C4]. destruct (C4 B3) as [_ C5]. destruct (C5 B5).
Qed.
Lemma reading : forall m user t1 t2 s, J t1 t2 s -> run s -> length (fst (wr s)) + length (snd (wr s)) <= m + length t1 + length t2 ->
  exists k s' rs, do_ops (repeat (WaitData true user calm_turns) (S k)) s = (s', rs) /\ last rs Nothing = Got NoPipe /\ wr s' = wr s /\ run s' /\
    J (t1 ++ told false rs) (t2 ++ told true rs) s' /\ closed s'.
Proof.
  assert (Ft : sound_turns calm_turns) by (repeat constructor).
  induction m as [|m IH]; intros user t1 t2 s Js R L.
  all: destruct (wait_for_data true user calm_turns s) as [s1 r] eqn:W; assert (W0 := W);
    destruct R as (E & D & Qs); unfold wait_for_data in W; rewrite E in W;
    assert (KE : killed s || expired s = false) by (unfold dead in D; apply orb_false_iff in D; apply D); rewrite KE in W;
    destruct (quiet_loop _ _ _ _ _ _ Js (conj E (conj D Qs)) W) as (A1 & A2 & A3);
    destruct (J_wfd _ _ _ _ _ _ _ _ Ft Js W0) as ((u1 & u2 & J1 & T) & _ & _ & C & _); destruct (T eq_refl) as [-> ->];
    destruct r as [|x b| |]; try (destruct A3; fail).
  all: try (exists 0, s1, [Got NoPipe]; cbn [repeat do_ops do_op]; rewrite W0; split; [reflexivity|split; [reflexivity|split; [exact A2|split; [exact A1|split; [exact J1|]]]]];
    destruct A1 as (Y1 & Y2 & _); exact (C eq_refl Y1 Y2)).
  all: assert (LB : length (t1 ++ ret_said false (Data x b)) + length (t2 ++ ret_said true (Data x b)) = length t1 + length t2 + length b) by
      (rewrite !app_length; cbn [ret_said]; destruct x; cbn [Bool.eqb length]; lia);
    assert (NB : 0 < length b) by (destruct b; [congruence|cbn; lia]).
  - exfalso. destruct J1 as ((r1 & X1 & _) & (r2 & X2 & _) & _). rewrite <- A2 in L. unfold wr in L. cbn [fst snd] in L. rewrite X1, X2, (app_length _ r1), (app_length _ r2) in L. lia.
  - destruct (IH user _ _ s1 J1 A1) as (k & s' & rs & H1 & H2 & H3 & H4 & H5 & H6); [rewrite A2; lia|].
    exists (S k), s', (Got (Data x b) :: rs). cbn [repeat do_ops do_op] in *. rewrite W0. cbn [repeat do_ops do_op]. 
    destruct (wait_for_data true user calm_turns s1) as [sa qa]. destruct (do_ops (repeat (WaitData true user calm_turns) k) sa) as [sb qb].
    inversion H1; subst. split; [reflexivity|split; [exact H2|split; [congruence|split; [exact H4|split; [|exact H6]]]]].
    rewrite <- !app_assoc in H5. cbn [ret_said] in H5. cbn [told] in *. destruct x; exact H5.
Qed.

Theorem C139_progress : forall n o e xs s rs user, 0 < n -> Forall sound xs -> Forall asking xs -> do_ops xs (executed n o e) = (s, rs) ->
  st s = Executing -> dead s = false -> quiet s ->
  exists k s' rs', do_ops (repeat (WaitData true user calm_turns) (S k)) s = (s', rs') /\ last rs' Nothing = Got NoPipe /\
    (forall err, ours (stream err s') = true -> written (stream err s') = written (stream err s) /\ written (stream err s') = told err (rs ++ rs')) /\
    Forall reaped (cmds s').
Proof.
  intros n o e xs s rs user N F A H E D Qs. destruct (J_ops _ _ _ _ _ _ F (J_start n o e N) H) as (t1 & t2 & J1 & T). destruct (T A) as [-> ->]. cbn [app] in J1.
  destruct (reading (length (fst (wr s)) + length (snd (wr s))) user _ _ s J1 (conj E (conj D Qs))) as (k & s' & rs' & H1 & H2 & H3 & (E' & D' & _) & H5 & H6); [lia|].
  exists k, s', rs'. split; [exact H1|split; [exact H2|]]. destruct (J_live _ _ _ H5 E' D') as (Q1 & Q2 & I). destruct H6 as (C1 & C2 & C3).
  split; [|apply whole_reaped, all_gone; auto]. unfold wr in H3. inversion H3 as [[X1 X2]].
  intros [|] O; cbn [stream] in *; rewrite told_app; (split; [congruence|]); [apply Q2|apply Q1]; auto.
Qed.

(** A child reaped by someone else: the calls wait for ever. *)
Definition still (t : turn) : Prop := late t = false /\ moves t = [] /\ exists o e g, result t = Ready o e g.
Definition lost (s : sys) : Prop :=
  busy s /\ killed s || expired s = false /\ g_open (p_sig s) = true /\ g_writer (p_sig s) = true /\ (exists c, cmds s = [Cmd Stolen true c]) /\
  bytes (p_out s) = [] /\ bytes (p_err s) = [] /\ (1 + op1 (p_out s) + op1 (p_err s) <= left s)%Z.
Lemma lost_read o o' b k : bytes o = [] -> read_out o = (o', b, k) -> b = None /\ bytes o' = [] /\ k = (op1 o - op1 o')%Z.
Proof.
  intros B. unfold read_out, op1. rewrite B. destruct (is_open o) eqn:O; cbn [andb]; [destruct (in_set o); [destruct (writer o)|]|]; intros H; inversion H; subst; cbn [is_open bytes]; rewrite ?O; repeat split; auto; lia.
Qed.
Lemma lost_turn w t s : still t -> lost s -> exists s', wait_for_pipe w t s = (s', Again) /\ lost s'.
Proof.
  intros (T1 & T2 & a & b & c & T3) (Bz & KE & GO & GW & (cd & Cm) & B1 & B2 & L). unfold wait_for_pipe, scan.
  destruct (read_out (p_out s)) as [[o bo] ko] eqn:R1. destruct (lost_read _ _ _ _ B1 R1) as (-> & O2 & ->). cbn [with_pipes p_out p_err p_sig left].
  destruct (read_out (p_err s)) as [[e be] ke] eqn:R2. destruct (lost_read _ _ _ _ B2 R2) as (-> & E2 & ->).
  match goal with |- context [scan_sig ?x] => set (s1 := x) end.
  assert (Ls : lost (scan_sig s1) /\ p_out (scan_sig s1) = o /\ p_err (scan_sig s1) = e).
  { unfold scan_sig, lost, destroy. cbn [s1 with_pipes p_sig p_out p_err left cmds cmds_left st]. rewrite GO. cbn [andb].
    destruct (g_set (p_sig s)); [destruct (g_byte (p_sig s)); [|rewrite GW]|]; cbn [with_pipes p_sig p_out p_err left cmds cmds_left st g_writer g_open g_set g_byte].
    - rewrite Cm. cbn [reap pid child]. cbn. split; [|auto]. split; [right; reflexivity|]. split; [exact KE|]. rewrite GW. repeat split; eauto. unfold op1 in *. destruct (is_open o), (is_open e), (is_open (p_out s)), (is_open (p_err s)); lia.
    - cbn. split; [|auto]. repeat split; eauto. unfold op1 in *. destruct (is_open o), (is_open e), (is_open (p_out s)), (is_open (p_err s)); lia.
    - cbn. split; [|auto]. repeat split; eauto. unfold op1 in *. destruct (is_open o), (is_open e), (is_open (p_out s)), (is_open (p_err s)); lia. }
  destruct Ls as (Ls & _). set (s2 := scan_sig s1) in *. clearbody s2. clear - Ls T1 T2 T3.
  rewrite T1, T2, T3. cbn [fold_left]. destruct Ls as (Bz & KE & GO & GW & (cd & Cm) & B1 & B2 & L).
  assert (AC : negb (is_open (p_out s2) || is_open (p_err s2) || g_open (p_sig s2)) = false) by (rewrite GO, orb_true_r; reflexivity).
  match goal with |- context [negb ?z] => change (negb z) with (negb (is_open (p_out s2) || is_open (p_err s2) || g_open (p_sig s2))) end. rewrite AC.
  eexists. split; [reflexivity|]. split; [exact Bz|]. split; [exact KE|]. cbn. repeat split; eauto.
Qed.
Theorem C139_stolen_refuted : forall o e w user ts s rs, Forall still ts ->
  do_ops [Outside (Steal 0); Outside (Close false); Outside (Close true)] (executed 1 o e) = (s, rs) ->
  snd (wait_for_data w user ts s) = Waiting /\ snd (wait_for_exit user ts s) = None.
Proof.
  intros o e w user ts s rs F H.
  assert (Z : lost s /\ st s = Executing).
  { cbn in H. inversion H; subst. split; [|reflexivity]. split; [left; reflexivity|]. cbn. repeat split; eauto. destruct o, e; cbn; lia. }
  destruct Z as [Z E]. clear H.
  assert (LL : forall w s, lost s -> exists s', wait_loop w user ts s = (s', Waiting)).
  { clear - F. intros w. induction F as [|t ts T F IH]; intros s Z; cbn [wait_loop]; assert (Z0 := Z); destruct Z0 as (_ & _ & _ & _ & _ & _ & _ & L);
      (destruct (Z.ltb_spec 0 (left s)) as [LT|LT]; [|unfold op1 in L; destruct (is_open (p_out s)), (is_open (p_err s)); lia]).
    - eauto.
    - destruct (lost_turn w t s T Z) as (s' & -> & Z'). auto. }
  assert (WD : forall w, exists s', wait_for_data w user ts s = (s', Waiting)).
  { intros w'. unfold wait_for_data. rewrite E. assert (Z0 := Z). destruct Z0 as (_ & -> & _). auto. }
  split; [destruct (WD w) as (s' & ->); reflexivity|]. unfold wait_for_exit. rewrite E. destruct (WD false) as (s' & ->). reflexivity.
Qed.
(** Kill called twice signals process ids that are free for others. *)
Theorem C139_kill_twice_refuted : forall n o e, stray (fst (do_ops [Kill; Kill] (executed n o e))) = n.
Proof.
  intros n o e. cbn [do_ops do_op fst]. unfold kill at 1. cbn [st kill executed stray cmds].
  assert (A : strays (repeat (Cmd Running true 0%Z) n) = 0) by (induction n; auto).
  assert (B : strays (map kill_kid (repeat (Cmd Running true 0%Z) n)) = n) by (induction n as [|n IH]; auto; unfold strays in *; cbn [repeat map filter length kill_kid pid child andb]; rewrite IHn || rewrite IH; auto; apply IH; clear; induction n; auto).
  unfold kill. cbn [executed st stray cmds]. rewrite A, B. reflexivity.
Qed.

(** Non-vacuity: a child writes, ends with 7; the caller reads, waits, asks for the exit. *)
Definition example_ops : list op :=
  [Outside (Write false (L "hi")); WaitData true false [calm; calm]; Outside (Write true (L "x")); WaitData true true [Turn true [] TimedOut];
   Outside (End 0 (Exit 7)); Outside (Close false); Outside (Close true)].
Example C139_example :
  let '(s, rs) := do_ops example_ops (executed 1 true true) in
  st s = Executing /\ dead s = false /\ Forall sound example_ops /\ Forall asking example_ops /\ quiet s /\
  rs = [Nothing; Got (Data false (L "hi")); Nothing; Got Timeout; Nothing; Nothing; Nothing] /\
  let '(s, r) := wait_for_data true false calm_turns s in r = Data true (L "x") /\
  let '(s, r) := wait_for_data true false calm_turns s in r = NoPipe /\
  let '(s, r) := wait_for_exit false [] s in r = Some 1%Z /\ st s = Exited /\ value s = 7%Z.
Proof.
  vm_compute. repeat (split; [reflexivity|]).
  split; [repeat constructor; discriminate|]. split; [repeat constructor|]. split; [split; [repeat constructor|intros [|]; reflexivity]|]. repeat split.
Qed.
Example C139_example_outcomes :
  (let '(s, r) := wait_for_exit false calm_turns (fst (do_ops [Outside (End 0 (Signal 11 true)); Outside (Close false); Outside (Close true)] (executed 1 true true))) in r = None \/ st s = Exception) /\
  (let '(s, r) := wait_for_exit false (repeat calm 4) (fst (do_ops [Outside (End 0 (Signal 11 true)); Outside (Close false); Outside (Close true)] (executed 1 true true))) in r = Some 1%Z /\ st s = Exception) /\
  (let '(s, r) := wait_for_exit false [] (kill (executed 2 true true)) in r = Some 1%Z /\ st s = Killed) /\
  (let '(s, r) := wait_for_exit false [Turn true [] TimedOut] (executed 2 true true) in r = Some 1%Z /\ st s = Expired) /\
  (let '(s, r) := wait_for_exit true [Turn true [] TimedOut] (executed 2 true true) in r = Some 0%Z /\ st s = Executing) /\
  (let '(s, r) := wait_for_exit false [Turn false [] Fails] (executed 2 true true) in r = Some 1%Z /\ st s = Error) /\
  Forall still [calm; calm].
Proof.
  vm_compute. repeat split; auto. repeat constructor; eauto.
Qed.
Print Assumptions C139_data.
Print Assumptions C139_finished.
Print Assumptions C139_exit.
Print Assumptions C139_progress.
Print Assumptions C139_stolen_refuted.
Print Assumptions C139_kill_twice_refuted.
