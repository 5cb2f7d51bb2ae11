(** ProcExecProps.v -- C140: starting a process leaves nothing behind. *)
From Coq Require Import List ZArith Bool Lia Permutation.
Import ListNotations.
From Verif Require Import Base ProcExecModel ProcExecSpec.
Open Scope Z_scope.

Fixpoint cn (x : Z) (l : list Z) : Z := match l with [] => 0 | y :: r => (if Z.eqb x y then 1 else 0) + cn x r end.
(** Variables hold descriptors when they are above 2. *)
Fixpoint cs (x : Z) (l : list Z) : Z := match l with [] => 0 | y :: r => (if (2 <? y) && Z.eqb x y then 1 else 0) + cs x r end.
Lemma cn_pos x l : 0 <= cn x l.
Proof. induction l; cbn [cn]; [lia|]. destruct (Z.eqb x a); lia. Qed.
Lemma cs_pos x l : 0 <= cs x l.
Proof. induction l; cbn [cs]; [lia|]. destruct ((2 <? a) && Z.eqb x a); lia. Qed.
Lemma cn_app x l r : cn x (l ++ r) = cn x l + cn x r.
Proof. induction l; cbn [cn app]; [lia|]. rewrite IHl. lia. Qed.
Lemma cs_app x l r : cs x (l ++ r) = cs x l + cs x r.
Proof. induction l; cbn [cs app]; [lia|]. rewrite IHl. lia. Qed.
Lemma mem_cn x l : mem x l = true <-> 0 < cn x l.
Proof. induction l as [|y l IH]; cbn [mem existsb cn]; [split; [discriminate|lia]|]. pose proof (cn_pos x l). destruct (Z.eqb x y); cbn [orb]; [split; auto; lia|]. unfold mem in IH. rewrite IH. lia. Qed.
Lemma in_cn x l : In x l <-> 0 < cn x l.
Proof. rewrite <- mem_cn. unfold mem. rewrite existsb_exists. split; [intros H; exists x; split; auto; apply Z.eqb_refl|]. intros (y & A & B). apply Z.eqb_eq in B. subst. auto. Qed.
Lemma cn_remove x y l : mem x l = true -> cn y (remove1 x l) = cn y l - (if Z.eqb y x then 1 else 0).
Proof.
  induction l as [|z l IH]; cbn [mem existsb remove1 cn]; [discriminate|]. destruct (Z.eqb_spec x z) as [E|N]; [subst|].
  - intros _. lia.
  - cbn [orb]. intros H. cbn [cn]. rewrite IH by exact H. lia.
Qed.
Lemma cn_perm l r : (forall x, cn x l = cn x r) -> Permutation l r.
Proof.
  intros H. apply (Permutation_count_occ Z.eq_dec). intros x. specialize (H x).
  assert (E : forall l, Z.of_nat (count_occ Z.eq_dec l x) = cn x l).
  { induction l0 as [|y l0 IH]; cbn [count_occ cn]; auto. destruct (Z.eq_dec y x) as [E|N]; [subst; rewrite Z.eqb_refl; lia|]. destruct (Z.eqb_spec x y); [congruence|lia]. }
  pose proof (E l). pose proof (E r). lia.
Qed.

(** F: open at the start.  [vs]: the variables that hold descriptors of ours. *)
Definition Own (F vs : list Z) (s : os) : Prop :=
  bad s = 0%nat /\ (forall x, cn x (fds s) + cn x (given s) = cn x (leaked s) + cn x F + cs x vs) /\ (forall x, cn x (given s) <= cn x F).
Lemma Own_eq F vs vs' s : Own F vs s -> (forall x, cs x vs = cs x vs') -> Own F vs' s.
Proof. intros (A & B & C) H. split; [auto|split; auto]. intros x. rewrite <- H. auto. Qed.
Definition keeps (s s' : os) : Prop := given s' = given s /\ leaked s' = leaked s.
Lemma keeps_refl s : keeps s s.
Proof. split; reflexivity. Qed.
Lemma keeps_trans a b c : keeps a b -> keeps b c -> keeps a c.
Proof. intros [A B] [C D]. split; congruence. Qed.
Lemma close_own F v vs s : Own F (v :: vs) s -> Own F vs (close v s) /\ keeps s (close v s).
Proof.
  intros (A & B & C). unfold close. destruct (Z.ltb_spec 2 v) as [L|L].
  - assert (M : mem v (fds s) = true).
    { apply mem_cn. specialize (B v). specialize (C v). cbn [cs] in B. rewrite Z.eqb_refl in B. destruct (Z.ltb_spec 2 v); [|lia]. cbn [andb] in B. pose proof (cs_pos v vs). pose proof (cn_pos v (leaked s)). lia. }
    rewrite M. split; [|split; reflexivity]. split; [exact A|split; [|exact C]]. cbn [fds given leaked]. intros x. specialize (B x). cbn [cs] in B. rewrite cn_remove by exact M.
    destruct (Z.ltb_spec 2 v); [|lia]. cbn [andb] in B. lia.
  - split; [|apply keeps_refl]. split; [exact A|split; [|exact C]]. intros x. specialize (B x). cbn [cs] in B. destruct (Z.ltb_spec 2 v); [lia|]. cbn [andb] in B. lia.
Qed.
Lemma call_own F vs s s' ok : Own F vs s -> call s = (s', ok) -> Own F vs s' /\ keeps s s'.
Proof. intros H E. unfold call in E. inversion E; subst. split; [exact H|split; reflexivity]. Qed.
Lemma calls_own F vs n : forall s s' ok, Own F vs s -> calls n s = (s', ok) -> Own F vs s' /\ keeps s s'.
Proof.
  induction n as [|n IH]; intros s s' ok H E; cbn [calls] in E; [inversion E; subst; split; [auto|apply keeps_refl]|].
  destruct (call s) as [s1 [|]] eqn:C; destruct (call_own _ _ _ _ _ H C) as [H1 K1].
  - destruct (IH _ _ _ H1 E) as [H2 K2]. split; auto. eapply keeps_trans; eauto.
  - inversion E; subst. auto.
Qed.
Lemma fork_own F vs s s' ok : Own F vs s -> fork s = (s', ok) -> Own F vs s' /\ keeps s s'.
Proof. intros H E. unfold fork in E. destruct (call s) as [s1 [|]] eqn:C; destruct (call_own _ _ _ _ _ H C) as [H1 K1]; inversion E; subst; split; auto. Qed.
Lemma tail_own F vs s : Own F vs s -> Own F vs (tail_answers s).
Proof. intros H. exact H. Qed.
Lemma pipe_own F vs s s' r : Own F vs s -> pipe s = (s', r) -> keeps s s' /\
  match r with Some (a, b) => Own F (a :: b :: vs) s' /\ 2 < a /\ 2 < b /\ a <> b /\ ~ In a (fds s) /\ ~ In b (fds s) | None => Own F vs s' end.
Proof.
  intros H E. unfold pipe in E. assert (T : Own F vs (tail_answers s) /\ keeps s (tail_answers s)) by (split; [exact H|split; reflexivity]).
  destruct (answers s) as [|[a b|] l]; try (inversion E; subst; tauto).
  destruct ((2 <? a) && (2 <? b) && negb (a =? b) && negb (mem a (fds s)) && negb (mem b (fds s))) eqn:C; [|inversion E; subst; tauto].
  inversion E; subst. split; [split; reflexivity|].
  apply andb_true_iff in C. destruct C as [C C5]. apply andb_true_iff in C. destruct C as [C C4]. apply andb_true_iff in C. destruct C as [C C3]. apply andb_true_iff in C. destruct C as [C1 C2].
  apply negb_true_iff in C3, C4, C5. apply Z.eqb_neq in C3. assert (L1 := C1). assert (L2 := C2). apply Z.ltb_lt in L1, L2.
  split; [|split; [exact L1|split; [exact L2|split; [exact C3|]]]].
  - destruct H as (A & B & D). split; [exact A|split; [|exact D]]. cbn [fds given leaked]. intros x. cbn [cn cs]. rewrite C1, C2. cbn [andb]. specialize (B x). lia.
  - split; intros I; apply in_cn, mem_cn in I; congruence.
Qed.
Lemma open_own F vs s s' r : Own F vs s -> open_file s = (s', r) -> keeps s s' /\ match r with Some a => Own F (a :: vs) s' /\ 2 < a | None => Own F vs s' end.
Proof.
  intros H E. unfold open_file in E. assert (T : Own F vs (tail_answers s) /\ keeps s (tail_answers s)) by (split; [exact H|split; reflexivity]).
  destruct (answers s) as [|[a b|] l]; try (inversion E; subst; tauto).
  destruct ((2 <? a) && negb (mem a (fds s))) eqn:C; [|inversion E; subst; tauto]. inversion E; subst. split; [split; reflexivity|].
  apply andb_true_iff in C. destruct C as [C1 C2]. split; [|apply Z.ltb_lt; exact C1].
  destruct H as (A & B & D). split; [exact A|split; [|exact D]]. cbn [fds given leaked]. intros x. cbn [cn cs]. rewrite C1. cbn [andb]. specialize (B x). lia.
Qed.
Lemma give_own F vs v s : Own F vs s -> 2 < v -> cn v (given s) < cn v F -> Own F (v :: vs) (hand_over v s).
Proof.
  intros (A & B & C) L G. split; [exact A|split]; cbn [fds given leaked hand_over]; intros x; cbn [cn cs]; specialize (B x); specialize (C x).
  - destruct (Z.ltb_spec 2 v); [|lia]. cbn [andb]. lia.
  - destruct (Z.eqb_spec x v); [subst|]; lia.
Qed.
Lemma forget_own F vs v s : Own F (v :: vs) s -> 2 < v -> Own F vs (forget v s).
Proof.
  intros (A & B & C) L. split; [exact A|split]; cbn [fds given leaked forget]; intros x; cbn [cn]; specialize (B x); [|auto].
  cbn [cs] in B. destruct (Z.ltb_spec 2 v); [|lia]. cbn [andb] in B. lia.
Qed.
Ltac reorder := let x := fresh "x" in intros x; cbn [cs after_close set_in c_in r_sig sg]; try change (2 <? -1) with false; try change (2 <? 0) with false; cbn [andb]; lia.

Lemma add_own F s c s' c' ok : Own F [] s -> c = Cp (-1) (-1) (-1) (-1) (-1) (-1) (-1) -> processes_add s c = (s', c', ok) ->
  keeps s s' /\ Own F [r_sig c'; sg c'] s' /\ c' = Cp (-1) (-1) (r_sig c') (-1) (-1) (-1) (sg c') /\ (ok = true -> 2 < r_sig c' /\ 2 < sg c').
Proof.
  intros H -> E. unfold processes_add in E. destruct (pipe s) as [s1 [[a b]|]] eqn:P; destruct (pipe_own _ _ _ _ _ H P) as [K1 H1].
  - destruct H1 as (H1 & L1 & L2 & _). destruct (calls 7 s1) as [s2 o] eqn:C. destruct (calls_own _ _ _ _ _ _ H1 C) as [H2 K2]. inversion E; subst.
    split; [eapply keeps_trans; eauto|]. cbn. auto.
  - inversion E; subst. split; [exact K1|split; [|split; [reflexivity|discriminate]]]. eapply Own_eq; [exact H1|reorder].
Qed.
Lemma in_own F vs t s c s' c' ok : Own F vs s -> setup_in t s c = (s', c', ok) -> (forall x, In x (native_in t) -> 2 < x /\ cn x (given s) < cn x F) ->
  leaked s' = leaked s /\ given s' = native_in t ++ given s /\ Own F (c_in c' :: vs) s' /\ c' = set_in c (c_in c').
Proof.
  intros H E N. destruct t as [| |p0 p1|]; cbn [setup_in native_in app] in *.
  - destruct (open_file s) as [s1 [a|]] eqn:O; destruct (open_own _ _ _ _ _ H O) as [[K1 K2] H1].
    + destruct H1 as [H1 L1]. destruct (call s1) as [s2 o] eqn:C. destruct (call_own _ _ _ _ _ H1 C) as [H2 [K3 K4]]. inversion E; subst. cbn. split; [congruence|split; [congruence|auto]].
    + inversion E; subst. cbn. split; [congruence|split; [congruence|split; [|auto]]]. eapply Own_eq; [exact H1|reorder].
  - inversion E; subst. cbn. split; [auto|split; [auto|split; [|auto]]]. eapply Own_eq; [exact H|reorder].
  - destruct (N p0 (or_introl eq_refl)) as [L G]. destruct (calls 2 (hand_over p0 s)) as [s2 o] eqn:C. pose proof (give_own _ _ _ _ H L G) as H0.
    destruct (calls_own _ _ _ _ _ _ H0 C) as [H2 [K3 K4]]. inversion E; subst. cbn [hand_over given leaked] in *. cbn. auto.
  - inversion E; subst. cbn. split; [auto|split; [auto|split; [|auto]]]. eapply Own_eq; [exact H|reorder].
Qed.
Lemma out_own F vs parent t s s' a b ok : Own F vs s -> parent <= 2 -> setup_out parent t s = (s', a, b, ok) -> (forall x, In x (native_out t) -> 2 < x /\ cn x (given s) < cn x F) ->
  Own F (a :: b :: vs) s' /\ (given s' = native_out t ++ given s \/ ok = false /\ given s' = given s) /\
  (leaked s' = leaked s \/ ok = false /\ t = ToFile /\ exists f, leaked s' = f :: leaked s) /\ (ok = true -> 2 < a).
Proof.
  intros H LP E N. unfold setup_out in E. destruct (pipe s) as [s1 [[p q]|]] eqn:P; destruct (pipe_own _ _ _ _ _ H P) as [[K1 K2] H1].
  2:{ inversion E; subst. split; [eapply Own_eq; [exact H1|reorder]|]. split; [right; auto|split; [left; auto|discriminate]]. }
  destruct H1 as (H1 & L1 & L2 & _). destruct (calls 4 s1) as [s2 [|]] eqn:C; destruct (calls_own _ _ _ _ _ _ H1 C) as [H2 [K3 K4]].
  2:{ inversion E; subst. split; [exact H2|split; [right; split; congruence|split; [left; congruence|discriminate]]]. }
  assert (H3 : Own F (q :: p :: vs) s2) by (eapply Own_eq; [exact H2|reorder]).
  destruct (close_own _ _ _ _ H3) as [H4 [K5 K6]]. assert (AC : after_close q = -1) by (unfold after_close; destruct (Z.ltb_spec 2 q); [auto|lia]).
  destruct t as [| |p0 p1|]; cbn [native_out app] in *.
  - rewrite AC in E. destruct (open_file (close q s2)) as [s3 [f|]] eqn:O; destruct (open_own _ _ _ _ _ H4 O) as [[K7 K8] H5].
    + destruct H5 as [H5 L5]. destruct (call s3) as [s4 [|]] eqn:C2; destruct (call_own _ _ _ _ _ H5 C2) as [H6 [K9 K10]]; inversion E; subst.
      * split; [eapply Own_eq; [exact H6|reorder]|]. split; [left; congruence|split; [left; congruence|auto]].
      * split; [eapply Own_eq; [apply forget_own; [exact H6|exact L5]|reorder]|]. split; [left; cbn; congruence|split; [right; split; [auto|split; [auto|exists f; cbn; congruence]]|discriminate]].
    + inversion E; subst. split; [eapply Own_eq; [exact H5|reorder]|]. split; [left; congruence|split; [left; congruence|discriminate]].
  - inversion E; subst. split; [|split; [left; congruence|split; [left; congruence|auto]]]. eapply Own_eq; [exact H4|]. intros x. cbn [cs]. destruct (Z.ltb_spec 2 b); [lia|]. cbn [andb]. lia.
  - rewrite AC in E. destruct (calls 2 (close q s2)) as [s3 [|]] eqn:C2; destruct (calls_own _ _ _ _ _ _ H4 C2) as [H5 [K7 K8]]; inversion E; subst.
    + destruct (N b (or_introl eq_refl)) as [L G]. split; [eapply Own_eq; [apply give_own; [exact H5|exact L|replace (given s3) with (given s) by congruence; exact G]|reorder]|].
      split; [left; cbn; congruence|split; [left; cbn; congruence|auto]].
    + split; [eapply Own_eq; [exact H5|reorder]|]. split; [right; split; congruence|split; [left; congruence|discriminate]].
  - inversion E; subst. split; [exact H2|split; [left; congruence|split; [left; congruence|auto]]].
Qed.

Lemma create_own F vs ci co ce s s' kd ok : Own F vs s -> create ci co ce s = (s', kd, ok) -> Own F vs s' /\ keeps s s' /\ (ok = true -> kd = Child ci co ce).
Proof.
  intros H E. unfold create in E.
  destruct (pipe s) as [s1 [[e0 e1]|]] eqn:P1; destruct (pipe_own _ _ _ _ _ H P1) as [K1 H1]; [destruct H1 as [H1 _]|inversion E; subst; split; [exact H1|split; [exact K1|discriminate]]].
  destruct (pipe s1) as [s2 [[g0 g1]|]] eqn:P2; destruct (pipe_own _ _ _ _ _ H1 P2) as [K2 H2]; [destruct H2 as [H2 _]|].
  2:{ inversion E; subst. destruct (close_own _ _ _ _ H2) as [A1 A2]. destruct (close_own _ _ _ _ A1) as [B1 B2]. split; [exact B1|split; [|discriminate]]. eauto using keeps_trans. }
  assert (CC : forall z, Own F (g0 :: g1 :: e0 :: e1 :: vs) z -> Own F vs (close g1 (close g0 (close e1 (close e0 z)))) /\ keeps z (close g1 (close g0 (close e1 (close e0 z))))).
  { intros z Hz. assert (Hz1 : Own F (e0 :: e1 :: g0 :: g1 :: vs) z) by (eapply Own_eq; [exact Hz|reorder]).
    destruct (close_own _ _ _ _ Hz1) as [A1 A2]. destruct (close_own _ _ _ _ A1) as [B1 B2]. destruct (close_own _ _ _ _ B1) as [C1 C2]. destruct (close_own _ _ _ _ C1) as [D1 D2]. split; [exact D1|]. eauto using keeps_trans. }
  destruct (calls 3 s2) as [s3 [|]] eqn:C3; destruct (calls_own _ _ _ _ _ _ H2 C3) as [H3 K3].
  2:{ inversion E; subst. destruct (CC _ H3) as [A B]. split; [exact A|split; [eauto using keeps_trans|discriminate]]. }
  destruct (fork s3) as [s4 [|]] eqn:C4; destruct (fork_own _ _ _ _ _ H3 C4) as [H4 K4].
  2:{ inversion E; subst. destruct (CC _ H4) as [A B]. split; [exact A|split; [eauto using keeps_trans|discriminate]]. }
  assert (H5 : Own F (e1 :: g1 :: g0 :: e0 :: vs) s4) by (eapply Own_eq; [exact H4|reorder]).
  destruct (close_own _ _ _ _ H5) as [H6 K6]. destruct (close_own _ _ _ _ H6) as [H7 K7].
  destruct (call (close g1 (close e1 s4))) as [s5 [|]] eqn:C5; destruct (call_own _ _ _ _ _ H7 C5) as [H8 K8]; [|inversion E; subst; assert (H9 : Own F (e0 :: g0 :: vs) s5) by (eapply Own_eq; [exact H8|reorder])].
  2:{ destruct (close_own _ _ _ _ H9) as [A1 A2]. destruct (close_own _ _ _ _ A1) as [B1 B2]. split; [exact B1|split; [|discriminate]]. eauto 10 using keeps_trans. }
  destruct (close_own _ _ _ _ H8) as [H9 K9].
  destruct (call (close g0 s5)) as [s6 [|]] eqn:C6; destruct (call_own _ _ _ _ _ H9 C6) as [H10 K10].
  2:{ inversion E; subst. destruct (close_own _ _ _ _ H10) as [A1 A2]. split; [exact A1|split; [|discriminate]]. eauto 10 using keeps_trans. }
  destruct (call s6) as [s7 o] eqn:C7; destruct (call_own _ _ _ _ _ H10 C7) as [H11 K11]. inversion E; subst. destruct (close_own _ _ _ _ H11) as [A1 A2]. split; [exact A1|split; [|auto]]. eauto 12 using keeps_trans.
Qed.
Lemma own_in F vs v s : Own F vs s -> In v vs -> 2 < v -> In v (fds s).
Proof.
  intros (A & B & C) I L. apply in_cn. specialize (B v). specialize (C v). pose proof (cn_pos v (leaked s)).
  assert (0 < cs v vs); [|lia]. clear - I L. induction vs as [|w vs IH]; [destruct I|]. cbn [cs]. pose proof (cs_pos v vs). destruct I as [->|I].
  - rewrite Z.eqb_refl. destruct (Z.ltb_spec 2 v); [cbn [andb]; lia|lia].
  - specialize (IH I). destruct ((2 <? w) && Z.eqb v w); lia.
Qed.
Lemma fresh_ne F vs v a s : Own F vs s -> In v vs -> 2 < a -> ~ In a (fds s) -> a <> v.
Proof. intros H I L N ->. apply N. eapply own_in; eauto. Qed.
Definition held (F V : list Z) (c : cp) (next : Z) (s : os) : Prop := next = c_in c /\ Own F V s \/ next <> c_in c /\ Own F (next :: V) s.
Lemma held_close F V c next s : held F V c next s -> Own F V (close_unless next (c_in c) s) /\ keeps s (close_unless next (c_in c) s).
Proof.
  unfold close_unless. intros [[-> H]|[N H]]; [rewrite Z.eqb_refl; split; [exact H|apply keeps_refl]|]. apply Z.eqb_neq in N. rewrite N. apply close_own. exact H.
Qed.
Lemma held_mono F V W c next s s' : held F V c next s -> (forall X, Own F (X ++ V) s -> Own F (X ++ W) s') -> held F W c next s'.
Proof. intros [[E H]|[N H]] K; [left; split; auto; apply (K []); exact H|right; split; auto; apply (K [next]); exact H]. Qed.
Lemma held_none F V c s : Own F V s -> held F V c (-1) s.
Proof. intros H. destruct (Z.eq_dec (-1) (c_in c)) as [E|N]; [left; auto|right; split; [auto|]]. eapply Own_eq; [exact H|reorder]. Qed.
Lemma loop_own F V m c : In (c_in c) V -> In (c_out c) V -> In (c_err c) V -> forall k next s s' ks ok,
  (k = O -> Own F V s) -> (k <> O -> held F V c next s) -> commands_loop k next m c s = (s', ks, ok) ->
  Own F V s' /\ keeps s s' /\ (ok = true -> length ks = k /\ Forall (fun x => is_child x = true) ks).
Proof.
  intros Ii Io Ie. induction k as [|k IH]; intros next s s' ks ok H0 H E.
  { cbn in E. inversion E; subst. split; [auto|split; [apply keeps_refl|auto]]. }
  specialize (H (Nat.neq_succ_0 k)). clear H0. cbn [commands_loop] in E.
  match type of E with match ?M with _ => _ end = _ => destruct M as [s1 mid] eqn:M1 end.
  assert (G : match mid with
    | None => Own F V s1 /\ keeps s s1
    | Some (nx, so) => keeps s s1 /\ (nx = -1 /\ k = O /\ so = c_out c /\ held F V c next s1 \/ nx <> c_in c /\ so <> c_out c /\ held F (so :: nx :: V) c next s1) end).
  { destruct k as [|k'].
    - inversion M1; subst. split; [apply keeps_refl|left; auto].
    - assert (PO : forall X, Own F (X ++ V) s -> forall s2 r, pipe s = (s2, r) -> keeps s s2 /\ match r with Some (a, b) => Own F (a :: b :: X ++ V) s2 /\ 2 < a /\ 2 < b /\ a <> b /\ ~ In a (fds s) /\ ~ In b (fds s) | None => Own F (X ++ V) s2 end) by (intros; eapply pipe_own; eauto).
      destruct (pipe s) as [s2 [[a b]|]] eqn:P.
      + assert (H2 : held F (a :: b :: V) c next s2).
        { eapply held_mono; [exact H|]. intros X HX. destruct (PO X HX _ _ eq_refl) as [_ [Y _]]. eapply Own_eq; [exact Y|]. intros x. cbn [cs]. rewrite !cs_app. cbn [cs]. lia. }
        assert (NE : a <> c_in c /\ b <> c_out c /\ keeps s s2).
        { assert (Z0 : exists X, Own F (X ++ V) s) by (destruct H as [[_ H]|[_ H]]; [exists []; exact H|exists [next]; exact H]). destruct Z0 as [X HX].
          destruct (PO X HX _ _ eq_refl) as [K2 (_ & L1 & L2 & _ & F1 & F2)]. split; [|split; [|exact K2]]; (eapply fresh_ne; [exact HX| |exact L1 || exact L2|exact F1 || exact F2]; apply in_or_app; auto). }
        destruct NE as (N1 & N2 & K2).
        destruct (calls 2 s2) as [s3 [|]] eqn:C2.
        * inversion M1; subst. assert (K3 : keeps s2 s1) by (destruct H2 as [[_ Y]|[_ Y]]; destruct (calls_own _ _ _ _ _ _ Y C2); auto).
          split; [eapply keeps_trans; eauto|]. right. split; [exact N1|split; [exact N2|]]. eapply held_mono; [exact H2|]. intros X HX. destruct (calls_own _ _ _ _ _ _ HX C2) as [Y _]. eapply Own_eq; [exact Y|]. intros x. rewrite !cs_app. cbn [cs]. lia.
        * inversion M1; subst.
          assert (K3 : keeps s2 s3) by (destruct H2 as [[_ Y]|[_ Y]]; destruct (calls_own _ _ _ _ _ _ Y C2); auto).
          assert (H3 : held F V c next (close b (close a s3)) /\ keeps s3 (close b (close a s3))).
          { assert (Q : forall X, Own F (X ++ a :: b :: V) s2 -> Own F (X ++ V) (close b (close a s3)) /\ keeps s3 (close b (close a s3))).
            { intros X HX. destruct (calls_own _ _ _ _ _ _ HX C2) as [Y _]. assert (Y1 : Own F (a :: b :: X ++ V) s3) by (eapply Own_eq; [exact Y|]; intros x; cbn [cs]; rewrite !cs_app; cbn [cs]; lia).
              destruct (close_own _ _ _ _ Y1) as [Y2 Y3]. destruct (close_own _ _ _ _ Y2) as [Y4 Y5]. split; [exact Y4|eapply keeps_trans; eauto]. }
            split; [eapply held_mono; [exact H2|]; intros X HX; apply Q; exact HX|]. destruct H2 as [[_ Y]|[_ Y]]; [apply (Q []); exact Y|apply (Q [next]); exact Y]. }
          destruct H3 as [H3 K4]. destruct (held_close _ _ _ _ _ H3) as [H4 K5]. split; [exact H4|]. eauto using keeps_trans.
      + inversion M1; subst. assert (H2 : held F V c next s2) by (eapply held_mono; [exact H|]; intros X HX; apply (PO X HX _ _ eq_refl)).
        destruct (held_close _ _ _ _ _ H2) as [H4 K5]. split; [exact H4|]. destruct H as [[_ Y]|[_ Y]]; destruct (PO [] Y _ _ eq_refl) || destruct (PO [next] Y _ _ eq_refl); eauto using keeps_trans. }
  destruct mid as [[nx so]|].
  2:{ inversion E; subst. destruct G as [G1 G2]. split; [exact G1|split; [exact G2|discriminate]]. }
  destruct G as [K1 G]. destruct (create next so (if m then c_out c else c_err c) s1) as [[s2 kd] res] eqn:Cr.
  set (s3 := close_unless next (c_in c) s2) in *. set (s4 := close_unless so (c_out c) s3) in *.
  set (s5 := if m then s4 else close_unless (if m then c_out c else c_err c) (c_err c) s4) in *.
  assert (E5 : s5 = s4) by (unfold s5; destruct m; auto; unfold close_unless; rewrite Z.eqb_refl; auto).
  assert (R : keeps s1 s5 /\ (k = O -> Own F V s5) /\ held F V c nx s5 /\ (res = true -> kd = Child next so (if m then c_out c else c_err c))).
  { rewrite E5. destruct G as [(-> & -> & -> & G)|(N1 & N2 & G)].
    - assert (Q : held F V c next s2 /\ keeps s1 s2 /\ (res = true -> kd = Child next (c_out c) (if m then c_out c else c_err c))).
      { destruct G as [[X Y]|[X Y]]; destruct (create_own _ _ _ _ _ _ _ _ _ Y Cr) as (Y1 & Y2 & Y3); (split; [|auto]); [left|right]; auto. }
      destruct Q as (Q1 & Q2 & Q3). destruct (held_close _ _ _ _ _ Q1) as [Q4 Q5]. fold s3 in Q4, Q5. assert (E4 : s4 = s3) by (unfold s4, close_unless; rewrite Z.eqb_refl; auto). rewrite E4.
      split; [eapply keeps_trans; eauto|split; [auto|split; [apply held_none; exact Q4|exact Q3]]].
    - assert (Q : held F (so :: nx :: V) c next s2 /\ keeps s1 s2 /\ (res = true -> kd = Child next so (if m then c_out c else c_err c))).
      { destruct G as [[X Y]|[X Y]]; destruct (create_own _ _ _ _ _ _ _ _ _ Y Cr) as (Y1 & Y2 & Y3); (split; [|auto]); [left|right]; auto. }
      destruct Q as (Q1 & Q2 & Q3). destruct (held_close _ _ _ _ _ Q1) as [Q4 Q5]. fold s3 in Q4, Q5.
      assert (E4 : s4 = close so s3) by (unfold s4, close_unless; apply Z.eqb_neq in N2; rewrite N2; auto). rewrite E4. destruct (close_own _ _ _ _ Q4) as [Q6 Q7].
      split; [eauto using keeps_trans|split; [|split; [right; auto|exact Q3]]]. intros ->. exfalso.
      inversion M1; subst. congruence. }
  destruct R as (K5 & R0 & R1 & R2). destruct res.
  - destruct (commands_loop k nx m c s5) as [[s6 ks'] ok'] eqn:L. inversion E; subst.
    destruct (IH _ _ _ _ _ R0 (fun _ => R1) L) as (A & B & C). split; [exact A|split; [eauto using keeps_trans|]]. intros X. destruct (C X) as [C1 C2]. rewrite (R2 eq_refl). cbn [length]. auto.
  - inversion E; subst. destruct (held_close _ _ _ _ _ R1) as [A B]. split; [exact A|split; [eauto using keeps_trans|discriminate]].
Qed.

Lemma cleanup_own F s c vs : Own F vs s -> (forall x, cs x vs = cs x [sg c; r_out c; r_err c; r_sig c; c_in c; c_out c; c_err c]) -> Own F [] (cleanup_fds s c) /\ keeps s (cleanup_fds s c).
Proof.
  intros H E. assert (H0 := Own_eq _ _ _ _ H E). unfold cleanup_fds.
  destruct (close_own _ _ _ _ H0) as [H1 K1]. destruct (close_own _ _ _ _ H1) as [H2 K2]. destruct (close_own _ _ _ _ H2) as [H3 K3]. destruct (close_own _ _ _ _ H3) as [H4 K4].
  destruct (close_own _ _ _ _ H4) as [H5 K5]. destruct (close_own _ _ _ _ H5) as [H6 K6]. destruct (close_own _ _ _ _ H6) as [H7 K7]. split; [exact H7|]. eauto 12 using keeps_trans.
Qed.
Lemma killing_minus ks : In Everybody (killing ks) <-> In MinusOne ks.
Proof.
  induction ks as [|k ks IH]; [reflexivity|]. unfold killing in *. cbn [flat_map]. rewrite in_app_iff, IH. cbn [In]. destruct k; cbn; intuition congruence.
Qed.
Lemma killing_children ks : length (filter is_one (killing ks)) = length (filter is_child ks).
Proof. induction ks as [|k ks IH]; auto. unfold killing in *. cbn [flat_map]. destruct k; cbn [app filter is_one is_child length]; auto. Qed.

Definition clean (g : config) (s s' : os) : Prop :=
  bad s' = 0%nat /\ incl (given s') (natives g) /\ Permutation (fds s' ++ given s') (leaked s' ++ fds s) /\
  (length (leaked s') <= 1)%nat /\ (leaked s' <> [] -> t_out g = ToFile \/ t_err g = ToFile).
Lemma clean_intro g s s' : Own (fds s) [] s' -> incl (given s') (natives g) -> (leaked s' = [] \/ (t_out g = ToFile \/ t_err g = ToFile) /\ exists f, leaked s' = [f]) -> clean g s s'.
Proof.
  intros (A & B & C) I L. split; [exact A|split; [exact I|split; [|split]]].
  - apply cn_perm. intros x. rewrite !cn_app. specialize (B x). cbn [cs] in B. lia.
  - destruct L as [L|[_ (f & L)]]; rewrite L; cbn; lia.
  - intros N. destruct L as [L|[L _]]; [congruence|exact L].
Qed.

Lemma execute_spec g s s' c r : usable g s -> execute g s = (s', c, r) ->
  match r with
  | NotStarted => fds s' = fds s /\ bad s' = 0%nat /\ given s' = [] /\ leaked s' = []
  | Failed ks done => clean g s s' /\ done = killing ks
  | Running ks => length ks = commands g /\ Forall (fun x => is_child x = true) ks /\ commands g <> O /\ Own (fds s) (ends c) s' /\ Permutation (given s') (natives g) /\ leaked s' = [] /\ Forall (fun v => 2 < v) (ends c) /\ Forall (fun v => v <= 2) [c_in c; c_out c; c_err c]
  end.
Proof.
  intros (ND & NI & B0 & G0 & L0) E.
  assert (O0 : Own (fds s) [] s). { split; [exact B0|split]; intros x; rewrite G0, ?L0; cbn [cn cs]; pose proof (cn_pos x (fds s)); lia. }
  unfold natives in ND. assert (ND2 : NoDup (native_out (t_out g) ++ native_out (t_err g))) by (revert ND; generalize (native_in (t_in g)); clear; intros l; induction l as [|y l IH]; intros N; [exact N|inversion N; auto]).
  assert (X1 : forall x, In x (native_in (t_in g)) -> 2 < x /\ cn x (given s) < cn x (fds s)).
  { intros x I. destruct (NI x) as [L J]; [apply in_or_app; auto|]. split; [exact L|]. rewrite G0. cbn [cn]. apply in_cn. exact J. }
  assert (DJ : forall (l r : list Z), NoDup (l ++ r) -> forall x, In x r -> cn x l = 0).
  { clear. intros l r N x I. pose proof (cn_pos x l). assert (~ 0 < cn x l); [|lia]. rewrite <- in_cn. intros J. induction l as [|y l IH]; [destruct J|]. cbn in N. inversion N; subst. destruct J as [->|J]; [apply H2; apply in_or_app; auto|].
    apply IH; auto. apply cn_pos. }
  assert (X2 : forall x, In x (native_out (t_out g)) -> 2 < x /\ cn x (native_in (t_in g)) < cn x (fds s)).
  { intros x I. destruct (NI x) as [L J]; [unfold natives; rewrite !in_app_iff; auto|]. split; [exact L|]. rewrite (DJ _ _ ND x) by (apply in_or_app; auto). apply in_cn. exact J. }
  assert (X3 : forall x, In x (native_out (t_err g)) -> 2 < x /\ cn x (native_out (t_out g) ++ native_in (t_in g)) < cn x (fds s)).
  { intros x I. destruct (NI x) as [L J]; [unfold natives; rewrite !in_app_iff; auto|]. split; [exact L|]. rewrite cn_app, (DJ _ _ ND2 x I), (DJ _ _ ND x) by (apply in_or_app; auto). apply in_cn. exact J. }
  unfold execute in E. destruct (commands g) as [|n] eqn:CG; [inversion E; subst; auto|]. rewrite <- CG in *.
  assert (CN : commands g <> O) by congruence. clear CG n.
  destruct (calls (if workdir g then 3 else 2) s) as [s1 [|]] eqn:C1; destruct (calls_own _ _ _ _ _ _ O0 C1) as [O1 [K1 K1']].
  2:{ inversion E; subst. assert (FF : forall n s s' o, calls n s = (s', o) -> fds s' = fds s /\ bad s' = bad s).
      { induction n as [|n IH]; intros a b o H; cbn [calls] in H; [inversion H; auto|]. unfold call in H. destruct (match answers a with Ok _ _ :: _ => true | _ => false end); [apply IH in H; exact H|inversion H; subst; auto]. }
      destruct (FF _ _ _ _ C1). split; [auto|split; [congruence|split; congruence]]. }
  destruct (calls (if workdir g then 2 else 0) s1) as [s2 [|]] eqn:C2; destruct (calls_own _ _ _ _ _ _ O1 C2) as [O2 [K2 K2']].
  2:{ inversion E; subst. split; [|reflexivity]. destruct (cleanup_own _ _ (Cp (-1) (-1) (-1) (-1) (-1) (-1) (-1)) _ O2 ltac:(intros x; reflexivity)) as [A [B C]].
      apply clean_intro; [exact A|rewrite B, K2, K1, G0; intros z []|left; congruence]. }
  destruct (processes_add s2 (Cp (-1) (-1) (-1) (-1) (-1) (-1) (-1))) as [[s3 c3] [|]] eqn:C3; destruct (add_own _ _ _ _ _ _ O2 eq_refl C3) as ([K3 K3'] & O3 & E3 & P3).
  2:{ inversion E; subst. split; [|reflexivity]. destruct (cleanup_own _ _ c _ O3 ltac:(intros x; rewrite E3; cbn [cs sg r_out r_err r_sig c_in c_out c_err]; change (2 <? -1) with false; cbn [andb]; lia)) as [A [B C]].
      apply clean_intro; [exact A|rewrite B, K3, K2, K1, G0; intros z []|left; congruence]. }
  destruct (P3 eq_refl) as [P3a P3b]. clear P3.
  assert (G3 : given s3 = given s) by congruence. assert (L3 : leaked s3 = []) by congruence.
  destruct (setup_in (t_in g) s3 c3) as [[s4 c4] ok4] eqn:C4. rewrite <- G3 in X1. destruct (in_own _ _ _ _ _ _ _ _ O3 C4 X1) as (K4 & G4 & O4 & E4).
  rewrite G3, G0, app_nil_r in G4.
  assert (I4 : c4 = Cp (-1) (-1) (r_sig c4) (c_in c4) (-1) (-1) (sg c4) /\ r_sig c4 = r_sig c3 /\ sg c4 = sg c3) by (rewrite E4, E3; cbn; auto).
  destruct I4 as (I4 & I4a & I4b). rewrite <- I4a, <- I4b in O4.
  destruct ok4.
  2:{ inversion E; subst s' c r. split; [|reflexivity]. destruct (cleanup_own _ _ c4 _ O4 ltac:(intros x; rewrite I4; cbn [cs sg r_out r_err r_sig c_in c_out c_err]; change (2 <? -1) with false; cbn [andb]; lia)) as [A [B C]].
      apply clean_intro; [exact A|rewrite B, G4; unfold natives; apply incl_appl, incl_refl|left; congruence]. }
  unfold setup_stdout in E. destruct (setup_out 1 (t_out g) s4) as [[[s5 a5] b5] ok5] eqn:C5. rewrite <- G4 in X2.
  destruct (out_own _ _ 1 _ _ _ _ _ _ O4 ltac:(lia) C5 X2) as (O5 & G5 & L5 & P5). rewrite K4, L3 in L5. rewrite G4 in G5.
  set (c5 := Cp a5 (r_err c4) (r_sig c4) (c_in c4) b5 (c_err c4) (sg c4)) in *.
  assert (V5 : forall x, cs x (a5 :: b5 :: c_in c4 :: r_sig c4 :: sg c4 :: []) = cs x [sg c5; r_out c5; r_err c5; r_sig c5; c_in c5; c_out c5; c_err c5]).
  { intros x. unfold c5. rewrite I4. cbn [cs sg r_out r_err r_sig c_in c_out c_err]. change (2 <? -1) with false. cbn [andb]. lia. }
  destruct ok5.
  2:{ inversion E; subst s' c r. split; [|reflexivity]. destruct (cleanup_own _ _ c5 _ O5 V5) as [A [B C]]. apply clean_intro; [exact A| |].
      - rewrite B. destruct G5 as [->|[_ ->]]; unfold natives; intros z Z; rewrite ?in_app_iff in *; tauto.
      - rewrite C. destruct L5 as [->|(_ & T & f & ->)]; eauto. }
  destruct G5 as [G5|[G5 _]]; [|discriminate]. destruct L5 as [L5|[L5 _]]; [|discriminate]. specialize (P5 eq_refl).
  unfold setup_stderr in E. destruct (setup_out 2 (t_err g) s5) as [[[s6 a6] b6] ok6] eqn:C6. rewrite <- G5 in X3.
  destruct (out_own _ _ 2 _ _ _ _ _ _ O5 ltac:(lia) C6 X3) as (O6 & G6 & L6 & P6). rewrite L5 in L6. rewrite G5 in G6.
  set (c6 := Cp (r_out c5) a6 (r_sig c5) (c_in c5) (c_out c5) b6 (sg c5)) in *.
  assert (V6 : forall x, cs x (a6 :: b6 :: a5 :: b5 :: c_in c4 :: r_sig c4 :: sg c4 :: []) = cs x [sg c6; r_out c6; r_err c6; r_sig c6; c_in c6; c_out c6; c_err c6]).
  { intros x. unfold c6, c5. cbn [cs sg r_out r_err r_sig c_in c_out c_err]. lia. }
  destruct ok6.
  2:{ inversion E; subst s' c r. split; [|reflexivity]. destruct (cleanup_own _ _ c6 _ O6 V6) as [A [B C]]. apply clean_intro; [exact A| |].
      - rewrite B. destruct G6 as [->|[_ ->]]; unfold natives; intros z Z; rewrite ?in_app_iff in *; tauto.
      - rewrite C. destruct L6 as [->|(_ & T & f & ->)]; eauto. }
  destruct G6 as [G6|[G6 _]]; [|discriminate]. destruct L6 as [L6|[L6 _]]; [|discriminate]. specialize (P6 eq_refl).
  assert (O6' := Own_eq _ _ _ _ O6 V6).
  assert (GP : Permutation (given s6) (natives g)).
  { rewrite G6. unfold natives. rewrite Permutation_app_comm, <- app_assoc. rewrite Permutation_app_comm, <- app_assoc. rewrite (Permutation_app_comm (native_in _)), <- !app_assoc.
    apply cn_perm. intros x. rewrite !cn_app. lia. }
  destruct (commands_loop (commands g) (c_in c6) (merge g) c6 s6) as [[s7 ks] ok7] eqn:C7.
  destruct (loop_own (fds s) [sg c6; r_out c6; r_err c6; r_sig c6; c_in c6; c_out c6; c_err c6] (merge g) c6) with (k := commands g) (next := c_in c6) (s := s6) (s' := s7) (ks := ks) (ok := ok7) as (O7 & [K7 K7'] & R7); auto; try (cbn; tauto).
  { intros _. left. auto. }
  destruct ok7; inversion E; subst s' c r.
  - destruct (R7 eq_refl) as [R8 R9]. split; [exact R8|split; [exact R9|split; [exact CN|]]]. 
    assert (O8 : Own (fds s) (c_in c6 :: c_out c6 :: c_err c6 :: [r_out c6; r_err c6; r_sig c6; sg c6]) s7) by (eapply Own_eq; [exact O7|intros x; cbn [cs]; lia]).
    destruct (close_own _ _ _ _ O8) as [O9 [K9 K9']]. destruct (close_own _ _ _ _ O9) as [O10 [K10 K10']]. destruct (close_own _ _ _ _ O10) as [O11 [K11 K11']].
    split; [exact O11|split; [|split; [|]]]; [assert (GG : given (close (c_err c6) (close (c_out c6) (close (c_in c6) s7))) = given s6) by congruence; apply (eq_ind_r (fun z => Permutation z (natives g)) GP GG)|etransitivity; [exact K11'|congruence]|]. unfold ends. cbn [r_out r_err r_sig sg c_in c_out c_err].
    assert (AC : forall v, after_close v <= 2) by (intros v; unfold after_close; destruct (Z.ltb_spec 2 v); lia).
    split; repeat constructor; auto; unfold c6, c5; cbn [r_out r_err r_sig sg]; lia.
  - split; [|reflexivity]. destruct (cleanup_own _ _ c6 _ O7 ltac:(reflexivity)) as [A [B C]]. apply clean_intro; [exact A| |left; congruence].
    rewrite B, K7. intros z Z. eapply Permutation_in; eauto.
Qed.

Theorem C140_execute : forall g s s' c r, usable g s -> execute g s = (s', c, r) ->
  bad s' = 0%nat /\
  match r with
  | NotStarted => fds s' = fds s
  | Failed ks done =>
      incl (given s') (natives g) /\ Permutation (fds s' ++ given s') (leaked s' ++ fds s) /\
      (length (leaked s') <= 1)%nat /\ (leaked s' <> [] -> t_out g = ToFile \/ t_err g = ToFile) /\
      length (filter is_one done) = length (filter is_child ks) /\ (In Everybody done <-> In MinusOne ks)
  | Running ks => length ks = commands g /\ Forall (fun x => is_child x = true) ks /\ commands g <> O /\ Permutation (fds s' ++ natives g) (ends c ++ fds s) /\ Forall (fun v => 2 < v) (ends c)
  end.
Proof.
  intros g s s' c r U E. pose proof (execute_spec _ _ _ _ _ U E) as H. destruct r as [ks|ks done|].
  - destruct H as (A & A2 & B & (O1 & O2 & _) & G & L & F & _). split; [exact O1|]. split; [exact A|split; [exact A2|split; [exact B|split; [|exact F]]]].
    rewrite <- G. apply cn_perm. intros x. rewrite !cn_app. specialize (O2 x). rewrite L in O2. cbn [cn] in O2. rewrite O2. 
    assert (X : forall l, Forall (fun v => 2 < v) l -> cs x l = cn x l). { clear. induction 1 as [|v l H F IH]; auto. cbn [cs cn]. rewrite IH. destruct (Z.ltb_spec 2 v); [reflexivity|lia]. }
    rewrite (X _ F). lia.
  - destruct H as ((C1 & C2 & C3 & C4 & C5) & ->). split; [exact C1|]. split; [exact C2|split; [exact C3|split; [exact C4|split; [exact C5|split; [apply killing_children|apply killing_minus]]]]].
  - destruct H as (A & B & _). auto.
Qed.
(** From the start to the end: what WaitForExit and Kill close (C139, Cleanup). *)
Theorem C140_lifetime : forall g s s' c ks, usable g s -> execute g s = (s', c, Running ks) ->
  bad (cleanup_fds s' c) = 0%nat /\ Permutation (fds (cleanup_fds s' c) ++ natives g) (fds s).
Proof.
  intros g s s' c ks U E. destruct (execute_spec _ _ _ _ _ U E) as (_ & _ & _ & O & G & L & _ & F).
  assert (V : forall x, cs x (ends c) = cs x [sg c; r_out c; r_err c; r_sig c; c_in c; c_out c; c_err c]).
  { intros x. unfold ends. cbn [cs]. inversion F as [|? ? F1 F2]; subst. inversion F2 as [|? ? F3 F4]; subst. inversion F4 as [|? ? F5 _]; subst.
    destruct (Z.ltb_spec 2 (c_in c)); [lia|]. destruct (Z.ltb_spec 2 (c_out c)); [lia|]. destruct (Z.ltb_spec 2 (c_err c)); [lia|]. cbn [andb]. lia. }
  destruct (cleanup_own _ _ _ _ O V) as [(A & B & _) [K1 K2]]. split; [exact A|]. rewrite <- G. apply cn_perm. intros x. rewrite cn_app. specialize (B x). rewrite K1, K2, L in B. cbn [cn cs] in B. lia.
Qed.

(** The pipeline. *)
Lemma calls_made n : forall s s' o, calls n s = (s', o) -> made s' = made s.
Proof. induction n as [|n IH]; intros s s' o H; cbn [calls] in H; [inversion H; auto|]. unfold call in H. destruct (match answers s with Ok _ _ :: _ => true | _ => false end); [apply IH in H; exact H|inversion H; subst; auto]. Qed.
Lemma call_made s s' o : call s = (s', o) -> made s' = made s.
Proof. unfold call. intros H. inversion H; subst. reflexivity. Qed.
Lemma fork_made s s' o : fork s = (s', o) -> made s' = made s.
Proof. unfold fork. intros H. destruct (call s) as [s1 [|]] eqn:C; apply call_made in C; inversion H; subst; exact C. Qed.
Lemma close_made v s : made (close v s) = made s.
Proof. unfold close. destruct (2 <? v); auto. destruct (mem v (fds s)); auto. Qed.
Lemma unless_made v w s : made (close_unless v w s) = made s.
Proof. unfold close_unless. destruct (v =? w); auto using close_made. Qed.
Lemma pipe_made s s' r : pipe s = (s', r) -> incl (made s) (made s') /\ match r with Some (a, b) => In (a, b) (made s') /\ 2 < a | None => True end.
Proof.
  unfold pipe. intros H. destruct (answers s) as [|[a b|] l]; try (inversion H; subst; split; [intros x X; exact X|exact I]).
  destruct (2 <? a) eqn:A; cbn [andb] in H; [|inversion H; subst; split; [intros x X; exact X|exact I]].
  match type of H with (if ?b then _ else _) = _ => destruct b end; inversion H; subst; (split; [|]); cbn [made]; try (intros x X; cbn; auto; fail); auto.
  split; [left; reflexivity|apply Z.ltb_lt; exact A].
Qed.
Lemma create_made i o e s s' kd ok : create i o e s = (s', kd, ok) -> incl (made s) (made s') /\ (ok = true -> kd = Child i o e).
Proof.
  unfold create. intros E.
  destruct (pipe s) as [s1 [[e0 e1]|]] eqn:P1; destruct (pipe_made _ _ _ P1) as [M1 _]; [|inversion E; subst; split; [exact M1|discriminate]].
  destruct (pipe s1) as [s2 [[g0 g1]|]] eqn:P2; destruct (pipe_made _ _ _ P2) as [M2 _]; [|inversion E; subst; rewrite !close_made; split; [eapply incl_tran; eauto|discriminate]].
  assert (M : incl (made s) (made s2)) by (eapply incl_tran; eauto). clear M1 M2 P1 P2.
  destruct (calls 3 s2) as [s3 [|]] eqn:C3; apply calls_made in C3; [|inversion E; subst; rewrite !close_made, C3; split; [auto|discriminate]].
  destruct (fork s3) as [s4 [|]] eqn:C4; apply fork_made in C4; [|inversion E; subst; rewrite !close_made, C4, C3; split; [auto|discriminate]].
  destruct (call (close g1 (close e1 s4))) as [s5 [|]] eqn:C5; apply call_made in C5; rewrite !close_made in C5; [|inversion E; subst; rewrite !close_made, C5, C4, C3; split; [auto|discriminate]].
  destruct (call (close g0 s5)) as [s6 [|]] eqn:C6; apply call_made in C6; rewrite !close_made in C6; [|inversion E; subst; rewrite !close_made, C6, C5, C4, C3; split; [auto|discriminate]].
  destruct (call s6) as [s7 q] eqn:C7; apply call_made in C7. inversion E; subst. rewrite !close_made, C7, C6, C5, C4, C3. auto.
Qed.
Lemma wired_mono p q first last err ks : incl p q -> wired p first last err ks -> wired q first last err ks.
Proof.
  intros I. revert first. induction ks as [|[|i o e|] ks IH]; intros first H; cbn in *; try contradiction. destruct ks as [|k ks]; [exact H|].
  destruct H as (A & B & a & C & D). split; [auto|split; [auto|]]. exists a. auto.
Qed.
Lemma loop_wired m c : forall k next s s' ks, commands_loop (S k) next m c s = (s', ks, true) ->
  incl (made s) (made s') /\ wired (made s') next (c_out c) (if m then c_out c else c_err c) ks.
Proof.
  induction k as [|k IH]; intros next s s' ks E.
  - cbn [commands_loop] in E. destruct (create next (c_out c) (if m then c_out c else c_err c) s) as [[s2 kd] res] eqn:Cr. destruct (create_made _ _ _ _ _ _ _ Cr) as [M D].
    destruct res; [|inversion E]. inversion E; subst. rewrite (D eq_refl). destruct m; rewrite ?unless_made; (split; [exact M|]); cbn; auto.
  - remember (S k) as k1 eqn:K1. cbn [commands_loop] in E. rewrite K1 in E at 1.
    destruct (pipe s) as [s1 [[a b]|]] eqn:P; [|inversion E]. destruct (pipe_made _ _ _ P) as [M1 [M2 _]].
    destruct (calls 2 s1) as [s2 [|]] eqn:C; [|inversion E]. apply calls_made in C.
    destruct (create next b (if m then c_out c else c_err c) s2) as [[s3 kd] res] eqn:Cr. destruct (create_made _ _ _ _ _ _ _ Cr) as [M D].
    destruct res; [|inversion E]. 
    match type of E with context [commands_loop k1 a m c ?z] => set (s4 := z) in E; assert (M4 : made s4 = made s3) by (unfold s4; destruct m; rewrite ?unless_made; reflexivity) end. clearbody s4.
    destruct (commands_loop k1 a m c s4) as [[s5 ks2] ok] eqn:L. inversion E; subst s' ks ok. subst k1. apply IH in L. destruct L as [L1 L2]. rewrite M4 in L1.
    split; [rewrite C in M; eauto 6 using incl_tran|]. rewrite (D eq_refl). cbn [wired]. destruct ks2 as [|k2 ks2]; [destruct L2|].
    split; [auto|split; [auto|]]. exists a. split; [|exact L2]. apply L1, M. rewrite C. exact M2.
Qed.
Lemma out_wired parent t s s' a b : setup_out parent t s = (s', a, b, true) -> incl (made s) (made s') /\ out_ok (made s') parent t a b.
Proof.
  unfold setup_out. intros E. destruct (pipe s) as [s1 [[p q]|]] eqn:P; [|inversion E]. destruct (pipe_made _ _ _ P) as [M1 [M2 _]].
  destruct (calls 4 s1) as [s2 [|]] eqn:C; [|inversion E]. apply calls_made in C. destruct t; cbn [out_ok].
  - destruct (open_file (close q s2)) as [s3 [f|]] eqn:O; [|inversion E].
    assert (OF : made s3 = made (close q s2) /\ 2 < f). { unfold open_file in O. destruct (answers (close q s2)) as [|[x y|] l]; try (inversion O; fail). destruct (2 <? x) eqn:X; cbn [andb] in O; [|inversion O]. destruct (negb _); inversion O; subst. split; [reflexivity|apply Z.ltb_lt; exact X]. }
    destruct (call s3) as [s4 [|]] eqn:C2; [|inversion E]. apply call_made in C2. inversion E; subst. rewrite C2. destruct OF as [-> L]. rewrite close_made, C. auto.
  - inversion E; subst. rewrite close_made, C. auto.
  - destruct (calls 2 (close q s2)) as [s3 [|]] eqn:C2; [|inversion E]. apply calls_made in C2. rewrite close_made in C2. inversion E; subst. cbn [hand_over made]. rewrite C2, C. auto.
  - inversion E; subst. rewrite C. auto.
Qed.
Theorem C140_wiring : forall g s s' c ks, execute g s = (s', c, Running ks) ->
  exists i o e, in_ok (t_in g) i /\ out_ok (made s') 1 (t_out g) (r_out c) o /\ out_ok (made s') 2 (t_err g) (r_err c) e /\ wired (made s') i o (if merge g then o else e) ks.
Proof.
  intros g s s' c ks E. unfold execute in E. destruct (commands g) as [|n] eqn:CG; [inversion E|].
  destruct (calls (if workdir g then 3 else 2) s) as [s1 [|]] eqn:C1; [|inversion E].
  destruct (calls (if workdir g then 2 else 0) s1) as [s2 [|]] eqn:C2; [|inversion E].
  destruct (processes_add s2 (Cp (-1) (-1) (-1) (-1) (-1) (-1) (-1))) as [[s3 c3] [|]] eqn:C3; [|inversion E].
  destruct (setup_in (t_in g) s3 c3) as [[s4 c4] [|]] eqn:C4; [|inversion E].
  unfold setup_stdout in E. destruct (setup_out 1 (t_out g) s4) as [[[s5 a5] b5] [|]] eqn:C5; [|inversion E]. cbn [r_err r_sig c_in c_err sg] in E.
  unfold setup_stderr in E. destruct (setup_out 2 (t_err g) s5) as [[[s6 a6] b6] [|]] eqn:C6; [|inversion E]. cbn [r_out r_sig c_in c_out sg] in E.
  match type of E with context [commands_loop (S n) ?a ?b ?c0 ?d] => destruct (commands_loop (S n) a b c0 d) as [[s7 ks7] [|]] eqn:C7; [|inversion E] end.
  inversion E; subst. cbn [r_out r_err]. rewrite !close_made. destruct (out_wired _ _ _ _ _ _ C5) as [M5 W5]. destruct (out_wired _ _ _ _ _ _ C6) as [M6 W6].
  destruct (loop_wired _ _ _ _ _ _ _ C7) as [M7 W7]. cbn [c_out c_err] in W7.
  exists (c_in c4), b5, b6.
  assert (OM : forall p q parent t r v, incl p q -> out_ok p parent t r v -> out_ok q parent t r v) by (intros p q parent t r v I H; destruct t; cbn [out_ok] in *; auto).
  split; [|split; [eapply OM; [|exact W5]; eauto using incl_tran|split; [eapply OM; [|exact W6]; auto|exact W7]]].
  clear - C4. destruct (t_in g); cbn [setup_in] in C4.
  - destruct (open_file s3) as [z [f|]] eqn:O; [|inversion C4]. destruct (call z) as [z2 q]. inversion C4; subst. cbn.
    unfold open_file in O. destruct (answers s3) as [|[x y|] l]; try (inversion O; fail). destruct (2 <? x) eqn:X; cbn [andb] in O; [|inversion O]. destruct (negb _); inversion O; subst. apply Z.ltb_lt; exact X.
  - inversion C4; subst. reflexivity.
  - destruct (calls 2 (hand_over p0 s3)) as [z q]. inversion C4; subst. reflexivity.
  - inversion C4; subst. reflexivity.
Qed.

(** Every child that was started is known. *)
Lemma call_forks s s' o : call s = (s', o) -> forks s' = forks s.
Proof. unfold call. intros H. inversion H; subst. reflexivity. Qed.
Lemma calls_forks n : forall s s' o, calls n s = (s', o) -> forks s' = forks s.
Proof. induction n as [|n IH]; intros s s' o H; cbn [calls] in H; [inversion H; auto|]. destruct (call s) as [s1 [|]] eqn:C; apply call_forks in C; [apply IH in H; congruence|inversion H; subst; exact C]. Qed.
Lemma close_forks v s : forks (close v s) = forks s.
Proof. unfold close. destruct (2 <? v); auto. destruct (mem v (fds s)); auto. Qed.
Lemma unless_forks v w s : forks (close_unless v w s) = forks s.
Proof. unfold close_unless. destruct (v =? w); auto using close_forks. Qed.
Lemma pipe_forks s s' r : pipe s = (s', r) -> forks s' = forks s.
Proof. unfold pipe. intros H. destruct (answers s) as [|[a b|] l]; try (inversion H; subst; reflexivity). match type of H with (if ?b then _ else _) = _ => destruct b end; inversion H; subst; reflexivity. Qed.
Lemma open_forks s s' r : open_file s = (s', r) -> forks s' = forks s.
Proof. unfold open_file. intros H. destruct (answers s) as [|[a b|] l]; try (inversion H; subst; reflexivity). match type of H with (if ?b then _ else _) = _ => destruct b end; inversion H; subst; reflexivity. Qed.
Lemma fork_forks s s' o : fork s = (s', o) -> forks s' = ((if o then 1 else 0) + forks s)%nat.
Proof. unfold fork. intros H. destruct (call s) as [s1 [|]] eqn:C; apply call_forks in C; inversion H; subst; cbn [forks]; rewrite C; reflexivity. Qed.
Lemma create_forks i o e s s' kd ok : create i o e s = (s', kd, ok) -> forks s' = ((if is_child kd then 1 else 0) + forks s)%nat.
Proof.
  unfold create. intros E.
  destruct (pipe s) as [s1 [[e0 e1]|]] eqn:P1; apply pipe_forks in P1; [|inversion E; subst; exact P1].
  destruct (pipe s1) as [s2 [[g0 g1]|]] eqn:P2; apply pipe_forks in P2; [|inversion E; subst; rewrite !close_forks; cbn; congruence].
  destruct (calls 3 s2) as [s3 [|]] eqn:C3; apply calls_forks in C3; [|inversion E; subst; rewrite !close_forks; cbn; congruence].
  destruct (fork s3) as [s4 [|]] eqn:C4; apply fork_forks in C4; [|inversion E; subst; rewrite !close_forks, C4; cbn; congruence].
  destruct (call (close g1 (close e1 s4))) as [s5 [|]] eqn:C5; apply call_forks in C5; rewrite !close_forks in C5; [|inversion E; subst; rewrite !close_forks, C5, C4; cbn; congruence].
  destruct (call (close g0 s5)) as [s6 [|]] eqn:C6; apply call_forks in C6; rewrite !close_forks in C6; [|inversion E; subst; rewrite !close_forks, C6, C5, C4; cbn; congruence].
  destruct (call s6) as [s7 q] eqn:C7; apply call_forks in C7. inversion E; subst. rewrite !close_forks, C7, C6, C5, C4; cbn; congruence.
Qed.
Lemma loop_forks m c : forall k next s s' ks ok, commands_loop k next m c s = (s', ks, ok) -> forks s' = (length (filter is_child ks) + forks s)%nat.
Proof.
  induction k as [|k IH]; intros next s s' ks ok E; cbn [commands_loop] in E; [inversion E; subst; reflexivity|].
  match type of E with match ?M with _ => _ end = _ => destruct M as [s1 mid] eqn:M1 end.
  assert (F1 : forks s1 = forks s).
  { destruct k; [inversion M1; subst; reflexivity|]. destruct (pipe s) as [s2 [[a b]|]] eqn:P; apply pipe_forks in P; [|inversion M1; subst; rewrite unless_forks; exact P].
    destruct (calls 2 s2) as [s3 [|]] eqn:C; apply calls_forks in C; inversion M1; subst; rewrite ?unless_forks, ?close_forks; congruence. }
  destruct mid as [[nx so]|]; [|inversion E; subst; exact F1].
  destruct (create next so (if m then c_out c else c_err c) s1) as [[s2 kd] res] eqn:Cr. apply create_forks in Cr.
  match type of E with context [commands_loop k nx m c ?z] => set (s5 := z) in E; assert (F5 : forks s5 = forks s2) by (unfold s5; destruct m; rewrite ?unless_forks; reflexivity) end. clearbody s5.
  destruct res.
  - destruct (commands_loop k nx m c s5) as [[s6 ks'] ok'] eqn:Lp. inversion E; subst. apply IH in Lp. cbn [filter]. destruct (is_child kd); cbn [length]; lia.
  - inversion E; subst. rewrite unless_forks. cbn [filter]. destruct (is_child kd); cbn [length]; lia.
Qed.
Lemma cleanup_forks s c : forks (cleanup_fds s c) = forks s.
Proof. unfold cleanup_fds. rewrite !close_forks. reflexivity. Qed.
Lemma add_forks s c s' c' o : processes_add s c = (s', c', o) -> forks s' = forks s.
Proof. unfold processes_add. intros E. destruct (pipe s) as [s1 [[a b]|]] eqn:P; apply pipe_forks in P; [|inversion E; subst; exact P]. destruct (calls 7 s1) as [s2 q] eqn:C; apply calls_forks in C. inversion E; subst. congruence. Qed.
Lemma in_forks t s c s' c' o : setup_in t s c = (s', c', o) -> forks s' = forks s.
Proof.
  unfold setup_in. intros E. destruct t; try (inversion E; subst; reflexivity).
  - destruct (open_file s) as [s1 [f|]] eqn:O; apply open_forks in O; [|inversion E; subst; exact O]. destruct (call s1) as [s2 q] eqn:C; apply call_forks in C. inversion E; subst; congruence.
  - destruct (calls 2 (hand_over p0 s)) as [s2 q] eqn:C; apply calls_forks in C. inversion E; subst. exact C.
Qed.
Lemma out_forks p t s s' a b o : setup_out p t s = (s', a, b, o) -> forks s' = forks s.
Proof.
  unfold setup_out. intros E. destruct (pipe s) as [s1 [[x y]|]] eqn:P; apply pipe_forks in P; [|inversion E; subst; exact P].
  destruct (calls 4 s1) as [s2 [|]] eqn:C; apply calls_forks in C; [|inversion E; subst; congruence]. destruct t.
  - destruct (open_file (close y s2)) as [s3 [f|]] eqn:O; apply open_forks in O; rewrite close_forks in O; [|inversion E; subst; congruence]. destruct (call s3) as [s4 [|]] eqn:C4; apply call_forks in C4; inversion E; subst; cbn [forget forks]; congruence.
  - inversion E; subst. rewrite close_forks. congruence.
  - destruct (calls 2 (close y s2)) as [s3 [|]] eqn:C4; apply calls_forks in C4; rewrite close_forks in C4; inversion E; subst; cbn [hand_over forks]; congruence.
  - inversion E; subst. congruence.
Qed.
Theorem C140_children : forall g s s' c r, execute g s = (s', c, r) ->
  (forks s' - forks s)%nat = match r with Running ks => length (filter is_child ks) | Failed _ done => length (filter is_one done) | NotStarted => 0%nat end /\ (forks s <= forks s')%nat.
Proof.
  intros g s s' c r E. unfold execute in E. destruct (commands g) as [|n]; [inversion E; subst; split; lia|].
  destruct (calls (if workdir g then 3 else 2) s) as [s1 [|]] eqn:C1; apply calls_forks in C1; [|inversion E; subst; split; lia].
  destruct (calls (if workdir g then 2 else 0) s1) as [s2 [|]] eqn:C2; apply calls_forks in C2; [|inversion E; subst; rewrite cleanup_forks; cbn; split; lia].
  destruct (processes_add s2 (Cp (-1) (-1) (-1) (-1) (-1) (-1) (-1))) as [[s3 c3] [|]] eqn:C3; apply add_forks in C3; [|inversion E; subst; rewrite cleanup_forks; cbn; split; lia].
  destruct (setup_in (t_in g) s3 c3) as [[s4 c4] [|]] eqn:C4; apply in_forks in C4; [|inversion E; subst; rewrite cleanup_forks; cbn; split; lia].
  unfold setup_stdout in E. destruct (setup_out 1 (t_out g) s4) as [[[s5 a5] b5] [|]] eqn:C5; apply out_forks in C5; [|inversion E; subst; rewrite cleanup_forks; cbn; split; lia].
  unfold setup_stderr in E. cbn [r_out r_err r_sig c_in c_out c_err sg] in E. destruct (setup_out 2 (t_err g) s5) as [[[s6 a6] b6] [|]] eqn:C6; apply out_forks in C6; [|inversion E; subst; rewrite cleanup_forks; cbn; split; lia].
  match type of E with context [commands_loop (S n) ?a ?b ?c0 ?d] => destruct (commands_loop (S n) a b c0 d) as [[s7 ks7] [|]] eqn:C7 end; apply loop_forks in C7; inversion E; subst; rewrite ?cleanup_forks, ?close_forks, ?killing_children; split; lia.
Qed.

(** If fork fails its -1 is kept as a process id: kill(-1, SIGKILL). *)
Definition yes : answer := Ok 0 0.
Theorem C140_fork_refuted : exists g s s' c ks done, usable g s /\ execute g s = (s', c, Failed ks done) /\ In Everybody done.
Proof.
  exists (Config ToParent ToObject ToObject false false 1),
    (Os [0; 1; 2] ([yes; yes] ++ [Ok 3 4] ++ repeat yes 7 ++ [Ok 5 6] ++ repeat yes 4 ++ [Ok 7 8] ++ repeat yes 4 ++ [Ok 9 10; Ok 11 12; yes; yes; yes; Fail]) 0%nat [] [] [] 0%nat).
  do 4 eexists. split; [|split; [vm_compute; reflexivity|vm_compute; auto]].
  split; [constructor|split; [intros x []|repeat split]].
Qed.
(** If the flag of an output file cannot be set, the file stays open for ever. *)
Theorem C140_leak_refuted : exists g s s' c ks done, usable g s /\ execute g s = (s', c, Failed ks done) /\ fds s = [0; 1; 2] /\ fds s' = [6; 0; 1; 2].
Proof.
  exists (Config ToParent ToFile ToObject false false 1),
    (Os [0; 1; 2] ([yes; yes] ++ [Ok 3 4] ++ repeat yes 7 ++ [Ok 5 6] ++ repeat yes 4 ++ [Ok 6 0; Fail]) 0%nat [] [] [] 0%nat).
  do 4 eexists. split; [|split; [vm_compute; reflexivity|vm_compute; auto]].
  split; [constructor|split; [intros x []|repeat split]].
Qed.
(** Non-vacuity: two commands, the caller's pipe as stdin, a file as stderr; and a
    command that cannot be executed. *)
Definition example_config : config := Config (ToNative 20 21) ToObject ToFile true false 2.
Definition example_answers (last : answer) : list answer :=
  repeat yes 5 ++ [Ok 3 4] ++ repeat yes 7 ++ [yes; yes] ++ [Ok 5 6] ++ repeat yes 4 ++ [Ok 7 8] ++ repeat yes 4 ++ [Ok 8 0; yes] ++
  [Ok 9 10; yes; yes] ++ [Ok 11 12; Ok 13 14] ++ repeat yes 7 ++ [Ok 12 10; Ok 11 13] ++ repeat yes 6 ++ [last].
Example C140_example :
  usable example_config (Os [0; 1; 2; 20; 21] (example_answers yes) 0%nat [] [] [] 0%nat) /\
  (let '(s, c, r) := execute example_config (Os [0; 1; 2; 20; 21] (example_answers yes) 0%nat [] [] [] 0%nat) in r = Running [Child 20 10 8; Child 9 6 8] /\ ends c = [5; 7; 3; 4] /\ fds s = [7; 5; 3; 4; 0; 1; 2; 21]) /\
  (let '(s, c, r) := execute example_config (Os [0; 1; 2; 20; 21] (example_answers Fail) 0%nat [] [] [] 0%nat) in r = Failed [Child 20 10 8; Child 9 6 8] [OneChild; OneChild] /\ fds s = [0; 1; 2; 21]) /\
  (let '(s, c, r) := execute example_config (Os [0; 1; 2; 20; 21] (firstn 12 (example_answers Fail)) 0%nat [] [] [] 0%nat) in r = Failed [] [] /\ fds s = [0; 1; 2; 20; 21]).
Proof.
  split.
  - split; [repeat constructor; cbn; tauto|split; [|repeat split]]. intros x [<-|[]]. cbn. split; [reflexivity|tauto].
  - vm_compute. repeat split.
Qed.
Print Assumptions C140_execute.
Print Assumptions C140_wiring.
Print Assumptions C140_children.
Print Assumptions C140_lifetime.
Print Assumptions C140_fork_refuted.
Print Assumptions C140_leak_refuted.
