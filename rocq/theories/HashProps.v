(** HashProps.v -- C122. *)
From Coq Require Import List NArith Bool Arith Lia Permutation.
Import ListNotations.
From Verif Require Import Base HashModel HashSpec HashProofs HashProofs2 HashProofs3 HashProofs4 HashProofs5 HashProofs6 HashWorld HashStep HashWhole.

Section Props.
Context {V K : Type}.
Variable key : V -> K.
Variable hash : K -> N.
Variable keq : K -> K -> bool.
Variable throws : nat -> bool.
Variable veq : V -> V -> bool.
Notation el := (nat * V)%type.
Notation ids := (map (@fst nat V)).
Notation st := (@st V).
Notation world := (@world V).
Notation holds := (holds key hash).
Notation others := (others key hash).
Notation kept := (kept key hash).
Notation whole := (whole key hash).
Notation legal := (legal key hash).
Notation effect := (effect key hash keq veq).
Notation failed := (failed key keq).
Notation step := (step key hash keq throws veq).
Notation reach := (reach key hash keq throws veq).
Notation lawful := (lawful hash keq).

Lemma holds_fun w i l n c l' n' c' : holds w i l n c -> holds w i l' n' c' -> l = l' /\ n = n' /\ c = c'.
Proof.
  intros (s & (b & m & E & ->) & W & -> & ->) (s' & (b' & m' & E' & ->) & W' & -> & ->). rewrite E in E'. injection E' as <- <-. split; [exact (walk_fun key hash _ _ _ _ W W')|]. split; reflexivity.
Qed.
Lemma holds_lt w i l n c : holds w i l n c -> i < length (w_tabs w).
Proof. intros (s & (b & m & E & _) & _). apply tab_nth in E. apply nth_error_Some. congruence. Qed.

(** Any call that is allowed, after any history: it is not undefined behaviour; it does what
    it says, or throws and leaves what it says; and the other tables stay. *)
Theorem C122_call : lawful -> forall w o, reach anything w -> legal w o ->
  match step w o with
  | WRet w' r => match subject o with
                 | Some i => others w w' i /\ exists l n c l' n' c', holds w i l n c /\ holds w' i l' n' c' /\ effect w o l n c l' n' c' r
                 | None => whole w o w' true
                 end
  | WThrow w' => match subject o with
                 | Some i => others w w' i /\ exists l n c l' n' c', holds w i l n c /\ holds w' i l' n' c' /\ failed w o l n c l' n' c'
                 | None => whole w o w' false
                 end
  | WBad => False
  end.
Proof.
  intros (_ & Ks & Kt & Kh) w o R Lg. destruct (reach_inv key hash keq throws veq Ks Kt Kh _ w R) as [Bs W]. destruct (subject o) as [i|] eqn:Sj.
  - pose proof (step_member key hash keq throws veq Ks Kt Kh w Bs o i W Lg Sj) as G. destruct (step w o) as [w' r|w'|]; [| |exact G].
    + destruct G as (l & n & c & l' & n' & c' & Bs' & H1 & H2 & O & _ & E). split; [exact O|]. exists l, n, c, l', n', c'. split; [exact H1|]. split; assumption.
    + destruct G as (l & n & c & l' & n' & c' & Bs' & H1 & H2 & O & _ & E). split; [exact O|]. exists l, n, c, l', n', c'. split; [exact H1|]. split; assumption.
  - pose proof (step_whole key hash keq throws veq Ks Kt w Bs o W Lg Sj) as G. destruct (step w o) as [w' r|w'|]; [exact (proj2 G)|exact (proj2 G)|exact G].
Qed.

Lemma in_allE Bs x v : In (x, v) (allE Bs) <-> exists i B, nth_error Bs i = Some B /\ In (x, v) (@concat el B).
Proof.
  unfold allE. rewrite in_concat. split.
  - intros (m & Hm & Hx). apply in_map_iff in Hm. destruct Hm as (B & <- & HB). apply In_nth_error in HB. destruct HB as [i HB]. exists i, B. split; assumption.
  - intros (i & B & E & Hx). exists (concat B). split; [apply in_map; exact (nth_error_In _ _ E)|exact Hx].
Qed.
Lemma once_in Bs : NoDup (ids (allE Bs)) -> forall i j Bi Bj x v u, nth_error Bs i = Some Bi -> nth_error Bs j = Some Bj -> In (x, v) (@concat el Bi) -> In (x, u) (@concat el Bj) -> i = j.
Proof.
  unfold allE. induction Bs as [|B Bs IH]; intros Nd [|i] [|j] Bi Bj x v u Ei Ej Hi Hj; try discriminate; [reflexivity| | |].
  - exfalso. cbn in Ei, Ej, Nd. injection Ei as ->. rewrite map_app in Nd. apply (nodup_disj _ _ x Nd); [apply (in_map fst) in Hi; exact Hi|]. apply in_map_iff. exists (x, u). split; [reflexivity|]. apply in_allE. exists j, Bj. split; assumption.
  - exfalso. cbn in Ei, Ej, Nd. injection Ej as ->. rewrite map_app in Nd. apply (nodup_disj _ _ x Nd); [apply (in_map fst) in Hj; exact Hj|]. apply in_map_iff. exists (x, v). split; [reflexivity|]. apply in_allE. exists i, Bi. split; assumption.
  - f_equal. cbn in Ei, Ej, Nd. rewrite map_app in Nd. exact (IH (nodup_r _ _ Nd) i j Bi Bj x v u Ei Ej Hi Hj).
Qed.
(** After any history: every table has one sequence of elements, with equal keys together and
    not more than size(); the elements of the tables are just the nodes that are alive, and
    each is in one table, once. *)
Theorem C122_state : lawful -> forall w, reach anything w ->
  (forall i b n, tab w i = Some (b, n) -> exists l c, holds w i l n c /\ (forall l' n' c', holds w i l' n' c' -> l' = l /\ n' = n /\ c' = c) /\ NoDup (ids l) /\ together key keq l /\ length l <= n) /\
  (forall x v, alive w x v <-> exists i l n c, holds w i l n c /\ In (x, v) l) /\
  (forall x v u i l n c j m n' c', holds w i l n c -> In (x, v) l -> holds w j m n' c' -> In (x, u) m -> i = j).
Proof.
  intros (_ & Ks & Kt & Kh) w R. destruct (reach_inv key hash keq throws veq Ks Kt Kh _ w R) as [Bs W]. split; [|split].
  - intros i b n E. assert (H : exists l c, holds w i l n c). { apply tab_nth in E. destruct (f2_nth_error _ _ _ _ _ (w_ok _ _ _ _ _ W) E) as (B & EB & _). exists (concat B), (length B). apply (holds_iff key hash keq w Bs i _ _ _ W). exists b, B. repeat split; assumption. }
    destruct H as (l & c & H). exists l, c. split; [exact H|]. split; [intros l' n' c' H'; destruct (holds_fun _ _ _ _ _ _ _ _ H H') as (-> & -> & ->); repeat split|].
    destruct (there_inv key hash keq w Bs i l n c W H) as (b' & B & _ & _ & -> & -> & I & Le). split; [exact (i_nodup _ _ _ _ _ I)|]. split; [|exact Le]. apply grouped_together; [exact Ks|exact Kt|]. apply (grouped_concat key hash keq Kh _ _ I).
  - intros x v. split.
    + intros (m & Ex). assert (Lx : live (w_heap w) x) by (exists (Node v m); exact Ex). apply (w_live _ _ _ _ _ W) in Lx. apply in_map_iff in Lx. destruct Lx as ([y u] & Ey & Hx). cbn in Ey. subst y. apply in_allE in Hx. destruct Hx as (i & B & EB & Hx).
      assert (Et : exists b n, nth_error (w_tabs w) i = Some (Some (b, n)) /\ HashProofs2.Inv key hash keq (St (w_heap w) 0 b n) B).
      { pose proof (w_ok _ _ _ _ _ W) as F. clear -F EB Hx. revert i EB. generalize dependent Bs. generalize (w_tabs w). induction l as [|t ts IH]; intros Bs F i EB; inversion F as [|t0 B0 ts0 Bs0 T F0]; subst; [destruct i; discriminate|]. destruct i as [|i]; [|exact (IH Bs0 F0 i EB)]. injection EB as ->. destruct t as [[b n]|]; cbn in T; [|subst B; destruct Hx]. exists b, n. split; [reflexivity|exact (proj1 T)]. }
      destruct Et as (b & n & Et & I). exists i, (concat B), n, (length B). split; [apply (holds_iff key hash keq w Bs i _ _ _ W); exists b, B; repeat split; assumption|]. destruct (inv_value key hash keq _ _ _ _ I Hx) as [q Eq]. cbn [heap] in Eq. rewrite Ex in Eq. injection Eq as -> _. exact Hx.
    + intros (i & l & n & c & H & Hx). destruct (there_inv key hash keq w Bs i l n c W H) as (b & B & _ & _ & -> & -> & I & _). destruct (inv_value key hash keq _ _ _ _ I Hx) as [q Eq]. exists q. exact Eq.
  - intros x v u i l n c j m n' c' H1 I1 H2 I2. apply (holds_iff key hash keq w Bs i _ _ _ W) in H1. apply (holds_iff key hash keq w Bs j _ _ _ W) in H2. destruct H1 as (b1 & B1 & _ & E1 & -> & _). destruct H2 as (b2 & B2 & _ & E2 & -> & _). exact (once_in Bs (w_nodup _ _ _ _ _ W) i j B1 B2 x v u E1 E2 I1 I2).
Qed.

(** ---- what stays true of every table ---- *)
Lemma reach_weaken ok w : reach ok w -> reach anything w.
Proof. induction 1 as [|w o w' r R IH Lg Ok E|w o w' R IH Lg Ok E]; [constructor|eapply reach_returns; eauto; exact Logic.I|eapply reach_throws; eauto; exact Logic.I]. Qed.
Lemma track (ok : @op V K -> bool -> Prop) (P : list el -> nat -> Prop) : lawful ->
  P [] 0 ->
  (forall l l' n, P l n -> map snd l' = map snd l -> P l' n) ->
  (forall w o l n c l' n' c' r, ok o false -> effect w o l n c l' n' c' r -> P l n -> P l' n') ->
  (forall w o l n c l' n' c', ok o true -> failed w o l n c l' n' c' -> P l n -> P l' n') ->
  forall w, reach ok w -> forall i l n c, holds w i l n c -> P l n.
Proof.
  intros Lw P0 Pc Pe Pf. induction 1 as [|w o w' r R IH Lg Ok E|w o w' R IH Lg Ok E]; intros i l n c H.
  - apply holds_lt in H. cbn in H. lia.
  - pose proof (C122_call Lw w o (reach_weaken _ _ R) Lg) as G. rewrite E in G. destruct (subject o) as [k|] eqn:Sj.
    + destruct G as ((_ & O) & l1 & n1 & c1 & l2 & n2 & c2 & H1 & H2 & Ef). destruct (Nat.eq_dec i k) as [->|Nk]; [|apply O in H; [exact (IH _ _ _ _ H)|exact Nk]]. destruct (holds_fun _ _ _ _ _ _ _ _ H H2) as (-> & -> & ->). exact (Pe _ _ _ _ _ _ _ _ _ Ok Ef (IH _ _ _ _ H1)).
    + destruct o; try discriminate Sj; cbn [HashSpec.whole] in G.
      * destruct G as (Ln & Kp & H2). pose proof (holds_lt _ _ _ _ _ H) as Lt. destruct (Nat.eq_dec i (length (w_tabs w))) as [->|Ni]; [|apply Kp in H; [exact (IH _ _ _ _ H)|lia]]. destruct (holds_fun _ _ _ _ _ _ _ _ H H2) as (-> & -> & ->). exact P0.
      * destruct G as (Ln & Kp & l1 & n1 & c1 & l2 & H1 & H2 & Ev & _). pose proof (holds_lt _ _ _ _ _ H) as Lt. destruct (Nat.eq_dec i (length (w_tabs w))) as [->|Ni]; [|apply Kp in H; [exact (IH _ _ _ _ H)|lia]]. destruct (holds_fun _ _ _ _ _ _ _ _ H H2) as (-> & -> & ->). exact (Pc _ _ _ (IH _ _ _ _ H1) Ev).
      * destruct (Nat.eqb i0 j); [subst w'; exact (IH _ _ _ _ H)|]. destruct G as ((_ & O) & l1 & n1 & c1 & l2 & H1 & H2 & Ev). destruct (Nat.eq_dec i i0) as [->|Nk]; [|apply O in H; [exact (IH _ _ _ _ H)|exact Nk]]. destruct (holds_fun _ _ _ _ _ _ _ _ H H2) as (-> & -> & ->). exact (Pc _ _ _ (IH _ _ _ _ H1) Ev).
      * destruct G as (_ & Sw & O). destruct (Nat.eq_dec i j) as [->|Nj]; [apply (proj1 (Sw l n c)) in H; exact (IH _ _ _ _ H)|]. destruct (Nat.eq_dec i i0) as [->|Ni]; [apply (proj2 (Sw l n c)) in H; exact (IH _ _ _ _ H)|]. apply O in H; [exact (IH _ _ _ _ H)|exact Ni|exact Nj].
      * destruct G as ((_ & O) & Et). destruct (Nat.eq_dec i i0) as [->|Ni]; [|apply O in H; [exact (IH _ _ _ _ H)|exact Ni]]. destruct H as (s & (b & m & E' & _) & _). congruence.
  - pose proof (C122_call Lw w o (reach_weaken _ _ R) Lg) as G. rewrite E in G. destruct (subject o) as [k|] eqn:Sj.
    + destruct G as ((_ & O) & l1 & n1 & c1 & l2 & n2 & c2 & H1 & H2 & Ef). destruct (Nat.eq_dec i k) as [->|Nk]; [|apply O in H; [exact (IH _ _ _ _ H)|exact Nk]]. destruct (holds_fun _ _ _ _ _ _ _ _ H H2) as (-> & -> & ->). exact (Pf _ _ _ _ _ _ _ _ Ok Ef (IH _ _ _ _ H1)).
    + destruct o; try discriminate Sj; cbn [HashSpec.whole] in G; try destruct G.
      * apply (H1 i l n c) in H; [exact (IH _ _ _ _ H)|]. apply holds_lt in H. lia.
      * apply (H1 i l n c) in H; [exact (IH _ _ _ _ H)|]. apply holds_lt in H. lia.
      * destruct H1 as ((_ & O) & l1 & n1 & c1 & c2 & H1 & H2 & _). destruct (Nat.eq_dec i i0) as [->|Nk]; [|apply O in H; [exact (IH _ _ _ _ H)|exact Nk]]. destruct (holds_fun _ _ _ _ _ _ _ _ H H2) as (-> & -> & ->). exact P0.
Qed.
(** size() is the number of elements, as long as no insertion and no resize has thrown. *)
Lemma filter_two {A} (f : A -> bool) l : length (filter f l) + length (filter (fun x => negb (f x)) l) = length l.
Proof. induction l as [|x l IH]; [reflexivity|]. cbn. destruct (f x); cbn; lia. Qed.
Lemma unique_size l n v l' n' x b : unique_insert key keq l n v l' n' x b -> n = length l -> n' = length l'.
Proof. destruct b; cbn; intros H ->; [destruct H as (_ & (_ & P) & ->)|destruct H as (_ & P & ->)]; rewrite (Permutation_length P); reflexivity. Qed.
Theorem C122_size : lawful -> forall w, reach grown_well w -> forall i l n c, holds w i l n c -> n = length l.
Proof.
  intro Lw. apply (track grown_well (fun l n => n = length l) Lw).
  - reflexivity.
  - intros l l' n -> E. rewrite <- (map_length snd l), <- E, map_length. reflexivity.
  - intros w o l n c l' n' c' r Ok Ef E. destruct o; cbn [HashSpec.effect] in Ef; try contradiction.
    + destruct Ef as (_ & x & b & _ & H). exact (unique_size _ _ _ _ _ _ _ H E).
    + destruct Ef as (_ & x & _ & (_ & P) & ->). rewrite (Permutation_length P). cbn. congruence.
    + destruct Ef as (_ & x & b & _ & H). exact (unique_size _ _ _ _ _ _ _ H E).
    + destruct Ef as (_ & x & b & _ & H & _). exact (unique_size _ _ _ _ _ _ _ H E).
    + destruct Ef as (_ & x & _ & (_ & P) & ->). rewrite (Permutation_length P). cbn. congruence.
    + destruct Ef as (_ & kk & e & _ & _ & P & -> & Hn). rewrite (Permutation_length P). pose proof (filter_two (has key keq kk) l). lia.
    + destruct it as [x|]; [|destruct Ef as (_ & -> & ->); exact E]. destruct Ef as (_ & Hn & X & v & Y & -> & ->). rewrite app_length in *. cbn in E. lia.
    + destruct Ef as (_ & X & M & Y & -> & _ & _ & -> & Hn). rewrite !app_length in *. lia.
    + destruct Ef as (_ & P & ->). rewrite (Permutation_length P). exact E.
    + destruct Ef as (_ & -> & ->). reflexivity.
    + destruct Ef as (_ & -> & -> & _). exact E.
    + destruct Ef as (_ & -> & -> & _). exact E.
    + destruct Ef as (_ & -> & -> & _). exact E.
    + destruct Ef as (_ & -> & -> & _). exact E.
    + destruct Ef as (_ & -> & -> & _). exact E.
    + destruct Ef as (_ & -> & -> & _). exact E.
  - intros w o l n c l' n' c' Ok Ef E. destruct o; cbn [HashSpec.failed] in Ef; try contradiction; try discriminate Ok; try (destruct Ef as (_ & -> & ->); exact E).
    + destruct Ef as (_ & Hn & _). lia.
    + destruct it as [x|]; [destruct Ef as (_ & -> & ->); exact E|contradiction].
Qed.

(** In a hash_map or a hash_set no two elements have equal keys. *)
Definition apart2 (u v : V) : Prop := keq (key u) (key v) = false.
Lemma pairs_perm (R : V -> V -> Prop) a b : (forall u v, R u v -> R v u) -> Permutation a b -> ForallOrdPairs R a -> ForallOrdPairs R b.
Proof.
  intros Sy. induction 1 as [|x a b P IH|x y a|a b c P1 IH1 P2 IH2]; intro F; [exact F| | |auto].
  - inversion F as [|x0 a0 Fx Fa]; subst. constructor; [|auto]. apply Forall_forall. intros z Hz. rewrite Forall_forall in Fx. apply Fx. apply (Permutation_in _ (Permutation_sym P) Hz).
  - inversion F as [|x0 a0 Fx Fa]; subst. inversion Fa as [|x1 a1 Fy Fb]; subst. inversion Fx as [|x2 a2 Rxy Fx']; subst. constructor; [constructor; [apply Sy; exact Rxy|exact Fy]|]. constructor; [exact Fx'|exact Fb].
Qed.
Lemma pairs_app (R : V -> V -> Prop) a b : ForallOrdPairs R (a ++ b) -> ForallOrdPairs R b.
Proof. induction a as [|x a IH]; intro F; [exact F|]. inversion F; subst. auto. Qed.
Lemma pairs_drop (R : V -> V -> Prop) a m b : ForallOrdPairs R (a ++ m ++ b) -> ForallOrdPairs R (a ++ b).
Proof.
  induction a as [|x a IH]; intro F; [exact (pairs_app _ m b F)|]. cbn in *. inversion F as [|x0 a0 Fx Fa]; subst. constructor; [|auto]. rewrite !Forall_app in *. split; [apply Fx|apply Fx].
Qed.
Lemma pairs_filter (R : V -> V -> Prop) (f : el -> bool) l : ForallOrdPairs R (map snd l) -> ForallOrdPairs R (map snd (filter f l)).
Proof.
  induction l as [|x l IH]; intro F; [constructor|]. cbn in *. inversion F as [|x0 a0 Fx Fa]; subst. destruct (f x); [|auto]. cbn. constructor; [|auto]. apply Forall_forall. intros u Hu. apply in_map_iff in Hu. destruct Hu as (y & <- & Hy). apply filter_In in Hy. rewrite Forall_forall in Fx. apply Fx. apply in_map. apply Hy.
Qed.
Lemma unique_pairs l n v l' n' x b : lawful -> unique_insert key keq l n v l' n' x b -> ForallOrdPairs apart2 (map snd l) -> ForallOrdPairs apart2 (map snd l').
Proof.
  intros (_ & Ks & _) H F. assert (Sy : forall u v, apart2 u v -> apart2 v u). { unfold apart2. intros u z H'. destruct (keq (key z) (key u)) eqn:Q; [|reflexivity]. apply Ks in Q. congruence. }
  destruct b; cbn in H.
  - destruct H as (Hn & (_ & P) & _). apply (Permutation_map snd) in P. apply (pairs_perm _ _ _ Sy (Permutation_sym P)). cbn. constructor; [|exact F]. apply Forall_forall. intros u Hu. apply in_map_iff in Hu. destruct Hu as (y & <- & Hy). apply Sy. exact (Hn y Hy).
  - destruct H as (_ & P & _). apply (Permutation_map snd) in P. exact (pairs_perm _ _ _ Sy (Permutation_sym P) F).
Qed.
Theorem C122_unique : lawful -> forall w, reach single w -> forall i l n c, holds w i l n c ->
  ForallOrdPairs (fun u v => keq (key u) (key v) = false) (map snd l) /\ forall k, length (filter (has key keq k) l) <= 1.
Proof.
  intros Lw w R i l n c H. assert (F : ForallOrdPairs apart2 (map snd l)).
  { revert w R i l n c H. apply (track single (fun l n => ForallOrdPairs apart2 (map snd l)) Lw).
    - constructor.
    - intros l l' n F ->. exact F.
    - assert (Sy : forall u v, apart2 u v -> apart2 v u). { destruct Lw as (_ & Ks & _). unfold apart2. intros u z H'. destruct (keq (key z) (key u)) eqn:Q; [|reflexivity]. apply Ks in Q. congruence. }
      intros w o l n c l' n' c' r Ok Ef F. destruct o; cbn [HashSpec.effect] in Ef; try contradiction; try (destruct Ef as (_ & -> & -> & _); exact F).
      + destruct Ef as (_ & x & b & _ & H). exact (unique_pairs _ _ _ _ _ _ _ Lw H F).
      + destruct Ef as (_ & x & b & _ & H). exact (unique_pairs _ _ _ _ _ _ _ Lw H F).
      + destruct Ef as (_ & x & b & _ & H & _). exact (unique_pairs _ _ _ _ _ _ _ Lw H F).
      + destruct Ef as (_ & kk & e & _ & _ & P & _). apply (Permutation_map snd) in P. apply (pairs_perm _ _ _ Sy (Permutation_sym P)). apply pairs_filter. exact F.
      + destruct it as [x|]; [|destruct Ef as (_ & -> & ->); exact F]. destruct Ef as (_ & _ & X & v & Y & -> & ->). rewrite map_app in *. apply (pairs_drop _ (map snd X) [v] (map snd Y)). exact F.
      + destruct Ef as (_ & X & M & Y & -> & _ & _ & -> & _). rewrite !map_app in *. exact (pairs_drop _ _ _ _ F).
      + destruct Ef as (_ & P & _). apply (Permutation_map snd) in P. exact (pairs_perm _ _ _ Sy (Permutation_sym P) F).
      + destruct Ef as (_ & -> & _). constructor.
    - assert (Sy : forall u v, apart2 u v -> apart2 v u). { destruct Lw as (_ & Ks & _). unfold apart2. intros u z H'. destruct (keq (key z) (key u)) eqn:Q; [|reflexivity]. apply Ks in Q. congruence. }
      assert (Sub : forall gone l l' : list el, Permutation l (gone ++ l') -> ForallOrdPairs apart2 (map snd l) -> ForallOrdPairs apart2 (map snd l')).
      { intros gone l l' P F. apply (Permutation_map snd) in P. rewrite map_app in P. apply (pairs_app _ (map snd gone)). exact (pairs_perm _ _ _ Sy P F). }
      intros w o l n c l' n' c' Ok Ef F. destruct o; cbn [HashSpec.failed] in Ef; try contradiction; try (destruct Ef as (_ & -> & ->); exact F).
      + destruct Ef as (_ & _ & gone & P). exact (Sub gone l l' P F).
      + destruct Ef as (_ & _ & gone & P). exact (Sub gone l l' P F).
      + destruct Ef as (_ & _ & kk & gone & _ & P & _). exact (Sub gone l l' P F).
      + destruct it as [x|]; [destruct Ef as (_ & -> & ->); exact F|contradiction].
      + destruct Ef as (_ & _ & gone & ->). rewrite map_app in F. exact (pairs_app _ _ _ F). }
  split; [exact F|]. intro k. destruct Lw as (_ & Ks & Kt & _). clear -F Ks Kt. induction l as [|x l IH]; cbn; [lia|]. cbn in F. inversion F as [|x0 a0 Fx Fa]; subst. destruct (has key keq k x) eqn:Q; [|auto]. cbn. replace (filter (has key keq k) l) with (@nil el); [cbn; lia|].
  symmetry. apply filter_none. intros y Hy. destruct (has key keq k y) eqn:Qy; [|reflexivity]. exfalso. rewrite Forall_forall in Fx. specialize (Fx (snd y) (in_map snd _ _ Hy)). unfold apart2 in Fx. unfold has in *. rewrite (Kt _ _ _ Q (Ks _ _ Qy)) in Fx. discriminate.
Qed.

(** A copy compares equal to the table it was made of. *)
Theorem C122_copy_equal : lawful -> (forall v, veq v v = true) -> forall w j w' r, reach anything w -> legal w (OCopy j) -> step w (OCopy j) = WRet w' r ->
  forall x y, x = length (w_tabs w) /\ y = j \/ x = j /\ y = length (w_tabs w) -> exists w'', step w' (OEq x y) = WRet w'' (RBool true).
Proof.
  intros Lw Vr w j w' r R Lg E x y Hxy. pose proof (C122_call Lw w _ R Lg) as G. rewrite E in G. cbn in G. destruct G as (_ & Kp & l & n & c & l' & H & H' & Ev & _).
  assert (R' : reach anything w') by (eapply reach_returns; [exact R|exact Lg|exact Logic.I|exact E]).
  assert (Hj : holds w' j l n c) by (apply Kp; [exact (holds_lt _ _ _ _ _ H)|exact H]).
  assert (F : forall a b : list el, map snd a = map snd b -> Forall2 (fun x y => veq (snd x) (snd y) = true /\ keq (key (snd x)) (key (snd y)) = true) a b).
  { destruct Lw as (Kr & _). clear -Kr Vr. induction a as [|p a IH]; intros [|q b] E; try discriminate; constructor; [|apply IH; cbn in E; congruence]. cbn in E. injection E as -> _. split; [apply Vr|apply Kr]. }
  assert (exists lx ly, holds w' x lx n c /\ holds w' y ly n c /\ map snd lx = map snd ly) as (lx & ly & Hx & Hy & Exy).
  { destruct Hxy as [[-> ->]|[-> ->]]; [exists l', l|exists l, l']; repeat split; try assumption. symmetry. exact Ev. }
  assert (Lg' : legal w' (OEq x y)) by (split; [exists lx, n, c; exact Hx|exists ly, n, c; exact Hy]).
  pose proof (C122_call Lw w' _ R' Lg') as G. cbn [subject] in G. destruct (step w' (OEq x y)) as [w2 r2|w2|]; [| |destruct G].
  - destruct G as (_ & l1 & n1 & c1 & l2 & n2 & c2 & H1 & _ & Ef). cbn [HashSpec.effect] in Ef. destruct Ef as (_ & _ & _ & b & m & nm & cm & -> & Hm & _ & Cmp). exists w2. f_equal. f_equal. destruct (holds_fun _ _ _ _ _ _ _ _ Hx H1) as (<- & _ & <-). destruct (holds_fun _ _ _ _ _ _ _ _ Hy Hm) as (<- & _ & <-). apply Cmp; [reflexivity|]. apply F. exact Exy.
  - destruct G as (_ & l1 & n1 & c1 & l2 & n2 & c2 & _ & _ & []).
Qed.
(** An insertion that makes room leaves a bucket for every element, up to the largest size. *)
Lemma next_prime_ge n : (n <= 4294967291)%N -> (n <= next_prime n)%N.
Proof.
  intro H. unfold next_prime. destruct (find (fun p => N.leb n p) prime_list) as [p|] eqn:E; [|exact H]. apply find_some in E. apply N.leb_le. apply E.
Qed.
Theorem C122_room : lawful -> forall w i v w' r, reach anything w -> legal w (OInsertUnique i v) \/ legal w (OInsertEqual i v) \/ legal w (OFindOrInsert i v) ->
  step w (OInsertUnique i v) = WRet w' r \/ step w (OInsertEqual i v) = WRet w' r \/ step w (OFindOrInsert i v) = WRet w' r ->
  forall l n c, holds w' i l n c -> (N.of_nat n <= 4294967291)%N -> n <= c.
Proof.
  intros Lw w i v w' r R Lg E l n c H Hn. assert (Lg' : legal w (OInsertUnique i v) /\ legal w (OInsertEqual i v) /\ legal w (OFindOrInsert i v)) by (destruct Lg as [Lg|[Lg|Lg]]; repeat split; exact Lg). destruct Lg' as (L1 & L2 & L3).
  assert (Rm : forall c0 m, (N.of_nat m <= 4294967291)%N -> m <= room c0 m).
  { intros c0 m Hm. unfold room. destruct (Nat.ltb_spec c0 m); [|assumption]. pose proof (next_prime_ge (N.of_nat m) Hm). lia. }
  assert (Mo : forall c0 m m', m' <= m -> m' <= room c0 m' -> (N.of_nat m' <= 4294967291)%N -> m' <= room c0 m).
  { intros c0 m m' Hm _ Hb. unfold room. destruct (Nat.ltb_spec c0 m); [|lia]. unfold next_prime. destruct (find (fun p => N.leb (N.of_nat m) p) prime_list) as [p|] eqn:Ef; [apply find_some in Ef; destruct Ef as [_ Ef]; apply N.leb_le in Ef; lia|]. lia. }
  assert (Fin : forall c0 n0 n1, c = room c0 (n0 + 1) -> n1 <= S n0 -> n = n1 -> n <= c). { intros c0 n0 n1 -> Hl ->. apply (Mo c0 (n0 + 1) n1); [lia|apply Rm; exact Hn|exact Hn]. }
  destruct E as [E|[E|E]].
  - pose proof (C122_call Lw w _ R L1) as G. rewrite E in G. cbn [subject HashSpec.effect] in G. destruct G as (_ & l1 & n1 & c1 & l2 & n2 & c2 & _ & H2 & -> & x & b & _ & U). destruct (holds_fun _ _ _ _ _ _ _ _ H H2) as (-> & -> & ->). apply (Fin c1 n1 n2); [reflexivity| |reflexivity]. destruct b; [destruct U as (_ & _ & ->)|destruct U as (_ & _ & ->)]; lia.
  - pose proof (C122_call Lw w _ R L2) as G. rewrite E in G. cbn [subject HashSpec.effect] in G. destruct G as (_ & l1 & n1 & c1 & l2 & n2 & c2 & _ & H2 & -> & x & _ & _ & U). destruct (holds_fun _ _ _ _ _ _ _ _ H H2) as (-> & -> & ->). apply (Fin c1 n1 n2); [reflexivity|lia|reflexivity].
  - pose proof (C122_call Lw w _ R L3) as G. rewrite E in G. cbn [subject HashSpec.effect] in G. destruct G as (_ & l1 & n1 & c1 & l2 & n2 & c2 & _ & H2 & -> & x & b & _ & U). destruct (holds_fun _ _ _ _ _ _ _ _ H H2) as (-> & -> & ->). apply (Fin c1 n1 n2); [reflexivity| |reflexivity]. destruct b; [destruct U as (_ & _ & ->)|destruct U as (_ & _ & ->)]; lia.
Qed.
End Props.

(** next_prime: the least of the listed numbers that is not less, or the largest of them. *)
Theorem C122_next_prime : forall n, In (next_prime n) prime_list /\ ((n <= 4294967291)%N -> (n <= next_prime n)%N /\ forall p, In p prime_list -> (n <= p)%N -> (next_prime n <= p)%N) /\ ((4294967291 < n)%N -> next_prime n = 4294967291%N).
Proof.
  intro n. assert (So : forall l : list N, ForallOrdPairs N.lt l -> match find (fun p => N.leb n p) l with Some q => In q l /\ (n <= q)%N /\ forall p, In p l -> (n <= p)%N -> (q <= p)%N | None => forall p, In p l -> (p < n)%N end).
  { induction l as [|x l IH]; intro F; [intros p []|]. inversion F as [|x0 l0 Fx Fl]; subst. cbn [find]. destruct (N.leb_spec n x) as [Le|Gt].
    - split; [left; reflexivity|]. split; [exact Le|]. intros p [<-|Hp] _; [lia|]. rewrite Forall_forall in Fx. specialize (Fx p Hp). lia.
    - specialize (IH Fl). destruct (find (fun p => N.leb n p) l) as [q|].
      + destruct IH as (H1 & H2 & H3). split; [right; exact H1|]. split; [exact H2|]. intros p [<-|Hp] Hn; [lia|auto].
      + intros p [<-|Hp]; [lia|auto]. }
  assert (Sd : ForallOrdPairs N.lt prime_list) by (unfold prime_list; repeat constructor).
  specialize (So prime_list Sd). assert (Last : In 4294967291%N prime_list) by (unfold prime_list; repeat (try (left; reflexivity); right)).
  assert (Mx : forall p, In p prime_list -> (p <= 4294967291)%N) by (apply Forall_forall; unfold prime_list; repeat constructor; discriminate).
  unfold next_prime. destruct (find (fun p => N.leb n p) prime_list) as [q|].
  - destruct So as (H1 & H2 & H3). split; [exact H1|]. split; [intros _; split; assumption|]. intro G. specialize (Mx q H1). lia.
  - split; [exact Last|]. split; [|reflexivity]. intro G. specialize (So _ Last). lia.
Qed.

(** ---- examples and refutations ---- *)
Definition ex_key (v : nat * nat) := fst v.
Definition ex_hash (k : nat) := N.of_nat k.
Definition ex_keq := Nat.eqb.
Definition ex_veq (u v : nat * nat) := Nat.eqb (fst u) (fst v) && Nat.eqb (snd u) (snd v).
Definition ex_run (throws : nat -> bool) := fold_left (fun x o => match x with WRet w _ | WThrow w => step ex_key ex_hash ex_keq throws ex_veq w o | WBad => WBad end).
Definition ex_start : @wout (nat * nat) := WRet world0 RNone.
(** What can be seen of a table: the values in the order of iteration, size() and bucket_count(). *)
Fixpoint ex_chain (f : nat) (h : list (option (@node (nat * nat)))) (p : option nat) : list (nat * nat) :=
  match f, p with S f, Some x => match nth_error h x with Some (Some n) => n_val n :: ex_chain f h (n_next n) | _ => [] end | _, _ => [] end.
Definition ex_see (w : @world (nat * nat)) (i : nat) := match tab w i with Some (b, n) => Some (concat (map (ex_chain (length (w_heap w)) (w_heap w)) b), n, length b) | None => None end.
Definition ex_sees (x : wout) (i : nat) := match x with WRet w _ | WThrow w => ex_see w i | WBad => None end.
Definition ex_says (x : @wout (nat * nat)) := match x with WRet _ r => Some r | _ => None end.
Definition ex_threw (x : @wout (nat * nat)) := match x with WThrow _ => true | _ => false end.
Definition ex_never (t : nat) := false.
Definition ex_at_tick (n t : nat) := Nat.eqb t n.
Lemma ex_lawful : lawful ex_hash ex_keq.
Proof. unfold lawful, ex_keq, ex_hash. split; [apply Nat.eqb_refl|]. split; [intros a b H; apply Nat.eqb_eq in H; apply Nat.eqb_eq; congruence|]. split; [intros a b c H1 H2; apply Nat.eqb_eq in H1, H2; apply Nat.eqb_eq; congruence|]. intros a b H. apply Nat.eqb_eq in H. congruence. Qed.
Definition ex_filled : list (@op (nat * nat) nat) := [ONew 0; OInsertUnique 0 (1, 10); OInsertUnique 0 (6, 60); OInsertUnique 0 (1, 11); OInsertUnique 0 (3, 30)].
Example C122_insert_example : ex_sees (ex_run ex_never ex_filled ex_start) 0 = Some ([(6, 60); (1, 10); (3, 30)], 3, 5) /\ ex_says (ex_run ex_never ex_filled ex_start) = Some (RIns 2 true) /\
  ex_sees (ex_run ex_never (ex_filled ++ [OErase 0 (Some 0)]) ex_start) 0 = Some ([(6, 60); (3, 30)], 2, 5) /\ ex_says (ex_run ex_never (ex_filled ++ [OFind 0 6]) ex_start) = Some (RIt (Some 1)).
Proof. vm_compute. repeat split. Qed.
(** Making room for the sixth element: all stay, in another order. *)
Definition ex_six : list (@op (nat * nat) nat) := ex_filled ++ [OInsertUnique 0 (4, 40); OInsertUnique 0 (9, 90); OInsertUnique 0 (14, 140)].
Example C122_grow_example : ex_sees (ex_run ex_never ex_six ex_start) 0 = Some ([(1, 10); (14, 140); (3, 30); (4, 40); (6, 60); (9, 90)], 6, 11).
Proof. vm_compute. reflexivity. Qed.
(** The history of the example is one of those meant. *)
Lemma usable_insert (w w' : @world (nat * nat)) i v r : reach ex_key ex_hash ex_keq ex_never ex_veq anything w -> usable ex_key ex_hash w i -> step ex_key ex_hash ex_keq ex_never ex_veq w (OInsertUnique i v) = WRet w' r -> usable ex_key ex_hash w' i.
Proof.
  intros R U E. pose proof (C122_call ex_key ex_hash ex_keq ex_never ex_veq ex_lawful w (OInsertUnique i v) R U) as G. rewrite E in G. cbn [subject effect] in G. destruct G as (_ & l & n & c & l' & n' & c' & H & H' & -> & _). exists l', n', (room c (n + 1)). split; [exact H'|].
  destruct U as (l0 & n0 & c0 & H0 & Hc). destruct (holds_fun _ _ _ _ _ _ _ _ _ _ H H0) as (_ & _ & ->). unfold room. destruct (Nat.ltb c0 (n + 1)); lia.
Qed.
Definition ex_ok (w : @world (nat * nat)) : Prop := reach ex_key ex_hash ex_keq ex_never ex_veq (fun o t => grown_well o t /\ single o t) w /\ usable ex_key ex_hash w 0.
Lemma ex_new w r : step ex_key ex_hash ex_keq ex_never ex_veq world0 (ONew 0) = WRet w r -> ex_ok w.
Proof.
  intro E. assert (L : legal ex_key ex_hash world0 (@ONew (nat * nat) nat 0)) by exact Logic.I. split; [apply (reach_returns _ _ _ _ _ _ world0 (ONew 0) w r); [apply reach0|exact L|split; exact Logic.I|exact E]|].
  pose proof (C122_call ex_key ex_hash ex_keq ex_never ex_veq ex_lawful world0 (ONew 0) (reach0 _ _ _ _ _ _) L) as G. rewrite E in G. cbn [subject whole] in G. destruct G as (_ & _ & H). eexists _, _, _. split; [exact H|]. vm_compute. lia.
Qed.
Lemma ex_ins w v w' r : ex_ok w -> step ex_key ex_hash ex_keq ex_never ex_veq w (OInsertUnique 0 v) = WRet w' r -> ex_ok w'.
Proof. intros [R U] E. split; [apply (reach_returns _ _ _ _ _ _ w (OInsertUnique 0 v) w' r); [exact R|exact U|split; [reflexivity|exact Logic.I]|exact E]|]. exact (usable_insert w w' 0 v r (reach_weaken _ _ _ _ _ _ _ R) U E). Qed.
Definition ex_w (k : nat) : @world (nat * nat) := match ex_run ex_never (firstn k ex_filled) ex_start with WRet w _ => w | _ => world0 end.
Example C122_history_example : exists w, reach ex_key ex_hash ex_keq ex_never ex_veq (fun o t => grown_well o t /\ single o t) w /\ ex_see w 0 = Some ([(6, 60); (1, 10); (3, 30)], 3, 5) /\ usable ex_key ex_hash w 0.
Proof.
  assert (H1 : ex_ok (ex_w 1)) by (apply (ex_new _ RNone); vm_compute; reflexivity).
  assert (H2 : ex_ok (ex_w 2)) by (apply (ex_ins (ex_w 1) (1, 10) _ (RIns 0 true) H1); vm_compute; reflexivity).
  assert (H3 : ex_ok (ex_w 3)) by (apply (ex_ins (ex_w 2) (6, 60) _ (RIns 1 true) H2); vm_compute; reflexivity).
  assert (H4 : ex_ok (ex_w 4)) by (apply (ex_ins (ex_w 3) (1, 11) _ (RIns 0 false) H3); vm_compute; reflexivity).
  assert (H5 : ex_ok (ex_w 5)) by (apply (ex_ins (ex_w 4) (3, 30) _ (RIns 2 true) H4); vm_compute; reflexivity).
  exists (ex_w 5). split; [exact (proj1 H5)|]. split; [vm_compute; reflexivity|exact (proj2 H5)].
Qed.
(** If the hash function throws while a table grows, the elements moved already are gone, but size() still counts them. *)
Theorem C122_lost_refuted : exists throws, ex_threw (ex_run throws ex_six ex_start) = true /\ ex_sees (ex_run throws ex_six ex_start) 0 = Some ([(9, 90); (4, 40)], 5, 5).
Proof. exists (ex_at_tick 20). vm_compute. split; reflexivity. Qed.
(** A failed operator= can leave a table without any bucket; looking something up there divides by zero. *)
Definition ex_assign : list (@op (nat * nat) nat) := ex_filled ++ [ONew 0; OInsertUnique 1 (7, 70); OAssign 0 1].
Theorem C122_assign_refuted : exists throws, ex_threw (ex_run throws ex_assign ex_start) = true /\ ex_sees (ex_run throws ex_assign ex_start) 0 = Some ([], 0, 0) /\ ex_run throws (ex_assign ++ [OFind 0 1]) ex_start = WBad.
Proof. exists (ex_at_tick 14). vm_compute. repeat split. Qed.
(** erase( it->first ): the key is read after its element was deleted. *)
Theorem C122_own_key_refuted : ex_run ex_never (ex_filled ++ [OEraseKey 0 (KOf 0)]) ex_start = WBad /\ ex_says (ex_run ex_never (ex_filled ++ [OEraseKey 0 (KVal 1)]) ex_start) = Some (RNum 1).
Proof. vm_compute. split; reflexivity. Qed.
(** The same elements, put in in another order: not equal. *)
Theorem C122_equal_refuted : ex_says (ex_run ex_never [ONew 0; ONew 0; OInsertUnique 0 (1, 1); OInsertUnique 0 (6, 6); OInsertUnique 1 (6, 6); OInsertUnique 1 (1, 1); OEq 0 1] ex_start) = Some (RBool false).
Proof. vm_compute. reflexivity. Qed.
Print Assumptions C122_call.
Print Assumptions C122_state.
Print Assumptions C122_size.
Print Assumptions C122_unique.
Print Assumptions C122_copy_equal.
Print Assumptions C122_room.
Print Assumptions C122_next_prime.
Print Assumptions C122_lost_refuted.
Print Assumptions C122_assign_refuted.
Print Assumptions C122_own_key_refuted.
Print Assumptions C122_equal_refuted.
