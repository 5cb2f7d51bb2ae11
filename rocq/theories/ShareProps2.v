(** ShareProps2.v -- C113, continued: entries of maps of pointers. *)
From Coq Require Import List Bool ZArith Lia Sorted.
Import ListNotations.
From Verif Require Import Base ShareModel ShareProps.
Local Open Scope Z_scope.

(** The entry for a key. *)
Definition entry (l : kmap) (k : Z) : option ptr := option_map snd (find (fun e => fst e =? k) l).
Definition ascending (l : kmap) : Prop := StronglySorted Z.lt (map fst l).
Lemma entry_low l k : Forall (fun x => k < x) (map fst l) -> entry l k = None.
Proof.
  unfold entry. induction l as [|[j p] l IH]; intros H; [reflexivity|]. cbn [map fst] in H. apply Forall_cons_iff in H. destruct H as [H1 H2]. cbn [find fst]. destruct (Z.eqb_spec j k); [lia|]. apply IH, H2.
Qed.
Lemma k_set_bound l k p b : b < k -> Forall (fun x => b < x) (map fst l) -> Forall (fun x => b < x) (map fst (k_set l k p)).
Proof.
  intros Hb. induction l as [|[j q] l IH]; intros H; cbn [k_set]; [repeat constructor; exact Hb|]. destruct (k <? j); [constructor; [exact Hb|exact H]|]. cbn [map fst] in H. apply Forall_cons_iff in H. destruct H as [H1 H2]. destruct (Z.eqb_spec k j); constructor; auto.
Qed.
Lemma k_set_spec l k p : ascending l -> ascending (k_set l k p) /\ forall k', entry (k_set l k p) k' = if k' =? k then Some p else entry l k'.
Proof.
  unfold ascending, entry. induction l as [|[j q] l IH]; intros S; cbn [k_set].
  - split; [repeat constructor|]. intros k'. cbn [find fst]. rewrite (Z.eqb_sym k k'). destruct (k' =? k); reflexivity.
  - cbn [map fst] in S. apply StronglySorted_inv in S. destruct S as [S F]. destruct (Z.ltb_spec k j) as [Lt|Ge]; [|destruct (Z.eqb_spec k j) as [->|Ne]].
    + split.
      * cbn [map fst]. constructor; [constructor; assumption|]. constructor; [exact Lt|]. eapply Forall_impl; [|exact F]. cbn. intros. lia.
      * intros k'. cbn [find fst]. rewrite (Z.eqb_sym k k'). destruct (k' =? k); reflexivity.
    + split; [cbn [map fst]; constructor; assumption|]. intros k'. cbn [find fst]. rewrite (Z.eqb_sym j k'). destruct (k' =? j); reflexivity.
    + destruct (IH S) as [S' E]. split.
      * cbn [map fst]. constructor; [exact S'|]. apply k_set_bound; [lia|exact F].
      * intros k'. cbn [find fst]. destruct (Z.eqb_spec j k') as [->|N]; [|apply E]. destruct (Z.eqb_spec k' k); [lia|reflexivity].
Qed.

Section S.
Context {M : Type} (ident : M) (inv : M -> option M) (mul : M -> M -> M).
Notation step := (ShareModel.step ident inv mul).
Notation run := (ShareModel.run ident inv mul).
Definition asc_box (b : box) : Prop := match b with BMap l => ascending l | BVec _ => True end.
Definition asc (s : @st M) : Prop := Forall ascending (maps s) /\ Forall asc_box (boxes s).
Lemma step_asc s o s' r : asc s -> step s o = Some (s', r) -> asc s'.
Proof.
  intros W H. pose proof W as [A B]. destruct o; cbn [ShareModel.step] in H;
    repeat match type of H with
    | match ?x with _ => _ end = _ => destruct x eqn:?; try discriminate
    | (if ?x then _ else _) = _ => destruct x eqn:?; try discriminate
    end; injection H as <- _; try exact W; split; cbn [maps boxes add_map set_map add_box set_vec add_vec set_f add_f set_cell add_cell add_ptr fresh_f]; try exact A; try exact B.
  - apply Forall_app. split; [exact A|]. repeat constructor.
  - match goal with H : nth_error (maps s) m = Some ?l |- _ => pose proof (Forall_nth _ _ _ _ A H) as S end. apply Forall_lupd; [exact A|]. apply k_set_spec, S.
  - apply Forall_app. split; [exact B|repeat constructor].
  - apply Forall_app. split; [exact B|]. constructor; [|constructor]. cbn. match goal with H : nth_error (maps s) m = Some ?l |- _ => exact (Forall_nth _ _ _ _ A H) end.
  - apply Forall_app. split; [exact A|]. constructor; [|constructor]. match goal with H : nth_error (boxes s) b = Some ?l |- _ => exact (Forall_nth _ _ _ _ B H) end.
  - apply Forall_app. split; [exact B|]. constructor; [|constructor]. match goal with H : nth_error (boxes s) b = Some ?l |- _ => exact (Forall_nth _ _ _ _ B H) end.
Qed.
Lemma run_asc p : forall s s', asc s -> run s p = Some s' -> asc s'.
Proof. induction p as [|o p IH]; intros s s' W H; cbn [ShareModel.run] in H; [injection H as <-; exact W|]. destruct (step s o) as [[s1 r]|] eqn:E; [|discriminate]. eapply IH; [eapply step_asc; eassumption|exact H]. Qed.
(** In every program, a map shows its entries by ascending key, each key once;
    storing a pointer under a key replaces the entry for this key and no other. *)
Theorem C113_map_entries : forall prog s m l k p x, run st0 prog = Some s -> nth_error (maps s) m = Some l -> nth_error (ptrs s) p = Some x ->
  ascending l /\
  exists s' l', step s (KSet m k p) = Some (s', ODone) /\ nth_error (maps s') m = Some l' /\ ascending l' /\
    (forall k', entry l' k' = if k' =? k then Some x else entry l k') /\ forall n, n <> m -> nth_error (maps s') n = nth_error (maps s) n.
Proof.
  intros prog s m l k p x R Hm Hp. assert (asc s) as [A _]. { eapply run_asc; [|exact R]. split; constructor. }
  pose proof (Forall_nth _ _ _ _ A Hm) as S. split; [exact S|]. destruct (k_set_spec l k x S) as [S' E]. exists (set_map s m (k_set l k x)), (k_set l k x). cbn [ShareModel.step]. rewrite Hm, Hp. split; [reflexivity|]. split; [|split; [exact S'|split; [exact E|]]].
  - cbn [set_map maps]. rewrite nth_lupd_eq; [reflexivity|]. apply nth_error_Some. congruence.
  - intros n N. cbn [set_map maps]. apply nth_lupd_ne. congruence.
Qed.
End S.
Example C113_map_entries_run : exists s, ShareModel.run 0%nat (fun m => Some m) (fun m _ => m) st0 [PNew 5%nat; PNew 6%nat; KNew; KSet 0 7 0; KSet 0 3 1; KSet 0 7 1] = Some s /\ nth_error (maps s) 0 = Some [(3, Some 1%nat); (7, Some 1%nat)].
Proof. eexists. split; reflexivity. Qed.
Print Assumptions C113_map_entries.
