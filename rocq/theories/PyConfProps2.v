(** PyConfProps2.v -- C103 continued: read-only keys through Python. *)
From Coq Require Import ZArith List Bool Lia.
Import ListNotations.
From Verif Require Import Base ConfigModel ConfigSpec ConfigProofs ConfigProofs2 ConfigProofs3 RegexModel PyConfModel PyConfProps.

(** ---- proofs ---- *)
Definition ro (h : heap) (i : nat) (k : str) : bool := match nth_error h i with Some b => is_read_only_b b k | None => false end.
Lemma ro_upd h i b b' : nth_error h i = Some b -> b_ro b' = b_ro b -> forall j k, ro (upd h i b') j k = ro h j k.
Proof.
  intros N E j k. unfold ro, upd. destruct (Nat.eq_dec i j) as [<-|D].
  - rewrite nth_lupd_eq by (eapply nth_error_lt; exact N). rewrite N. unfold is_read_only_b. rewrite E. reflexivity.
  - rewrite nth_lupd_ne by exact D. reflexivity.
Qed.
Lemma ro_app h b : b_ro b = [] -> forall j k, ro (h ++ [b]) j k = ro h j k.
Proof.
  intros E j k. unfold ro. destruct (Nat.lt_ge_cases j (length h)) as [D|D]; [rewrite nth_error_app1 by exact D; reflexivity|]. rewrite (proj2 (nth_error_None h j) D), nth_error_app2 by exact D.
  destruct (j - length h) as [|m]; cbn [nth_error]; [unfold is_read_only_b; rewrite E; reflexivity|destruct m; reflexivity].
Qed.
Lemma ro_set n : forall h id k v d j x, ro (fst (i_set_value_f n h id k v d)) j x = ro h j x.
Proof.
  induction n as [|n IH]; intros; cbn [i_set_value_f]; [reflexivity|]. destruct (nth_error h id) as [b|] eqn:E; [|reflexivity]. destruct (b_parent b); [apply IH|]. destruct (is_read_only_b b k); [reflexivity|]. cbn [fst]. apply (ro_upd h id b); [exact E|reflexivity].
Qed.
Lemma ro_unset n : forall h id k j x, ro (fst (unset_value_f n h id k)) j x = ro h j x.
Proof.
  induction n as [|n IH]; intros; cbn [unset_value_f]; [reflexivity|]. destruct (nth_error h id) as [b|] eqn:E; [|reflexivity]. destruct (b_parent b); [apply IH|]. destruct (is_read_only_b b k); [reflexivity|]. destruct (sfind k (b_store b)); [|reflexivity]. destruct (sfind k (b_descr b)); [|reflexivity]. cbn [fst]. apply (ro_upd h id b); [exact E|reflexivity].
Qed.
Lemma ro_merge a b keys : forall h j x, ro (fst (merge_loop h a b keys)) j x = ro h j x.
Proof.
  induction keys as [|k keys IH]; intros; cbn [merge_loop]; [reflexivity|]. destruct (get_string h b k); try reflexivity. destruct (get_description h b k); try reflexivity.
  pose proof (ro_set (fuel h) h a k a0 a1 j x) as H. change (i_set_value_f (fuel h) h a k a0 a1) with (i_set_value h a k a0 a1) in H. destruct (i_set_value h a k a0 a1) as [h' [u|e| |]]; cbn [fst] in *; [rewrite IH; exact H|exact H..].
Qed.
Lemma ro_fresh c k v d : b_ro c = [] -> b_ro (fresh_set c k v d) = [].
Proof. intros E. unfold fresh_set. cbn [i_set_value_f nth_error]. destruct (b_parent c); [exact E|]. destruct (is_read_only_b c k); [exact E|]. exact E. Qed.
Lemma ro_sub h id n keys : forall c b, b_ro c = [] -> subblock_loop h id n c keys = Ok b -> b_ro b = [].
Proof.
  induction keys as [|k keys IH]; intros c b C E; cbn [subblock_loop] in E; [injection E as <-; exact C|]. destruct (does_not_begin_with k n); [eapply IH; eassumption|].
  destruct (i_get_value h id k); try discriminate. destruct (get_description h id k); try discriminate. cbn [rbind] in E. eapply IH; [|exact E]. apply ro_fresh, C.
Qed.
Lemma ro_new s p s' : c_new s p = Some s' -> (forall j x, ro (fst p) j x = ro (p_heap s) j x) -> forall j x, ro (p_heap s') j x = ro (p_heap s) j x.
Proof. unfold c_new. intros E H. destruct (snd p); try discriminate; injection E as <-; exact H. Qed.
Lemma ro_do s p s' : c_do s p = Some s' -> (forall j x, ro (fst p) j x = ro (p_heap s) j x) -> forall j x, ro (p_heap s') j x = ro (p_heap s) j x.
Proof. unfold c_do. intros E H. destruct (snd p); try discriminate; injection E as <-; exact H. Qed.
Lemma ro_step s o s' : pc_step s o = Some s' -> forall j k,
  ro (p_heap s') j k = (ro (p_heap s) j k || match o with PcMark x k' => match handle s x with Some i => (Nat.eqb i j && match nth_error (p_heap s) i with Some _ => str_eqb (c_str k') k | None => false end)%bool | None => false end | _ => false end)%bool.
Proof.
  intros E j k. destruct o as [name|x key|x key|x key v d|x key|x key|x y]; cbn [pc_step] in E; rewrite ?orb_false_r.
  - eapply ro_new; [exact E|]. intros. apply ro_app. reflexivity.
  - destruct (handle s x) as [id|]; [|injection E as <-; reflexivity]. eapply ro_new; [exact E|]. intros. unfold subblock. destruct (rbind _ _) as [c|e| |] eqn:B; try reflexivity. cbn [fst]. apply ro_app. destruct (available_values (p_heap s) id) as [ks| | |]; try discriminate. cbn [rbind] in B. eapply ro_sub; [|exact B]. reflexivity.
  - destruct (handle s x) as [id|]; [|injection E as <-; reflexivity]. eapply ro_new; [exact E|]. intros. unfold subblock_view. destruct (nth_error (p_heap s) id); [|reflexivity]. apply ro_app. reflexivity.
  - destruct (handle s x) as [id|]; [|injection E as <-; reflexivity]. eapply ro_do; [exact E|]. intros. apply ro_set.
  - destruct (handle s x) as [id|]; [|injection E as <-; reflexivity]. eapply ro_do; [exact E|]. intros. apply ro_unset.
  - destruct (handle s x) as [id|]; [|injection E as <-; rewrite orb_false_r; reflexivity]. unfold mark_read_only in E. destruct (nth_error (p_heap s) id) as [b|] eqn:N; [|discriminate]. unfold c_do in E. cbn [fst snd] in E. injection E as <-. cbn [p_heap].
    unfold ro, upd. destruct (Nat.eqb_spec id j) as [<-|D].
    + rewrite nth_lupd_eq by (eapply nth_error_lt; exact N). rewrite N. cbn [andb]. unfold is_read_only_b. cbn [b_ro]. destruct (str_eqb_spec (c_str key) k) as [->|D]; [rewrite orb_true_r; apply shas_true; rewrite sfind_set_eq; discriminate|rewrite orb_false_r; unfold shas, m_has; change (m_find str_cmp) with (@sfind unit); rewrite sfind_set_ne by congruence; reflexivity].
    + rewrite nth_lupd_ne by exact D. cbn [andb]. rewrite orb_false_r. reflexivity.
  - destruct (handle s x) as [a|]; [|injection E as <-; reflexivity]. destruct (handle s y) as [b|]; [|injection E as <-; reflexivity]. eapply ro_do; [exact E|]. intros. unfold merge_config. destruct (available_values (p_heap s) b); try reflexivity. apply ro_merge.
Qed.
Lemma run_snoc ops o : pc_run (ops ++ [o]) = match pc_run ops with Some s => pc_step s o | None => None end.
Proof. unfold pc_run. rewrite fold_left_app. reflexivity. Qed.
Lemma ro_history ops : forall s j k, pc_run ops = Some s -> (ro (p_heap s) j k = true <->
  exists pre y k' post s1, ops = pre ++ PcMark y k' :: post /\ pc_run pre = Some s1 /\ handle s1 y = Some j /\ c_str k' = k).
Proof.
  induction ops as [|o ops IH] using rev_ind; intros s j k E.
  - injection E as <-. split; [unfold ro; cbn; destruct j; discriminate|]. intros (pre & y & k' & post & s1 & Q & _). destruct pre; discriminate.
  - rewrite run_snoc in E. destruct (pc_run ops) as [s0|] eqn:E0; [|discriminate]. rewrite (ro_step _ _ _ E), orb_true_iff, (IH s0 j k eq_refl). destruct (pc_run_inv ops) as (s0' & E0' & V). rewrite E0 in E0'. injection E0' as <-. split.
    + intros [(pre & y & k' & post & s1 & -> & R)|M].
      * exists pre, y, k', (post ++ [o]), s1. split; [rewrite <- app_assoc; reflexivity|exact R].
      * destruct o as [| | | | |x k'|]; try discriminate. destruct (handle s0 x) as [i|] eqn:H; [|discriminate]. apply andb_prop in M as [M1 M2]. apply Nat.eqb_eq in M1 as ->. destruct (nth_error (p_heap s0) j); [|discriminate]. apply str_eqb_eq in M2. exists ops, x, k', [], s0. auto.
    + intros (pre & y & k' & post & s1 & Q & R1 & H & K). destruct post as [|o' post _] using rev_ind.
      * apply app_inj_tail in Q as [-> ->]. right. assert (s1 = s0) as -> by congruence. rewrite H, Nat.eqb_refl. cbn [andb]. pose proof (pv_live s0 V y j H) as LV. destruct (nth_error (p_heap s0) j) eqn:N; [apply str_eqb_eq, K|apply nth_error_None in N; lia].
      * left. rewrite app_comm_cons, app_assoc in Q. apply app_inj_tail in Q as [-> _]. exists pre, y, k', post, s1. auto.
Qed.

(** is_read_only answers for the object itself: true exactly if mark_read_only has
    been called before, for the same block and key (a view or a root with the same entry is
    not asked; compare C12). *)
Theorem C103_read_only ops s x k : pc_run ops = Some s ->
  exists b, pc_is_ro s x k = PRet b /\
  (b = true <-> exists id pre y k' post s1, handle s x = Some id /\ ops = pre ++ PcMark y k' :: post /\ pc_run pre = Some s1 /\ handle s1 y = Some id /\ c_str k' = c_str k).
Proof.
  intros E. unfold pc_is_ro. destruct (handle s x) as [id|] eqn:H.
  - destruct (pc_run_inv ops) as (s0 & E0 & V). rewrite E in E0. injection E0 as <-. pose proof (pv_live s V x id H) as LV. unfold is_read_only. destruct (nth_error (p_heap s) id) as [b|] eqn:N; [|apply nth_error_None in N; lia]. cbn [c_ret].
    exists (is_read_only_b b (c_str k)). split; [reflexivity|]. pose proof (ro_history ops s id (c_str k) E) as R. unfold ro in R. rewrite N in R. rewrite R. split; [intros (pre & y & k' & post & s1 & A); exists id, pre, y, k', post, s1; auto|].
    intros (id' & pre & y & k' & post & s1 & Q & A). injection Q as <-. exists pre, y, k', post, s1. exact A.
  - exists false. split; [reflexivity|]. split; [discriminate|]. intros (id & ? & ? & ? & ? & ? & Q & _). discriminate.
Qed.
Print Assumptions C103_read_only.
Example C103_read_only_ex : exists s, pc_run [PcNew []; PcSet 0 (L "a") (L "1") None; PcMark 0 (L "a"); PcSet 0 (L "a") (L "2") None] = Some s /\
  pc_is_ro s 0 (L "a") = PRet true /\ pc_is_ro s 0 (L "b") = PRet false /\ pc_get s 0 (L "a") None = PRet (Some (L "1")).
Proof. eexists. split; [vm_compute; reflexivity|]. repeat split; vm_compute; reflexivity. Qed.
