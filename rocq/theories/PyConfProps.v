(** PyConfProps.v -- C103: configuration blocks through Python. *)
From Coq Require Import ZArith List Bool Lia.
Import ListNotations.
From Verif Require Import Base ConfigModel ConfigSpec ConfigProofs ConfigProofs2 ConfigProofs3 ConfigProofs4 ConfigProps ConfigProps2 RegexModel RegexProps PyConfModel.

(** ---- proofs: what a Python history keeps ---- *)
Definition nonul (s : str) : Prop := ~ In NUL s.
Lemma nonul_app a b : nonul (a ++ b) <-> nonul a /\ nonul b.
Proof. unfold nonul. rewrite in_app_iff. tauto. Qed.
Lemma nonul_cstr s : nonul (c_str s). Proof. apply c_str_nul. Qed.
Lemma nonul_skipn n s : nonul s -> nonul (skipn n s).
Proof. intros H I. apply H. rewrite <- (firstn_skipn n s). apply in_or_app. auto. Qed.
Lemma nonul_sep : nonul block_sep. Proof. intros [H|[]]. discriminate. Qed.
Lemma in_set {V} k (v : V) m x : In x (sset k v m) -> x = (k, v) \/ In x m.
Proof.
  unfold sset. induction m as [|[a b] m IH]; cbn; [intros [<-|[]]; auto|].
  destruct (str_cmp k a) eqn:E; cbn; intuition auto.
Qed.
Lemma in_erase {V} k (m : smap V) x : In x (serase k m) -> In x m.
Proof.
  unfold serase. induction m as [|[a b] m IH]; cbn; [auto|].
  destruct (str_cmp k a) eqn:E; cbn; intuition auto.
Qed.
Lemma sfind_in {V} k (m : smap V) v : sfind k m = Some v -> In (k, v) m.
Proof.
  unfold sfind. induction m as [|[a b] m IH]; cbn; [discriminate|].
  destruct (str_cmp k a) eqn:E; [apply str_cmp_eq in E; subst a; intro H; injection H as <-; now left| |]; first [discriminate|right; auto].
Qed.
Lemma nonul_trim s : nonul s -> nonul (trim s).
Proof. intros H I. destruct (trim_is_trim s) as (a & b & E & _). apply H. rewrite E. apply in_or_app. right. apply in_or_app. auto. Qed.
Definition bclean (b : block) : Prop := nonul (b_name b) /\ forall k v, In (k, v) (b_store b) -> nonul k /\ nonul v.
Definition clean (h : heap) : Prop := forall i b, nth_error h i = Some b -> bclean b.
Lemma clean_upd h i b : clean h -> bclean b -> clean (upd h i b).
Proof.
  intros C B j b'. unfold upd. destruct (Nat.eq_dec j i) as [->|N].
  - intro E. assert (L : i < length h) by (rewrite <- (lupd_length h i b); eapply nth_error_lt; exact E). rewrite nth_lupd_eq in E by exact L. injection E as <-. exact B.
  - rewrite nth_lupd_ne by congruence. apply C.
Qed.
Lemma clean_app h b : clean h -> bclean b -> clean (h ++ [b]).
Proof.
  intros C B i b' E. destruct (lt_dec i (length h)) as [L|L]; [rewrite nth_error_app1 in E by exact L; eauto|].
  rewrite nth_error_app2 in E by lia. destruct (i - length h); [injection E as <-; exact B|destruct n; discriminate].
Qed.
Lemma set_clean n : forall h id k v d, clean h -> nonul k -> nonul v -> clean (fst (i_set_value_f n h id k v d)).
Proof.
  induction n as [|n IH]; intros h id k v d C K VC; cbn [i_set_value_f]; [exact C|]. destruct (nth_error h id) as [b|] eqn:E; [|exact C]. destruct (C _ _ E) as [CN CS]. destruct (b_parent b) as [p|] eqn:P.
  - apply IH; auto. rewrite !nonul_app. split; [exact CN|]. split; [exact nonul_sep|exact K].
  - destruct (is_read_only_b b k); [exact C|]. cbn [fst]. apply clean_upd; [exact C|]. split; [exact CN|]. cbn [b_store]. intros x y I. apply in_set in I. destruct I as [I|I]; [injection I as -> ->; split; [exact K|apply nonul_trim; exact VC]|eauto].
Qed.
Lemma unset_clean n : forall h id k, clean h -> clean (fst (unset_value_f n h id k)).
Proof.
  induction n as [|n IH]; intros h id k C; cbn [unset_value_f]; [exact C|]. destruct (nth_error h id) as [b|] eqn:E; [|exact C]. destruct (C _ _ E) as [CN CS]. destruct (b_parent b) as [p|] eqn:P; [apply IH; auto|].
  destruct (is_read_only_b b k); [exact C|]. destruct (sfind k (b_store b)); [|exact C]. destruct (sfind k (b_descr b)); [|exact C]. cbn [fst]. apply clean_upd; [exact C|]. split; [exact CN|]. cbn [b_store]. intros x y I. apply in_erase in I. eauto.
Qed.
Lemma nonul_strip n k : nonul k -> nonul (strip_block_name n k).
Proof. intro H. unfold strip_block_name. destruct (negb _); [exact H|]. apply nonul_skipn. exact H. Qed.
Lemma avail_clean n : forall h id ks, clean h -> available_values_f n h id = Ok ks -> forall k, In k ks -> nonul k.
Proof.
  induction n as [|n IH]; intros h id ks C; cbn [available_values_f]; [discriminate|]. destruct (nth_error h id) as [b|] eqn:E; [|discriminate]. destruct (C _ _ E) as [CN CS]. destruct (b_parent b) as [p|] eqn:P.
  - destruct (available_values_f n h p) as [ps| | |] eqn:A; cbn [rbind]; try discriminate. intros Q k I. injection Q as <-. apply in_map_iff in I. destruct I as (y & <- & I). apply filter_In in I. apply nonul_strip. eapply IH; eauto. tauto.
  - intros Q k I. injection Q as <-. unfold skeys, m_keys in I. apply in_map_iff in I. destruct I as ([k' v'] & <- & I). apply (CS _ _ I).
Qed.
Lemma iget_clean n : forall h id k v, clean h -> i_get_value_f n h id k = Ok v -> nonul v.
Proof.
  induction n as [|n IH]; intros h id k v C; cbn [i_get_value_f]; [discriminate|]. destruct (nth_error h id) as [b|] eqn:E; [|discriminate]. destruct (C _ _ E) as [CN CS]. destruct (b_parent b) as [p|]; [eapply IH; exact C|].
  intro Q. injection Q as <-. destruct (sfind k (b_store b)) eqn:F; [apply sfind_in in F; apply (CS _ _ F)|intros []].
Qed.
Lemma get_clean h id k v : clean h -> get_string h id k = Ok v -> nonul v.
Proof.
  intro C. unfold get_string, get_value. destruct (has_value h id k) as [[|]| | |]; cbn [rbind]; try discriminate. destruct (i_get_value h id k) as [w| | |] eqn:E; cbn [rbind]; try discriminate. intro Q. injection Q as <-. eapply iget_clean; [exact C|exact E].
Qed.
Lemma merge_clean keys : forall h a b, clean h -> (forall k, In k keys -> nonul k) -> clean (fst (merge_loop h a b keys)).
Proof.
  induction keys as [|k keys IH]; intros h a b C K; cbn [merge_loop]; [exact C|]. destruct (get_string h b k) as [v| | |] eqn:G; try exact C. pose proof (get_clean h b k v C G) as GC. destruct (get_description h b k) as [d| | |]; try exact C.
  pose proof (set_clean (fuel h) h a k v d C (K k (or_introl eq_refl)) GC) as S1. fold (i_set_value h a k v d) in S1. destruct (i_set_value h a k v d) as [h' [[]| | |]]; cbn [fst] in *; auto. apply IH; auto. intros x I. apply K. now right.
Qed.
Lemma fresh_clean c k v d : bclean c -> nonul k -> nonul v -> bclean (fresh_set c k v d).
Proof.
  intros C K VC. unfold fresh_set. assert (CL : clean [c]) by (intros [|[|i]] b E; try discriminate; injection E as <-; exact C). pose proof (set_clean 1 [c] 0 k v d CL K VC) as H. destruct (i_set_value_f 1 [c] 0 k v d) as [[|x l] [[]| | |]]; auto. apply (H 0 x eq_refl).
Qed.
Lemma sub_clean keys : forall h id n c b, clean h -> bclean c -> (forall k, In k keys -> nonul k) -> subblock_loop h id n c keys = Ok b -> bclean b.
Proof.
  induction keys as [|k keys IH]; intros h id n c b CH C K; cbn [subblock_loop]; [intro E; injection E as <-; exact C|]. destruct (does_not_begin_with k n); [apply IH; auto; intros x I; apply K; now right|].
  destruct (i_get_value h id k) as [v| | |] eqn:G; cbn [rbind]; try discriminate. destruct (get_description h id k) as [d| | |]; cbn [rbind]; try discriminate. apply IH; [exact CH|apply fresh_clean; auto; [apply nonul_strip; apply K; now left|eapply iget_clean; [exact CH|exact G]]|]. intros x I. apply K. now right.
Qed.
Record pinv (s : pst) : Prop := {
  pv_reach : reachable (p_heap s);
  pv_live : forall x id, handle s x = Some id -> id < length (p_heap s);
  pv_clean : clean (p_heap s) }.
Lemma handle_app s h o x : handle (mkP h (p_obj s ++ [o])) x = if x =? length (p_obj s) then o else handle s x.
Proof.
  unfold handle. cbn [p_obj]. destruct (Nat.eqb_spec x (length (p_obj s))) as [->|N]; [rewrite app_nth2, Nat.sub_diag by lia; reflexivity|].
  destruct (le_lt_dec (length (p_obj s)) x) as [G|G]; [rewrite nth_overflow, nth_overflow by (rewrite ?app_length; cbn; lia); reflexivity|apply app_nth1; exact G].
Qed.
Lemma step_len h o : length h <= length (fst (step h o)).
Proof. exact (shape_length _ _ (step_shape h o)). Qed.
Lemma do_inv s o p : pinv s -> (forall id, In id (op_ids o) -> id < length (p_heap s)) -> step (p_heap s) o = lift (fun _ => VUnit) p -> clean (fst p) ->
  exists s', c_do s p = Some s' /\ pinv s' /\ s' = mkP (fst p) (p_obj s).
Proof.
  intros V LV E CL. pose proof (no_ub_lemma _ o (pv_reach s V) LV) as D. pose proof (reachable_step _ o (pv_reach s V)) as RE. pose proof (step_len (p_heap s) o) as LE. rewrite E in D, RE, LE. unfold c_do. unfold lift in *. cbn [fst snd] in *.
  exists (mkP (fst p) (p_obj s)). split; [destruct (snd p); try contradiction; reflexivity|]. split; [|reflexivity]. constructor; cbn [p_heap]; auto. intros x id H. pose proof (pv_live s V x id H). lia.
Qed.
Lemma new_inv s o p : pinv s -> (forall id, In id (op_ids o) -> id < length (p_heap s)) -> step (p_heap s) o = lift VId p -> clean (fst p) -> (forall id, snd p = Ok id -> id < length (fst p)) ->
  exists s', c_new s p = Some s' /\ pinv s'.
Proof.
  intros V LV E CL ID. pose proof (no_ub_lemma _ o (pv_reach s V) LV) as D. pose proof (reachable_step _ o (pv_reach s V)) as RE. pose proof (step_len (p_heap s) o) as LE. rewrite E in D, RE, LE. unfold c_new. unfold lift in *. cbn [fst snd] in *.
  destruct (snd p) as [n|e| |]; try contradiction; (eexists; split; [reflexivity|]; constructor; cbn [p_heap]; auto; intros x id; rewrite handle_app; destruct (x =? _); [|intro H; pose proof (pv_live s V x id H); lia]; intro H; try discriminate).
  injection H as <-. apply ID. reflexivity.
Qed.
Lemma null_inv s : pinv s -> pinv (c_null s).
Proof. intro V. constructor; [apply V| |apply V]. intros x id. unfold c_null. cbn [p_heap]. rewrite handle_app. destruct (x =? _); [discriminate|]. apply (pv_live s V). Qed.
Lemma pc_step_inv s o : pinv s -> exists s', pc_step s o = Some s' /\ pinv s'.
Proof.
  intro V. destruct o; cbn [pc_step].
  - apply (new_inv s (ONew (c_str name))); auto; [intros ? []| |].
    + cbn [fst empty_config]. apply clean_app; [apply V|]. split; [apply nonul_cstr|intros ? ? []].
    + cbn. intros id E. injection E as <-. rewrite app_length. cbn. lia.
  - destruct (handle s x) as [id|] eqn:H; [|eexists; split; [reflexivity|apply null_inv; exact V]]. pose proof (pv_live s V x id H) as LV.
    apply (new_inv s (OSub id (c_str key))); auto; [intros ? [<-|[]]; exact LV| |].
    + unfold subblock. destruct (available_values (p_heap s) id) as [ks| | |] eqn:A; cbn [rbind fst]; try apply V. destruct (subblock_loop _ _ _ _ ks) eqn:B; cbn [fst]; try apply V. apply clean_app; [apply V|]. eapply sub_clean; [apply V| |intros k I; eapply avail_clean; [apply V|exact A|exact I]|exact B]. split; [apply nonul_cstr|intros ? ? []].
    + unfold subblock. destruct (rbind _ _); cbn; try discriminate. intros i E. injection E as <-. rewrite app_length. cbn. lia.
  - destruct (handle s x) as [id|] eqn:H; [|eexists; split; [reflexivity|apply null_inv; exact V]]. pose proof (pv_live s V x id H) as LV.
    apply (new_inv s (OView id (c_str key))); auto; [intros ? [<-|[]]; exact LV| |].
    + unfold subblock_view. destruct (nth_error (p_heap s) id); cbn [fst]; [|apply V]. apply clean_app; [apply V|]. split; [apply nonul_cstr|intros ? ? []].
    + unfold subblock_view. destruct (nth_error (p_heap s) id); cbn; [|discriminate]. intros i E. injection E as <-. rewrite app_length. cbn. lia.
  - destruct (handle s x) as [id|] eqn:H; [|eauto]. pose proof (pv_live s V x id H) as LV.
    edestruct (do_inv s (OSet id (c_str key) (c_str value) (match descr with None => [] | Some t => c_str t end))) as (s' & E & V' & _); [exact V|intros ? [<-|[]]; exact LV|reflexivity|apply set_clean; [apply V|apply nonul_cstr|apply nonul_cstr]|]. eauto.
  - destruct (handle s x) as [id|] eqn:H; [|eauto]. pose proof (pv_live s V x id H) as LV.
    edestruct (do_inv s (OUnset id (c_str key))) as (s' & E & V' & _); [exact V|intros ? [<-|[]]; exact LV|reflexivity|apply unset_clean; apply V|]. eauto.
  - destruct (handle s x) as [id|] eqn:H; [|eauto]. pose proof (pv_live s V x id H) as LV.
    edestruct (do_inv s (OMarkRO id (c_str key))) as (s' & E & V' & _); [exact V|intros ? [<-|[]]; exact LV|reflexivity| |eauto].
    unfold mark_read_only. destruct (nth_error (p_heap s) id) as [b|] eqn:B; cbn [fst]; [|apply V]. apply clean_upd; [apply V|]. exact (pv_clean s V _ _ B).
  - destruct (handle s x) as [a|] eqn:H; [|eauto]. destruct (handle s y) as [b|] eqn:H2; [|eauto]. pose proof (pv_live s V x a H). pose proof (pv_live s V y b H2).
    edestruct (do_inv s (OMerge a b)) as (s' & E & V' & _); [exact V|intros ? [<-|[<-|[]]]; assumption|reflexivity| |eauto].
    unfold merge_config. destruct (available_values (p_heap s) b) as [ks| | |] eqn:A; cbn [fst]; try apply V. apply merge_clean; [apply V|]. intros k I. eapply avail_clean; [apply V|exact A|exact I].
Qed.
Lemma pc_run_inv ops : exists s, pc_run ops = Some s /\ pinv s.
Proof.
  induction ops as [|o ops IH] using rev_ind.
  - exists pst0. split; [reflexivity|]. constructor; [exists []; reflexivity| |].
    + intros x id. destruct x; discriminate.
    + intros i b E. destruct i; discriminate.
  - destruct IH as (s & E & V). unfold pc_run in *. rewrite fold_left_app. cbn [fold_left]. rewrite E. apply pc_step_inv. exact V.
Qed.

(** ---- specification ---- *)
(** Python object x is the root block r of the heap seen through the views p. *)
Definition sees (s : pst) (x r : nat) (p : list str) : Prop := exists id, handle s x = Some id /\ resolves (p_heap s) id r p.

Lemma sees_total s x id : pinv s -> handle s x = Some id -> exists r p, resolves (p_heap s) id r p.
Proof. intros V H. apply resolves_total; [apply V|exact (pv_live s V x id H)]. Qed.

(** Every history runs without undefined behaviour, and so does every call in
    the state it leads to. *)
Theorem C103_defined ops : exists s, pc_run ops = Some s /\
  (forall o, pc_step s o <> None) /\
  forall x k, (forall d, pc_get s x k d <> PBad) /\ (forall d, pc_get_bool s x k d <> PBad) /\ pc_descr s x k <> PBad /\ pc_has s x k <> PBad /\ pc_is_ro s x k <> PBad /\ pc_keys s x <> PBad /\ pc_name s x <> PBad.
Proof.
  destruct (pc_run_inv ops) as (s & E & V). exists s. split; [exact E|]. split; [intros o H; destruct (pc_step_inv s o V) as (? & H' & _); congruence|].
  intros x k. unfold pc_get, pc_get_bool, pc_descr, pc_has, pc_is_ro, pc_keys, pc_name. destruct (handle s x) as [id|] eqn:H; [|repeat split; intros; discriminate].
  destruct (sees_total s x id V H) as (r & p & RS). pose proof (pv_reach s V) as RE. destruct (reachable_R _ RE) as [f HR]. pose proof (pv_live s V x id H) as LV.
  repeat split.
  - intro d. rewrite (get_at _ f HR id r p RS). destruct (fentry _ _ _) as [[]|]; discriminate.
  - intros [d|].
    + destruct (C14_get_value_default bool bool_cast _ id (c_str k) d RE LV) as [(v & t & _ & _ & _ & ->)|(_ & _ & ->)]; discriminate.
    + destruct (C14_get_value_default bool bool_cast _ id (c_str k) true RE LV) as [(v & t & _ & _ & -> & _)|(_ & (e & ->) & _)]; discriminate.
  - rewrite (desc_at _ f HR id r p RS). destruct (fentry _ _ _) as [[]|]; discriminate.
  - rewrite (has_at _ f HR id r p RS). discriminate.
  - unfold is_read_only. destruct (nth_error (p_heap s) id) eqn:N; [discriminate|]. apply nth_error_None in N. lia.
  - rewrite (avail_at _ f id r p HR RS). discriminate.
  - destruct (nth_error (p_heap s) id) eqn:N; [discriminate|]. apply nth_error_None in N. lia.
Qed.
Print Assumptions C103_defined.

(** set_value: a read-only key is silently left alone; otherwise every object
    that sees the entry reads the text, cut at NUL and trimmed, and no other
    entry changes. *)
Theorem C103_set ops s x r p k v d : pc_run ops = Some s -> sees s x r p ->
  exists s', pc_step s (PcSet x k v d) = Some s' /\
  ((is_read_only (p_heap s) r (abs_key p (c_str k)) = Ok true /\ s' = s) \/
   (is_read_only (p_heap s) r (abs_key p (c_str k)) = Ok false /\
    exists t, is_trim (c_str v) t /\
    forall y q k' def, sees s y r q -> abs_key q (c_str k') = abs_key p (c_str k) -> pc_get s' y k' def = PRet (Some t)) /\
    (forall y r' q k' def, sees s y r' q -> r' <> r \/ abs_key q (c_str k') <> abs_key p (c_str k) -> pc_get s' y k' def = pc_get s y k' def /\ pc_has s' y k' = pc_has s y k' /\ pc_descr s' y k' = pc_descr s y k')).
Proof.
  intros E (id & H & RS). destruct (pc_run_inv ops) as (s0 & E0 & V). rewrite E in E0. injection E0 as <-. cbn [pc_step]. rewrite H. set (dd := match d with None => [] | Some t => c_str t end).
  edestruct (do_inv s (OSet id (c_str k) (c_str v) dd)) as (s' & ES & V' & ->); [exact V|intros ? [<-|[]]; exact (pv_live s V x id H)|reflexivity|apply set_clean; [apply V|apply nonul_cstr|apply nonul_cstr]|].
  eexists. split; [exact ES|]. destruct (C01_set_succeeds_iff _ id (c_str k) (c_str v) dd r p (pv_reach s V) RS) as [[RO OK]|[RO (cur & T)]].
  - right. destruct (C01_set_get (p_heap s) id (c_str k) (c_str v) dd (fst (i_set_value (p_heap s) id (c_str k) (c_str v) dd)) (pv_reach s V)) as (A & B & _); [rewrite <- OK; apply surjective_pairing|].
    split.
    + split; [exact RO|]. destruct (A id (c_str k)) as (t & T & G); [exists r, p, p; auto|]. exists t. split; [exact T|]. intros y q k' def (j & Hy & RSy) EA. unfold pc_get. change (handle _ y) with (handle s y). rewrite Hy. cbn [p_heap].
      destruct (A j (c_str k')) as (t' & T' & G'); [exists r, p, q; auto|]. rewrite G'. cbn [c_ret]. f_equal. f_equal.
      assert (ET : t' = t).
      { pose proof (C01_aliases_agree (fst (i_set_value (p_heap s) id (c_str k) (c_str v) dd)) id (c_str k) j (c_str k') (pv_reach _ V')) as (_ & _ & AG).
        - exists r, p, q. split; [|split; [|auto]]; (eapply same_shape_resolves; [exact (step_shape (p_heap s) (OSet id (c_str k) (c_str v) dd))|assumption]).
        - apply AG in G. rewrite G in G'. injection G' as <-. reflexivity. }
      subst t'. apply c_str_id. intro I. destruct T as (a & b & Q & _). apply (nonul_cstr v). rewrite Q. apply in_or_app. right. apply in_or_app. auto.
    + intros y r' q k' def (j & Hy & RSy) NE. unfold pc_get, pc_has, pc_descr. change (handle (mkP _ _) y) with (handle s y). rewrite Hy. cbn [p_heap].
      destruct (B j (c_str k')) as (-> & -> & ->); auto. { exact (pv_live s V y j Hy). } intros (r0 & p1 & p2 & R1 & R2 & EQ). destruct (resolves_det _ _ _ _ R1 _ _ RS) as [-> ->]. destruct (resolves_det _ _ _ _ R2 _ _ RSy) as [-> ->]. destruct NE; congruence.
  - left. split; [exact RO|]. rewrite T. destruct s; reflexivity.
Qed.
Print Assumptions C103_set.

(** Reading one key. *)
Theorem C103_reads ops s x id k : pc_run ops = Some s -> handle s x = Some id ->
  (pc_has s x k = PRet true /\ exists v d, (forall def, pc_get s x k def = PRet (Some v)) /\ pc_descr s x k = PRet (Some d) /\
     (forall b, pc_get_bool s x k None = PRet b <-> bool_cast v = Some b) /\ (bool_cast v = None -> pc_get_bool s x k None = PRaise NoSuchValueExc) /\
     (forall b, pc_get_bool s x k (Some b) = PRet (match bool_cast v with Some t => t | None => b end))) \/
  (pc_has s x k = PRet false /\ (forall def, pc_get s x k def = PRet def) /\ pc_descr s x k = PRaise NullPointer /\
     pc_get_bool s x k None = PRaise NoSuchValueExc /\ forall b, pc_get_bool s x k (Some b) = PRet b).
Proof.
  intros E H. destruct (pc_run_inv ops) as (s0 & E0 & V). rewrite E in E0. injection E0 as <-. destruct (sees_total s x id V H) as (r & p & RS). destruct (reachable_R _ (pv_reach s V)) as [f HR].
  unfold pc_has, pc_get, pc_descr, pc_get_bool, get_value_def, get_value. rewrite H. rewrite (has_at _ f HR id r p RS), (get_at _ f HR id r p RS), (desc_at _ f HR id r p RS), (iget_at _ f HR id r p RS).
  pose proof (get_clean (p_heap s) id (c_str k)) as GC. rewrite (get_at _ f HR id r p RS) in GC.
  destruct (fentry f r (abs_key p (c_str k))) as [[v d]|] eqn:F; cbn [rbind c_ret].
  - left. split; [reflexivity|]. exists v, (c_str (c_str d)). rewrite (c_str_id v) by (apply (GC v (pv_clean s V) eq_refl)). split; [reflexivity|]. split; [reflexivity|]. destruct (bool_cast v) as [t|].
    + split; [intro b; split; intro Q; injection Q as <-; reflexivity|]. split; [discriminate|reflexivity].
    + split; [intro b; split; discriminate|]. split; reflexivity.
  - right. repeat split; reflexivity.
Qed.
Print Assumptions C103_reads.

(** The listing and the dictionary. *)
Lemma keys_exact s x id : pinv s -> handle s x = Some id -> exists ks, available_values (p_heap s) id = Ok ks /\ pc_keys s x = PRet ks.
Proof.
  intros V H. destruct (sees_total s x id V H) as (r & p & RS). destruct (reachable_R _ (pv_reach s V)) as [f HR]. unfold pc_keys. rewrite H. rewrite (avail_at _ f id r p HR RS). cbn [c_ret]. eexists. split; [reflexivity|]. f_equal.
  rewrite <- map_id. apply map_ext_in. intros k I. apply c_str_id. eapply avail_clean; [apply V|unfold available_values in *; exact (avail_at _ f id r p HR RS)|exact I].
Qed.
Lemma dict_lookup s x id : pinv s -> handle s x = Some id -> forall ks d0, (forall k, In k ks -> nonul k) -> exists d, dict_of s x ks d0 = PRet d /\
  forall k, sfind k d = if in_dec str_dec k ks then match pc_get s x k None with PRet v => Some v | _ => None end else sfind k d0.
Proof.
  intros V H. induction ks as [|a ks IH]; intros d0 NK; cbn [dict_of]; [exists d0; auto|].
  destruct (sees_total s x id V H) as (r & p & RS). destruct (reachable_R _ (pv_reach s V)) as [f HR].
  assert (G : exists v, pc_get s x a None = PRet v) by (unfold pc_get; rewrite H, (get_at _ f HR id r p RS); destruct (fentry _ _ _) as [[]|]; cbn; eauto).
  destruct G as (v & G). rewrite G. destruct (IH (sset a v d0)) as (d & D & K); [intros k I; apply NK; now right|]. exists d. split; [exact D|]. intro k. rewrite K. destruct (in_dec str_dec k ks) as [I|I], (in_dec str_dec k (a :: ks)) as [J|J]; auto.
  - elim J. now right.
  - destruct J as [<-|J]; [|contradiction]. rewrite G, sfind_set_eq. reflexivity.
  - rewrite sfind_set_ne; [reflexivity|]. intros ->. apply J. now left.
Qed.
Theorem C103_as_dict ops s x r : pc_run ops = Some s -> sees s x r [] ->
  exists d, pc_as_dict s x = PRet d /\
  (forall k v, ~ In NUL k -> (sfind k d = Some (Some v) <-> pc_get s x k None = PRet (Some v))) /\
  (forall k, ~ In NUL k -> (sfind k d <> None <-> pc_has s x k = PRet true)) /\
  forall k, sfind k d <> Some None.
Proof.
  intros E (id & H & RS). destruct (pc_run_inv ops) as (s0 & E0 & V). rewrite E in E0. injection E0 as <-.
  assert (RR : id = r) by (inversion RS; [reflexivity|destruct path; discriminate]). subst r.
  destruct (keys_exact s x id V H) as (ks & A & K). destruct (C09_available_values_root _ id (pv_reach s V) RS) as (ks' & A' & _ & _ & HV). rewrite A in A'. injection A' as <-.
  destruct (dict_lookup s x id V H ks []) as (d & D & LK); [intros k I; eapply avail_clean; [apply V|exact A|exact I]|]. exists d. unfold pc_as_dict. rewrite K. split; [exact D|].
  destruct (reachable_R _ (pv_reach s V)) as [f HR].
  assert (GI : forall k, ~ In NUL k -> (In k ks <-> pc_has s x k = PRet true) /\ (In k ks <-> exists v, pc_get s x k None = PRet (Some v))).
  { intros k NK. rewrite HV. unfold pc_has, pc_get. rewrite H, (c_str_id k NK), (has_at _ f HR id id [] RS), (get_at _ f HR id id [] RS). destruct (fentry _ _ _) as [[v dd]|]; cbn [c_ret]; split; split; intro Q; auto; try discriminate; eauto. destruct Q; discriminate. }
  split; [|split].
  - intros k v NK. rewrite LK. destruct (in_dec str_dec k ks) as [I|I].
    + apply (proj2 (GI k NK)) in I. destruct I as (w & ->). split; intro Q; injection Q as <-; reflexivity.
    + split; [discriminate|]. intro Q. elim I. apply (proj2 (GI k NK)). eauto.
  - intros k NK. rewrite LK. destruct (in_dec str_dec k ks) as [I|I].
    + split; [intros _; apply (proj1 (GI k NK)); exact I|]. intros _. apply (proj2 (GI k NK)) in I. destruct I as (w & ->). discriminate.
    + split; [intro Q; now elim Q|]. intros Q. elim I. apply (proj1 (GI k NK)). exact Q.
  - intro k. rewrite LK. destruct (in_dec str_dec k ks) as [I|I]; [|discriminate]. assert (NK : ~ In NUL k) by (eapply avail_clean; [apply V|exact A|exact I]). apply (proj2 (GI k NK)) in I. destruct I as (w & ->). discriminate.
Qed.
Print Assumptions C103_as_dict.

(** merge_config of a root object into an object of another root, no key of the
    source being read-only in the target. *)
Theorem C103_merge ops s x y rx ry p : pc_run ops = Some s -> sees s x rx p -> sees s y ry [] -> rx <> ry ->
  (forall k, pc_has s y k = PRet true -> is_read_only (p_heap s) rx (abs_key p (c_str k)) = Ok false) ->
  exists s', pc_step s (PcMerge x y) = Some s' /\
  forall k, (pc_has s y k = PRet true -> forall def, pc_get s' x k def = pc_get s y k def) /\
            (pc_has s y k = PRet false -> forall def, pc_get s' x k def = pc_get s x k def) /\
            forall def, pc_get s' y k def = pc_get s y k def.
Proof.
  intros E (a & Ha & RSa) (b & Hb & RSb) NE RO. destruct (pc_run_inv ops) as (s0 & E0 & V). rewrite E in E0. injection E0 as <-.
  assert (RR : b = ry) by (inversion RSb; [reflexivity|destruct path; discriminate]). subst ry.
  destruct (C09_available_values_root _ b (pv_reach s V) RSb) as (ks & A & _ & _ & HV). destruct (reachable_R _ (pv_reach s V)) as [f HR].
  cbn [pc_step]. rewrite Ha, Hb.
  edestruct (do_inv s (OMerge a b)) as (s' & ES & V' & ->); [exact V|intros ? [<-|[<-|[]]]; [exact (pv_live s V x _ Ha)|exact (pv_live s V y _ Hb)]|reflexivity| |].
  { unfold merge_config. rewrite A. apply merge_clean; [apply V|]. intros k I. eapply avail_clean; [apply V|exact A|exact I]. }
  eexists. split; [exact ES|].
  destruct (C06_merge (p_heap s) a b rx b p [] ks (pv_reach s V) RSa RSb NE A) as (l1 & l2 & EK & _ & END & MG & OT & _); [intros k I; apply HV; exact I|].
  assert (NKS : forall k, In k ks -> nonul k) by (intros k I; eapply avail_clean; [apply V|exact A|exact I]).
  assert (L2 : l2 = []).
  { destruct l2 as [|k l2]; [reflexivity|]. destruct END as [Q _]. assert (I : In k ks) by (rewrite EK; apply in_or_app; right; now left). specialize (RO k). rewrite (c_str_id k) in RO by (apply NKS; exact I). rewrite RO in Q; [discriminate|].
    unfold pc_has. rewrite Hb, c_str_id by (apply NKS; exact I). apply HV in I. rewrite I. reflexivity. }
  subst l2. rewrite app_nil_r in EK. subst l1.
  assert (HS : forall k, pc_has s y k = PRet true <-> In (c_str k) ks). { intro k. unfold pc_has. rewrite Hb, HV. destruct (has_value (p_heap s) b (c_str k)) as [[|]| | |]; cbn; split; congruence. }
  assert (GET : forall h' k def, (forall v, get_string h' a (c_str k) = Ok v <-> get_string (p_heap s) b (c_str k) = Ok v) -> In (c_str k) ks -> c_ret (get_string h' a (c_str k)) def (fun v => Some (c_str v)) = c_ret (get_string (p_heap s) b (c_str k)) def (fun v => Some (c_str v))).
  { intros h' k def EQ I. apply HV in I. rewrite (has_at _ f HR b b [] RSb) in I. rewrite (get_at _ f HR b b [] RSb) in *. destruct (fentry _ _ _) as [[v dd]|]; [|discriminate]. rewrite (proj2 (EQ v) eq_refl). reflexivity. }
  intro k. unfold pc_get. change (handle (mkP _ _) x) with (handle s x). change (handle (mkP _ _) y) with (handle s y). rewrite Ha, Hb. cbn [p_heap]. split; [|split].
  - intros Q def. apply HS in Q. apply GET; [|exact Q]. apply MG. exact Q.
  - intros Q def. assert (NI : ~ In (c_str k) ks) by (intro I; apply HS in I; congruence). destruct (OT a (c_str k) (pv_live s V x _ Ha)) as (-> & _); [|reflexivity]. intros k1 I1 (r0 & p1 & p2 & R1 & R2 & EQ). destruct (resolves_det _ _ _ _ R1 _ _ RSa) as [-> ->]. destruct (resolves_det _ _ _ _ R2 _ _ RSa) as [_ ->]. apply app_inv_head in EQ. subst k1. contradiction.
  - intro def. destruct (OT b (c_str k) (pv_live s V y _ Hb)) as (-> & _); [|reflexivity]. intros k1 I1 (r0 & p1 & p2 & R1 & R2 & EQ). destruct (resolves_det _ _ _ _ R1 _ _ RSa) as [-> ->]. destruct (resolves_det _ _ _ _ R2 _ _ RSb) as [? _]. congruence.
Qed.
Print Assumptions C103_merge.

(** An object whose creation failed: nothing has an effect, reads give the
    default. *)
Theorem C103_null s x : handle s x = None ->
  (forall k v d, pc_step s (PcSet x k v d) = Some s) /\ (forall k, pc_step s (PcUnset x k) = Some s) /\ (forall k, pc_step s (PcMark x k) = Some s) /\
  (forall y, pc_step s (PcMerge x y) = Some s /\ pc_step s (PcMerge y x) = Some s) /\
  (forall k def, pc_get s x k def = PRet def) /\ (forall k, pc_has s x k = PRet false) /\ pc_as_dict s x = PRet [] /\
  forall k, pc_descr s x k = PRaise NullPointer.
Proof.
  intro H. cbn [pc_step]. unfold pc_get, pc_has, pc_as_dict, pc_keys, pc_descr. rewrite H. repeat split; auto. destruct (handle s y); reflexivity.
Qed.
Print Assumptions C103_null.

(** Documented otherwise: get_description of a key that does not exist should
    return None; every value of as_dict should be a string; merge_config should
    merge all keys (a read-only key silently drops the keys after it). *)
Definition demo_py : list pcop := [PcNew []; PcSet 0 (L "_global:g") (L "1") None; PcSet 0 (L "a:b") (L " x ") (Some (L "doc")); PcView 0 (L "a"); PcNew (L "other"); PcSet 2 (L "k") (L "v") None; PcSet 2 (L "z") (L "w") None; PcMark 0 (L "k")].
Theorem C103_get_description_none_refuted : exists ops s x k, pc_run ops = Some s /\ pc_has s x k = PRet false /\ handle s x <> None /\ pc_descr s x k = PRaise NullPointer.
Proof. exists [PcNew []]. eexists. exists 0, (L "k"). split; [vm_compute; reflexivity|]. split; [vm_compute; reflexivity|]. split; [discriminate|vm_compute; reflexivity]. Qed.
Print Assumptions C103_get_description_none_refuted.
Theorem C103_as_dict_of_view_refuted : exists ops s x d k, pc_run ops = Some s /\ pc_as_dict s x = PRet d /\ sfind k d = Some None.
Proof. exists demo_py. eexists. exists 1. eexists. exists (L "_global:g"). split; [vm_compute; reflexivity|]. split; vm_compute; reflexivity. Qed.
Print Assumptions C103_as_dict_of_view_refuted.
Theorem C103_merge_silent_refuted : exists ops s s' x y k, pc_run ops = Some s /\ pc_step s (PcMerge x y) = Some s' /\ pc_has s y k = PRet true /\ pc_is_ro s x k = PRet false /\ pc_has s' x k = PRet false.
Proof. exists demo_py. eexists. eexists. exists 0, 2, (L "z"). split; [vm_compute; reflexivity|]. repeat split; vm_compute; reflexivity. Qed.
Print Assumptions C103_merge_silent_refuted.
Example C103_ex : exists s, pc_run demo_py = Some s /\ sees s 0 0 [] /\ sees s 1 0 [L "a"] /\ pc_get s 1 (L "b") None = PRet (Some (L "x")) /\ sees s 2 2 [] /\ 0 <> 2.
Proof.
  eexists. split; [vm_compute; reflexivity|]. split; [|split; [|split; [vm_compute; reflexivity|split; [|discriminate]]]].
  - exists 0. split; [reflexivity|]. eapply resolves_root; reflexivity.
  - exists 1. split; [reflexivity|]. change [L "a"] with ([] ++ [L "a"]). eapply (resolves_view _ 1 (new_block (L "a") (Some 0)) 0 0 []); [reflexivity|reflexivity|]. eapply resolves_root; reflexivity.
  - exists 2. split; [reflexivity|]. eapply resolves_root; reflexivity.
Qed.
