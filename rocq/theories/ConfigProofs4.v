(** ConfigProofs4.v -- unset, merge, subblock, listing, bool casts. *)
From Coq Require Import Sorting.Sorted.
From Verif Require Import Base ConfigModel ConfigSpec ConfigProofs ConfigProofs2 ConfigProofs3.

(** ---------- values are trimmed ---------- *)
Lemma fentry_trimmed h f r K v d : R h f -> fentry f r K = Some (v, d) -> trim v = v.
Proof.
  intros HR. unfold fentry. destruct (nth_error f r) as [o|] eqn:Ho; [|discriminate].
  destruct (R_some _ _ _ _ HR Ho) as [b Hb]. destruct (proj2 HR _ _ _ Hb Ho) as [Hc _].
  apply (rc_trim _ _ Hc).
Qed.
Lemma get_trimmed_lemma h id k v : reachable h -> get_string h id k = Ok v -> is_trim v v.
Proof.
  intros Hre Hg. destruct (reachable_R _ Hre) as [f HR].
  destruct (nth_error h id) as [b|] eqn:E.
  - destruct (resolves_total h id Hre (nth_error_lt _ _ _ E)) as (r & p & Hres).
    rewrite (get_at h f HR id r p Hres) in Hg. destruct (fentry f r (abs_key p k)) as [[v0 d0]|] eqn:Ee; [|discriminate].
    injection Hg as ->. pose proof (fentry_trimmed _ _ _ _ _ _ HR Ee) as Ht.
    rewrite <- Ht at 2. apply trim_is_trim.
  - unfold get_string, get_value, has_value, fuel in Hg. simpl in Hg. rewrite E in Hg. discriminate.
Qed.

(** ---------- unset ---------- *)
Lemma unset_lemma h id r p k : reachable h -> resolves h id r p ->
  let out := unset_value h id k in
  (is_read_only h r (abs_key p k) = Ok true /\
     fst out = h /\ exists cur, snd out = Throw (UnsetOnReadOnly (abs_key p k) cur)) \/
  (is_read_only h r (abs_key p k) = Ok false /\ has_value h id k = Ok false /\
     fst out = h /\ snd out = Throw (NoSuchValue (abs_key p k))) \/
  (is_read_only h r (abs_key p k) = Ok false /\ has_value h id k = Ok true /\ snd out = Ok tt /\
     (forall id2 k2, same_entry h id k id2 k2 -> has_value (fst out) id2 k2 = Ok false) /\
     (forall id2 k2, id2 < length h -> ~ same_entry h id k id2 k2 ->
        get_string (fst out) id2 k2 = get_string h id2 k2 /\
        has_value (fst out) id2 k2 = has_value h id2 k2 /\
        get_description (fst out) id2 k2 = get_description h id2 k2)).
Proof.
  intros Hre Hres out. destruct (reachable_R _ Hre) as [f HR].
  rewrite (ro_at h f HR id r p Hres), (has_at h f HR id r p Hres).
  destruct (sim_unset h f id k HR) as [E1 E2]. fold out in E1, E2.
  destruct (resolves_flat _ _ _ _ _ HR Hres) as (o & ro & Ho & Er & Ep & Hfr & _).
  set (K := abs_key p k) in *.
  assert (Hst : forall n id0 k0, forall e, snd (unset_value_f n h id0 k0) = Throw e ->
                     fst (unset_value_f n h id0 k0) = h).
  { induction n as [|n IH]; intros id0 k0 e; simpl; auto.
    destruct (nth_error h id0) as [b|]; auto. destruct (b_parent b); eauto.
    destruct (is_read_only_b b k0); auto. destruct (sfind k0 (b_store b)); auto.
    destruct (sfind k0 (b_descr b)); auto. discriminate. }
  unfold funset, locate in E1, E2. rewrite Ho, Er, Ep, Hfr in E1, E2. fold K in E1, E2.
  unfold froflag, fentry. rewrite Hfr.
  destruct (shas K (f_flags ro)) eqn:Ero.
  - left. cbn [fst snd] in *. split; auto. split; [eapply Hst; exact E1|]. eauto.
  - right. destruct (sfind K (f_table ro)) as [[v0 d0]|] eqn:Ef.
    + right. cbn [fst snd] in *. repeat split; auto.
      * intros id2 k2 (r0 & p1 & p2 & H1 & H2 & HK).
        destruct (resolves_det _ _ _ _ H1 _ _ Hres) as [-> ->].
        assert (H2' : resolves (fst out) id2 r p2)
          by (eapply same_shape_resolves; [apply unset_shape|exact H2]).
        rewrite (has_at _ _ E2 id2 r p2 H2'). rewrite <- HK. fold K. unfold fentry, fupd.
        rewrite nth_lupd_eq by (eapply nth_error_lt; eauto). simpl.
        destruct (R_some _ _ _ _ HR Hfr) as [rb Hrb]. destruct (proj2 HR _ _ _ Hrb Hfr) as [Hc _].
        rewrite sfind_erase_eq by exact (rc_sorted _ _ Hc). reflexivity.
      * destruct (resolves_total h id2 Hre H) as (r2 & p2 & Hres2).
        assert (H2' : resolves (fst out) id2 r2 p2)
          by (eapply same_shape_resolves; [apply unset_shape|exact Hres2]).
        rewrite (get_at _ _ E2 id2 r2 p2 H2'), (get_at h f HR id2 r2 p2 Hres2). unfold fentry, fupd.
        destruct (Nat.eq_dec r r2) as [<-|Hne]; [|rewrite nth_lupd_ne by exact Hne; reflexivity].
        rewrite nth_lupd_eq by (eapply nth_error_lt; eauto). rewrite Hfr. simpl.
        rewrite sfind_erase_ne; auto. intro E. apply H0. exists r, p, p2. auto.
      * destruct (resolves_total h id2 Hre H) as (r2 & p2 & Hres2).
        assert (H2' : resolves (fst out) id2 r2 p2)
          by (eapply same_shape_resolves; [apply unset_shape|exact Hres2]).
        rewrite (has_at _ _ E2 id2 r2 p2 H2'), (has_at h f HR id2 r2 p2 Hres2). unfold fentry, fupd.
        destruct (Nat.eq_dec r r2) as [<-|Hne]; [|rewrite nth_lupd_ne by exact Hne; reflexivity].
        rewrite nth_lupd_eq by (eapply nth_error_lt; eauto). rewrite Hfr. simpl.
        rewrite sfind_erase_ne; auto. intro E. apply H0. exists r, p, p2. auto.
      * destruct (resolves_total h id2 Hre H) as (r2 & p2 & Hres2).
        assert (H2' : resolves (fst out) id2 r2 p2)
          by (eapply same_shape_resolves; [apply unset_shape|exact Hres2]).
        rewrite (desc_at _ _ E2 id2 r2 p2 H2'), (desc_at h f HR id2 r2 p2 Hres2). unfold fentry, fupd.
        destruct (Nat.eq_dec r r2) as [<-|Hne]; [|rewrite nth_lupd_ne by exact Hne; reflexivity].
        rewrite nth_lupd_eq by (eapply nth_error_lt; eauto). rewrite Hfr. simpl.
        rewrite sfind_erase_ne; auto. intro E. apply H0. exists r, p, p2. auto.
    + left. cbn [fst snd] in *. repeat split; auto. eapply Hst; exact E1.
Qed.

(** ---------- merge ---------- *)
Lemma abs_key_inj p k1 k2 : abs_key p k1 = abs_key p k2 -> k1 = k2.
Proof. unfold abs_key. apply app_inv_head. Qed.

Definition merged_descr (old : option (str * str)) (d : str) : str :=
  match old, d with Some (_, d0), [] => d0 | _, _ => d end.

Lemma merge_loop_lemma keys : forall h f a b ra pa rb pb,
  reachable h -> R h f -> resolves h a ra pa -> resolves h b rb pb -> ra <> rb ->
  (forall k, In k keys -> fentry f rb (abs_key pb k) <> None) ->
  exists l1 l2, keys = l1 ++ l2 /\
   (forall k, In k l1 -> froflag f ra (abs_key pa k) = false) /\
   (match l2 with
    | [] => snd (merge_loop h a b keys) = Ok tt
    | k :: _ => froflag f ra (abs_key pa k) = true /\
        exists cur v, snd (merge_loop h a b keys) = Throw (SetOnReadOnly (abs_key pa k) cur v)
    end) /\
   let h' := fst (merge_loop h a b keys) in
   exists f', R h' f' /\ (forall r K, froflag f' r K = froflag f r K) /\
    (forall k, In k l1 -> exists v d, fentry f rb (abs_key pb k) = Some (v, d) /\
        fentry f' ra (abs_key pa k) = Some (v, merged_descr (fentry f ra (abs_key pa k)) d)) /\
    (forall r K, ~ (r = ra /\ exists k, In k l1 /\ K = abs_key pa k) -> fentry f' r K = fentry f r K).
Proof.
  induction keys as [|k keys IH]; intros h f a b ra pa rb pb Hre HR Ha Hb Hne Hk.
  - exists [], []. simpl. split; auto. split; [intros k []|]. split; auto.
    exists f. split; auto. split; auto. split; auto. intros k [].
  - cbn [merge_loop].
    destruct (fentry f rb (abs_key pb k)) as [[v d]|] eqn:Eb; [|exfalso; apply (Hk k); simpl; auto].
    rewrite (get_at h f HR b rb pb Hb), (desc_at h f HR b rb pb Hb), Eb.
    destruct (set_outcome h a k v d ra pa Hre Ha) as [[Ero Eok]|[Ero [cur Ec]]].
    + rewrite (ro_at h f HR a ra pa Ha) in Ero. injection Ero as Ero.
      destruct (i_set_value h a k v d) as [h1 r1] eqn:Es. cbn [snd] in Eok. subst r1.
      destruct (set_effect h a k v d h1 Hre Es f HR) as (f1 & HR1 & r0 & p0 & Hres0 & Hent & Hfl).
      destruct (resolves_det _ _ _ _ Hres0 _ _ Ha) as [-> ->].
      assert (HS : same_shape h h1).
      { pose proof (set_shape (fuel h) h a k v d) as H. fold (i_set_value h a k v d) in H. rewrite Es in H. exact H. }
      assert (Hre1 : reachable h1).
      { pose proof (reachable_set h a k v d Hre) as H. rewrite Es in H. exact H. }
      assert (Hother : forall K, fentry f1 rb K = fentry f rb K).
      { intro K. rewrite Hent. destruct (Nat.eqb_spec rb ra) as [E|E]; [congruence|reflexivity]. }
      destruct (IH h1 f1 a b ra pa rb pb Hre1 HR1) as (l1 & l2 & Hkeys & H1 & H2 & f' & HR' & Hfl' & Hin & Hout);
        eauto using same_shape_resolves.
      { intros k' Hk'. rewrite Hother. apply Hk. simpl; auto. }
      exists (k :: l1), l2. split; [simpl; congruence|]. split; [|split].
      * intros k' [<-|Hk']; auto. rewrite <- Hfl. auto.
      * destruct l2; [exact H2|]. rewrite <- Hfl. exact H2.
      * exists f'. split; [exact HR'|]. split; [intros; rewrite Hfl'; apply Hfl|]. split.
        -- intros k' Hk'. destruct (in_dec str_dec k' l1) as [Hi|Hi].
           ++ destruct (Hin k' Hi) as (v' & d' & Ev & Ef). exists v', d'. rewrite Hother in Ev. split; auto.
              rewrite Ef. do 2 f_equal. rewrite Hent, Nat.eqb_refl.
              destruct (str_eqb_spec (abs_key pa k') (abs_key pa k)) as [E|E]; [|reflexivity].
              apply abs_key_inj in E. subst k'. rewrite Ev in Eb. injection Eb as <- <-. simpl.
              destruct (fentry f ra (abs_key pa k)) as [[v0 d0]|], d'; reflexivity.
           ++ destruct Hk' as [<-|Hk']; [|contradiction]. exists v, d. split; auto.
              rewrite Hout by (intros [_ (k2 & Hk2 & E)]; apply abs_key_inj in E; subst; contradiction).
              rewrite Hent, Nat.eqb_refl, str_eqb_refl. simpl.
              rewrite (fentry_trimmed _ _ _ _ _ _ HR Eb). reflexivity.
        -- intros r K Hn. rewrite Hout.
           ++ rewrite Hent. destruct (Nat.eqb_spec r ra) as [->|E]; [|reflexivity].
              destruct (str_eqb_spec K (abs_key pa k)) as [->|E2]; [|reflexivity].
              exfalso. apply Hn. split; auto. exists k. simpl; auto.
           ++ intros [-> (k2 & Hk2 & ->)]. apply Hn. split; auto. exists k2. simpl; auto.
    + rewrite Ec. exists [], (k :: keys). split; auto. split; [intros k' []|]. split.
      * rewrite (ro_at h f HR a ra pa Ha) in Ero. injection Ero as Ero. split; auto.
        simpl. eauto.
      * simpl. exists f. split; auto. split; auto. split; auto. intros k' [].
Qed.

Lemma merge_lemma h a b ra rb pa pb keys : reachable h -> resolves h a ra pa -> resolves h b rb pb -> ra <> rb ->
  available_values h b = Ok keys -> (forall k, In k keys -> has_value h b k = Ok true) ->
  let out := merge_config h a b in
  exists l1 l2, keys = l1 ++ l2 /\
   (forall k, In k l1 -> is_read_only h ra (abs_key pa k) = Ok false) /\
   (match l2 with
    | [] => snd out = Ok tt
    | k :: _ => is_read_only h ra (abs_key pa k) = Ok true /\
        exists cur v, snd out = Throw (SetOnReadOnly (abs_key pa k) cur v)
    end) /\
   (forall k, In k l1 -> 
      (forall v, get_string (fst out) a k = Ok v <-> get_string h b k = Ok v) /\
      get_description (fst out) a k =
        match get_description h b k, get_description h a k with
        | Ok [], Ok d0 => Ok d0
        | r, _ => r
        end) /\
   (forall id k, id < length h -> (forall k1, In k1 l1 -> ~ same_entry h a k1 id k) ->
      get_string (fst out) id k = get_string h id k /\
      has_value (fst out) id k = has_value h id k /\
      get_description (fst out) id k = get_description h id k) /\
   (forall id k, is_read_only (fst out) id k = is_read_only h id k).
Proof.
  intros Hre Ha Hb Hne Hav Hhas out. destruct (reachable_R _ Hre) as [f HR].
  destruct (merge_loop_lemma keys h f a b ra pa rb pb Hre HR Ha Hb Hne) as
     (l1 & l2 & Hkeys & H1 & H2 & f' & HR' & Hfl' & Hin & Hout).
  { intros k Hk. specialize (Hhas k Hk). rewrite (has_at h f HR b rb pb Hb) in Hhas.
    destruct (fentry f rb (abs_key pb k)); congruence. }
  assert (Hm : out = merge_loop h a b keys) by (unfold out, merge_config; rewrite Hav; reflexivity).
  rewrite <- Hm in *. exists l1, l2. split; auto.
  assert (HS : same_shape h (fst out)) by (rewrite Hm; apply merge_loop_shape).
  split; [intros k Hk; rewrite (ro_at h f HR a ra pa Ha), H1; auto|].
  split; [destruct l2; [exact H2|rewrite (ro_at h f HR a ra pa Ha); destruct H2 as [-> H2]; auto]|].
  split; [|split].
  - intros k Hk. destruct (Hin k Hk) as (v & d & Ev & Ef).
    rewrite (get_at _ f' HR' a ra pa), (desc_at _ f' HR' a ra pa) by eauto using same_shape_resolves.
    rewrite (get_at h f HR b rb pb Hb), (desc_at h f HR b rb pb Hb), (desc_at h f HR a ra pa Ha).
    rewrite Ef, Ev. split; [tauto|]. unfold merged_descr.
    destruct (fentry f ra (abs_key pa k)) as [[v0 d0]|], d; reflexivity.
  - intros id k Hlt Hns. destruct (resolves_total h id Hre Hlt) as (r2 & p2 & Hres2).
    assert (Hres2' : resolves (fst out) id r2 p2) by eauto using same_shape_resolves.
    rewrite (get_at _ f' HR' id r2 p2 Hres2'), (get_at h f HR id r2 p2 Hres2).
    rewrite (has_at _ f' HR' id r2 p2 Hres2'), (has_at h f HR id r2 p2 Hres2).
    rewrite (desc_at _ f' HR' id r2 p2 Hres2'), (desc_at h f HR id r2 p2 Hres2).
    rewrite Hout; auto. intros [-> (k1 & Hk1 & E)]. apply (Hns k1 Hk1). exists ra, pa, p2. auto.
  - intros id k. unfold is_read_only. 
    assert (Hlen : length (fst out) = length h).
    { destruct HR as [Hl _], HR' as [Hl' _]. rewrite Hm. clear. 
      revert h. induction keys as [|k keys IH]; intro h; simpl; auto.
      destruct (get_string h b k); auto. destruct (get_description h b k); auto.
      assert (E : length (fst (i_set_value h a k a0 a1)) = length h).
      { unfold i_set_value. generalize (fuel h) as n, a as id, k as kk. induction n as [|n IHn]; intros id kk; simpl; auto.
        destruct (nth_error h id) as [b0|]; auto. destruct (b_parent b0); auto.
        destruct (is_read_only_b b0 kk); auto. cbn [fst]. apply lupd_length. }
      destruct (i_set_value h a k a0 a1) as [h' [[]| | |]]; cbn [fst] in *; auto. rewrite IH. exact E. }
    destruct (nth_error h id) as [b0|] eqn:E0.
    + destruct (HS _ _ E0) as (b1 & E1 & _). rewrite E1.
      destruct (R_some' _ _ _ _ HR E0) as [o Ho]. destruct (R_some' _ _ _ _ HR' E1) as [o' Ho'].
      pose proof (Hfl' id k) as Hf. unfold froflag in Hf. rewrite Ho, Ho' in Hf.
      destruct (proj2 HR _ _ _ E0 Ho) as [[C1 _ _ _ _ _ _] _].
      destruct (proj2 HR' _ _ _ E1 Ho') as [[C1' _ _ _ _ _ _] _].
      unfold is_read_only_b. rewrite C1, C1', Hf. reflexivity.
    + apply nth_error_None in E0. assert (E1 : nth_error (fst out) id = None) by (apply nth_error_None; lia).
      rewrite E1. reflexivity.
Qed.

(** ---------- listing ---------- *)
Lemma avail_at h f id r p : R h f -> resolves h id r p ->
  available_values h id = Ok (fold_left below p (match nth_error f r with Some ro => skeys (f_table ro) | None => [] end)).
Proof.
  intros HR Hres. rewrite (sim_avail _ _ _ HR). unfold favail.
  destruct (resolves_flat _ _ _ _ _ HR Hres) as (o & ro & Ho & Er & Ep & Hfr & _).
  rewrite Ho, Er, Ep, Hfr. reflexivity.
Qed.
Lemma ssorted_StronglySorted {V} (m : smap V) : ssorted m -> StronglySorted (fun a b => str_cmp a b = Lt) (skeys m).
Proof.
  unfold ssorted, skeys, m_keys. induction m as [|[k v] m IH]; simpl; [constructor|].
  intros [Ha Hs]. constructor; auto. rewrite Forall_forall. intros x Hx.
  apply in_map_iff in Hx as [[k' v'] [<- Hx]]. eapply m_above_in; eauto.
Qed.
Lemma root_keys_lemma h r : reachable h -> resolves h r r [] ->
  exists keys, available_values h r = Ok keys /\
    StronglySorted (fun a b => str_cmp a b = Lt) keys /\ NoDup keys /\
    forall k, In k keys <-> has_value h r k = Ok true.
Proof.
  intros Hre Hres. destruct (reachable_R _ Hre) as [f HR].
  rewrite (avail_at h f r r [] HR Hres). simpl.
  destruct (resolves_flat _ _ _ _ _ HR Hres) as (o & ro & Ho & Er & Ep & Hfr & _). rewrite Hfr.
  destruct (R_some _ _ _ _ HR Hfr) as [rb Hrb]. destruct (proj2 HR _ _ _ Hrb Hfr) as [Hc _].
  exists (skeys (f_table ro)). split; auto. split; [apply ssorted_StronglySorted, Hc|].
  split; [apply ssorted_NoDup, Hc|].
  intro k. rewrite (has_at h f HR r r [] Hres), sfind_keys. unfold fentry. rewrite Hfr, abs_key_nil.
  destruct (sfind k (f_table ro)); split; congruence.
Qed.

Definition global_name (n : str) : bool := is_prefix (L "_global:") (n ++ L ":").
Definition global_key (k : str) : bool := is_prefix (L "_global:") k.

Lemma is_prefix_trans a b c : is_prefix a b = true -> is_prefix b c = true -> is_prefix a c = true.
Proof. rewrite !is_prefix_app. intros [x ->] [y ->]. exists (x ++ y). rewrite app_assoc. reflexivity. Qed.
Lemma skip_app {A} (a b : list A) : skipn (length a) (a ++ b) = b.
Proof. induction a; simpl; auto. Qed.

Lemma is_prefix_colon g n k : 
  is_prefix (g ++ L ":") (n ++ L ":" ++ k) = true -> ~ In ":"%char g -> is_prefix (g ++ L ":") (n ++ L ":") = true.
Proof.
  revert n. induction g as [|c g IH]; intros n; simpl.
  - intros H _. destruct n as [|x n]; simpl in *; auto.
  - intros H Hn. destruct n as [|x n]; simpl in *.
    + apply andb_true_iff in H as [Hc _]. apply Ascii.eqb_eq in Hc. subst. exfalso. auto.
    + apply andb_true_iff in H as [Hc H]. apply Ascii.eqb_eq in Hc. subst. rewrite Ascii.eqb_refl. simpl.
      apply IH; auto.
Qed.
Lemma global_key_name n k : global_key (n ++ L ":" ++ k) = true -> global_name n = true.
Proof.
  unfold global_key, global_name. change (L "_global:") with (L "_global" ++ L ":").
  intro H. eapply is_prefix_colon; eauto. simpl. intuition discriminate.
Qed.

Lemma in_below keys n k : In k (below keys n) <->
  In (n ++ L ":" ++ k) keys \/ (In k keys /\ global_key k = true /\ is_prefix (n ++ L ":") k = false).
Proof.
  unfold below. rewrite in_map_iff. split.
  - intros (k0 & Hr & Hin). apply filter_In in Hin as [Hin Hv].
    unfold relative, visible in *. destruct (is_prefix (n ++ L ":") k0) eqn:E.
    + left. apply is_prefix_app in E as [s ->]. subst k.
      replace (length n + 1) with (length (n ++ L ":")) by (rewrite app_length; reflexivity).
      rewrite skip_app. rewrite <- app_assoc in Hin. exact Hin.
    + right. subst k. simpl in Hv. auto.
  - intros [H|(H & Hg & Hp)].
    + exists (n ++ L ":" ++ k). unfold relative, visible.
      assert (E : is_prefix (n ++ L ":") (n ++ L ":" ++ k) = true)
        by (rewrite app_assoc; apply is_prefix_self).
      rewrite E. split.
      * replace (length n + 1) with (length (n ++ L ":")) by (rewrite app_length; reflexivity).
        rewrite app_assoc, skip_app. reflexivity.
      * apply filter_In. rewrite E. auto.
    + exists k. unfold relative. rewrite Hp. split; auto. apply filter_In. split; auto.
      unfold visible. rewrite Hp. exact Hg.
Qed.

(** Completeness and (restricted) soundness of a view's listing. *)
Lemma avail_complete path : forall keys k,
  In (abs_key path k) keys -> In k (fold_left below path keys).
Proof.
  induction path as [|n path IH] using rev_ind; intros keys k H; simpl; auto.
  rewrite fold_left_app. simpl. apply in_below. left. apply IH. rewrite abs_key_snoc in H. exact H.
Qed.
Lemma avail_sound path : forall keys k,
  (forall n, In n path -> global_name n = false) -> global_key k = false ->
  In k (fold_left below path keys) -> In (abs_key path k) keys.
Proof.
  induction path as [|n path IH] using rev_ind; intros keys k Hp Hk H; simpl; auto.
  rewrite fold_left_app in H. simpl in H. apply in_below in H as [H|(_ & Hg & _)]; [|congruence].
  rewrite abs_key_snoc. apply IH; auto.
  - intros m Hm. apply Hp. apply in_or_app; auto.
  - destruct (global_key (n ++ L ":" ++ k)) eqn:E; auto.
    apply global_key_name in E. rewrite Hp in E; [discriminate|]. apply in_or_app; simpl; auto.
Qed.
Lemma view_keys_lemma h id r p : reachable h -> resolves h id r p ->
  (forall n, In n p -> global_name n = false) ->
  exists keys, available_values h id = Ok keys /\
   (forall k, has_value h id k = Ok true -> In k keys) /\
   (forall k, global_key k = false -> In k keys -> has_value h id k = Ok true).
Proof.
  intros Hre Hres Hg. destruct (reachable_R _ Hre) as [f HR].
  rewrite (avail_at h f id r p HR Hres).
  destruct (resolves_flat _ _ _ _ _ HR Hres) as (o & ro & Ho & Er & Ep & Hfr & _). rewrite Hfr.
  eexists. split; [reflexivity|].
  assert (Hh : forall k, has_value h id k = Ok true <-> In (abs_key p k) (skeys (f_table ro))).
  { intro k. rewrite (has_at h f HR id r p Hres), sfind_keys. unfold fentry. rewrite Hfr.
    destruct (sfind _ (f_table ro)); split; congruence. }
  split; intros k.
  - intro H. apply Hh in H. apply avail_complete; auto.
  - intros Hk H. apply Hh. apply avail_sound; auto.
Qed.

(** ---------- subblock of a root ---------- *)
Definition sub_src (r : str -> option (str * str)) (n k : str) (e : str * str) : Prop :=
  r (n ++ L ":" ++ k) = Some e \/ (global_key k = true /\ is_prefix (n ++ L ":") k = false /\ r k = Some e).

Lemma prefix_strip n k0 : is_prefix (n ++ L ":") k0 = true -> k0 = n ++ L ":" ++ skipn (length n + 1) k0.
Proof.
  intro H. apply is_prefix_app in H as [s ->].
  replace (length n + 1) with (length (n ++ L ":")) by (rewrite app_length; reflexivity).
  rewrite skip_app, <- app_assoc. reflexivity.
Qed.

(** The loop over the keys of a root block [ro]. *)
Section SubLoop.
  Variables (h : heap) (f : flat) (id : nat) (ro : fobj) (n : str).
  Hypotheses (HR : R h f) (Hid : nth_error f id = Some ro) (Hroot : f_root ro = id) (Hpath : f_path ro = []).

  Lemma fdesc_root k : fdesc f id k =
    match sfind k (f_table ro) with Some (_, d) => Ok d | None => Throw (NoSuchValue k) end.
  Proof. unfold fdesc, locate. rewrite Hid, Hroot, Hid, Hpath. reflexivity. Qed.
  Lemma fget_root k : fget f id k =
    match sfind k (f_table ro) with Some (v, _) => Ok v | None => Throw (NoSuchValue k) end.
  Proof. unfold fget, locate. rewrite Hid, Hroot, Hid, Hpath. reflexivity. Qed.
  Lemma table_trim k v d : sfind k (f_table ro) = Some (v, d) -> trim v = v.
  Proof.
    intro H. apply (fentry_trimmed h f id k v d HR). unfold fentry. rewrite Hid. exact H.
  Qed.

  Lemma sub_loop_cons k0 keys t0 v d : sfind k0 (f_table ro) = Some (v, d) ->
    fsub_loop f id n t0 (k0 :: keys) =
    if visible n k0 then fsub_loop f id n (sset (relative n k0) (v, new_descr t0 (relative n k0) d) t0) keys
    else fsub_loop f id n t0 keys.
  Proof.
    intro H. cbn [fsub_loop]. rewrite fdesc_root, fget_root, H. destruct (visible n k0); auto.
    rewrite (table_trim _ _ _ H). reflexivity.
  Qed.

  Lemma sub_loop_other : forall keys t0, (forall k, In k keys -> sfind k (f_table ro) <> None) ->
    exists t, fsub_loop f id n t0 keys = Ok t /\
      (forall k, (forall k0, In k0 keys -> visible n k0 = true -> relative n k0 <> k) -> sfind k t = sfind k t0) /\
      (forall k k0, In k0 keys -> visible n k0 = true -> relative n k0 = k ->
         exists k1 v d1 d, In k1 keys /\ visible n k1 = true /\ relative n k1 = k /\
           sfind k1 (f_table ro) = Some (v, d1) /\ sfind k t = Some (v, d)).
  Proof.
    induction keys as [|k0 keys IH]; intros t0 Hk.
    - exists t0. simpl. split; auto. split; auto. intros k k0 [].
    - destruct (sfind k0 (f_table ro)) as [[v d]|] eqn:E; [|exfalso; apply (Hk k0); simpl; auto].
      rewrite (sub_loop_cons k0 keys t0 v d E).
      destruct (visible n k0) eqn:Ev.
      + destruct (IH (sset (relative n k0) (v, new_descr t0 (relative n k0) d) t0)) as (t & Ht & H1 & H2).
        { intros k Hin. apply Hk; simpl; auto. }
        exists t. split; auto. split.
        * intros k Hno. rewrite H1 by (intros; apply Hno; simpl; auto).
          apply sfind_set_ne. apply not_eq_sym. apply Hno; simpl; auto.
        * intros k k1 [<-|Hin] Hv Hr.
          -- destruct (in_dec str_dec k (map (relative n) (filter (visible n) keys))) as [Hi|Hi].
             ++ apply in_map_iff in Hi as (k2 & Hr2 & Hi). apply filter_In in Hi as [Hi Hv2].
                destruct (H2 k k2 Hi Hv2 Hr2) as (k3 & v3 & d3 & d' & A & B & C & D & F).
                exists k3, v3, d3, d'. simpl; auto.
             ++ exists k0, v, d, (new_descr t0 k d). rewrite H1.
                ** subst k. rewrite sfind_set_eq. simpl; auto 10.
                ** intros k2 Hi2 Hv2 Hr2. apply Hi. apply in_map_iff. exists k2. split; auto. apply filter_In; auto.
          -- destruct (H2 k k1 Hin Hv Hr) as (k3 & v3 & d3 & d' & A & B & C & D & F).
             exists k3, v3, d3, d'. simpl; auto.
      + destruct (IH t0) as (t & Ht & H1 & H2).
        { intros k Hin. apply Hk; simpl; auto. }
        exists t. split; auto. split.
        * intros k Hno. apply H1. intros; apply Hno; simpl; auto.
        * intros k k1 [<-|Hin] Hv Hr; [congruence|].
          destruct (H2 k k1 Hin Hv Hr) as (k3 & v3 & d3 & d' & A & B & C & D & F).
          exists k3, v3, d3, d'. simpl; auto.
  Qed.

  Lemma sub_loop_unique k k0 : visible n k0 = true -> relative n k0 = k ->
    forall keys t0 t, (forall k, In k keys -> sfind k (f_table ro) <> None) -> NoDup keys ->
    In k0 keys -> (forall k1, In k1 keys -> visible n k1 = true -> relative n k1 = k -> k1 = k0) ->
    sfind k t0 = None -> fsub_loop f id n t0 keys = Ok t -> sfind k t = sfind k0 (f_table ro).
  Proof.
    intros Hv Hr. induction keys as [|k1 keys IH]; intros t0 t Hk Hnd Hin Hu Hn Ht; [destruct Hin|].
    destruct (sfind k1 (f_table ro)) as [[v d]|] eqn:E; [|exfalso; apply (Hk k1); simpl; auto].
    rewrite (sub_loop_cons k1 keys t0 v d E) in Ht.
    apply NoDup_cons_iff in Hnd as [Hni Hnd'].
    destruct (str_dec k1 k0) as [->|Hne].
    - rewrite Hv in Ht.
      destruct (sub_loop_other keys (sset (relative n k0) (v, new_descr t0 (relative n k0) d) t0)) as (t' & Ht' & H1 & _).
      { intros k9 Hi. apply Hk; simpl; auto. }
      assert (t' = t) by congruence. subst t'. rewrite H1.
      + rewrite Hr, sfind_set_eq, E. unfold new_descr. rewrite Hn. reflexivity.
      + intros k2 Hi Hv2 Hr2. assert (k2 = k0) by (apply Hu; simpl; auto). subst k2. contradiction.
    - destruct Hin as [|Hin]; [contradiction|].
      destruct (visible n k1) eqn:Ev1.
      + refine (IH _ t _ Hnd' Hin _ _ Ht).
        * intros k9 Hi. apply Hk; simpl; auto.
        * intros k2 Hi. apply Hu; simpl; auto.
        * rewrite sfind_set_ne; auto. intro Ec. apply Hne. apply Hu; simpl; auto.
      + refine (IH _ t _ Hnd' Hin _ _ Ht).
        * intros k9 Hi. apply Hk; simpl; auto.
        * intros k2 Hi. apply Hu; simpl; auto.
        * exact Hn.
  Qed.
End SubLoop.

Lemma visible_cases n k0 : visible n k0 = true ->
  k0 = n ++ L ":" ++ relative n k0 \/ (global_key k0 = true /\ is_prefix (n ++ L ":") k0 = false /\ relative n k0 = k0).
Proof.
  unfold visible, relative. destruct (is_prefix (n ++ L ":") k0) eqn:E; simpl.
  - intros _. left. apply prefix_strip; auto.
  - intro H. right. auto.
Qed.
Lemma visible_sub n k : visible n (n ++ L ":" ++ k) = true /\ relative n (n ++ L ":" ++ k) = k.
Proof.
  unfold visible, relative. assert (E : is_prefix (n ++ L ":") (n ++ L ":" ++ k) = true)
    by (rewrite app_assoc; apply is_prefix_self). rewrite E. split; auto.
  replace (length n + 1) with (length (n ++ L ":")) by (rewrite app_length; reflexivity).
  rewrite app_assoc, skip_app. reflexivity.
Qed.
Lemma visible_glob n k : global_key k = true -> is_prefix (n ++ L ":") k = false -> visible n k = true /\ relative n k = k.
Proof. intros H1 H2. unfold visible, relative. rewrite H2. auto. Qed.

(** (value, description) of [k] as seen through root handle [r]. *)
Definition entry (h : heap) (r : nat) (k : str) : option (str * str) :=
  match get_string h r k, get_description h r k with Ok v, Ok d => Some (v, d) | _, _ => None end.
Lemma entry_at h f r k : R h f -> resolves h r r [] -> entry h r k = fentry f r k.
Proof.
  intros HR Hres. unfold entry. rewrite (get_at h f HR r r [] Hres), (desc_at h f HR r r [] Hres), abs_key_nil.
  destruct (fentry f r k) as [[v d]|]; reflexivity.
Qed.

Lemma subblock_lemma h r n : reachable h -> resolves h r r [] ->
  exists h', subblock h r n = (h', Ok (length h)) /\
   let nw := length h in
   resolves h' nw nw [] /\
   (forall id, id < length h -> nth_error h' id = nth_error h id) /\
   (forall k, is_read_only h' nw k = Ok false /\ get_location h' nw k = Ok None) /\
   (forall k, has_value h' nw k = Ok true <->
      has_value h r (n ++ L ":" ++ k) = Ok true \/
      (global_key k = true /\ is_prefix (n ++ L ":") k = false /\ has_value h r k = Ok true)) /\
   (forall k v, get_string h' nw k = Ok v ->
      get_string h r (n ++ L ":" ++ k) = Ok v \/
      (global_key k = true /\ is_prefix (n ++ L ":") k = false /\ get_string h r k = Ok v)) /\
   (forall k, ~ (global_key k = true /\ is_prefix (n ++ L ":") k = false /\ has_value h r k = Ok true) ->
      entry h' nw k = entry h r (n ++ L ":" ++ k)) /\
   (forall k, global_key k = true -> is_prefix (n ++ L ":") k = false ->
      has_value h r (n ++ L ":" ++ k) = Ok false -> entry h' nw k = entry h r k).
Proof.
  intros Hre Hres. destruct (reachable_R _ Hre) as [f HR].
  destruct (resolves_flat _ _ _ _ _ HR Hres) as (o & ro & Ho & Er & Ep & Hfr & Err & Erp).
  assert (o = ro) by congruence. subst o. clear Ho.
  destruct (R_some _ _ _ _ HR Hfr) as [rb Hrb]. destruct (proj2 HR _ _ _ Hrb Hfr) as [Hc _].
  set (keys := skeys (f_table ro)).
  assert (Hkeys : forall k, In k keys -> sfind k (f_table ro) <> None) by (intros k; apply sfind_keys).
  assert (Hnd : NoDup keys) by (apply ssorted_NoDup, Hc).
  destruct (sub_loop_other h f r ro n HR Hfr Err Erp keys [] Hkeys) as (t & Ht & Hoth & Hsome).
  destruct (sim_sub h f r n HR) as [E1 E2].
  assert (Efs : fsub f r n = (f ++ [mkF (length f) [] t [] []], Ok (length f))).
  { unfold fsub, favail. rewrite Hfr, Er, Hfr, Erp. simpl. fold keys. rewrite Ht. reflexivity. }
  rewrite Efs in E1, E2. cbn [fst snd] in E1, E2.
  assert (Hlen : length h = length f) by apply HR.
  exists (fst (subblock h r n)). split; [rewrite Hlen, <- E1; apply surjective_pairing|].
  set (h' := fst (subblock h r n)) in *. cbv zeta.
  assert (Hnew : nth_error (f ++ [mkF (length f) [] t [] []]) (length h) = Some (mkF (length f) [] t [] [])).
  { rewrite Hlen, nth_error_app2, Nat.sub_diag by lia. reflexivity. }
  assert (Hresn : resolves h' (length h) (length h) []).
  { pose proof (R_resolves _ _ E2 _ _ Hnew) as H. cbn [f_root f_path] in H. rewrite <- Hlen in H. exact H. }
  assert (Hfe : forall k, fentry (f ++ [mkF (length f) [] t [] []]) (length h) k = sfind k t).
  { intro k. unfold fentry. rewrite Hnew. reflexivity. }
  assert (Hfr2 : forall k, fentry f r k = sfind k (f_table ro)) by (intro k; unfold fentry; rewrite Hfr; reflexivity).
  assert (Hh' : forall k, has_value h' (length h) k = Ok (match sfind k t with Some _ => true | None => false end)).
  { intro k. rewrite (has_at _ _ E2 _ _ _ Hresn), abs_key_nil, Hfe. reflexivity. }
  assert (Hg' : forall k, get_string h' (length h) k = match sfind k t with Some (v, _) => Ok v | None => Throw (NoSuchValue k) end).
  { intro k. rewrite (get_at _ _ E2 _ _ _ Hresn), abs_key_nil, Hfe. reflexivity. }
  assert (Hh : forall k, has_value h r k = Ok (match sfind k (f_table ro) with Some _ => true | None => false end)).
  { intro k. rewrite (has_at _ _ HR _ _ _ Hres), abs_key_nil, Hfr2. reflexivity. }
  assert (Hg : forall k, get_string h r k = match sfind k (f_table ro) with Some (v, _) => Ok v | None => Throw (NoSuchValue k) end).
  { intro k. rewrite (get_at _ _ HR _ _ _ Hres), abs_key_nil, Hfr2. reflexivity. }
  assert (Hdec : forall k, {In k (map (relative n) (filter (visible n) keys))} + {~ In k (map (relative n) (filter (visible n) keys))})
    by (intro; apply in_dec, str_dec).
  assert (Hnotin : forall k, ~ In k (map (relative n) (filter (visible n) keys)) -> sfind k t = None).
  { intros k Hi. rewrite Hoth; auto. intros k0 Hi0 Hv0 Hr0. apply Hi. apply in_map_iff. exists k0. split; auto. apply filter_In; auto. }
  split; [exact Hresn|]. split; [|split; [|split; [|split; [|split]]]].
  - intros id Hlt. unfold h', subblock. destruct (rbind _ _); cbn [fst]; auto. apply nth_error_app1; auto.
  - intro k. destruct (R_some _ _ _ _ E2 Hnew) as [nb Hnb]. destruct (proj2 E2 _ _ _ Hnb Hnew) as [[C1 C2 _ _ _ _ _] _].
    unfold is_read_only, get_location, is_read_only_b. rewrite Hnb, C1, C2. auto.
  - intro k. rewrite Hh', !Hh. split.
    + intro H. destruct (Hdec k) as [Hi|Hi]; [|rewrite (Hnotin k Hi) in H; discriminate].
      apply in_map_iff in Hi as (k0 & Hr0 & Hi). apply filter_In in Hi as [Hi Hv0].
      apply Hkeys in Hi. destruct (visible_cases n k0 Hv0) as [E|(Eg & Epf & E)].
      * left. rewrite Hr0 in E. rewrite <- E. destruct (sfind k0 (f_table ro)); congruence.
      * right. rewrite Hr0 in E. subst k0. repeat split; auto. destruct (sfind k (f_table ro)); congruence.
    + intros [H|(Hgk & Hpf & H)].
      * destruct (visible_sub n k) as [Hv Hr].
        destruct (Hsome k (n ++ L ":" ++ k)) as (k1 & v & d1 & d & _ & _ & _ & _ & Hs); auto.
        { apply sfind_keys. destruct (sfind (n ++ L ":" ++ k) (f_table ro)); congruence. }
        rewrite Hs. reflexivity.
      * destruct (visible_glob n k Hgk Hpf) as [Hv Hr].
        destruct (Hsome k k) as (k1 & v & d1 & d & _ & _ & _ & _ & Hs); auto.
        { apply sfind_keys. destruct (sfind k (f_table ro)); congruence. }
        rewrite Hs. reflexivity.
  - intros k v H. rewrite Hg' in H. destruct (Hdec k) as [Hi|Hi]; [|rewrite (Hnotin k Hi) in H; discriminate].
    apply in_map_iff in Hi as (k0 & Hr0 & Hi). apply filter_In in Hi as [Hi Hv0].
    destruct (Hsome k k0 Hi Hv0 Hr0) as (k1 & v1 & d1 & d & Hi1 & Hv1 & Hr1 & Hs1 & Hs).
    rewrite Hs in H. injection H as ->. rewrite !Hg.
    destruct (visible_cases n k1 Hv1) as [E|(Eg & Epf & E)].
    + left. rewrite Hr1 in E. rewrite <- E, Hs1. reflexivity.
    + right. rewrite Hr1 in E. subst k1. rewrite Hs1. auto.
  - intros k Hno. rewrite (entry_at h' _ _ k E2 Hresn), (entry_at h f r _ HR Hres), Hfe, Hfr2.
    destruct (sfind (n ++ L ":" ++ k) (f_table ro)) as [e|] eqn:Ee.
    + rewrite <- Ee. destruct (visible_sub n k) as [Hv Hr].
      eapply (sub_loop_unique h f r ro n HR Hfr Err Erp k (n ++ L ":" ++ k) Hv Hr keys [] t); auto.
      * apply sfind_keys. congruence.
      * intros k1 Hi1 Hv1 Hr1. destruct (visible_cases n k1 Hv1) as [E|(Eg & Epf & E)].
        -- rewrite Hr1 in E. exact E.
        -- exfalso. rewrite Hr1 in E. subst k1. apply Hno. rewrite Hh. repeat split; auto.
           apply Hkeys in Hi1. destruct (sfind k (f_table ro)); congruence.
    + apply Hnotin. intro Hi. apply in_map_iff in Hi as (k0 & Hr0 & Hi). apply filter_In in Hi as [Hi Hv0].
      apply Hkeys in Hi. destruct (visible_cases n k0 Hv0) as [E|(Eg & Epf & E)].
      * rewrite Hr0 in E. rewrite <- E in Ee. contradiction.
      * rewrite Hr0 in E. subst k0. apply Hno. rewrite Hh. repeat split; auto.
        destruct (sfind k (f_table ro)); congruence.
  - intros k Hgk Hpf Hno. rewrite (entry_at h' _ _ k E2 Hresn), (entry_at h f r _ HR Hres), Hfe, Hfr2.
    rewrite Hh in Hno.
    destruct (sfind k (f_table ro)) as [e|] eqn:Ee.
    + rewrite <- Ee. destruct (visible_glob n k Hgk Hpf) as [Hv Hr].
      eapply (sub_loop_unique h f r ro n HR Hfr Err Erp k k Hv Hr keys [] t); auto.
      * apply sfind_keys. congruence.
      * intros k1 Hi1 Hv1 Hr1. destruct (visible_cases n k1 Hv1) as [E|(Eg & Epf & E)].
        -- exfalso. rewrite Hr1 in E. apply Hkeys in Hi1. rewrite <- E in Hno.
           destruct (sfind k1 (f_table ro)); congruence.
        -- congruence.
    + apply Hnotin. intro Hi. apply in_map_iff in Hi as (k0 & Hr0 & Hi). apply filter_In in Hi as [Hi Hv0].
      apply Hkeys in Hi. destruct (visible_cases n k0 Hv0) as [E|(Eg & Epf & E)].
      * rewrite Hr0 in E. rewrite <- E in Hno. destruct (sfind k0 (f_table ro)); congruence.
      * rewrite Hr0 in E. subst k0. contradiction.
Qed.

(** ---------- bool ---------- *)
Lemma bool_cast_lemma v b : bool_cast v = Some b <->
  (b = true /\ (map to_lower v = L "true" \/ map to_lower v = L "yes" \/ map to_lower v = L "1")) \/
  (b = false /\ (map to_lower v = L "false" \/ map to_lower v = L "no" \/ map to_lower v = L "0")).
Proof.
  unfold bool_cast.
  destruct (str_eqb_spec (map to_lower v) (L "true")) as [E1|E1]; simpl;
    [rewrite E1; split; [intro H; injection H as <-; auto|intros [[-> [H|[H|H]]]|[-> [H|[H|H]]]]; auto; vm_compute in H; discriminate H]|].
  destruct (str_eqb_spec (map to_lower v) (L "yes")) as [E2|E2]; simpl;
    [rewrite E2; split; [intro H; injection H as <-; auto|intros [[-> [H|[H|H]]]|[-> [H|[H|H]]]]; auto; vm_compute in H; discriminate H]|].
  destruct (str_eqb_spec (map to_lower v) (L "1")) as [E3|E3]; simpl;
    [rewrite E3; split; [intro H; injection H as <-; auto|intros [[-> [H|[H|H]]]|[-> [H|[H|H]]]]; auto; vm_compute in H; discriminate H]|].
  destruct (str_eqb_spec (map to_lower v) (L "false")) as [E4|E4]; simpl;
    [rewrite E4; split; [intro H; injection H as <-; auto|intros [[-> [H|[H|H]]]|[-> [H|[H|H]]]]; auto; vm_compute in H; discriminate H]|].
  destruct (str_eqb_spec (map to_lower v) (L "no")) as [E5|E5]; simpl;
    [rewrite E5; split; [intro H; injection H as <-; auto|intros [[-> [H|[H|H]]]|[-> [H|[H|H]]]]; auto; vm_compute in H; discriminate H]|].
  destruct (str_eqb_spec (map to_lower v) (L "0")) as [E6|E6]; simpl;
    [rewrite E6; split; [intro H; injection H as <-; auto|intros [[-> [H|[H|H]]]|[-> [H|[H|H]]]]; auto; vm_compute in H; discriminate H]|].
  split; [intro H; discriminate H|tauto].
Qed.

Lemma get_cast_at {T} (cast : str -> option T) h f id r p k : R h f -> resolves h id r p ->
  get_value cast h id k =
  match fentry f r (abs_key p k) with
  | Some (v, _) => match cast v with Some t => Ok t | None => Throw (BadCast k v) end
  | None => Throw (NoSuchValue k)
  end.
Proof.
  intros HR Hres. unfold get_value. rewrite (has_at h f HR id r p Hres), (iget_at h f HR id r p Hres). simpl.
  destruct (fentry f r (abs_key p k)) as [[v d]|]; reflexivity.
Qed.

Lemma set_then_cast {T} (cast : str -> option T) h id k s d h' t : reachable h ->
  i_set_value h id k s d = (h', Ok tt) -> cast (trim s) = Some t -> get_value cast h' id k = Ok t.
Proof.
  intros Hre Hset Hc. destruct (reachable_R _ Hre) as [f HR].
  destruct (set_effect h id k s d h' Hre Hset f HR) as (f' & HR' & r & p & Hres & Hent & _).
  assert (HS : same_shape h h').
  { pose proof (set_shape (fuel h) h id k s d) as H. fold (i_set_value h id k s d) in H. rewrite Hset in H. exact H. }
  rewrite (get_cast_at cast h' f' id r p k HR') by eauto using same_shape_resolves.
  rewrite Hent, Nat.eqb_refl, str_eqb_refl. simpl. rewrite Hc. reflexivity.
Qed.
