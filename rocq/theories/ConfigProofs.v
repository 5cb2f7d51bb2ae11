(** ConfigProofs.v -- lemmas about the config_block model. *)
From Verif Require Import Base ConfigModel ConfigSpec.

(** ---------- trimming ---------- *)
Lemma rtrim_decomp s : exists b, s = rtrim s ++ b /\ forallb is_space b = true.
Proof.
  unfold rtrim. exists (rev (take_while is_space (rev s))). split.
  - rewrite <- rev_app_distr, take_drop_while, rev_involutive. reflexivity.
  - apply forallb_forall. intros c Hc. rewrite <- in_rev in Hc.
    pose proof (take_while_forall is_space (rev s)) as H. rewrite forallb_forall in H. auto.
Qed.
Lemma rtrim_last s c r : rtrim s = r ++ [c] -> is_space c = false.
Proof.
  unfold rtrim. intro H. apply (f_equal (@rev ascii)) in H.
  rewrite rev_involutive, rev_app_distr in H. simpl in H.
  eapply drop_while_head; eauto.
Qed.

Lemma trim_is_trim s : is_trim s (trim s).
Proof.
  destruct (rtrim_decomp s) as [b [Hb Hs]].
  exists (take_while is_space (rtrim s)), b. unfold trim, ltrim. repeat split.
  - rewrite app_assoc, take_drop_while. exact Hb.
  - pose proof (take_while_forall is_space (rtrim s)) as H. rewrite forallb_forall in H. auto.
  - rewrite forallb_forall in Hs. auto.
  - intros c r H. eapply drop_while_head; eauto.
  - intros c r H. apply (rtrim_last s c (take_while is_space (rtrim s) ++ r)).
    rewrite <- app_assoc, <- H, take_drop_while. reflexivity.
Qed.

Lemma drop_while_nonhead {A} (p : A -> bool) l :
  (forall c r, l = c :: r -> p c = false) -> drop_while p l = l.
Proof. destruct l as [|x l]; auto. intro H. simpl. rewrite (H x l); auto. Qed.

Lemma rev_case {A} (l : list A) : l = [] \/ exists c t, l = t ++ [c].
Proof. induction l as [|c t _] using rev_ind; eauto. Qed.

Lemma is_trim_unique s t : is_trim s t -> t = trim s.
Proof.
  intros (a & b & -> & Ha & Hb & Hh & Ht).
  assert (Ha' : forallb is_space a = true) by (apply forallb_forall; auto).
  assert (Hb' : forallb is_space (rev b) = true)
    by (apply forallb_forall; intros c Hc; apply Hb; rewrite in_rev; exact Hc).
  unfold trim, ltrim, rtrim.
  rewrite !rev_app_distr, <- app_assoc, (drop_while_app _ (rev b)) by exact Hb'.
  destruct (rev_case t) as [->|[c0 [t0 ->]]].
  - simpl. rewrite (drop_while_all _ (rev a)); [reflexivity|].
    apply forallb_forall; intros c Hc. apply Ha. rewrite in_rev; exact Hc.
  - rewrite rev_app_distr. simpl.
    rewrite (Ht c0 t0 eq_refl). simpl. rewrite rev_app_distr, !rev_involutive.
    rewrite <- app_assoc, drop_while_app by exact Ha'.
    rewrite drop_while_nonhead; auto.
Qed.

Lemma trim_idem s : trim (trim s) = trim s.
Proof.
  symmetry. apply is_trim_unique.
  destruct (trim_is_trim s) as (a & b & _ & _ & _ & Hh & Ht).
  exists [], []. simpl. rewrite app_nil_r. repeat split; auto; intros c [].
Qed.

(** ---------- prefixes ---------- *)
Lemma starts_with_prefix s p : starts_with s p = is_prefix p s.
Proof.
  unfold starts_with. revert s; induction p as [|x p IH]; intros s; simpl.
  - destruct s; reflexivity.
  - destruct s as [|y s]; simpl; [reflexivity|].
    rewrite IH. f_equal. apply eq_true_iff_eq. rewrite !Ascii.eqb_eq. split; congruence.
Qed.
Lemma visible_dnbw n k : negb (does_not_begin_with k n) = visible n k.
Proof.
  unfold does_not_begin_with, visible. rewrite !starts_with_prefix.
  change (global_value ++ block_sep) with (L "_global:"). change block_sep with (L ":").
  destruct (is_prefix (n ++ L ":") k), (is_prefix (L "_global:") k); reflexivity.
Qed.
Lemma relative_strip n k : strip_block_name n k = relative n k.
Proof.
  unfold strip_block_name, relative. rewrite starts_with_prefix. change block_sep with (L ":").
  destruct (is_prefix (n ++ L ":") k); reflexivity.
Qed.

Lemma abs_key_snoc path n k : abs_key (path ++ [n]) k = abs_key path (n ++ L ":" ++ k).
Proof. unfold abs_key. rewrite map_app, concat_app. simpl. rewrite app_nil_r, <- !app_assoc. reflexivity. Qed.
Lemma abs_key_nil k : abs_key [] k = k.
Proof. reflexivity. Qed.

(** ---------- projections of the flat table ---------- *)
Definition vals (t : smap (str * str)) : smap str := map (fun e => (fst e, fst (snd e))) t.
Definition descs (t : smap (str * str)) : smap str := map (fun e => (fst e, snd (snd e))) t.

Lemma sfind_vals K t : sfind K (vals t) = option_map fst (sfind K t).
Proof. induction t as [|[k [v d]] t IH]; simpl; auto. unfold sfind in *; simpl. destruct (str_cmp K k); auto. Qed.
Lemma sfind_descs K t : sfind K (descs t) = option_map snd (sfind K t).
Proof. induction t as [|[k [v d]] t IH]; simpl; auto. unfold sfind in *; simpl. destruct (str_cmp K k); auto. Qed.
Lemma skeys_vals t : skeys (vals t) = skeys t.
Proof. induction t as [|[k [v d]] t IH]; unfold skeys, m_keys in *; simpl; auto. f_equal; auto. Qed.
Lemma shas_find {V} K (t : smap V) : shas K t = match sfind K t with Some _ => true | None => false end.
Proof. reflexivity. Qed.
Lemma shas_vals K t : shas K (vals t) = shas K t.
Proof. rewrite !shas_find, sfind_vals. destruct (sfind K t); reflexivity. Qed.
Lemma shas_descs K t : shas K (descs t) = shas K t.
Proof. rewrite !shas_find, sfind_descs. destruct (sfind K t); reflexivity. Qed.

Lemma vals_sset K v d t : vals (sset K (v, d) t) = sset K v (vals t).
Proof. induction t as [|[k [v0 d0]] t IH]; simpl; auto. unfold sset in *; simpl. destruct (str_cmp K k); simpl; auto. f_equal; auto. Qed.
Lemma descs_sset K v d t : descs (sset K (v, d) t) = sset K d (descs t).
Proof. induction t as [|[k [v0 d0]] t IH]; simpl; auto. unfold sset in *; simpl. destruct (str_cmp K k); simpl; auto. f_equal; auto. Qed.
Lemma vals_serase K t : vals (serase K t) = serase K (vals t).
Proof. induction t as [|[k [v0 d0]] t IH]; simpl; auto. unfold serase in *; simpl. destruct (str_cmp K k); simpl; auto; f_equal; auto. Qed.
Lemma descs_serase K t : descs (serase K t) = serase K (descs t).
Proof. induction t as [|[k [v0 d0]] t IH]; simpl; auto. unfold serase in *; simpl. destruct (str_cmp K k); simpl; auto; f_equal; auto. Qed.

Lemma sset_same {V} K (v : V) (m : smap V) : ssorted m -> sfind K m = Some v -> sset K v m = m.
Proof.
  intros Hs Hf. apply smap_ext; auto using sset_sorted.
  intro k. destruct (str_dec k K) as [->|Hne].
  - rewrite sfind_set_eq; congruence.
  - rewrite sfind_set_ne; auto.
Qed.
Lemma serase_absent {V} K (m : smap V) : ssorted m -> sfind K m = None -> serase K m = m.
Proof.
  intros Hs Hf. apply smap_ext; auto using serase_sorted.
  intro k. destruct (str_dec k K) as [->|Hne].
  - rewrite sfind_erase_eq; congruence.
  - rewrite sfind_erase_ne; auto.
Qed.

Lemma m_above_map {V W} (g : str * V -> str * W) K (t : smap V) :
  (forall e, fst (g e) = fst e) -> m_above str_cmp K (map g t) <-> m_above str_cmp K t.
Proof.
  intro Hg. induction t as [|[k v] t IH]; simpl; [tauto|].
  specialize (Hg (k, v)). destruct (g (k, v)) as [k' w]; simpl in *; subst. rewrite IH. tauto.
Qed.
Lemma ssorted_map {V W} (g : str * V -> str * W) (t : smap V) :
  (forall e, fst (g e) = fst e) -> ssorted (map g t) <-> ssorted t.
Proof.
  intro Hg. unfold ssorted. induction t as [|[k v] t IH]; simpl; [tauto|].
  pose proof (Hg (k, v)) as Hk. destruct (g (k, v)) as [k' w] eqn:E; simpl in *; subst.
  rewrite IH, m_above_map by exact Hg. tauto.
Qed.
Lemma ssorted_vals t : ssorted (vals t) <-> ssorted t.
Proof. apply ssorted_map. reflexivity. Qed.
Lemma ssorted_descs t : ssorted (descs t) <-> ssorted t.
Proof. apply ssorted_map. reflexivity. Qed.

(** ---------- simulation relation ---------- *)
Definition trimmed_table (t : smap (str * str)) : Prop :=
  forall k v d, sfind k t = Some (v, d) -> trim v = v.

Record Rcont (b : block) (o : fobj) : Prop := {
  rc_ro : b_ro b = f_flags o;
  rc_loc : b_loc b = f_locs o;
  rc_store : b_store b = vals (f_table o);
  rc_descr : b_descr b = descs (f_table o);
  rc_sorted : ssorted (f_table o);
  rc_lsorted : ssorted (f_locs o);
  rc_trim : trimmed_table (f_table o) }.

Definition Rlink (f : flat) (i : nat) (b : block) (o : fobj) : Prop :=
  match b_parent b with
  | None => f_root o = i /\ f_path o = []
  | Some p => p < i /\ f_table o = [] /\ exists o', nth_error f p = Some o' /\
                f_root o = f_root o' /\ f_path o = f_path o' ++ [b_name b]
  end.

Definition R (h : heap) (f : flat) : Prop :=
  length h = length f /\
  forall i b o, nth_error h i = Some b -> nth_error f i = Some o ->
    Rcont b o /\ Rlink f i b o.

Lemma R_nil : R [] [].
Proof. split; auto. intros [|i]; discriminate. Qed.

Lemma R_some h f i o : R h f -> nth_error f i = Some o -> exists b, nth_error h i = Some b.
Proof.
  intros [Hl _] H. destruct (nth_error h i) as [b|] eqn:E; eauto.
  apply nth_error_None in E. apply nth_error_lt in H. lia.
Qed.
Lemma R_some' h f i b : R h f -> nth_error h i = Some b -> exists o, nth_error f i = Some o.
Proof.
  intros [Hl _] H. destruct (nth_error f i) as [o|] eqn:E; eauto.
  apply nth_error_None in E. apply nth_error_lt in H. lia.
Qed.
Lemma R_none h f i : R h f -> nth_error f i = None -> nth_error h i = None.
Proof. intros [Hl _] H. apply nth_error_None. apply nth_error_None in H. lia. Qed.

(** Every handle's root is a root object. *)
Lemma R_root h f : R h f -> forall i o, nth_error f i = Some o ->
  f_root o <= i /\ exists rb ro, nth_error h (f_root o) = Some rb /\ nth_error f (f_root o) = Some ro /\
    b_parent rb = None /\ f_root ro = f_root o /\ f_path ro = [].
Proof.
  intros HR i. induction i as [i IH] using lt_wf_ind. intros o Ho.
  destruct (R_some _ _ _ _ HR Ho) as [b Hb].
  destruct (proj2 HR i b o Hb Ho) as [Hc Hl]. unfold Rlink in Hl.
  destruct (b_parent b) as [p|] eqn:Ep.
  - destruct Hl as (Hlt & _ & o' & Ho' & Hr & Hp).
    destruct (IH p Hlt o' Ho') as (Hle & rb & ro & H1 & H2 & H3 & H4 & H5).
    rewrite Hr. split; [lia|]. exists rb, ro. auto.
  - destruct Hl as [Hr Hp]. rewrite Hr. split; [lia|]. exists b, o. auto.
Qed.

Section Chain.
  Variables (h : heap) (f : flat).
  Hypothesis HR : R h f.

  Lemma chain_step i o b : nth_error f i = Some o -> nth_error h i = Some b ->
    forall p, b_parent b = Some p -> p < i /\ exists o', nth_error f p = Some o' /\
      f_root o = f_root o' /\ forall k, abs_key (f_path o') (b_name b ++ block_sep ++ k) = abs_key (f_path o) k.
  Proof.
    intros Ho Hb p Hp. destruct (proj2 HR i b o Hb Ho) as [_ Hl].
    unfold Rlink in Hl. rewrite Hp in Hl. destruct Hl as (Hlt & _ & o' & H1 & H2 & H3).
    split; auto. exists o'. repeat split; auto. intro k. rewrite H3, abs_key_snoc. reflexivity.
  Qed.
  Lemma chain_root i o b : nth_error f i = Some o -> nth_error h i = Some b ->
    b_parent b = None -> f_root o = i /\ f_path o = [].
  Proof.
    intros Ho Hb Hp. destruct (proj2 HR i b o Hb Ho) as [_ Hl].
    unfold Rlink in Hl. rewrite Hp in Hl. exact Hl.
  Qed.

  Ltac chain :=
    let i := fresh "i" in let IH := fresh "IH" in let o := fresh "o" in let n := fresh "n" in
    let Ho := fresh "Ho" in let Hn := fresh "Hn" in let b := fresh "b" in let Hb := fresh "Hb" in
    let p := fresh "p" in let Ep := fresh "Ep" in let Hlt := fresh "Hlt" in let o' := fresh "o'" in
    let Ho' := fresh "Ho'" in let Hr := fresh "Hr" in let Hk := fresh "Hk" in
    intro i; induction i as [i IH] using lt_wf_ind; intros o n Ho Hn; intros; destruct n as [|n]; [lia|];
      destruct (R_some _ _ _ _ HR Ho) as [b Hb];
      cbn [has_value_f i_get_value_f get_description_f i_set_value_f unset_value_f]; rewrite Hb;
      destruct (b_parent b) as [p|] eqn:Ep;
      [ destruct (chain_step i o b Ho Hb p Ep) as (Hlt & o' & Ho' & Hr & Hk);
        rewrite (IH p Hlt o' n) by (auto; lia);
        cbn [has_value_f i_get_value_f get_description_f i_set_value_f unset_value_f];
        rewrite Hr, Hk; reflexivity
      | destruct (chain_root i o b Ho Hb Ep) as [-> ->]; rewrite Hb, Ep; reflexivity ].

  Lemma has_value_chain : forall i o n, nth_error f i = Some o -> i < n -> forall key,
    has_value_f n h i key = has_value_f 1 h (f_root o) (abs_key (f_path o) key).
  Proof. chain. Qed.
  Lemma i_get_value_chain : forall i o n, nth_error f i = Some o -> i < n -> forall key,
    i_get_value_f n h i key = i_get_value_f 1 h (f_root o) (abs_key (f_path o) key).
  Proof. chain. Qed.
  Lemma get_description_chain : forall i o n, nth_error f i = Some o -> i < n -> forall key,
    get_description_f n h i key = get_description_f 1 h (f_root o) (abs_key (f_path o) key).
  Proof. chain. Qed.
  Lemma i_set_value_chain : forall i o n, nth_error f i = Some o -> i < n -> forall key v d,
    i_set_value_f n h i key v d = i_set_value_f 1 h (f_root o) (abs_key (f_path o) key) v d.
  Proof. chain. Qed.
  Lemma unset_value_chain : forall i o n, nth_error f i = Some o -> i < n -> forall key,
    unset_value_f n h i key = unset_value_f 1 h (f_root o) (abs_key (f_path o) key).
  Proof. chain. Qed.

  Lemma below_model name ks :
    map (strip_block_name name) (filter (fun k => negb (does_not_begin_with k name)) ks) = below ks name.
  Proof.
    unfold below. erewrite map_ext; [|intro; apply relative_strip]. f_equal.
    apply filter_ext. intro; apply visible_dnbw.
  Qed.

  Lemma available_values_chain : forall i o n, nth_error f i = Some o -> i < n ->
    forall r, nth_error f (f_root o) = Some r ->
    available_values_f n h i = Ok (fold_left below (f_path o) (skeys (f_table r))).
  Proof.
    intro i; induction i as [i IH] using lt_wf_ind; intros o n Ho Hn r Hr.
    destruct n as [|n]; [lia|]. destruct (R_some _ _ _ _ HR Ho) as [b Hb]; simpl; rewrite Hb.
    destruct (proj2 HR i b o Hb Ho) as [Hc Hl]. unfold Rlink in Hl.
    destruct (b_parent b) as [p|] eqn:Ep.
    - destruct Hl as (Hlt & _ & o' & Ho' & Hr' & Hp).
      rewrite (IH p Hlt o' n) with (r := r) by (auto; try lia; congruence).
      simpl. rewrite Hp, fold_left_app. simpl. rewrite below_model. reflexivity.
    - destruct Hl as [Hri Hp]. rewrite Hri in Hr. assert (r = o) by congruence; subst r.
      rewrite Hp. simpl. rewrite (rc_store _ _ Hc), skeys_vals. reflexivity.
  Qed.
End Chain.

Lemma fuel_ok h f i o : R h f -> nth_error f i = Some o -> i < fuel h.
Proof. intros [Hl _] H. apply nth_error_lt in H. unfold fuel. lia. Qed.

(** Lookup of the root behind a handle. *)
Lemma R_locate h f i o : R h f -> nth_error f i = Some o ->
  exists rb ro, nth_error h (f_root o) = Some rb /\ nth_error f (f_root o) = Some ro /\
    b_parent rb = None /\ Rcont rb ro /\ f_root ro = f_root o /\ f_path ro = [].
Proof.
  intros HR Ho. destruct (R_root _ _ HR _ _ Ho) as (_ & rb & ro & H1 & H2 & H3 & H4 & H5).
  exists rb, ro. repeat split; auto; apply (proj2 HR _ _ _ H1 H2).
Qed.

Lemma sim_has h f id key : R h f -> has_value h id key = fhas f id key.
Proof.
  intro HR. unfold has_value, fhas, locate. destruct (nth_error f id) as [o|] eqn:Ho.
  - rewrite (has_value_chain h f HR id o) by eauto using fuel_ok.
    destruct (R_locate _ _ _ _ HR Ho) as (rb & ro & H1 & H2 & H3 & Hc & _).
    rewrite H2. simpl. rewrite H1, H3, (rc_store _ _ Hc), shas_vals. reflexivity.
  - unfold fuel; simpl. rewrite (R_none _ _ _ HR Ho). reflexivity.
Qed.
Lemma sim_iget h f id key : R h f ->
  i_get_value h id key = locate f id key UB (fun _ r K => Ok (value_or_empty r K)).
Proof.
  intro HR. unfold i_get_value, locate. destruct (nth_error f id) as [o|] eqn:Ho.
  - rewrite (i_get_value_chain h f HR id o) by eauto using fuel_ok.
    destruct (R_locate _ _ _ _ HR Ho) as (rb & ro & H1 & H2 & H3 & Hc & _).
    rewrite H2. simpl. rewrite H1, H3, (rc_store _ _ Hc), sfind_vals. unfold value_or_empty.
    destruct (sfind _ (f_table ro)) as [[v d]|]; reflexivity.
  - unfold fuel; simpl. rewrite (R_none _ _ _ HR Ho). reflexivity.
Qed.
Lemma sim_desc h f id key : R h f -> get_description h id key = fdesc f id key.
Proof.
  intro HR. unfold get_description, fdesc, locate. destruct (nth_error f id) as [o|] eqn:Ho.
  - rewrite (get_description_chain h f HR id o) by eauto using fuel_ok.
    destruct (R_locate _ _ _ _ HR Ho) as (rb & ro & H1 & H2 & H3 & Hc & _).
    rewrite H2. simpl. rewrite H1, H3, (rc_descr _ _ Hc), sfind_descs.
    destruct (sfind _ (f_table ro)) as [[v d]|]; reflexivity.
  - unfold fuel; simpl. rewrite (R_none _ _ _ HR Ho). reflexivity.
Qed.
Lemma sim_get h f id key : R h f -> get_string h id key = fget f id key.
Proof.
  intro HR. unfold get_string, get_value. rewrite (sim_has _ _ _ _ HR), (sim_iget _ _ _ _ HR).
  unfold fhas, fget, locate. destruct (nth_error f id) as [o|]; [|reflexivity].
  destruct (nth_error f (f_root o)) as [r|]; [|reflexivity].
  simpl. rewrite shas_find. unfold value_or_empty.
  destruct (sfind _ (f_table r)) as [[v d]|]; reflexivity.
Qed.
Lemma sim_avail h f id : R h f -> available_values h id = favail f id.
Proof.
  intro HR. unfold available_values, favail. destruct (nth_error f id) as [o|] eqn:Ho.
  - destruct (R_locate _ _ _ _ HR Ho) as (rb & ro & H1 & H2 & H3 & Hc & _).
    rewrite H2. apply (available_values_chain h f HR id o); eauto using fuel_ok.
  - unfold fuel; simpl. rewrite (R_none _ _ _ HR Ho). reflexivity.
Qed.

(** Updating an object in place on both sides. *)
Lemma R_upd h f i b o b' o' :
  R h f -> nth_error h i = Some b -> nth_error f i = Some o ->
  b_parent b' = b_parent b -> b_name b' = b_name b ->
  f_root o' = f_root o -> f_path o' = f_path o ->
  (b_parent b <> None -> f_table o' = []) ->
  Rcont b' o' -> R (upd h i b') (fupd f i o').
Proof.
  intros HR Hb Ho Ep En Er Epa Ht Hc. destruct HR as [Hl HR]. unfold upd, fupd.
  split; [rewrite !lupd_length; exact Hl|].
  intros j bj oj Hbj Hoj.
  destruct (Nat.eq_dec i j) as [<-|Hne].
  - rewrite nth_lupd_eq in Hbj by (eapply nth_error_lt; eauto).
    rewrite nth_lupd_eq in Hoj by (eapply nth_error_lt; eauto).
    injection Hbj as <-. injection Hoj as <-. split; [exact Hc|].
    destruct (HR i b o Hb Ho) as [_ HL]. unfold Rlink in *. rewrite Ep, En, Er, Epa.
    destruct (b_parent b) as [p|] eqn:Epb; [|exact HL].
    destruct HL as (Hlt & _ & o2 & Ho2 & H1 & H2). split; auto. split; [apply Ht; congruence|].
    exists o2. rewrite nth_lupd_ne by lia. auto.
  - rewrite nth_lupd_ne in Hbj by exact Hne. rewrite nth_lupd_ne in Hoj by exact Hne.
    destruct (HR j bj oj Hbj Hoj) as [Hcj HL]. split; [exact Hcj|].
    unfold Rlink in *. destruct (b_parent bj) as [p|] eqn:Epb; [|exact HL].
    destruct HL as (Hlt & Htj & o2 & Ho2 & H1 & H2). split; auto. split; auto.
    destruct (Nat.eq_dec i p) as [<-|Hnp].
    + exists o'. rewrite nth_lupd_eq by (eapply nth_error_lt; eauto).
      assert (o2 = o) by congruence. subst o2. rewrite Er, Epa. auto.
    + exists o2. rewrite nth_lupd_ne by exact Hnp. auto.
Qed.

Lemma R_app h f b o :
  R h f -> Rcont b o -> Rlink f (length f) b o -> R (h ++ [b]) (f ++ [o]).
Proof.
  intros [Hl HR] Hc HL. split; [rewrite !app_length; simpl; lia|].
  intros i bi oi Hbi Hoi.
  destruct (Nat.lt_trichotomy i (length f)) as [Hi|[Hi|Hi]].
  - rewrite nth_error_app1 in Hbi by lia. rewrite nth_error_app1 in Hoi by lia.
    destruct (HR i bi oi Hbi Hoi) as [Hci HLi]. split; [exact Hci|].
    unfold Rlink in *. destruct (b_parent bi) as [p|]; [|exact HLi].
    destruct HLi as (Hlt & Ht & o2 & Ho2 & H1). split; auto. split; auto.
    exists o2. rewrite nth_error_app1 by lia. auto.
  - rewrite nth_error_app2 in Hbi by lia. rewrite nth_error_app2 in Hoi by lia.
    replace (i - length h) with 0 in Hbi by lia. replace (i - length f) with 0 in Hoi by lia.
    simpl in *. injection Hbi as <-. injection Hoi as <-. split; [exact Hc|].
    rewrite Hi. unfold Rlink in *. destruct (b_parent b) as [p|]; [|exact HL].
    destruct HL as (Hlt & Ht & o2 & Ho2 & H1). split; auto. split; auto.
    exists o2. rewrite nth_error_app1 by lia. auto.
  - apply nth_error_lt in Hoi. rewrite app_length in Hoi. simpl in Hoi. lia.
Qed.

Lemma trimmed_sset K v d t : trimmed_table t -> trimmed_table (sset K (trim v, d) t).
Proof.
  intros H k v0 d0. destruct (str_dec k K) as [->|Hne].
  - rewrite sfind_set_eq. intro E. injection E as <- <-. apply trim_idem.
  - rewrite sfind_set_ne by exact Hne. apply H.
Qed.
Lemma trimmed_serase K t : ssorted t -> trimmed_table t -> trimmed_table (serase K t).
Proof.
  intros Hs H k v0 d0. destruct (str_dec k K) as [->|Hne].
  - rewrite sfind_erase_eq; [discriminate|exact Hs].
  - rewrite sfind_erase_ne by exact Hne. apply H.
Qed.

Definition new_descr (t : smap (str * str)) (K d : str) : str :=
  match sfind K t, d with Some (_, dold), [] => dold | _, _ => d end.

Lemma descr_update t K v d : ssorted t ->
  (if negb (shas K (descs t)) || negb (Nat.eqb (length d) 0) then sset K d (descs t) else descs t)
  = descs (sset K (v, new_descr t K d) t).
Proof.
  intro Hs. rewrite shas_descs, shas_find, descs_sset. unfold new_descr.
  destruct (sfind K t) as [[v0 d0]|] eqn:E; simpl.
  - destruct d as [|c d]; simpl; [|reflexivity].
    symmetry. apply sset_same; [apply ssorted_descs; exact Hs|]. rewrite sfind_descs, E. reflexivity.
  - reflexivity.
Qed.

(** set on both sides *)
Lemma sim_set h f id key v d : R h f ->
  snd (i_set_value h id key v d) = snd (fset f id key v d) /\
  R (fst (i_set_value h id key v d)) (fst (fset f id key v d)).
Proof.
  intro HR. unfold i_set_value, fset, locate. destruct (nth_error f id) as [o|] eqn:Ho.
  - rewrite (i_set_value_chain h f HR id o) by eauto using fuel_ok.
    destruct (R_locate _ _ _ _ HR Ho) as (rb & ro & H1 & H2 & H3 & Hc & Hrr & Hrp).
    rewrite H2. set (K := abs_key (f_path o) key). cbn [i_set_value_f]. rewrite H1, H3.
    unfold is_read_only_b. rewrite (rc_ro _ _ Hc).
    destruct (shas K (f_flags ro)); cbn [fst snd].
    + split; auto. rewrite (rc_store _ _ Hc), sfind_vals. unfold value_or_empty.
      destruct (sfind K (f_table ro)) as [[v0 d0]|]; reflexivity.
    + split; auto. eapply R_upd; eauto; simpl; auto; [congruence|].
      fold (new_descr (f_table ro) K d).
      destruct Hc as [C1 C2 C3 C4 C5 C6 C7].
      constructor; simpl; auto.
      * rewrite C3, vals_sset. reflexivity.
      * rewrite C4. apply descr_update. exact C5.
      * apply sset_sorted; auto.
      * apply trimmed_sset; auto.
  - unfold fuel; simpl. rewrite (R_none _ _ _ HR Ho). simpl. auto.
Qed.

Lemma sim_unset h f id key : R h f ->
  snd (unset_value h id key) = snd (funset f id key) /\
  R (fst (unset_value h id key)) (fst (funset f id key)).
Proof.
  intro HR. unfold unset_value, funset, locate. destruct (nth_error f id) as [o|] eqn:Ho.
  - rewrite (unset_value_chain h f HR id o) by eauto using fuel_ok.
    destruct (R_locate _ _ _ _ HR Ho) as (rb & ro & H1 & H2 & H3 & Hc & Hrr & Hrp).
    rewrite H2. set (K := abs_key (f_path o) key). cbn [unset_value_f]. rewrite H1, H3.
    unfold is_read_only_b. rewrite (rc_ro _ _ Hc), (rc_store _ _ Hc), (rc_descr _ _ Hc), sfind_vals, sfind_descs.
    destruct (shas K (f_flags ro)); cbn [fst snd].
    + split; auto. unfold value_or_empty.
      destruct (sfind K (f_table ro)) as [[v0 d0]|]; reflexivity.
    + destruct (sfind K (f_table ro)) as [[v0 d0]|] eqn:E; cbn [option_map fst snd]; [|auto].
      split; auto. eapply R_upd; eauto; simpl; auto; [congruence|].
      destruct Hc as [C1 C2 C3 C4 C5 C6 C7].
      constructor; simpl; auto.
      * rewrite C2. destruct (sfind K (f_locs ro)) eqn:El; [reflexivity|].
        symmetry; apply serase_absent; auto.
      * rewrite vals_serase. reflexivity.
      * rewrite descs_serase. reflexivity.
      * apply serase_sorted; auto.
      * apply serase_sorted; auto.
      * apply trimmed_serase; auto.
  - unfold fuel; simpl. rewrite (R_none _ _ _ HR Ho). simpl. auto.
Qed.

Lemma sim_merge_loop keys : forall h f a b, R h f ->
  snd (merge_loop h a b keys) = snd (fmerge_loop f a b keys) /\
  R (fst (merge_loop h a b keys)) (fst (fmerge_loop f a b keys)).
Proof.
  induction keys as [|k keys IH]; intros h f a b HR; simpl; auto.
  rewrite (sim_get _ _ _ _ HR), (sim_desc _ _ _ _ HR).
  destruct (fget f b k) as [v|e| |]; simpl; auto.
  destruct (fdesc f b k) as [d|e| |]; simpl; auto.
  destruct (sim_set h f a k v d HR) as [E1 E2].
  destruct (i_set_value h a k v d) as [h' r], (fset f a k v d) as [f' r']. simpl in *. subst r'.
  destruct r as [[]|e| |]; simpl; auto.
Qed.
Lemma sim_merge h f a b : R h f ->
  snd (merge_config h a b) = snd (fmerge f a b) /\
  R (fst (merge_config h a b)) (fst (fmerge f a b)).
Proof.
  intro HR. unfold merge_config, fmerge. rewrite (sim_avail _ _ _ HR).
  destruct (favail f b); simpl; auto using sim_merge_loop.
Qed.

(** subblock *)
Definition Rfresh (conf : block) (t : smap (str * str)) : Prop :=
  b_parent conf = None /\ b_ro conf = [] /\ b_loc conf = [] /\
  b_store conf = vals t /\ b_descr conf = descs t /\ ssorted t /\ trimmed_table t.
Lemma fresh_set_R conf t k v d : Rfresh conf t ->
  Rfresh (fresh_set conf k v d) (sset k (trim v, new_descr t k d) t).
Proof.
  intros (H1 & H2 & H3 & H4 & H5 & H6 & H7). unfold fresh_set. simpl. rewrite H1.
  unfold is_read_only_b. rewrite H2. simpl.
  repeat split; simpl; auto.
  - rewrite H4, vals_sset. reflexivity.
  - rewrite H5. apply descr_update. exact H6.
  - apply sset_sorted; auto.
  - apply trimmed_sset; auto.
Qed.
Lemma sim_sub_loop keys : forall h f id name conf t, R h f -> Rfresh conf t ->
  match subblock_loop h id name conf keys, fsub_loop f id name t keys with
  | Ok c, Ok t' => Rfresh c t'
  | Throw e, Throw e' => e = e'
  | UB, UB => True
  | NoFuel, NoFuel => True
  | _, _ => False
  end.
Proof.
  induction keys as [|k keys IH]; intros h f id name conf t HR Hf; simpl; auto.
  rewrite <- (visible_dnbw name k). destruct (does_not_begin_with k name); simpl; [apply IH; auto|].
  rewrite (sim_iget _ _ _ _ HR), (sim_desc _ _ _ _ HR), relative_strip.
  unfold fdesc, fget, locate.
  destruct (nth_error f id) as [o|]; simpl; auto.
  destruct (nth_error f (f_root o)) as [r|]; simpl; auto.
  unfold value_or_empty.
  destruct (sfind _ (f_table r)) as [[v d]|]; simpl; auto.
  fold (new_descr t (relative name k) d).
  apply IH; auto. apply fresh_set_R; auto.
Qed.
Lemma sim_sub h f id name : R h f ->
  snd (subblock h id name) = snd (fsub f id name) /\
  R (fst (subblock h id name)) (fst (fsub f id name)).
Proof.
  intro HR. unfold subblock, fsub. rewrite (sim_avail _ _ _ HR).
  destruct (favail f id) as [keys|e| |]; simpl; auto.
  assert (Hf : Rfresh (new_block name None) []) by (repeat split; simpl; auto; intros k v d; discriminate).
  pose proof (sim_sub_loop keys h f id name _ _ HR Hf) as H.
  destruct (subblock_loop h id name (new_block name None) keys) as [c|e| |];
  destruct (fsub_loop f id name [] keys) as [t|e'| |]; simpl; try contradiction; subst; auto.
  destruct H as (H1 & H2 & H3 & H4 & H5 & H6 & H7).
  split; [rewrite (proj1 HR); reflexivity|].
  apply R_app; auto.
  - constructor; simpl; auto; exact I.
  - unfold Rlink. rewrite H1. simpl. rewrite (proj1 HR) || idtac. auto.
Qed.

Lemma sim_step h f o : R h f ->
  snd (step h o) = snd (fstep f o) /\ R (fst (step h o)) (fst (fstep f o)).
Proof.
  intro HR. pose proof HR as [Hl HR'].
  assert (Hnone : forall i, nth_error f i = None -> nth_error h i = None) by (intros; eapply R_none; eauto).
  destruct o; simpl; unfold lift, flift; simpl.
  - split; [rewrite Hl; reflexivity|]. apply R_app; auto.
    + constructor; simpl; auto; try exact I. intros k v d; discriminate.
    + unfold Rlink; simpl; auto.
  - unfold subblock_view. destruct (nth_error f id) as [o|] eqn:Ho.
    + destruct (R_some _ _ _ _ HR Ho) as [b Hb]. rewrite Hb. simpl. split; [rewrite Hl; reflexivity|].
      apply R_app; auto.
      * constructor; simpl; auto; try exact I. intros k v d; discriminate.
      * unfold Rlink; simpl. apply nth_error_lt in Ho as Hlt. split; auto. split; auto.
        exists o. auto.
    + rewrite (Hnone _ Ho). auto.
  - destruct (sim_sub h f id key HR) as [E1 E2]. rewrite E1. auto.
  - destruct (sim_set h f id key value descr HR) as [E1 E2]. rewrite E1. auto.
  - destruct (sim_unset h f id key HR) as [E1 E2]. rewrite E1. auto.
  - unfold mark_read_only. destruct (nth_error f id) as [o|] eqn:Ho.
    + destruct (R_some _ _ _ _ HR Ho) as [b Hb]. rewrite Hb. simpl. split; auto.
      destruct (HR' id b o Hb Ho) as [[C1 C2 C3 C4 C5 C6 C7] HL].
      eapply R_upd; eauto; simpl; auto.
      * intro Hp. unfold Rlink in HL. destruct (b_parent b); [|congruence]. tauto.
      * constructor; simpl; auto. congruence.
    + rewrite (Hnone _ Ho). auto.
  - unfold set_location. destruct (nth_error f id) as [o|] eqn:Ho.
    + destruct (R_some _ _ _ _ HR Ho) as [b Hb]. rewrite Hb. simpl. split; auto.
      destruct (HR' id b o Hb Ho) as [[C1 C2 C3 C4 C5 C6 C7] HL].
      eapply R_upd; eauto; simpl; auto.
      * intro Hp. unfold Rlink in HL. destruct (b_parent b); [|congruence]. tauto.
      * constructor; simpl; auto. { congruence. } { apply sset_sorted; auto. }
    + rewrite (Hnone _ Ho). auto.
  - destruct (sim_merge h f this conf HR) as [E1 E2]. rewrite E1. auto.
  - rewrite (sim_get _ _ _ _ HR). auto.
  - rewrite (sim_has _ _ _ _ HR). auto.
  - rewrite (sim_desc _ _ _ _ HR). auto.
  - rewrite (sim_avail _ _ _ HR). auto.
  - unfold is_read_only. destruct (nth_error f id) as [o|] eqn:Ho.
    + destruct (R_some _ _ _ _ HR Ho) as [b Hb]. rewrite Hb. simpl.
      destruct (HR' id b o Hb Ho) as [[C1 C2 C3 C4 C5 C6 C7] HL].
      unfold is_read_only_b. rewrite C1. auto.
    + rewrite (Hnone _ Ho). auto.
  - unfold get_location. destruct (nth_error f id) as [o|] eqn:Ho.
    + destruct (R_some _ _ _ _ HR Ho) as [b Hb]. rewrite Hb. simpl.
      destruct (HR' id b o Hb Ho) as [[C1 C2 C3 C4 C5 C6 C7] HL]. rewrite C2. auto.
    + rewrite (Hnone _ Ho). auto.
Qed.

Lemma sim_run ops : forall h f, R h f ->
  snd (run h ops) = snd (frun f ops) /\ R (fst (run h ops)) (fst (frun f ops)).
Proof.
  induction ops as [|o ops IH]; intros h f HR; simpl; auto.
  destruct (sim_step h f o HR) as [E1 E2].
  destruct (step h o) as [h1 r1], (fstep f o) as [f1 r1']; simpl in *; subst r1'.
  destruct (IH h1 f1 E2) as [E3 E4].
  destruct (run h1 ops) as [h2 rs], (frun f1 ops) as [f2 rs']; simpl in *; subst. auto.
Qed.

Lemma reachable_R h : reachable h -> exists f, R h f.
Proof.
  intros [ops <-]. exists (fst (frun [] ops)). apply sim_run. apply R_nil.
Qed.

Lemma run_app a b h : run h (a ++ b) =
  let '(h1, r1) := run h a in let '(h2, r2) := run h1 b in (h2, r1 ++ r2).
Proof.
  revert h; induction a as [|o a IH]; intro h; simpl.
  - destruct (run h b); reflexivity.
  - destruct (step h o) as [h1 r]. rewrite IH.
    destruct (run h1 a) as [h2 r2]. destruct (run h2 b); reflexivity.
Qed.
Lemma reachable_run h ops : reachable h -> reachable (fst (run h ops)).
Proof.
  intros [ops0 <-]. exists (ops0 ++ ops). rewrite run_app.
  destruct (run [] ops0) as [h1 r1]; simpl. destruct (run h1 ops); reflexivity.
Qed.
Lemma reachable_step h o : reachable h -> reachable (fst (step h o)).
Proof.
  intro H. pose proof (reachable_run h [o] H) as H'. simpl in H'. destruct (step h o); exact H'.
Qed.
