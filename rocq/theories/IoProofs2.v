(** Merging over the search path. *)
From Verif Require Import Base Numbers ConfigModel ConfigSpec ConfigProofs ConfigProofs2 ConfigProofs3 ConfigProofs4 ConfigProps
  ExpandModel ExpandSpec ExpandProofs ParserModel ParserSpec ParserProofs ParserProofs2 ParserProofs3 ParserProofs4 ParserProofs5
  ParserProofs6 DocSpec DocProofs ParserProofs7
  TokenizeModel TokenizeSpec TokenizeProofs IoModel IoSpec IoProofs.

Record goodb (b : block) : Prop := {
  gb_root : b_parent b = None;
  gb_trim : forall k v, sfind k (b_store b) = Some v -> trim v = v;
  gb_descr : forall k v, sfind k (b_store b) = Some v -> exists d, sfind k (b_descr b) = Some d }.

Lemma same_texts_refl w : same_texts w w.
Proof. split; [|repeat split]. intro p. destruct (w_fs w p); auto. eexists. split; apply reads_all. Qed.

Lemma get1 b k : b_parent b = None -> get_string [b] 0 k = match sfind k (b_store b) with Some v => Ok v | None => Throw (NoSuchValue k) end.
Proof.
  intro H. unfold get_string, get_value, has_value, i_get_value, fuel. cbn [length has_value_f i_get_value_f nth_error]. rewrite H.
  cbn [rbind]. rewrite shas_find. destruct (sfind k (b_store b)); reflexivity.
Qed.
Lemma has1 b k : b_parent b = None -> has_value [b] 0 k = Ok (match sfind k (b_store b) with Some v => true | None => false end).
Proof.
  intro H. unfold has_value, fuel. cbn [length has_value_f nth_error]. rewrite H. rewrite shas_find. destruct (sfind k (b_store b)); reflexivity.
Qed.
Lemma parse_good n w f st : parse n w f = PDone st -> exists b, p_heap st = [b] /\ goodb b.
Proof.
  intro H. pose proof (parse_sim w w (same_texts_refl w) n f) as S. rewrite H in S. destruct S as (S & _).
  destruct S as (nm & s & de & ro & l1 & l2 & E & _). rewrite E. eexists. split; [reflexivity|].
  pose proof (parse_fine n w f) as F. rewrite H in F. cbn in F. rewrite E in F. destruct F as [Hre HR].
  constructor; [reflexivity|intros k v Hk|intros k v Hk].
  - assert (G : get_string [mkBlock None nm s de ro l1] 0 k = Ok v) by (rewrite get1 by reflexivity; rewrite Hk; reflexivity).
    apply get_trimmed_lemma in G; auto. symmetry. apply is_trim_unique. exact G.
  - assert (G : has_value [mkBlock None nm s de ro l1] 0 k = Ok true) by (rewrite has1 by reflexivity; rewrite Hk; reflexivity).
    assert (G' : exists d, get_description [mkBlock None nm s de ro l1] 0 k = Ok d) by (eapply C05_description_iff_value; eauto).
    destruct G' as [d D].
    unfold get_description, fuel in D. cbn in D. cbn [b_descr]. destruct (sfind k de); [eauto|discriminate].
Qed.

Lemma merge2 b2 : goodb b2 -> forall ks b1, goodb b1 -> (forall k, In k ks -> exists v, sfind k (b_store b2) = Some v) ->
  match merge_loop [b1; b2] 0 1 ks with
  | (h', Ok _) => exists b1', h' = [b1'; b2] /\ goodb b1' /\ b_ro b1' = b_ro b1 /\ (forall k, In k ks -> sfind k (b_ro b1) = None) /\
      forall k, sfind k (b_store b1') = if in_dec str_dec k ks then sfind k (b_store b2) else sfind k (b_store b1)
  | (h', Throw (SetOnReadOnly k _ _)) => In k ks /\ sfind k (b_ro b1) <> None
  | _ => False
  end.
Proof.
  intros G2. induction ks as [|k ks IH]; intros b1 G1 Hin; cbn [merge_loop].
  - exists b1. repeat split; auto; try apply G1. contradiction.
  - destruct (Hin k (or_introl eq_refl)) as [v Hv]. destruct (gb_descr _ G2 k v Hv) as [d Hd].
    assert (E1 : get_string [b1; b2] 1 k = Ok v).
    { unfold get_string, get_value, has_value, i_get_value, fuel. cbn [length has_value_f i_get_value_f nth_error]. rewrite (gb_root _ G2).
      cbn [rbind]. rewrite shas_find, Hv. reflexivity. }
    assert (E2 : get_description [b1; b2] 1 k = Ok d).
    { unfold get_description, fuel. cbn [length get_description_f nth_error]. rewrite (gb_root _ G2), Hd. reflexivity. }
    rewrite E1, E2. unfold i_set_value, fuel. cbn [length i_set_value_f nth_error]. rewrite (gb_root _ G1). unfold is_read_only_b.
    rewrite shas_find. destruct (sfind k (b_ro b1)) as [u|] eqn:Ero.
    + split; [left; auto|]. congruence.
    + cbn [upd lupd].
      set (b1n := mkBlock _ _ _ _ _ _).
      assert (Gn : goodb b1n).
      { constructor; [reflexivity| |]; cbn [b1n b_store b_descr]; intros k0 v0 H0.
        - destruct (str_dec k0 k) as [->|N].
          + rewrite sfind_set_eq in H0. injection H0 as <-. apply trim_idem.
          + rewrite sfind_set_ne in H0 by auto. eapply gb_trim; eauto.
        - destruct (str_dec k0 k) as [->|N].
          + destruct (negb (shas k (b_descr b1)) || negb (Nat.eqb (length d) 0)) eqn:Ed.
            * rewrite sfind_set_eq. eauto.
            * apply orb_false_elim in Ed as [Ed _]. rewrite shas_find in Ed. destruct (sfind k (b_descr b1)); [eauto|discriminate].
          + rewrite sfind_set_ne in H0 by auto. destruct (gb_descr _ G1 k0 v0 H0) as [d0 Hd0].
            destruct (negb (shas k (b_descr b1)) || negb (Nat.eqb (length d) 0)); [rewrite sfind_set_ne by auto|]; eauto. }
      specialize (IH b1n Gn (fun k0 H => Hin k0 (or_intror H))).
      change (mkBlock None (b_name b1) (sset k (trim v) (b_store b1)) (if negb (shas k (b_descr b1)) || negb (Nat.eqb (length d) 0) then sset k d (b_descr b1) else b_descr b1) (b_ro b1) (b_loc b1)) with b1n.
      destruct (merge_loop [b1n; b2] 0 1 ks) as [h' [u|e| |]]; try contradiction.
      * destruct IH as (b1' & -> & G' & Hro & Hno & Hs). exists b1'. split; auto. split; auto. split; [exact Hro|]. split.
        -- intros k0 [<-|H0]; [exact Ero|exact (Hno k0 H0)].
        -- intro k0. rewrite Hs. cbn [b1n b_store].
           destruct (in_dec str_dec k0 (k :: ks)) as [Hi|Hi]; destruct (in_dec str_dec k0 ks) as [Hj|Hj]; auto.
           ++ destruct Hi as [<-|Hi]; [|contradiction]. rewrite sfind_set_eq, Hv. f_equal. exact (gb_trim _ G2 _ _ Hv).
           ++ destruct Hi. right; auto.
           ++ rewrite sfind_set_ne; auto. intro E. apply Hi. left; auto.
      * destruct e; try contradiction. destruct IH as [I1 I2]. split; [right; auto|exact I2].
Qed.

Lemma merge_into_spec c r : goodb c -> goodb r ->
  match merge_into [c] [r] with
  | (h', Ok _) => exists b, h' = [b] /\ goodb b /\ b_ro b = b_ro c /\
      (forall k, sfind k (b_store r) <> None -> sfind k (b_ro c) = None) /\
      forall k, sfind k (b_store b) = match sfind k (b_store r) with Some v => Some v | None => sfind k (b_store c) end
  | (_, Throw (SetOnReadOnly k _ _)) => sfind k (b_store r) <> None /\ sfind k (b_ro c) <> None
  | _ => False
  end.
Proof.
  intros Gc Gr. unfold merge_into, merge_config. cbn [app length].
  assert (E : available_values [c; r] 1 = Ok (skeys (b_store r))).
  { unfold available_values, fuel. cbn [length available_values_f nth_error]. rewrite (gb_root _ Gr). reflexivity. }
  rewrite E.
  assert (Hin : forall k, In k (skeys (b_store r)) -> exists v, sfind k (b_store r) = Some v).
  { intros k Hk. apply sfind_keys in Hk. destruct (sfind k (b_store r)); [eauto|congruence]. }
  pose proof (merge2 r Gr (skeys (b_store r)) c Gc Hin) as M.
  destruct (merge_loop [c; r] 0 1 (skeys (b_store r))) as [h' [u|e| |]]; try contradiction.
  - destruct M as (b & -> & G & Hro & Hno & Hs). exists b. split; [reflexivity|]. split; auto. split; auto. split.
    + intros k Hk. apply Hno. apply sfind_keys. exact Hk.
    + intro k. rewrite Hs. destruct (in_dec str_dec k (skeys (b_store r))) as [Hi|Hi].
      * destruct (Hin k Hi) as [v ->]. reflexivity.
      * destruct (sfind k (b_store r)) eqn:Ek; auto. destruct Hi. apply sfind_keys. congruence.
  - destruct e; try contradiction. destruct M as [M1 M2]. split; auto. apply sfind_keys. exact M1.
Qed.

Lemma search_first n w sp name dirs : search_loop n w sp name false dirs None =
  match found w name dirs with [] => RThrow (FileNotFound name) | p :: _ => read_file n w sp p end.
Proof.
  unfold found. induction dirs as [|d dirs IH]; [reflexivity|]. cbn [search_loop map filter]. unfold is_file at 1.
  destruct (w_fs w (d ++ L "/" ++ name)); auto. destruct (read_file n w sp _); reflexivity.
Qed.

Lemma first_value_app a b k : first_value (a ++ b) k = match first_value a k with Ok v => Ok v | _ => first_value b k end.
Proof.
  induction a as [|c a IH]; cbn [app first_value]; auto. destruct (get_string c 0 k); auto; rewrite IH; destruct (first_value a k); auto.
Qed.
Lemma read_good n w sp p c : read_file n w sp p = RDone c -> exists b, c = [b] /\ goodb b.
Proof.
  unfold read_file. destruct (w_fs w p); try discriminate. destruct (parse n (with_search w sp) p) eqn:E; try discriminate.
  intro H. injection H as <-. eapply parse_good; eauto.
Qed.
(** What the accumulated result of the loop is. *)
Definition acc_inv (cfgs : list heap) (result : option heap) : Prop :=
  (forall k, ~ conflict cfgs k) /\ Forall (fun c => exists b, c = [b] /\ goodb b) cfgs /\
  match result with
  | None => cfgs = []
  | Some r => cfgs <> [] /\ (exists b, r = [b] /\ goodb b) /\
     (forall k v, get_string r 0 k = Ok v <-> first_value cfgs k = Ok v) /\
     forall k, is_read_only r 0 k = is_read_only (last cfgs []) 0 k
  end.
Lemma first_has cfgs k : Forall (fun c => exists b, c = [b] /\ goodb b) cfgs ->
  ((exists v, first_value cfgs k = Ok v) <-> exists c, In c cfgs /\ has_value c 0 k = Ok true).
Proof.
  induction 1 as [|c cs (b & -> & Gb) Hc IH]; cbn [first_value].
  - split; [intros [v E]; discriminate|intros (c & [] & _)].
  - rewrite get1 by apply Gb. destruct (sfind k (b_store b)) as [v|] eqn:E.
    + split; [|eauto]. intros _. exists [b]. split; [left; auto|]. rewrite has1 by apply Gb. rewrite E. reflexivity.
    + rewrite IH. split; intros (c & Hi & Hv); exists c; (split; [|auto]); [right; auto|].
      destruct Hi as [<-|Hi]; auto. rewrite has1, E in Hv by apply Gb. discriminate.
Qed.
Lemma conflict_snoc cfgs c k : conflict (cfgs ++ [c]) k <-> conflict cfgs k \/
  (is_read_only c 0 k = Ok true /\ exists c', In c' cfgs /\ has_value c' 0 k = Ok true).
Proof.
  split.
  - intros (bf & x & af & c' & E & Hin & Hh & Hr). destruct (snoc_split _ _ _ _ _ E) as [(-> & -> & ->)|(af' & -> & ->)].
    + right. eauto.
    + left. exists bf, x, af', c'. auto.
  - intros [(bf & x & af & c' & -> & Hin & Hh & Hr)|(Hr & c' & Hin & Hh)].
    + exists bf, x, (af ++ [c]), c'. rewrite <- app_assoc. auto.
    + exists cfgs, c, [], c'. auto.
Qed.
Lemma ro1 b k : is_read_only [b] 0 k = Ok true <-> sfind k (b_ro b) <> None.
Proof.
  unfold is_read_only, is_read_only_b. cbn [nth_error]. rewrite shas_find. destruct (sfind k (b_ro b)); split; congruence.
Qed.

Definition one_step (c : heap) (result : option heap) : heap * res unit :=
  match result with None => (c, Ok tt) | Some r => merge_into c r end.
Lemma acc_step cfgs result (c : heap) : acc_inv cfgs result -> (exists b, c = [b] /\ goodb b) ->
  match one_step c result with
  | (h, Ok _) => acc_inv (cfgs ++ [c]) (Some h)
  | (_, Throw (SetOnReadOnly k _ _)) => conflict (cfgs ++ [c]) k
  | _ => False
  end.
Proof.
  intros (NC & GA & HR) Hc. pose proof Hc as (b & -> & Gb).
  assert (GA' : Forall (fun c => exists b, c = [b] /\ goodb b) (cfgs ++ [[b]])).
  { apply Forall_app. split; auto. }
  destruct result as [r|]; cbn [one_step].
  - destruct HR as (Hne & (br & -> & Gr) & HV & HRO).
    pose proof (merge_into_spec b br Gb Gr) as M. destruct (merge_into [b] [br]) as [h' [u|e| |]]; try contradiction.
    + destruct M as (b' & -> & G' & Hro & Hno & Hs). split; [|split; auto].
      * intros k Hx. apply conflict_snoc in Hx as [Hx|(Hr & Hx)]; [eapply NC; eauto|].
        apply first_has in Hx; auto. destruct Hx as [v Hv]. apply HV in Hv. rewrite get1 in Hv by apply Gr.
        apply ro1 in Hr. apply Hr. apply Hno. destruct (sfind k (b_store br)); [discriminate|congruence].
      * split; [destruct cfgs; discriminate|]. split; [eauto|]. split.
        -- intros k v. rewrite get1 by apply G'. rewrite Hs, first_value_app. specialize (HV k). rewrite get1 in HV by apply Gr.
           destruct (sfind k (b_store br)) as [x|].
           ++ rewrite (proj1 (HV x) eq_refl). tauto.
           ++ destruct (first_value cfgs k) as [x| | |]; [exfalso; pose proof (proj2 (HV x) eq_refl); discriminate|..];
                 cbn [first_value]; rewrite get1 by apply Gb; destruct (sfind k (b_store b)); split; congruence.
        -- intro k. rewrite last_last. unfold is_read_only, is_read_only_b. cbn [nth_error]. rewrite Hro. reflexivity.
    + destruct e as [|k cur v| |]; try contradiction. destruct M as [M1 M2].
      apply conflict_snoc. right. split; [apply ro1; auto|]. apply first_has; auto.
      destruct (sfind k (b_store br)) as [x|] eqn:Ex; [|congruence]. exists x. apply HV. rewrite get1 by apply Gr. rewrite Ex. reflexivity.
  - subst cfgs. cbn [app] in *. split; [|split; auto].
    + intros k (bf & x & af & c' & E & Hin & _). destruct bf as [|? [|]]; try discriminate. destruct Hin.
    + split; [discriminate|]. split; [eauto|]. split; [|reflexivity]. intros k v. cbn [first_value].
      rewrite get1 by apply Gb. destruct (sfind k (b_store b)); split; congruence.
Qed.
Lemma loop_step n w sp name d dirs result c :
  (exists s, w_fs w (d ++ L "/" ++ name) = File s) -> read_file n w sp (d ++ L "/" ++ name) = RDone c ->
  search_loop n w sp name true (d :: dirs) result =
  match one_step c result with
  | (h, Ok _) => search_loop n w sp name true dirs (Some h)
  | (_, Throw e) => RThrow (CfgExn e)
  | _ => RStuck
  end.
Proof.
  intros [s Efs] Hp. cbn [search_loop]. rewrite Efs, Hp. cbn [negb]. destruct result; reflexivity.
Qed.
Lemma conflict_app cfgs more k : conflict cfgs k -> conflict (cfgs ++ more) k.
Proof.
  intros (bf & x & af & c' & -> & C). exists bf, x, (af ++ more), c'. split; [|exact C]. rewrite <- app_assoc. reflexivity.
Qed.

Lemma search_merge n w sp name : forall dirs cfgs more result, acc_inv cfgs result ->
  Forall2 (fun p c => read_file n w sp p = RDone c) (found w name dirs) more ->
  match search_loop n w sp name true dirs result with
  | RDone h => acc_inv (cfgs ++ more) (Some h)
  | RThrow (FileNotFound f) => cfgs ++ more = [] /\ f = name
  | RThrow (CfgExn (SetOnReadOnly k _ _)) => conflict (cfgs ++ more) k
  | _ => False
  end.
Proof.
  unfold found. induction dirs as [|d dirs IH]; intros cfgs more result HI HF; cbn [map filter] in HF.
  - cbn [search_loop]. inversion HF. rewrite app_nil_r. destruct result; auto. split; auto. apply HI.
  - unfold is_file at 1 in HF. destruct (w_fs w (d ++ L "/" ++ name)) eqn:Efs;
      try (cbn [search_loop]; rewrite Efs; apply IH; auto; fail).
    inversion HF as [|p c ps cs Hp HF']. subst. change ("/"%char :: name) with (L "/" ++ name) in Hp.
    rewrite (loop_step _ _ _ _ _ _ _ c) by eauto.
    assert (EQ : cfgs ++ c :: cs = (cfgs ++ [c]) ++ cs) by (rewrite <- app_assoc; reflexivity). rewrite EQ. clear EQ.
    pose proof (acc_step cfgs result c HI (read_good _ _ _ _ _ Hp)) as S.
    destruct (one_step c result) as [h [u|[|k cur v| |]| |]]; try contradiction.
    + apply (IH (cfgs ++ [c]) cs); auto.
    + apply conflict_app; auto.
Qed.
(** A file that cannot be read stops the search with its exception. *)
Lemma search_throw n w sp name e p rest : read_file n w sp p = RThrow e -> forall dirs cfgs ps more result, acc_inv cfgs result ->
  found w name dirs = ps ++ p :: rest ->
  Forall2 (fun p c => read_file n w sp p = RDone c) ps more -> (forall k, ~ conflict (cfgs ++ more) k) ->
  search_loop n w sp name true dirs result = RThrow e.
Proof.
  intro He. unfold found. induction dirs as [|d dirs IH]; intros cfgs ps more result HI Hf HF NC; cbn [map filter] in Hf.
  - destruct ps; discriminate.
  - unfold is_file at 1 in Hf. destruct (w_fs w (d ++ L "/" ++ name)) eqn:Efs;
      try (cbn [search_loop]; rewrite Efs; eapply IH; eauto; fail).
    destruct ps as [|p0 ps].
    + cbn [app] in Hf. injection Hf as Hf _. cbn [search_loop]. rewrite Efs.
      change ("/"%char :: name) with (L "/" ++ name) in Hf. rewrite Hf, He. reflexivity.
    + cbn [app] in Hf. inversion Hf as [[E1 E2]]. inversion HF as [|p1 c ps1 cs Hp HF']. subst.
      rewrite (loop_step _ _ _ _ _ _ _ c) by eauto.
      assert (EQ : cfgs ++ c :: cs = (cfgs ++ [c]) ++ cs) by (rewrite <- app_assoc; reflexivity). rewrite EQ in NC. clear EQ.
      pose proof (acc_step cfgs result c HI (read_good _ _ _ _ _ Hp)) as S.
      destruct (one_step c result) as [h [u|[|k cur v| |]| |]]; try contradiction.
      * eapply IH; eauto.
      * exfalso. eapply NC. apply conflict_app; eauto.
Qed.
