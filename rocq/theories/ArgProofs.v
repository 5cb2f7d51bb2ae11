(** ArgProofs.v -- Parse() against ArgSpec.v. *)
From Coq Require Import Lia ZArith.
From Verif Require Import Base ArgModel ArgSpec.
Local Open Scope nat_scope.

(** ---- the table ---- *)
Record good (p : cla) : Prop := {
  g_sorted : ssorted (p_opts p);
  g_text : forall n o, sfind n (p_opts p) = Some o -> o_text o = n;
  g_var : forall n o x, sfind n (p_opts p) = Some o -> o_var o = Some x -> o_vtype o <> NO_VARIABLE_TYPE;
}.
Lemma good_opts p q : p_opts p = p_opts q -> good p -> good q.
Proof. intros E [A B C]. split; rewrite <- E; assumption. Qed.
Lemma good_set p a o : good p -> o_text o = a -> (forall x, o_var o = Some x -> o_vtype o <> NO_VARIABLE_TYPE) -> good (set_opts p (sset a o (p_opts p))).
Proof.
  intros [A B C] E V. split; cbn [p_opts set_opts].
  - apply sset_sorted. exact A.
  - intros n o' H. destruct (str_dec n a) as [->|N].
    + rewrite sfind_set_eq in H. congruence.
    + rewrite sfind_set_ne in H by exact N. eauto.
  - intros n o' x H. destruct (str_dec n a) as [->|N].
    + rewrite sfind_set_eq in H. injection H as <-. apply V.
    + rewrite sfind_set_ne in H by exact N. eauto.
Qed.
Lemma made_good p : made p -> good p.
Proof.
  induction 1; try (eapply good_opts; [|eassumption]; reflexivity).
  - split; cbn; try exact I; discriminate.
  - apply good_set; [assumption|reflexivity|discriminate].
  - apply good_set; [assumption|reflexivity|]. intros ? _. assumption.
Qed.

Section Run.
  Context {D : Type} (strtod : str -> D) (answer : list call -> call -> bool).
  Variable p : cla.
  Hypothesis G : good p.
  Let K := kinds p.
  Notation argv := (p_argv p).

  (** ---- matching ---- *)
  Lemma fits_matched n a : fits K n a <-> In n (get_matched p a).
  Proof.
    unfold get_matched. rewrite in_map_iff. unfold fits, K, kinds. split.
    - destruct (sfind n (p_opts p)) as [o|] eqn:E; cbn [option_map]; [|contradiction]. intros H. exists (n, o). split; [reflexivity|]. apply filter_In. split; [apply sfind_in; exact E|].
      cbn [fst snd]. unfold matches1. destruct (o_type o); try (apply is_prefix_app; exact H); subst; apply str_eqb_refl.
    - intros ([n' o] & <- & H). apply filter_In in H. destruct H as [H M]. cbn [fst snd] in *. apply (sin_find _ _ _ (g_sorted p G)) in H. rewrite H. cbn [option_map]. unfold matches1 in M.
      destruct (o_type o); try (apply is_prefix_app; exact M); apply str_eqb_eq in M; exact M.
  Qed.
  Lemma known_matched a : known K a <-> get_matched p a <> [].
  Proof.
    unfold known. setoid_rewrite fits_matched. destruct (get_matched p a) as [|m ms]; split; intros H.
    - destruct H as [n []]. - congruence. - discriminate. - exists m. left. reflexivity.
  Qed.
  Lemma known_dec a : known K a \/ ~ known K a.
  Proof. rewrite known_matched. destruct (get_matched p a); [right|left]; congruence. Qed.
  Lemma fits_prefix n a : fits K n a -> exists r, a = n ++ r.
  Proof. unfold fits. destruct (K n) as [[]|]; intros H; try exact H; try contradiction; exists []; rewrite app_nil_r; exact H. Qed.
  Lemma chosen_unique n m a : chosen K n a -> chosen K m a -> n = m.
  Proof.
    intros [Fn Ln] [Fm Lm]. pose proof (Ln _ Fm). pose proof (Lm _ Fn). destruct (fits_prefix _ _ Fn) as [r E]. destruct (fits_prefix _ _ Fm) as [r' E']. rewrite E in E'.
    assert (List.length n = List.length m) as Q by lia. clear - E' Q. revert m E' Q. induction n as [|c n IH]; intros [|d m] E Q; cbn in *; try discriminate; [reflexivity|]. injection E as -> E. f_equal. apply IH; [exact E|lia].
  Qed.
  Lemma chosen_known n a : chosen K n a -> known K a.
  Proof. intros [F _]. exists n. exact F. Qed.

  (** The longest match. *)
  Lemma longest_ok : forall ms pre idx len,
    (forall m, In m pre -> List.length m <= len) -> (idx < List.length pre /\ (exists m, nth_error pre idx = Some m /\ List.length m = len) \/ idx = 0 /\ len = 0 /\ pre = []) ->
    pre ++ ms <> [] ->
    exists m, nth_error (pre ++ ms) (longest ms (List.length pre) idx len) = Some m /\ forall m', In m' (pre ++ ms) -> List.length m' <= List.length m.
  Proof.
    induction ms as [|x ms IH]; intros pre idx len A B N; cbn [longest].
    - rewrite app_nil_r in *. destruct B as [[Hi (m & E & Lm)]|(_ & _ & E)]; [|congruence]. exists m. rewrite E. split; [reflexivity|]. intros m' H. rewrite Lm. auto.
    - replace (pre ++ x :: ms) with ((pre ++ [x]) ++ ms) by (rewrite <- app_assoc; reflexivity). replace (S (List.length pre)) with (List.length (pre ++ [x])) by (rewrite app_length; cbn; lia).
      assert ((pre ++ [x]) ++ ms <> []) as N' by (destruct pre; discriminate).
      destruct (Nat.ltb_spec len (List.length x)) as [Lt|Ge]; apply IH; try exact N'.
      + intros m Hm. apply in_app_iff in Hm. destruct Hm as [Hm|[<-|[]]]; [specialize (A _ Hm); lia|lia].
      + left. split; [rewrite app_length; cbn; lia|]. exists x. split; [|reflexivity]. rewrite nth_error_app2 by lia. rewrite Nat.sub_diag. reflexivity.
      + intros m Hm. apply in_app_iff in Hm. destruct Hm as [Hm|[<-|[]]]; [auto|lia].
      + left. destruct B as [[Hi (m & E & Lm)]|(-> & -> & ->)].
        * split; [rewrite app_length; cbn; lia|]. exists m. split; [|exact Lm]. rewrite nth_error_app1 by exact Hi. exact E.
        * cbn. split; [lia|]. exists x. split; [reflexivity|lia].
  Qed.
  Lemma pick a : get_matched p a <> [] -> exists n, nth_error (get_matched p a) (longest (get_matched p a) 0 0 0) = Some n /\ chosen K n a.
  Proof.
    intros N. destruct (longest_ok (get_matched p a) [] 0 0) as (m & E & H); [intros ? []|right; auto|exact N|].
    exists m. split; [exact E|]. split; [apply fits_matched; eapply nth_error_In; exact E|]. intros m' F. apply H, fits_matched, F.
  Qed.
  Lemma pick_chosen n a : chosen K n a -> nth_error (get_matched p a) (longest (get_matched p a) 0 0 0) = Some n.
  Proof.
    intros C. destruct (pick a) as (m & E & C'); [apply known_matched; eapply chosen_known; exact C|]. rewrite E. f_equal. eapply chosen_unique; eassumption.
  Qed.

  (** ---- the grammar is total and unambiguous ---- *)
  Lemma split_unknown ws : exists vs r, ws = vs ++ r /\ (forall v, In v vs -> ~ known K v) /\ match r with [] => True | b :: _ => known K b end.
  Proof.
    induction ws as [|a ws (vs & r & -> & A & B)]; [exists [], []; repeat split; intros ? []|].
    destruct (known_dec a) as [Ka|Na].
    - exists [], (a :: vs ++ r). repeat split; [intros ? []|exact Ka].
    - exists (a :: vs), r. repeat split; [|exact B]. intros v [<-|H]; auto.
  Qed.
  Lemma split_unique vs r vs' r' : vs ++ r = vs' ++ r' -> (forall v, In v vs -> ~ known K v) -> (forall v, In v vs' -> ~ known K v) ->
    match r with [] => True | b :: _ => known K b end -> match r' with [] => True | b :: _ => known K b end -> vs = vs' /\ r = r'.
  Proof.
    revert vs'. induction vs as [|a vs IH]; intros [|b vs'] E A A' B B'; cbn in E.
    - split; [reflexivity|exact E].
    - subst r. exfalso. exact (A' b (or_introl eq_refl) B).
    - subst r'. exfalso. exact (A a (or_introl eq_refl) B').
    - injection E as -> E. destruct (IH vs' E) as [-> ->]; auto using in_cons.
  Qed.
  Lemma line_total ws : exists sts e, line K ws sts e.
  Proof.
    remember (List.length ws) as k eqn:Ek. revert ws Ek. induction k as [k IH] using lt_wf_ind. intros [|a r] ->; [exists [], None; constructor|].
    assert (forall r', List.length r' < List.length (a :: r) -> exists sts e, line K r' sts e) as IH' by (intros r' Lr; eapply IH; [exact Lr|reflexivity]). clear IH.
    destruct (known_dec a) as [Ka|Na].
    2:{ destruct (IH' r) as (sts & e & H); [cbn; lia|]. eexists _, e. apply line_stray; eassumption. }
    rewrite known_matched in Ka. destruct (pick a Ka) as (n & _ & C). pose proof (proj1 C) as F. unfold fits in F. destruct (K n) as [t|] eqn:E; [|contradiction].
    destruct t.
    - destruct (IH' r) as (sts & e & H); [cbn; lia|]. eexists _, e. eapply line_no; eassumption.
    - destruct F as [v Ev]. destruct (IH' r) as (sts & e & H); [cbn; lia|]. eexists _, e. eapply line_concat; eassumption.
    - destruct r as [|v r]; [eexists _, _; eapply line_space_bad; eassumption|]. destruct (IH' r) as (sts & e & H); [cbn; lia|]. eexists _, e. eapply line_space; eassumption.
    - destruct F as [v Ev]. destruct v as [|c v].
      + eexists _, _. eapply line_equal_bad; [eassumption..|]. intros v Q. rewrite Ev in Q. apply app_inv_head in Q. discriminate.
      + destruct (ascii_dec c "="%char) as [->|Nc].
        * destruct (IH' r) as (sts & e & H); [cbn; lia|]. eexists _, e. eapply line_equal; eassumption.
        * eexists _, _. eapply line_equal_bad; [eassumption..|]. intros v' Q. rewrite Ev in Q. apply app_inv_head in Q. congruence.
    - destruct (split_unknown r) as (vs & r' & -> & A & B). destruct (IH' r') as (sts & e & H); [cbn; rewrite app_length; lia|]. eexists _, e. eapply line_multi; eassumption.
  Qed.
  Ltac cu := match goal with [H : chosen K ?n ?a, H' : chosen K ?m ?a |- _] => let Q := fresh in pose proof (chosen_unique _ _ _ H H') as Q; first [subst n | subst m] end.
  Lemma line_unique ws sts e : line K ws sts e -> forall sts' e', line K ws sts' e' -> sts = sts' /\ e = e'.
  Proof.
    induction 1 as [|a n r sts e C T H IH|a n v r sts e C T H IH|a n C T|a n v r sts e C T E H IH|a n r C T E|a n v r sts e C T E H IH|a n vs r sts e C T A B H IH|a r sts e N H IH]; intros sts' e' H'; inversion H'; subst;
      repeat match goal with [Q : _ :: _ = _ |- _] => injection Q; clear Q; intros; subst end; try cu; try congruence; try (split; [reflexivity|reflexivity]);
      try (match goal with [Q : ~ known K ?x, C' : chosen K _ ?x |- _] => exfalso; apply Q; eapply chosen_known; exact C' end).
    all: try (exfalso; match goal with [Q : forall v, _ <> _ |- _] => eapply Q; reflexivity end).
    all: try match goal with [Q : ?n ++ ?c :: _ = ?n ++ ?c :: _ |- _] => apply app_inv_head in Q; injection Q as -> end.
    all: try match goal with [Q : ?n ++ _ = ?n ++ _, H' : chosen K ?n _ |- _] => apply app_inv_head in Q; subst end.
    all: try match goal with [Q : _ ++ _ = _ ++ _ |- _] => apply split_unique in Q; [destruct Q; subst|assumption..] end.
    all: edestruct IH as [-> ->]; [eassumption|]; auto.
  Qed.

  (** ---- values ---- *)
  Lemma is_yes_ok t : to_bool t = is_yes t.
  Proof.
    unfold is_yes. destruct (in_dec str_dec t yes_words) as [I|N].
    - unfold yes_words in I. unfold to_bool. cbn [In] in I. repeat destruct I as [<-|I]; try contradiction; rewrite str_eqb_refl, ?orb_true_r; reflexivity.
    - unfold to_bool. unfold yes_words in N. cbn [In] in N. rewrite !orb_false_iff, !str_eqb_neq. repeat split; intros E; apply N; rewrite E; tauto.
  Qed.
  Lemma assign_eq vt (v : var D) t : has_type vt v -> populate_variable strtod vt v t = assign strtod v t.
  Proof. destruct vt, v; cbn; try contradiction; intros _; rewrite <- ?is_yes_ok; try reflexivity; try (destruct (to_bool t); reflexivity); try (match goal with q : cptr |- _ => destruct q; reflexivity end). Qed.
  Lemma assign_type vt (v v' : var D) t : assign strtod v t = Some v' -> has_type vt v -> has_type vt v'.
  Proof. destruct v as [| | |q| | | | | |]; cbn; try destruct q; intros E; injection E as <- || discriminate; destruct vt; cbn; tauto. Qed.
  Lemma typed_set w x v : typed p w -> (forall vt, has_type vt (w_vars w x) -> has_type vt v) -> typed p (@set_var D w x v).
  Proof. intros T H n o y E V. cbn. destruct (Nat.eqb_spec y x) as [->|N]; [apply H|]; eapply T; eassumption. Qed.
  Definition same_world (w w' : world D) := w_vars w = w_vars w'.
  Lemma typed_call w c : typed p w -> typed p (World (w_calls w ++ [c]) (@w_vars D w)).
  Proof. intros T n o x E V. cbn. eapply T; eassumption. Qed.
  Lemma typed_store o v w w' : typed p w -> store strtod o v w = Gave w' -> typed p w'.
  Proof.
    intros T. unfold store. destruct (o_var o) as [x|]; [|intros Q; injection Q as <-; exact T]. destruct (assign strtod (w_vars w x) (shown v)) as [v'|] eqn:E; [|discriminate]. intros Q; injection Q as <-.
    apply typed_set; [exact T|]. intros vt. eapply assign_type. exact E.
  Qed.
  Lemma store_not_refused o v w w' : store strtod o v w <> Refused w'.
  Proof. unfold store. destruct (o_var o); [|discriminate]. destruct (assign _ _ _); discriminate. Qed.
  Lemma typed_give o v w : typed p w -> match give strtod answer o v w with Gave w' | Refused w' => typed p w' | Undefined => True end.
  Proof.
    intros T. unfold give. destruct (o_cb o) as [f|].
    - destruct (answer _ _); [|apply typed_call; exact T]. destruct (store _ _ _ _) eqn:E; [|exfalso; eapply store_not_refused; exact E|exact I]. eapply typed_store; [|exact E]. apply typed_call. exact T.
    - destruct (store _ _ _ _) eqn:E; [|exfalso; eapply store_not_refused; exact E|exact I]. eapply typed_store; [|exact E]. exact T.
  Qed.
  Lemma populate_give n o v s : sfind n (p_opts p) = Some o -> typed p (s_w s) ->
    populate strtod answer o v s = match give strtod answer o v (s_w s) with
                                   | Gave w' => Good (St (s_last s) (s_unused s) w')
                                   | Refused w' => Bad (St (decr (s_last s)) (s_unused s) w')
                                   | Undefined => Ugly
                                   end.
  Proof.
    intros F T. destruct s as [last u w]. cbn [s_w s_last s_unused] in *.
    assert (forall w1, typed p w1 ->
      match o_var o with
      | None => Good (St last u w1)
      | Some x => match o_vtype o with
                  | NO_VARIABLE_TYPE => Bad (St (decr last) u w1)
                  | vt => match populate_variable strtod vt (w_vars w1 x) (shown v) with None => Ugly | Some v0 => Good (St last u (set_var w1 x v0)) end
                  end
      end = match store strtod o v w1 with Gave w' => Good (St last u w') | Refused w' => Bad (St (decr last) u w') | Undefined => Ugly end) as H.
    { intros w1 T1. unfold store. destruct (o_var o) as [x|] eqn:V; [|reflexivity]. pose proof (g_var p G _ _ _ F V) as NV. pose proof (T1 _ _ _ F V) as HT. rewrite <- (assign_eq _ _ (shown v) HT).
      destruct (o_vtype o); try congruence; destruct (populate_variable _ _ _ _); reflexivity. }
    unfold populate, give. cbn [s_w s_last s_unused]. destruct (o_cb o) as [f|].
    - destruct (answer _ _); cbn [negb]; [|reflexivity]. apply (H _ (typed_call _ _ T)).
    - cbn [negb]. apply (H _ T).
  Qed.

  (** ---- positions ---- *)
  Hypothesis small : (Z.of_nat (List.length argv) < 2 ^ 63)%Z.
  Definition leaves (last : Z) (rem : list str) : Prop :=
    skipn (Z.to_nat ((last + 1) mod 2 ^ 64)) argv = rem /\ List.length rem + 1 <= Z.to_nat ((Z.of_nat (List.length argv) - last + 1) mod 2 ^ 64).
  Lemma tl_skipn {A} (l : list A) k : tl (skipn k l) = skipn (S k) l.
  Proof. revert l. induction k as [|k IH]; intros [|x l]; try reflexivity. cbn [skipn]. apply IH. Qed.
  Lemma leaves_after k : k < List.length argv -> leaves (Z.of_nat k) (tl (skipn k argv)).
  Proof.
    intros H. unfold leaves. rewrite !Z.mod_small by lia. split.
    - replace (Z.to_nat (Z.of_nat k + 1)) with (S k) by lia. symmetry. apply tl_skipn.
    - rewrite tl_skipn, skipn_length. lia.
  Qed.
  Lemma leaves_from k : k < List.length argv -> leaves (decr (Z.of_nat k)) (skipn k argv).
  Proof.
    intros H. unfold leaves, decr. rewrite Zplus_mod_idemp_l. replace (Z.of_nat k - 1 + 1)%Z with (Z.of_nat k) by lia. rewrite Z.mod_small by lia. split.
    - rewrite Nat2Z.id. reflexivity.
    - replace (Z.of_nat (List.length argv) - (Z.of_nat k - 1) mod 2 ^ 64 + 1)%Z with (Z.of_nat (List.length argv) + 1 - (Z.of_nat k - 1) mod 2 ^ 64)%Z by lia. rewrite Zminus_mod_idemp_r.
      replace (Z.of_nat (List.length argv) + 1 - (Z.of_nat k - 1))%Z with (Z.of_nat (List.length argv) - Z.of_nat k + 2)%Z by lia. rewrite skipn_length.
      rewrite Z.mod_small; lia.
  Qed.
  Lemma skipn_at cc a r : skipn cc argv = a :: r -> nth_error argv cc = Some a /\ skipn (S cc) argv = r /\ cc < List.length argv.
  Proof.
    intros H. rewrite <- tl_skipn, H. assert (cc < List.length argv) as Lc. { destruct (Nat.lt_ge_cases cc (List.length argv)) as [|Ge]; [assumption|]. rewrite skipn_all2 in H by exact Ge. discriminate. }
    repeat split; [|exact Lc]. rewrite <- (firstn_skipn cc argv) at 1. rewrite nth_error_app2; rewrite firstn_length_le by lia; [|lia]. rewrite Nat.sub_diag, H. reflexivity.
  Qed.
  Lemma skipn_end cc : skipn cc argv = [] -> nth_error argv cc = None.
  Proof. intros H. apply nth_error_None. assert (List.length (skipn cc argv) = 0) as Q by (rewrite H; reflexivity). rewrite skipn_length in Q. lia. Qed.
  Lemma skipn_plus {A} (l : list A) i j : skipn (i + j) l = skipn i (skipn j l).
  Proof. revert l. induction j as [|j IH]; intros l; [rewrite Nat.add_0_r; reflexivity|]. rewrite <- plus_n_Sm. destruct l as [|x l]; [cbn; rewrite skipn_nil; reflexivity|]. cbn [skipn]. apply IH. Qed.

  (** ---- the loop of MULTI_ARGUMENT ---- *)
  Lemma multi_ok n o : sfind n (p_opts p) = Some o -> forall vs r fuel cc s,
    skipn cc argv = vs ++ r -> (forall v, In v vs -> ~ known K v) -> match r with [] => True | b :: _ => known K b end -> List.length vs < fuel -> typed p (s_w s) ->
    multi strtod answer p fuel o cc s =
      match give_all strtod answer o (map Some vs) (s_w s) with
      | Gave w' => MDone (cc + List.length vs) (St (s_last s) (s_unused s) w')
      | Refused w' => MFail (St (decr (s_last s)) (s_unused s) w')
      | Undefined => MUgly
      end.
  Proof.
    intros F. induction vs as [|v vs IH]; intros r fuel cc s E A B Lf T; (destruct fuel as [|fuel]; [cbn in Lf; lia|]); cbn [multi map give_all List.length].
    - rewrite Nat.add_0_r. replace (St (s_last s) (s_unused s) (s_w s)) with s by (destruct s; reflexivity). cbn [app] in E. destruct r as [|b r].
      + rewrite (skipn_end _ E). reflexivity.
      + destruct (skipn_at _ _ _ E) as (-> & _ & _). apply known_matched in B. destruct (get_matched p b); [congruence|reflexivity].
    - cbn [app] in E. destruct (skipn_at _ _ _ E) as (-> & E' & _). assert (~ known K v) as Nv by (apply A; left; reflexivity). rewrite known_matched in Nv. destruct (get_matched p v) eqn:Gm; [|exfalso; apply Nv; discriminate].
      rewrite (populate_give _ _ _ _ F T). pose proof (typed_give o (Some v) (s_w s) T) as T'. destruct (give strtod answer o (Some v) (s_w s)) as [w'|w'|]; try reflexivity.
      rewrite (IH r fuel (S cc) (St (s_last s) (s_unused s) w') E'); [|intros; apply A; right; assumption|exact B|cbn in Lf; lia|exact T'].
      cbn [s_w s_last s_unused]. destruct (give_all _ _ _ _ _); try reflexivity. f_equal. lia.
  Qed.
  Lemma typed_give_all o vs : forall w, typed p w -> match give_all strtod answer o vs w with Gave w' | Refused w' => typed p w' | Undefined => True end.
  Proof.
    induction vs as [|v vs IH]; intros w T; cbn [give_all]; [exact T|]. pose proof (typed_give o v w T) as T'. destruct (give strtod answer o v w); [apply IH; exact T'|exact T'|exact I].
  Qed.

  (** ---- the loop of Parse ---- *)
  Definition outcome (r : option (bool * list str * world D * list str)) (o : out D) : Prop :=
    match r with
    | None => o = Undef
    | Some (b, rem, w', u') => exists s, o = Ret b s /\ s_w s = w' /\ s_unused s = u' /\ leaves (s_last s) rem
    end.
  Lemma kinds_find n t : K n = Some t -> exists o, sfind n (p_opts p) = Some o /\ o_type o = t.
  Proof. unfold K, kinds. destruct (sfind n (p_opts p)) as [o|]; cbn; [|discriminate]. intros E; injection E as <-. eauto. Qed.
  (** One value, then the rest. *)
  Lemma one n o v s (k : st D -> out D) fl : sfind n (p_opts p) = Some o -> typed p (s_w s) ->
    (forall w', give strtod answer o v (s_w s) = Gave w' -> outcome (fl w') (k (St (s_last s) (s_unused s) w'))) ->
    forall here, leaves (decr (s_last s)) here ->
    outcome (match give_all strtod answer o [v] (s_w s) with Gave w' => fl w' | Refused w' => Some (false, here, w', s_unused s) | Undefined => None end)
            (match populate strtod answer o v s with Good s' => k s' | Bad s' => Ret false s' | Ugly => Undef end).
  Proof.
    intros F T H here Lv. rewrite (populate_give _ _ _ _ F T). cbn [give_all]. destruct (give strtod answer o v (s_w s)) as [w'|w'|].
    - apply H. reflexivity.
    - eexists. split; [reflexivity|]. cbn [s_w s_unused s_last]. auto.
    - reflexivity.
  Qed.
  Lemma sim ws sts e : line K ws sts e -> forall fuel cc s at_,
    skipn cc argv = ws -> List.length ws < fuel -> typed p (s_w s) -> leaves (s_last s) (tl at_) ->
    outcome (follow strtod answer p sts e at_ (s_w s) (s_unused s)) (parse_from strtod answer p fuel cc s).
  Proof.
    induction 1 as [|a n r sts e C T H IH|a n v r sts e C T H IH|a n C T|a n v r sts e C T E H IH|a n r C T E|a n v r sts e C T E H IH|a n vs r sts e C T A B H IH|a r sts e N H IH];
      intros fuel cc s at_ Sk Lf Ty Lv; (destruct fuel as [|fuel]; [cbn in Lf; lia|]); cbn [parse_from follow].
    1:{ rewrite (skipn_end _ Sk). exists s. auto. }
    all: destruct (skipn_at _ _ _ Sk) as (-> & Sk' & Lc); set (s1 := St (Z.of_nat cc) (s_unused s) (s_w s));
      assert (typed p (s_w s1)) as Ty1 by exact Ty;
      assert (forall u w, leaves (s_last (St (Z.of_nat cc) u w : st D)) (tl (skipn cc argv))) as Lva by (intros; apply leaves_after; exact Lc);
      assert (leaves (decr (s_last s1)) (skipn cc argv)) as Lvf by (apply leaves_from; exact Lc); rewrite Sk in Lva, Lvf; cbn [List.length] in Lf.
    1-7: (destruct (kinds_find _ _ T) as (o & F & To); try rewrite F; pose proof (chosen_known _ _ C) as Kn; apply known_matched in Kn; destruct (get_matched p a) as [|m ms] eqn:Gm; [congruence|]; rewrite <- Gm, (pick_chosen _ _ C), F, (g_text p G _ _ F), str_eqb_refl; cbn [negb]; rewrite To).
    - apply (one n o None s1 (fun s' => parse_from strtod answer p fuel (S cc) s') (fun w' => follow strtod answer p sts e (a :: r) w' (s_unused s)) F Ty1); [|exact Lvf].
      intros w' Q. apply (IH fuel (S cc) (St (Z.of_nat cc) (s_unused s) w') (a :: r) Sk'); [lia| |apply Lva].
      pose proof (typed_give o None _ Ty1) as T'. rewrite Q in T'. exact T'.
    - assert (Nat.eqb cc (List.length argv - 1) = false) as ->. { apply Nat.eqb_neq. destruct (skipn_at _ _ _ Sk') as (_ & _ & ?). lia. }
      destruct (skipn_at _ _ _ Sk') as (-> & Sk'' & Lc').
      apply (one n o (Some v) s1 (fun s' => parse_from strtod answer p fuel (S (S cc)) s') (fun w' => follow strtod answer p sts e (a :: v :: r) w' (s_unused s)) F Ty1); [|exact Lvf].
      intros w' Q. apply (IH fuel (S (S cc)) (St (Z.of_nat cc) (s_unused s) w') (a :: v :: r) Sk''); [cbn [List.length] in Lf; lia| |apply Lva].
      pose proof (typed_give o (Some v) _ Ty1) as T'. rewrite Q in T'. exact T'.
    - assert (Nat.eqb cc (List.length argv - 1) = true) as ->. { apply Nat.eqb_eq. assert (List.length (skipn cc argv) = 1) as Q by (rewrite Sk; reflexivity). rewrite skipn_length in Q. lia. }
      unfold fail. eexists. split; [reflexivity|]. cbn [s_w s_unused s_last]. auto.
    - assert (Nat.eqb (List.length a) (List.length n) = false) as ->. { apply Nat.eqb_neq. rewrite E, app_length. cbn. lia. }
      assert (nth (List.length n) a "0"%char = "="%char) as ->. { rewrite E, app_nth2 by lia. rewrite Nat.sub_diag. reflexivity. }
      assert (skipn (List.length n + 1) a = v) as ->. { rewrite E, Nat.add_comm, skipn_plus, skipn_app, skipn_all, Nat.sub_diag. reflexivity. } cbn [orb negb].
      change (negb (ascii_eqb "="%char "="%char)) with false. cbv iota.
      apply (one n o (Some v) s1 (fun s' => parse_from strtod answer p fuel (S cc) s') (fun w' => follow strtod answer p sts e (a :: r) w' (s_unused s)) F Ty1); [|exact Lvf].
      intros w' Q. apply (IH fuel (S cc) (St (Z.of_nat cc) (s_unused s) w') (a :: r) Sk'); [lia| |apply Lva].
      pose proof (typed_give o (Some v) _ Ty1) as T'. rewrite Q in T'. exact T'.
    - pose proof (proj1 C) as Fi. unfold fits in Fi. rewrite T in Fi. destruct Fi as [v Ev].
      assert (Nat.eqb (List.length a) (List.length n) || negb (ascii_eqb (nth (List.length n) a "0"%char) "=") = true) as ->.
      { apply orb_true_iff. destruct v as [|c v]; [left; apply Nat.eqb_eq; rewrite Ev, app_nil_r; reflexivity|right]. rewrite Ev, app_nth2 by lia. rewrite Nat.sub_diag. cbn [nth]. unfold ascii_eqb. destruct (Ascii.eqb_spec c "="%char) as [->|]; [|reflexivity]. exfalso. exact (E v Ev). }
      unfold fail. eexists. split; [reflexivity|]. cbn [s_w s_unused s_last]. auto.
    - assert (skipn (List.length n) a = v) as ->. { rewrite E, skipn_app, skipn_all, Nat.sub_diag. reflexivity. }
      apply (one n o (Some v) s1 (fun s' => parse_from strtod answer p fuel (S cc) s') (fun w' => follow strtod answer p sts e (a :: r) w' (s_unused s)) F Ty1); [|exact Lvf].
      intros w' Q. apply (IH fuel (S cc) (St (Z.of_nat cc) (s_unused s) w') (a :: r) Sk'); [lia| |apply Lva].
      pose proof (typed_give o (Some v) _ Ty1) as T'. rewrite Q in T'. exact T'.
    - assert (List.length vs <= List.length argv) as Lvs. { assert (List.length (skipn (S cc) argv) = List.length (vs ++ r)) as Q by (rewrite Sk'; reflexivity). rewrite skipn_length, app_length in Q. lia. }
      rewrite (multi_ok n o F vs r (S (List.length argv)) (S cc) s1 Sk' A B); [|lia|exact Ty1].
      cbn [s_w s1]. pose proof (typed_give_all o (map Some vs) (s_w s) Ty) as T'. rewrite app_length in Lf. destruct (give_all strtod answer o (map Some vs) (s_w s)) as [w'|w'|].
      + assert (skipn (S cc + List.length vs) argv = r) as Sr. { rewrite Nat.add_comm, skipn_plus, Sk', skipn_app, skipn_all, Nat.sub_diag. reflexivity. }
        destruct (Nat.eqb_spec (S cc + List.length vs) (List.length argv)) as [Q|Q]; cbn [negb].
        * assert (r = []) as ->. { rewrite <- Sr, Q. apply skipn_all. }
          apply (IH fuel (S (S cc + List.length vs)) (St (Z.of_nat cc) (s_unused s) w') (a :: vs ++ [])); [rewrite <- tl_skipn, Sr; reflexivity|cbn; lia|exact T'|apply Lva].
        * replace (S (S cc + List.length vs - 1)) with (S cc + List.length vs) by lia.
          apply (IH fuel (S cc + List.length vs) (St (Z.of_nat cc) (s_unused s) w') (a :: vs ++ r)); [exact Sr|lia|exact T'|apply Lva].
      + eexists. split; [reflexivity|]. cbn [s_w s_unused s_last]. auto.
      + reflexivity.
    - rewrite known_matched in N. destruct (get_matched p a) eqn:Gm; [|exfalso; apply N; discriminate].
      destruct (p_unknown p) as [fn|] eqn:Eu.
      + cbn [s_w s1]. destruct (answer _ _).
        * eexists. split; [reflexivity|]. cbn [s_w s_unused s_last]. repeat split; apply Lva; constructor.
        * unfold fail. eexists. split; [reflexivity|]. cbn [s_w s_unused s_last]. auto.
      + destruct (p_store p).
        * apply (IH fuel (S cc) (St (Z.of_nat cc) (s_unused s ++ [a]) (s_w s)) (a :: r) Sk'); [lia|exact Ty|apply Lva].
        * unfold fail. eexists. split; [reflexivity|]. cbn [s_w s_unused s_last]. auto.
  Qed.
End Run.
