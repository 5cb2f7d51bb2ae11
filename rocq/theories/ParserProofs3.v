(** Equivalence of the parser with the declarative language, main theorems. *)
From Verif Require Import Base ConfigModel ConfigSpec ConfigProofs ExpandModel ExpandSpec ExpandProofs ParserModel ParserSpec ParserProofs ParserProofs2.

Lemma loop_cases n w file st ls :
  (exists v st1 ls1, get_token st ls = (TEof, v, st1, ls1) /\ loop (S n) w file st ls = on_eof file st1) \/
  (exists t v st1 ls1, get_token st ls = (t, v, st1, ls1) /\ t <> TEof /\
     loop (S n) w file st ls = stmt (loop n w) w file t v st1 ls1).
Proof.
  cbn [loop]. destruct (get_token st ls) as [[[t v] st1] ls1]. destruct t.
  6:{ left. eauto 6. }
  all: right; do 4 eexists; split; [reflexivity|]; split; [discriminate|reflexivity].
Qed.

Lemma loop_err n : forall w file st ls st', loop n w file st ls = PDone st' -> p_err st' = false -> p_err st = false.
Proof.
  induction n as [|n IH]; intros w file st ls st' H He; [discriminate|].
  destruct (loop_cases n w file st ls) as [(v & st1 & ls1 & G & E)|(t & v & st1 & ls1 & G & Nt & E)]; rewrite E in H; clear E;
  (assert (X : p_err st1 = false -> p_err st = false);
  [rewrite (get_token_err _ _ _ _ _ _ G); intro Z; apply orb_false_iff in Z; tauto|apply X; clear X]).
  - unfold on_eof in H. destruct (p_count _).
    + destruct (p_blocks _).
      * match type of H with (if ?b then _ else _) = _ => destruct b eqn:Z end; [discriminate|]. exact Z.
      * discriminate H.
    + injection H as <-. exact He.
  - assert (ENT : forall rel t2 v2 st2 ls2, stmt_entry (loop n w) w file rel t2 v2 st2 ls2 = PDone st' -> p_err st2 = false).
    { clear H. intros rel t2 v2 st2 ls2 H. unfold stmt_entry in H.
      destruct t2; try (apply IH in H; [discriminate H|exact He]).
      destruct (get_token st2 ls2) as [[[t3 v3] st3] ls3] eqn:G3.
      destruct (flags _ _ _ _ _ _) as [[[[[ro t4] v4] st4] ls4]|] eqn:F; [|discriminate].
      assert (Z : p_err st4 = false).
      { destruct t4; try (apply IH in H; [discriminate H|exact He]).
        - destruct (assign _ _ _ _ _ _) as [h' [u|e| |]]; try discriminate. apply IH in H; auto.
        - apply IH in H; auto. }
      apply flags_err in F; auto. rewrite (get_token_err _ _ _ _ _ _ G3) in F.
      apply orb_false_iff in F. tauto. }
    unfold stmt in H. destruct (str_eqb v (L "include")).
    { unfold stmt_include in H. destruct (resolve_file_name _ _ _) as [|a l]; [discriminate|]. destruct (w_fs w (a :: l)); try discriminate.
      destruct (loop n w (a :: l) _ _) eqn:LI; try discriminate.
      apply IH in H; auto. apply IH in LI; auto. }
    destruct (str_eqb v (L "block")).
    { unfold stmt_block in H. destruct (get_token st1 ls1) as [[[t2 v2] st2] ls2] eqn:G2.
      destruct t2; apply IH in H; auto; try discriminate H.
      cbn in H. rewrite (get_token_err _ _ _ _ _ _ G2) in H. apply orb_false_iff in H. tauto. }
    destruct (str_eqb v (L "endblock")).
    { unfold stmt_endblock in H. destruct (p_blocks (flush_line st1)); [discriminate|]. apply IH in H; auto. }
    destruct (str_eqb v (L "relativepath")); [|eauto].
    destruct (get_token st1 ls1) as [[[t2 v2] st2] ls2] eqn:G2. apply ENT in H.
    rewrite (get_token_err _ _ _ _ _ _ G2) in H. apply orb_false_iff in H. tauto.
Qed.

Lemma err_false_tok st ls t v st' ls' : get_token st ls = (t, v, st', ls') -> t <> TEof -> p_err st' = false ->
  exists k, tokv t v = Some k /\ text k = v.
Proof.
  intros G N E. rewrite (get_token_err _ _ _ _ _ _ G) in E. apply orb_false_iff in E as [_ E].
  destruct t; try discriminate E; try congruence; eexists; split; reflexivity.
Qed.

Lemma expand_expands w st s x : Rel st s -> expands (macros w s) x (expand (token_lookup w st) x).
Proof. intro H. rewrite <- (lookup_macros w st s H). apply expand_spec. reflexivity. Qed.

Lemma assign_inv h key v file line ro h' u : assign h key v file line ro = (h', Ok u) ->
  exists h1 h2, i_set_value h 0 key v [] = (h1, Ok tt) /\ set_location h1 0 key file line = (h2, Ok tt) /\
    h' = (if ro then fst (mark_read_only h2 0 key) else h2).
Proof.
  unfold assign. destruct (i_set_value h 0 key v []) as [h1 [[]|e| |]]; try discriminate.
  destruct (set_location h1 0 key file line) as [h2 [[]|e| |]] eqn:E2; try discriminate.
  intro H. exists h1, h2. split; auto. split; auto. destruct ro.
  - rewrite H. reflexivity.
  - injection H as <- _. reflexivity.
Qed.
Lemma assign_intro h key v file line ro h1 h2 : i_set_value h 0 key v [] = (h1, Ok tt) ->
  set_location h1 0 key file line = (h2, Ok tt) ->
  exists u, assign h key v file line ro = ((if ro then fst (mark_read_only h2 0 key) else h2), Ok u).
Proof.
  intros E1 E2. unfold assign. rewrite E1, E2. destruct ro; [|exists tt; reflexivity].
  unfold set_location in E2. unfold mark_read_only.
  destruct (nth_error h1 0) as [b|] eqn:B; [|discriminate].
  injection E2 as <-. unfold upd. rewrite nth_lupd_eq by (eapply nth_error_lt; eauto). cbn. exists tt. reflexivity.
Qed.

Lemma loop_sound n : forall w file st ls st' s,
  loop n w file st ls = PDone st' -> p_err st' = false -> Rel st s ->
  exists s', good w file (at_pos st ls) s s' /\ End st' s s' /\ (p_count st' = 0 -> s_names s' = []).
Proof.
  induction n as [|n IH]; intros w file st ls st' s H He HR; [discriminate|].
  destruct (loop_cases n w file st ls) as [(v & st1 & ls1 & G & E)|(t & v & st1 & ls1 & G & Nt & E)]; rewrite E in H; clear E.
  - (* end of file *)
    destruct (get_token_eof_state _ _ _ _ _ G) as [n1 ->].
    destruct (proj1 (get_token_eof st ls)) as [Etl Hb]; [eauto|].
    exists s. destruct HR as (H1 & H2 & H3 & H4 & H5 & H6).
    split. { unfold at_pos. rewrite Etl. apply g_eof. exact Hb. }
    unfold on_eof in H. cbn [p_count p_blocks p_err with_incs with_line p_incs] in H.
    destruct (pred (p_count st)) as [|m] eqn:Ec.
    + destruct (p_blocks st) as [|c bs] eqn:Eb.
      2:{ cbn in H. discriminate H. }
      cbn [p_err with_incs with_line] in H. rewrite H6 in H. injection H as <-.
      split; [|intros _; exact (ctx_nil _ _ H3)].
      unfold End. cbn. rewrite H4, <- H5, Ec, Eb. repeat split; auto.
    + injection H as <-. split; [|discriminate]. unfold End. cbn. rewrite H4, <- H5, Ec. repeat split; auto.
  - assert (He1 : p_err st1 = false).
    { destruct n as [|n0].
      - (* the continuation has no fuel: impossible *)
        unfold stmt in H. destruct (str_eqb v (L "include")).
        { unfold stmt_include in H. destruct (resolve_file_name _ _ _) as [|a l]; [discriminate|]. destruct (w_fs w (a :: l)); discriminate. }
        destruct (str_eqb v (L "block")).
        { unfold stmt_block in H. destruct (get_token st1 ls1) as [[[[] v2] st2] ls2]; discriminate. }
        destruct (str_eqb v (L "endblock")).
        { unfold stmt_endblock in H. destruct (p_blocks _); discriminate. }
        exfalso. assert (ENT : forall rel t2 v2 st2 ls2, stmt_entry (loop 0 w) w file rel t2 v2 st2 ls2 <> PDone st').
        { intros rel t2 v2 st2 ls2. unfold stmt_entry. destruct t2; try discriminate.
          destruct (get_token st2 ls2) as [[[t3 v3] st3] ls3].
          destruct (flags _ _ _ _ _ _) as [[[[[ro [] ] v4] st4] ls4]|]; try discriminate.
          destruct (assign _ _ _ _ _ _) as [h' [u|e| |]]; discriminate. }
        destruct (str_eqb v (L "relativepath")); [|eapply ENT; eauto].
        destruct (get_token st1 ls1) as [[[t2 v2] st2] ls2]. eapply ENT; eauto.
      - (* replay loop_err on the statement *)
        assert (ENT : forall rel t2 v2 st2 ls2, stmt_entry (loop (S n0) w) w file rel t2 v2 st2 ls2 = PDone st' -> p_err st2 = false).
        { clear H. intros rel t2 v2 st2 ls2 H. unfold stmt_entry in H.
          destruct t2; try (apply loop_err in H; [discriminate H|exact He]).
          destruct (get_token st2 ls2) as [[[t3 v3] st3] ls3] eqn:G3.
          destruct (flags _ _ _ _ _ _) as [[[[[ro t4] v4] st4] ls4]|] eqn:F; [|discriminate].
          assert (Z : p_err st4 = false).
          { destruct t4; try (apply loop_err in H; [discriminate H|exact He]).
            - destruct (assign _ _ _ _ _ _) as [h' [u|e| |]]; try discriminate. apply loop_err in H; auto.
            - apply loop_err in H; auto. }
          apply flags_err in F; auto. rewrite (get_token_err _ _ _ _ _ _ G3) in F.
          apply orb_false_iff in F. tauto. }
        unfold stmt in H. destruct (str_eqb v (L "include")).
        { unfold stmt_include in H. destruct (resolve_file_name _ _ _) as [|a l]; [discriminate|]. destruct (w_fs w (a :: l)); try discriminate.
          destruct (loop (S n0) w (a :: l) _ _) eqn:LI; try discriminate.
          apply loop_err in H; auto. apply loop_err in LI; auto. }
        destruct (str_eqb v (L "block")).
        { unfold stmt_block in H. destruct (get_token st1 ls1) as [[[t2 v2] st2] ls2] eqn:G2.
          destruct t2; apply loop_err in H; auto; try discriminate H.
          cbn in H. rewrite (get_token_err _ _ _ _ _ _ G2) in H. apply orb_false_iff in H. tauto. }
        destruct (str_eqb v (L "endblock")).
        { unfold stmt_endblock in H. destruct (p_blocks (flush_line st1)); [discriminate|]. apply loop_err in H; auto. }
        destruct (str_eqb v (L "relativepath")); [|eauto].
        destruct (get_token st1 ls1) as [[[t2 v2] st2] ls2] eqn:G2. apply ENT in H.
        rewrite (get_token_err _ _ _ _ _ _ G2) in H. apply orb_false_iff in H. tauto. }
    destruct (err_false_tok _ _ _ _ _ _ G Nt He1) as (k & K & Kt).
    destruct (get_token_sound _ _ _ _ _ _ _ G K) as [Hn Em].
    set (p1 := mkPos (p_tl st1) ls1 (p_line st1)) in *.
    assert (HR1 : Rel st1 s) by (rewrite Em; exact HR).
    (* entries, shared by the relativepath and the plain case *)
    assert (ENT : forall rel v2 st2 ls2, Rel st2 s -> lhs (at_pos st ls) rel v2 (at_pos st2 ls2) ->
        stmt_entry (loop n w) w file rel TWord v2 st2 ls2 = PDone st' ->
        exists s', good w file (at_pos st ls) s s' /\ End st' s s' /\ (p_count st' = 0 -> s_names s' = [])).
    { clear H. intros rel v2 st2 ls2 HR2 Hl H. unfold stmt_entry in H.
      destruct (get_token st2 ls2) as [[[t3 v3] st3] ls3] eqn:G3.
      destruct (flags _ _ _ _ _ _) as [[[[[ro t4] v4] st4] ls4]|] eqn:F; [|discriminate].
      assert (Z : p_err st4 = false).
      { destruct t4; try (apply loop_err in H; [discriminate H|exact He]).
        - destruct (assign _ _ _ _ _ _) as [h' [u|e| |]]; try discriminate. apply loop_err in H; auto.
        - apply loop_err in H; auto. }
      destruct t4; try (apply loop_err in H; [discriminate H|exact He]).
      - (* = *)
        destruct (flags_sound _ _ _ _ _ _ _ _ _ _ _ _ _ (Assign v4) G3 F Z eq_refl) as (b & Eb & Hf & E4).
        cbn in Eb. subst b. assert (HR4 : Rel st4 s) by (rewrite E4; exact HR2).
        destruct (assign _ _ _ _ _ _) as [h' [u|e| |]] eqn:A; try discriminate.
        apply assign_inv in A as (h1 & h2 & A1 & A2 & A3).
        assert (Ek : p_ctx st4 ++ v2 = abs_key (s_names s) v2) by (eapply ctx_abs; apply HR4).
        rewrite Ek in *. pose proof HR4 as (R1 & R2 & R3 & R4 & R5 & R6). rewrite R1 in A1.
        pose proof (expand_expands w st4 s v4 HR4) as Hex.
        set (vv := if rel then _ else _) in A1.
        destruct (IH w file (with_heap st4 h') ls4 st'
          (mkS h' (s_sym s) (s_names s) (s_files s) (s_log s ++ [(abs_key (s_names s) v2, vv, ro)])) H He) as (s' & Hg & He' & Hc).
        { repeat split; auto. }
        exists s'. split; [|auto]. eapply g_entry; eauto; reflexivity.
      - (* := *)
        destruct (flags_sound _ _ _ _ _ _ _ _ _ _ _ _ _ (Define v4) G3 F Z eq_refl) as (b & Eb & Hf & E4).
        cbn in Eb. subst b. assert (HR4 : Rel st4 s) by (rewrite E4; exact HR2).
        pose proof HR4 as (R1 & R2 & R3 & R4 & R5 & R6).
        pose proof (expand_expands w st4 s v4 HR4) as Hex.
        match type of H with loop _ _ _ (with_sym _ ?m) _ = _ =>
        destruct (IH w file (with_sym st4 m) ls4 st'
          (mkS (s_cfg s) m (s_names s) (s_files s) (s_log s)) H He) as (s' & Hg & He' & Hc) end.
        { repeat split; auto. }
        exists s'. split; [|auto]. rewrite R2 in Hg. eapply g_define; eauto. }
    unfold stmt in H.
    destruct (str_eqb v (L "include")) eqn:V1.
    { apply str_eqb_eq in V1. unfold stmt_include in H.
      pose proof (expand_expands w st1 s (p_tl st1) HR1) as Hex.
      set (name := expand (token_lookup w st1) (p_tl st1)) in *.
      pose proof HR1 as (R1 & R2 & R3 & R4 & R5 & R6).
      destruct (resolve_file_name w (p_incs st1) name) as [|a l] eqn:Er; [discriminate|].
      destruct (w_fs w (a :: l)) as [| |content] eqn:Ef; try discriminate.
      destruct (loop n w (a :: l) _ _) as [st4| | |] eqn:LI; try discriminate.
      assert (He4 : p_err st4 = false) by (apply loop_err in H; auto).
      destruct (IH _ _ _ _ _ (mkS (s_cfg s) (s_sym s) (s_names s) ((a :: l) :: s_files s) (s_log s)) LI He4) as (s1 & Hg1 & HE1 & _).
      { repeat split; cbn; auto; f_equal; auto. }
      destruct HE1 as (E1 & E2 & E3 & E4 & E5 & E6 & E7 & E8). cbn in E4, E5, E6.
      destruct (IH _ _ _ _ _ (mkS (s_cfg s1) (s_sym s1) (s_names s1) (s_files s) (s_log s1)) H He) as (s' & Hg & HE & Hc).
      { repeat split; cbn; auto. }
      exists s'. split.
      - eapply g_include with (t := k) (p1 := p1) (name := name) (path := a :: l); eauto.
        + congruence.
        + rewrite <- R4. auto.
        + discriminate.
        + unfold at_pos in Hg. cbn [p_tl with_line p_line] in Hg. rewrite E8 in Hg. exact Hg.
      - split; [|exact Hc]. exact HE. }
    destruct (str_eqb v (L "block")) eqn:V2.
    { apply str_eqb_eq in V2. unfold stmt_block in H.
      destruct (get_token st1 ls1) as [[[t2 v2] st2] ls2] eqn:G2.
      destruct t2; try (apply loop_err in H; [discriminate H|exact He]).
      destruct (get_token_sound _ _ _ _ _ _ _ G2 eq_refl) as [Hn2 Em2].
      assert (HR2 : Rel st2 s) by (rewrite Em2; exact HR1). pose proof HR2 as (R1 & R2 & R3 & R4 & R5 & R6).
      destruct (IH _ _ _ _ _ (mkS (s_cfg s) (s_sym s) (s_names s ++ [v2]) (s_files s) (s_log s)) H He) as (s' & Hg & HE & Hc).
      { repeat split; cbn; auto. constructor. exact R3. }
      exists s'. split; [|split; [exact HE|exact Hc]]. eapply g_block; eauto. congruence. }
    destruct (str_eqb v (L "endblock")) eqn:V3.
    { apply str_eqb_eq in V3. unfold stmt_endblock in H. pose proof HR1 as (R1 & R2 & R3 & R4 & R5 & R6).
      destruct (p_blocks (flush_line st1)) as [|c bs] eqn:Eb; [discriminate|]. cbn in Eb. rewrite Eb in R3.
      apply ctx_cons_inv in R3 as (ns0 & nm & En & Hc0).
      destruct (IH _ _ _ _ _ (mkS (s_cfg s) (s_sym s) ns0 (s_files s) (s_log s)) H He) as (s' & Hg & HE & Hc).
      { repeat split; cbn; auto. }
      exists s'. split; [|split; [exact HE|exact Hc]]. eapply g_end; eauto. congruence. }
    destruct (str_eqb v (L "relativepath")) eqn:V4.
    { apply str_eqb_eq in V4. destruct (get_token st1 ls1) as [[[t2 v2] st2] ls2] eqn:G2.
      assert (t2 = TWord) as ->.
      { unfold stmt_entry in H. destruct t2; try (apply loop_err in H; [discriminate H|exact He]); auto. }
      destruct (get_token_sound _ _ _ _ _ _ _ G2 eq_refl) as [Hn2 Em2].
      eapply (ENT true v2 st2 ls2); eauto.
      - rewrite Em2. exact HR1.
      - eapply lhs_rel; eauto. congruence. }
    assert (t = TWord) as ->.
    { unfold stmt_entry in H. destruct t; try (apply loop_err in H; [discriminate H|exact He]); auto. }
    injection K as <-. eapply (ENT false v st1 ls1); eauto. apply lhs_plain; auto.
    apply str_eqb_neq in V1, V2, V3, V4. unfold keywords. intros [X|[X|[X|[X|[]]]]]; congruence.
Qed.

Lemma ctx_nil_inv c bs : ctx_rel [] c bs -> bs = [].
Proof.
  intro H. remember [] as l eqn:E. destruct H; auto. destruct ns; discriminate.
Qed.
Lemma good_files w file p s s' : good w file p s s' -> s_files s' = s_files s.
Proof. induction 1; cbn in *; congruence. Qed.

Lemma stmt_step n w file st ls k p1 : next (at_pos st ls) k p1 ->
  exists t v, tokv t v = Some k /\ v = text k /\
    loop (S n) w file st ls = stmt (loop n w) w file t v (moved st p1) (after p1).
Proof.
  intro Hn. destruct (get_token_complete _ _ _ _ Hn) as (t & v & G & K). exists t, v. split; auto.
  split; [symmetry; eapply tokv_text; eauto|].
  destruct (loop_cases n w file st ls) as [(v0 & st1 & ls1 & G0 & E)|(t0 & v0 & st1 & ls1 & G0 & Nt & E)].
  - rewrite G in G0. injection G0 as -> _ _ _. discriminate K.
  - rewrite G in G0. injection G0 as <- <- <- <-. exact E.
Qed.
Lemma lhs_step n w file st ls rel k p1 : lhs (at_pos st ls) rel k p1 ->
  loop (S n) w file st ls = stmt_entry (loop n w) w file rel TWord k (moved st p1) (after p1).
Proof.
  remember (at_pos st ls) as p eqn:Ep. intro H. destruct H as [p k p' Hn Hk|p t0 p1 k p' Hn Ht Hn2]; subst p.
  - destruct (stmt_step n w file st ls _ _ Hn) as (t & v & K & -> & ->). destruct t; try discriminate K.
    unfold stmt. cbn [text]. assert (forall x, In x keywords -> str_eqb k x = false).
    { intros x Hx. apply str_eqb_neq. congruence. }
    unfold keywords in *. cbn [In] in *. rewrite !H by tauto. reflexivity.
  - destruct (stmt_step n w file st ls _ _ Hn) as (t & v & K & -> & ->). unfold stmt. rewrite Ht.
    change (str_eqb (L "relativepath") (L "include")) with false. change (str_eqb (L "relativepath") (L "block")) with false.
    change (str_eqb (L "relativepath") (L "endblock")) with false. rewrite str_eqb_refl. cbv iota.
    rewrite <- (at_moved st p1) in Hn2. destruct (get_token_complete _ _ _ _ Hn2) as (t2 & v2 & G2 & K2). rewrite G2.
    destruct t2; try discriminate K2. injection K2 as ->. rewrite moved_moved. reflexivity.
Qed.
Lemma entry_step n w file rel k st ls ro tk p2 : ro_flags (at_pos st ls) ro tk p2 -> 
  exists t4 v4, tokv t4 v4 = Some tk /\
  stmt_entry (loop n w) w file rel TWord k st ls =
    match t4 with
    | TAssign =>
      let val0 := expand (token_lookup w (moved st p2)) v4 in
      match assign (p_heap st) (p_ctx st ++ k) (if rel then dir_of w file ++ L "/" ++ val0 else val0) file (num p2) ro with
      | (h', Ok _) => loop n w file (with_heap (moved st p2) h') (after p2)
      | (h', Throw e) => PThrow (CfgExn e) (with_heap (moved st p2) h')
      | _ => PStuck
      end
    | TLocal => loop n w file (with_sym (moved st p2) (sset k (expand (token_lookup w (moved st p2)) v4) (p_sym st))) (after p2)
    | _ => loop n w file (flush_line (with_err (moved st p2))) (after p2)
    end.
Proof.
  intro Hf. unfold stmt_entry. destruct (get_token st ls) as [[[t3 v3] st3] ls3] eqn:G3.
  destruct (flags_complete _ _ _ _ Hf st ls t3 v3 st3 ls3 false (S (weight (p_tl st3) ls3)) eq_refl G3 ltac:(lia)) as (t4 & v4 & F & K).
  rewrite F. exists t4, v4. split; auto.
Qed.

Lemma loop_complete w file p s s' : good w file p s s' -> forall st ls, Rel st s -> p = at_pos st ls ->
  (p_count st = 1 -> s_names s' = []) -> 0 < p_count st ->
  exists st' n0, End st' s s' /\ forall n, n0 <= n -> loop n w file st ls = PDone st'.
Proof.
  induction 1 as [file ls0 n0 s Hb|file p t p1 nm p2 s s' Hn Ht Hn2 Hg IH|file p t p1 s ns nm s' Hn Ht Hns Hg IH
    |file p t p1 name path content s s1 s' Hn Ht Hex Hp Hpn Hfs Hg1 IH1 Hg2 IH2
    |file p rel k p1 ro v p2 v1 v2 h1 h2 h3 s s' Hl Hf Hex Hv A1 A2 A3 Hg IH
    |file p rel k p1 ro v p2 v1 s s' Hl Hf Hex Hg IH]; intros st ls HR Hp0 Hc1 Hpos.
  - injection Hp0 as Etl -> En. symmetry in Etl.
    destruct (proj2 (get_token_eof st ls) (conj Etl Hb)) as (v & st1 & ls1 & G).
    destruct (get_token_eof_state _ _ _ _ _ G) as [n1 ->].
    pose proof HR as (R1 & R2 & R3 & R4 & R5 & R6).
    exists (with_incs (with_line st n1) (tl (p_incs st)) (pred (p_count st))), 1. split.
    + unfold End. cbn. rewrite R4, R5. repeat split; auto.
    + intros n Hn. destruct n as [|n]; [lia|].
      destruct (loop_cases n w file st ls) as [(v0 & st1 & ls2 & G0 & E)|(t0 & v0 & st1 & ls2 & G0 & Nt & E)];
        rewrite G in G0; [injection G0 as <- <- <-|injection G0 as <- _ _ _; congruence].
      rewrite E. unfold on_eof. cbn [p_count p_blocks p_err with_incs with_line p_incs].
      destruct (p_count st) as [|[|m]]; [lia| |reflexivity]. cbn [pred].
      rewrite (Hc1 eq_refl) in R3. rewrite (ctx_nil_inv _ _ R3).
      cbn [p_err with_incs with_line]. rewrite R6. reflexivity.
  - subst p. rewrite <- (at_moved st p1) in Hn2. pose proof HR as (R1 & R2 & R3 & R4 & R5 & R6).
    destruct (IH (flush_line (with_ctx (moved st p2) (p_ctx st ++ nm ++ block_sep) (p_ctx st :: p_blocks st))) (after p2)) as (st' & n0 & HE & HL); auto.
    { repeat split; cbn; auto. constructor. exact R3. }
    exists st', (S n0). split; [exact HE|]. intros n Hle. destruct n as [|n]; [lia|].
    destruct (stmt_step n w file st ls _ _ Hn) as (t0 & v0 & K & -> & ->). unfold stmt. rewrite Ht.
    change (str_eqb (L "block") (L "include")) with false. rewrite str_eqb_refl. cbv iota. unfold stmt_block.
    destruct (get_token_complete _ _ _ _ Hn2) as (t2 & v2 & G2 & K2). rewrite G2.
    destruct t2; try discriminate K2. injection K2 as ->. apply HL. lia.
  - subst p. pose proof HR as (R1 & R2 & R3 & R4 & R5 & R6). rewrite Hns in R3.
    destruct (ctx_snoc_inv _ _ _ _ R3) as (c0 & bs0 & Eb & R3').
    destruct (IH (flush_line (with_ctx (moved st p1) c0 bs0)) (after p1)) as (st' & n0 & HE & HL); auto.
    { repeat split; cbn; auto. }
    exists st', (S n0). split; [exact HE|]. intros n Hle. destruct n as [|n]; [lia|].
    destruct (stmt_step n w file st ls _ _ Hn) as (t0 & v0 & K & -> & ->). unfold stmt. rewrite Ht.
    change (str_eqb (L "endblock") (L "include")) with false. change (str_eqb (L "endblock") (L "block")) with false.
    rewrite str_eqb_refl. cbv iota. unfold stmt_endblock. cbn [p_blocks flush_line moved with_tl with_line]. rewrite Eb.
    apply HL. lia.
  - subst p. pose proof HR as (R1 & R2 & R3 & R4 & R5 & R6).
    pose proof (good_files _ _ _ _ _ Hg1) as Ef1. cbn in Ef1.
    destruct (IH1 (with_incs (with_line (with_tl (flush_line (moved st p1)) []) 0) (path :: p_incs st) (S (p_count st))) (lines_of content))
      as (st4 & n1 & HE4 & HL4); auto.
    { repeat split; cbn; auto; f_equal; auto. }
    { cbn. lia. } { cbn. lia. }
    destruct HE4 as (E1 & E2 & E3 & E4 & E5 & E6 & E7 & E8). cbn in E5, E6.
    destruct (IH2 (with_line st4 (num p1)) (after p1)) as (st' & n2 & HE & HL); auto.
    { repeat split; cbn; auto. }
    { unfold at_pos, eol. cbn. rewrite E8. reflexivity. }
    { cbn. rewrite E6, <- R5. exact Hc1. } { cbn. rewrite E6, <- R5. exact Hpos. }
    exists st', (S (max n1 n2)). split; [exact HE|]. intros n Hle. destruct n as [|n]; [lia|].
    destruct (stmt_step n w file st ls _ _ Hn) as (t0 & v0 & K & -> & ->). unfold stmt. rewrite Ht.
    rewrite str_eqb_refl. cbv iota. unfold stmt_include.
    assert (Ee : expand (token_lookup w (moved st p1)) (p_tl (moved st p1)) = name).
    { apply expand_spec. rewrite (lookup_macros w (moved st p1) s HR). exact Hex. }
    rewrite Ee. cbn [p_incs moved with_tl with_line]. rewrite R4, <- Hp.
    destruct path as [|a l]; [congruence|]. rewrite Hfs.
    cbn [p_incs p_count flush_line with_tl with_line moved p_line].
    match goal with |- match ?e with _ => _ end = _ => assert (HX : e = PDone st4) by (apply (HL4 n); lia); rewrite HX end.
    apply HL. lia.
  - subst p. pose proof HR as (R1 & R2 & R3 & R4 & R5 & R6).
    destruct (IH (with_heap (moved st p2) h3) (after p2)) as (st' & n0 & HE & HL); auto.
    { repeat split; cbn; auto. } { destruct p2; reflexivity. }
    exists st', (S n0). split; [exact HE|]. intros n Hle. destruct n as [|n]; [lia|].
    rewrite (lhs_step n w file st ls _ _ _ Hl). rewrite <- (at_moved st p1) in Hf.
    destruct (entry_step n w file rel k _ _ _ _ _ Hf) as (t4 & v4 & K & ->). destruct t4; try discriminate K. injection K as ->.
    cbv zeta. rewrite moved_moved.
    assert (Ee : expand (token_lookup w (moved st p2)) v = v1).
    { apply expand_spec. rewrite (lookup_macros w (moved st p2) s HR). exact Hex. }
    rewrite Ee.
    match goal with |- context [assign _ _ ?x _ _ _] => replace x with v2 by (rewrite Hv; reflexivity) end.
    cbn [p_heap p_ctx moved with_tl with_line]. rewrite (ctx_abs _ _ _ k R3), R1.
    destruct (assign_intro _ _ _ file (num p2) ro _ _ A1 A2) as [u ->]. rewrite <- A3. apply HL. lia.
  - subst p. pose proof HR as (R1 & R2 & R3 & R4 & R5 & R6).
    destruct (IH (with_sym (moved st p2) (sset k v1 (s_sym s))) (after p2)) as (st' & n0 & HE & HL); auto.
    { repeat split; cbn; auto. } { destruct p2; reflexivity. }
    exists st', (S n0). split; [exact HE|]. intros n Hle. destruct n as [|n]; [lia|].
    rewrite (lhs_step n w file st ls _ _ _ Hl). rewrite <- (at_moved st p1) in Hf.
    destruct (entry_step n w file rel k _ _ _ _ _ Hf) as (t4 & v4 & K & ->). destruct t4; try discriminate K. injection K as ->.
    rewrite moved_moved.
    assert (Ee : expand (token_lookup w (moved st p2)) v = v1).
    { apply expand_spec. rewrite (lookup_macros w (moved st p2) s HR). exact Hex. }
    rewrite Ee. cbn [p_sym moved with_tl with_line]. rewrite R2. apply HL. lia.
Qed.
