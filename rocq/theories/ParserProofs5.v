(** What a successful parse leaves behind: read-only keys and values. *)
From Verif Require Import Base ConfigModel ConfigSpec ConfigProofs ConfigProofs2 ConfigProofs3 ConfigProofs4
  ExpandModel ExpandSpec ExpandProofs ParserModel ParserSpec ParserProofs ParserProofs2 ParserProofs3 ParserProofs4.

Definition live (h : heap) : Prop := reachable h /\ resolves h 0 0 [].

Lemma same_root h k k2 : live h -> (same_entry h 0 k 0 k2 <-> k = k2).
Proof.
  intros [_ HR]. split.
  - intros (r & p1 & p2 & H1 & H2 & E). destruct (resolves_det _ _ _ _ H1 _ _ HR) as [_ ->].
    destruct (resolves_det _ _ _ _ H2 _ _ HR) as [_ ->]. exact E.
  - intros ->. exists 0, [], []. auto.
Qed.
Lemma live_step h o : live h -> live (fst (step h o)).
Proof.
  intros [H1 H2]. split; [apply reachable_step; auto|].
  eapply same_shape_resolves; [apply step_shape|exact H2].
Qed.
Lemma live_set h k v d h' r : live h -> i_set_value h 0 k v d = (h', r) -> live h'.
Proof. intros H E. pose proof (live_step h (OSet 0 k v d) H) as L. change h' with (fst (h', r)). rewrite <- E. revert L. cbn [step lift]. destruct (i_set_value h 0 k v d); exact (fun x => x). Qed.
Lemma live_loc h k f l h' r : live h -> set_location h 0 k f l = (h', r) -> live h'.
Proof. intros H E. pose proof (live_step h (OSetLoc 0 k f l) H) as L. change h' with (fst (h', r)). rewrite <- E. revert L. cbn [step lift]. destruct (set_location h 0 k f l); exact (fun x => x). Qed.
Lemma live_ro h k : live h -> live (fst (mark_read_only h 0 k)).
Proof. intros H. exact (live_step h (OMarkRO 0 k) H). Qed.
Lemma live_nth h : live h -> exists b, nth_error h 0 = Some b.
Proof. intros [_ H]. eapply resolves_some; eauto. Qed.

Lemma loc_effect h k f l : live h -> exists h', set_location h 0 k f l = (h', Ok tt) /\
  forall k2, is_read_only h' 0 k2 = is_read_only h 0 k2 /\ has_value h' 0 k2 = has_value h 0 k2 /\
             get_string h' 0 k2 = get_string h 0 k2.
Proof.
  intros H. destruct (live_nth h H) as [b Hb]. pose proof H as [_ HR].
  inversion HR as [id b' Hb' Hp| id b' p r path Hb' Hp Hr Hi]; [|destruct path; discriminate].
  subst. rewrite Hb in Hb'. injection Hb' as <-.
  unfold set_location. rewrite Hb. eexists. split; [reflexivity|]. intro k2.
  assert (L : 0 < length h) by (eapply nth_error_lt; eauto).
  unfold is_read_only, get_string, get_value, has_value, i_get_value, fuel, upd. rewrite lupd_length.
  cbn [has_value_f i_get_value_f]. rewrite nth_lupd_eq by auto. rewrite Hb. cbn [b_parent b_store b_ro b_loc b_name b_descr]. rewrite Hp.
  split; [reflexivity|]. split; reflexivity.
Qed.
Lemma ro_effect h k : live h -> let h' := fst (mark_read_only h 0 k) in
  (exists u, snd (mark_read_only h 0 k) = Ok u) /\
  forall k2, (is_read_only h' 0 k2 = Ok true <-> k2 = k \/ is_read_only h 0 k2 = Ok true) /\
             has_value h' 0 k2 = has_value h 0 k2 /\ get_string h' 0 k2 = get_string h 0 k2.
Proof.
  intros H. destruct (live_nth h H) as [b Hb]. pose proof H as [_ HR].
  inversion HR as [id b' Hb' Hp| id b' p r path Hb' Hp Hr Hi]; [|destruct path; discriminate].
  subst. rewrite Hb in Hb'. injection Hb' as <-.
  unfold mark_read_only. rewrite Hb. cbn zeta. cbn [fst snd]. split; [exists tt; reflexivity|]. intro k2.
  assert (L : 0 < length h) by (eapply nth_error_lt; eauto).
  unfold is_read_only, is_read_only_b, get_string, get_value, has_value, i_get_value, fuel, upd. rewrite lupd_length.
  cbn [has_value_f i_get_value_f]. rewrite nth_lupd_eq by auto. rewrite Hb. cbn [b_parent b_store b_ro b_loc b_name b_descr]. rewrite Hp.
  split; [|split; reflexivity].
  rewrite !shas_find. destruct (str_dec k2 k) as [->|N].
  - rewrite sfind_set_eq. split; auto.
  - rewrite sfind_set_ne by auto. split; [auto|]. intros [?|?]; [congruence|auto].
Qed.

Lemma assign_live h key v file line ro : live h ->
  match assign h key v file line ro with
  | (h', Ok _) => live h' /\ is_read_only h 0 key = Ok false /\
      get_string h' 0 key = Ok (trim v) /\ has_value h' 0 key = Ok true /\
      (forall k, k <> key -> get_string h' 0 k = get_string h 0 k /\ has_value h' 0 k = has_value h 0 k) /\
      (forall k, is_read_only h' 0 k = Ok true <-> (ro = true /\ k = key) \/ is_read_only h 0 k = Ok true)
  | (h', Throw e) => h' = h /\ is_read_only h 0 key = Ok true /\ exists cur, e = SetOnReadOnly key cur v
  | _ => False
  end.
Proof.
  intro HL. pose proof HL as [Hre HR]. unfold assign.
  destruct (set_outcome h 0 key v [] 0 [] Hre HR) as [[E1 E2]|[E1 [cur E2]]]; rewrite abs_key_nil in *.
  2:{ rewrite E2. eauto. }
  destruct (i_set_value h 0 key v []) as [h1 r1] eqn:ES. cbn in E2. subst r1.
  destruct (set_get_lemma h 0 key v [] h1 Hre ES) as (G1 & G2 & _ & G4).
  pose proof (live_set _ _ _ _ _ _ HL ES) as HL1.
  destruct (loc_effect h1 key file line HL1) as (h2 & EL & HLoc). rewrite EL.
  pose proof (live_loc _ _ _ _ _ _ HL1 EL) as HL2.
  destruct (G1 0 key) as (t & Ht & Gt). { apply same_root; auto. } apply is_trim_unique in Ht. subst t.
  assert (HasK : has_value h1 0 key = Ok true).
  { unfold get_string, get_value in Gt. destruct (has_value h1 0 key) as [[]| | |]; try discriminate Gt. reflexivity. }
  assert (Hoth : forall k, k <> key -> get_string h1 0 k = get_string h 0 k /\ has_value h1 0 k = has_value h 0 k).
  { intros k N. destruct (G2 0 k) as (A & B & _).
    - destruct (live_nth h HL) as [b Hb]. eapply nth_error_lt; eauto.
    - intro S. apply same_root in S; auto.
    - auto. }
  assert (Hro1 : forall k, is_read_only h1 0 k = is_read_only h 0 k) by (intro k; apply G4).
  destruct ro.
  - destruct (ro_effect h2 key HL2) as [[u Eu] Hro2].
    destruct (mark_read_only h2 0 key) as [h3 r3] eqn:EM. cbn in Eu. subst r3. cbn [fst snd] in Hro2.
    assert (HL3 : live h3) by (pose proof (live_ro h2 key HL2) as X; rewrite EM in X; exact X).
    split; auto. split; auto.
    split; [rewrite (proj2 (proj2 (Hro2 key))), (proj2 (proj2 (HLoc key))); exact Gt|].
    split; [rewrite (proj1 (proj2 (Hro2 key))), (proj1 (proj2 (HLoc key))); exact HasK|].
    split.
    + intros k N. destruct (Hoth k N) as [A B]. destruct (Hro2 k) as (_ & C & D). destruct (HLoc k) as (_ & C' & D').
      split; congruence.
    + intro k. rewrite (proj1 (Hro2 k)), (proj1 (HLoc k)), Hro1. tauto.
  - split; auto. split; auto. split; [rewrite (proj2 (proj2 (HLoc key))); exact Gt|].
    split; [rewrite (proj1 (proj2 (HLoc key))); exact HasK|]. split.
    + intros k N. destruct (Hoth k N) as [A B]. destruct (HLoc k) as (_ & C' & D'). split; congruence.
    + intro k. rewrite (proj1 (HLoc k)), Hro1. intuition congruence.
Qed.

(** The parser never reaches undefined behaviour of the config block. *)
Lemma get_token_heap st ls t v st' ls' : get_token st ls = (t, v, st', ls') -> p_heap st' = p_heap st.
Proof.
  unfold get_token. destruct (match p_tl st with [] => _ | _ => _ end) as [[st1 ls1]|] eqn:E.
  - assert (p_heap st1 = p_heap st).
    { destruct (p_tl st); [destruct (get_line ls (p_line st)) as [[[c ls2] n1]|]; [|discriminate]|];
      injection E as <- _; reflexivity. }
    destruct (scan (p_tl st1)) as [[t0 v0] r0]. intro H0. injection H0 as _ _ <- _. destruct t0; exact H.
  - intro H. injection H as _ _ <- _. reflexivity.
Qed.
Lemma flags_heap n : forall ro t v st ls ro' t4 v4 st4 ls4, flags n ro t v st ls = Some (ro', t4, v4, st4, ls4) ->
  p_heap st4 = p_heap st.
Proof.
  induction n as [|n IH]; intros ro t v st ls ro' t4 v4 st4 ls4 H.
  - destruct t; cbn in H; try discriminate; injection H as _ _ _ <- _; auto.
  - cbn [flags] in H. destruct t; try (injection H as _ _ _ <- _; auto; fail).
    destruct (get_token _ ls) as [[[t2 v2] st2] ls2] eqn:G. apply IH in H. rewrite H.
    rewrite (get_token_heap _ _ _ _ _ _ G). destruct (contains _ _); reflexivity.
Qed.
Definition fine (r : presult) : Prop :=
  match r with PDone st | PThrow _ st => live (p_heap st) | PStuck => False | PFuel => True end.
Lemma loop_fine n : forall w file st ls, live (p_heap st) -> fine (loop n w file st ls).
Proof.
  induction n as [|n IH]; intros w file st ls HL; [exact I|].
  destruct (loop_cases n w file st ls) as [(v & st1 & ls1 & G & E)|(t & v & st1 & ls1 & G & Nt & E)]; rewrite E; clear E;
  pose proof (get_token_heap _ _ _ _ _ _ G) as E1; rewrite <- E1 in HL.
  - unfold on_eof. destruct (p_count _); [|exact HL].
    match goal with |- fine (if ?b then _ else _) => destruct b end; (destruct (p_blocks _); exact HL).
  - assert (ENT : forall rel t2 v2 st2 ls2, live (p_heap st2) -> fine (stmt_entry (loop n w) w file rel t2 v2 st2 ls2)).
    { intros rel t2 v2 st2 ls2 HL2. unfold stmt_entry. destruct t2; try (apply IH; exact HL2).
      destruct (get_token st2 ls2) as [[[t3 v3] st3] ls3] eqn:G3.
      destruct (flags _ _ _ _ _ _) as [[[[[ro t4] v4] st4] ls4]|] eqn:F; [|exact I].
      apply flags_heap in F. apply get_token_heap in G3. rewrite <- G3, <- F in HL2.
      destruct t4; try (apply IH; exact HL2).
      pose proof (assign_live (p_heap st4) (p_ctx st4 ++ v2)
         (if rel then dir_of w file ++ L "/" ++ expand (token_lookup w st4) v4 else expand (token_lookup w st4) v4) file (p_line st4) ro HL2) as A.
      cbv zeta. destruct (assign _ _ _ _ _ _) as [h' [u|e| |]]; try contradiction.
      - apply IH. apply A. - destruct A as [-> _]. exact HL2. }
    unfold stmt. destruct (str_eqb v (L "include")).
    { unfold stmt_include. destruct (resolve_file_name _ _ _) as [|a l]; [exact HL|].
      destruct (w_fs w (a :: l)); try exact HL.
      match goal with |- context [loop n w (a :: l) ?s ?l0] => pose proof (IH w (a :: l) s l0 HL) as F; destruct (loop n w (a :: l) s l0) end; try exact F.
      apply IH. exact F. }
    destruct (str_eqb v (L "block")).
    { unfold stmt_block. destruct (get_token st1 ls1) as [[[t2 v2] st2] ls2] eqn:G2. apply get_token_heap in G2.
      rewrite <- G2 in HL. destruct t2; apply IH; exact HL. }
    destruct (str_eqb v (L "endblock")).
    { unfold stmt_endblock. destruct (p_blocks _); [exact HL|]. apply IH; exact HL. }
    destruct (str_eqb v (L "relativepath")); [|apply ENT; exact HL].
    destruct (get_token st1 ls1) as [[[t2 v2] st2] ls2] eqn:G2. apply get_token_heap in G2. rewrite <- G2 in HL. apply ENT; exact HL.
Qed.
Lemma live_fresh : live (p_heap fresh).
Proof.
  split; [exists [ONew []]; reflexivity|]. apply (resolves_root _ 0 (new_block [] None)); reflexivity.
Qed.
Lemma parse_fine n w file : fine (parse n w file).
Proof.
  unfold parse, process_main. pose proof live_fresh as H.
  destruct (w_fs w file); try exact H; apply loop_fine; exact H.
Qed.

(** The log of assignments describes the configuration. *)
Definition log_inv (s : sst) : Prop :=
  live (s_cfg s) /\
  (forall k, is_read_only (s_cfg s) 0 k = Ok true <-> exists v, In (k, v, true) (s_log s)) /\
  (forall k, has_value (s_cfg s) 0 k = Ok true <-> exists v ro, In (k, v, ro) (s_log s)) /\
  (forall l1 k v ro l2, s_log s = l1 ++ (k, v, ro) :: l2 -> (forall v' ro', ~ In (k, v', ro') l2) ->
     get_string (s_cfg s) 0 k = Ok (trim v)) /\
  (forall l1 k v l2, s_log s = l1 ++ (k, v, true) :: l2 -> forall v' ro', ~ In (k, v', ro') l2).

Lemma snoc_split {A} (l1 : list A) x l2 l y : l ++ [y] = l1 ++ x :: l2 ->
  (l2 = [] /\ x = y /\ l1 = l) \/ exists l2', l2 = l2' ++ [y] /\ l = l1 ++ x :: l2'.
Proof.
  intro E. destruct (rev_case l2) as [->|[z [t ->]]].
  - apply app_inj_tail in E as [-> ->]. auto.
  - right. exists t. change (l1 ++ x :: t ++ [z]) with (l1 ++ (x :: t) ++ [z]) in E. rewrite app_assoc in E.
    apply app_inj_tail in E as [-> ->]. auto.
Qed.
Lemma ro_bool h k : live h -> is_read_only h 0 k = Ok true \/ is_read_only h 0 k = Ok false.
Proof. intro H. destruct (live_nth h H) as [b Hb]. unfold is_read_only. rewrite Hb. destruct (is_read_only_b b k); auto. Qed.

Lemma good_log w file p s s' : good w file p s s' -> log_inv s -> log_inv s' /\ exists ext, s_log s' = s_log s ++ ext.
Proof.
  induction 1 as [file ls0 n0 s Hb|file p t p1 nm p2 s s' Hn Ht Hn2 Hg IH|file p t p1 s ns nm s' Hn Ht Hns Hg IH
    |file p t p1 name path content s s1 s' Hn Ht Hex Hp Hpn Hfs Hg1 IH1 Hg2 IH2
    |file p rel k p1 ro v p2 v1 v2 h1 h2 h3 s s' Hl Hf Hex Hv A1 A2 A3 Hg IH
    |file p rel k p1 ro v p2 v1 s s' Hl Hf Hex Hg IH]; intro HI.
  - split; auto. exists []. rewrite app_nil_r. reflexivity.
  - apply IH. exact HI.
  - apply IH. exact HI.
  - destruct (IH1 HI) as [I1 [e1 E1]]. destruct (IH2 I1) as [I2 [e2 E2]]. cbn in *. split; auto.
    exists (e1 ++ e2). rewrite E2, E1, app_assoc. reflexivity.
  - set (key := abs_key (s_names s) k) in *.
    destruct (IH) as [I2 [e2 E2]].
    2:{ split; auto. cbn in E2. rewrite <- app_assoc in E2. eauto. }
    clear IH. destruct HI as (HL & HRo & HH & HV & HO). cbn.
    destruct (assign_intro _ _ _ file (num p2) ro _ _ A1 A2) as [u HA].
    pose proof (assign_live (s_cfg s) key v2 file (num p2) ro HL) as AL. rewrite HA in AL. rewrite <- A3 in AL.
    destruct AL as (L3 & NRO & GK & HK & Oth & RO).
    assert (Nlog : forall v', ~ In (key, v', true) (s_log s)).
    { intros v' Hin. assert (is_read_only (s_cfg s) 0 key = Ok true) by (apply HRo; eauto). congruence. }
    unfold log_inv. cbn [s_cfg s_log]. split; auto. split; [|split; [|split]].
    + intro k2. rewrite RO, HRo. split.
      * intros [[-> ->]|[v' Hv']]; [exists v2|exists v']; apply in_or_app; cbn; auto.
      * intros [v' Hv']. apply in_app_or in Hv' as [Hv'|[E|[]]]; [eauto|]. injection E as <- <- <-. auto.
    + intro k2. destruct (str_dec k2 key) as [->|N].
      * split; auto. intros _. exists v2, ro. apply in_or_app. cbn. auto.
      * rewrite (proj2 (Oth k2 N)), HH. split.
        -- intros (v' & ro' & Hi). exists v', ro'. apply in_or_app. auto.
        -- intros (v' & ro' & Hi). apply in_app_or in Hi as [Hi|[E|[]]]; eauto. injection E as <- <- <-. congruence.
    + intros l1 k2 v' ro' l2 E Hno. apply snoc_split in E as [(-> & E & ->)|(l2' & -> & E)].
      * injection E as -> -> ->. exact GK.
      * assert (N : k2 <> key).
        { intros ->. apply (Hno v2 ro). apply in_or_app. right. left. reflexivity. }
        rewrite (proj1 (Oth k2 N)). eapply HV; eauto. intros a b Hin. apply (Hno a b). apply in_or_app. auto.
    + intros l1 k2 v' l2 E. apply snoc_split in E as [(-> & E & ->)|(l2' & -> & E)].
      * intros a b [].
      * intros a b Hin. apply in_app_or in Hin as [Hin|[Hin|[]]].
        -- eapply HO; eauto.
        -- injection Hin as <- <- <-. apply (Nlog v'). rewrite E. apply in_or_app. right. left. reflexivity.
  - apply IH. exact HI.
Qed.
Lemma log_init file : log_inv (s_init file).
Proof.
  unfold log_inv, s_init. cbn [s_cfg s_log]. split; [exact live_fresh|].
  split; [|split; [|split]].
  - intro k. split; [discriminate|intros [v []]].
  - intro k. split; [discriminate|intros (v & ro & [])].
  - intros l1 k v ro l2 E. destruct l1; discriminate.
  - intros l1 k v l2 E. destruct l1; discriminate.
Qed.

Lemma Rel_init file : Rel (with_incs (with_line (with_tl fresh []) 0) (file :: p_incs fresh) (S (p_count fresh))) (s_init file).
Proof. repeat split; auto. constructor. Qed.

Lemma parse_sound n w file st : parse n w file = PDone st -> exists s, defines w file s /\ p_heap st = s_cfg s.
Proof.
  unfold parse, process_main, defines. intro H.
  assert (He : p_err st = false /\ p_count st = 0).
  { assert (Z : forall ls, loop n w file (with_incs (with_line (with_tl fresh []) 0) (file :: p_incs fresh) (S (p_count fresh))) ls = PDone st ->
      p_err st = false /\ p_count st = 0); [|destruct (w_fs w file); try discriminate; eauto].
    clear H. intros ls H.
    assert (Z : forall n w f s l st', loop n w f s l = PDone st' -> p_count st' = pred (p_count s) /\ (p_count st' = 0 -> p_err st' = false)).
    { clear. induction n as [|n IH]; intros w f s l st' H; [discriminate|].
      assert (GC : forall st ls t v st' ls', get_token st ls = (t, v, st', ls') -> p_count st' = p_count st).
      { clear. intros st ls t v st' ls'. unfold get_token. destruct (match p_tl st with [] => _ | _ => _ end) as [[st1 ls1]|] eqn:E.
        - assert (p_count st1 = p_count st).
          { destruct (p_tl st); [destruct (get_line ls (p_line st)) as [[[c ls2] n1]|]; [|discriminate]|];
            injection E as <- _; reflexivity. }
          destruct (scan (p_tl st1)) as [[t0 v0] r0]. intro H0. injection H0 as _ _ <- _. destruct t0; exact H.
        - intro H. injection H as _ _ <- _. reflexivity. }
      assert (FC : forall n ro t v st ls ro' t4 v4 st4 ls4, flags n ro t v st ls = Some (ro', t4, v4, st4, ls4) -> p_count st4 = p_count st).
      { clear -GC. induction n as [|n IH]; intros ro t v st ls ro' t4 v4 st4 ls4 H.
        - destruct t; cbn in H; try discriminate; injection H as _ _ _ <- _; auto.
        - cbn [flags] in H. destruct t; try (injection H as _ _ _ <- _; auto; fail).
          destruct (get_token _ ls) as [[[t2 v2] st2] ls2] eqn:G. apply IH in H. rewrite H.
          rewrite (GC _ _ _ _ _ _ G). destruct (contains _ _); reflexivity. }
      destruct (loop_cases n w f s l) as [(v & st1 & ls1 & G & E)|(t & v & st1 & ls1 & G & Nt & E)]; rewrite E in H; clear E;
        rewrite <- (GC _ _ _ _ _ _ G).
      - unfold on_eof in H. destruct (p_count _) eqn:Ec.
        + match type of H with (if ?b then _ else _) = _ => destruct b eqn:Eb end; [discriminate|]. injection H as <-.
          split; [destruct (p_blocks _); reflexivity|]. intros _; exact Eb.
        + injection H as <-. split; [reflexivity|]. cbn in *. congruence.
      - assert (ENT : forall rel t2 v2 st2 ls2, stmt_entry (loop n w) w f rel t2 v2 st2 ls2 = PDone st' ->
           p_count st' = pred (p_count st2) /\ (p_count st' = 0 -> p_err st' = false)).
        { clear H. intros rel t2 v2 st2 ls2 H. unfold stmt_entry in H. destruct t2; try (apply IH in H; exact H).
          destruct (get_token st2 ls2) as [[[t3 v3] st3] ls3] eqn:G3.
          destruct (flags _ _ _ _ _ _) as [[[[[ro t4] v4] st4] ls4]|] eqn:F; [|discriminate].
          apply FC in F. apply GC in G3. rewrite <- G3, <- F.
          destruct t4; try (apply IH in H; exact H). destruct (assign _ _ _ _ _ _) as [h' [u|e| |]]; try discriminate. apply IH in H; exact H. }
        unfold stmt in H. destruct (str_eqb v (L "include")).
        { unfold stmt_include in H. destruct (resolve_file_name _ _ _) as [|a l0]; [discriminate|]. destruct (w_fs w (a :: l0)); try discriminate.
          destruct (loop n w (a :: l0) _ _) eqn:LI; try discriminate. apply IH in H, LI. cbn in LI. destruct LI as [LI _].
          cbn in H. rewrite LI in H. exact H. }
        destruct (str_eqb v (L "block")).
        { unfold stmt_block in H. destruct (get_token st1 ls1) as [[[t2 v2] st2] ls2] eqn:G2. apply GC in G2. rewrite <- G2.
          destruct t2; apply IH in H; exact H. }
        destruct (str_eqb v (L "endblock")).
        { unfold stmt_endblock in H. destruct (p_blocks _); [discriminate|]. apply IH in H; exact H. }
        destruct (str_eqb v (L "relativepath")); [|eauto].
        destruct (get_token st1 ls1) as [[[t2 v2] st2] ls2] eqn:G2. apply GC in G2. rewrite <- G2. eauto. }
    apply Z in H as [A B]. cbn in A. auto. }
  destruct He as [He Hc].
  destruct (w_fs w file) as [| |content]; [discriminate| |].
  - destruct (loop_sound _ _ _ _ _ _ (s_init file) H He (Rel_init file)) as (s & Hg & HE & Hn).
    exists s. split; [exists []; auto|]. apply HE.
  - destruct (loop_sound _ _ _ _ _ _ (s_init file) H He (Rel_init file)) as (s & Hg & HE & Hn).
    exists s. split; [exists (lines_of content); auto|]. apply HE.
Qed.
Lemma parse_complete w file s : defines w file s ->
  exists n st, p_heap st = s_cfg s /\ forall m, n <= m -> parse m w file = PDone st.
Proof.
  intros (lines & Hl & Hg & Hn). unfold parse, process_main.
  destruct (loop_complete _ _ _ _ _ Hg _ lines (Rel_init file) eq_refl (fun _ => Hn) ltac:(cbn; lia)) as (st & n & HE & HL).
  exists n, st. split; [apply HE|]. intros m Hm. destruct (w_fs w file); [contradiction| |]; subst lines; apply HL; auto.
Qed.
