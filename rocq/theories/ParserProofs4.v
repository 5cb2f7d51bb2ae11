(** Loop bounds: monotonicity and termination. *)
From Verif Require Import Base ConfigModel ConfigSpec ConfigProofs ExpandModel ExpandSpec ExpandProofs ParserModel ParserSpec ParserProofs ParserProofs2 ParserProofs3.

Arguments weight : simpl never.
Definition finer (r1 r2 : str -> pst -> list str -> presult) : Prop :=
  forall f s l, r1 f s l <> PFuel -> r2 f s l = r1 f s l.

Lemma stmt_entry_mono r1 r2 w file rel t v st ls : finer r1 r2 ->
  stmt_entry r1 w file rel t v st ls <> PFuel -> stmt_entry r2 w file rel t v st ls = stmt_entry r1 w file rel t v st ls.
Proof.
  intros HF H. unfold stmt_entry in *. destruct t; try (apply HF; exact H).
  destruct (get_token st ls) as [[[t3 v3] st3] ls3].
  destruct (flags _ _ _ _ _ _) as [[[[[ro t4] v4] st4] ls4]|]; [|congruence].
  destruct t4; try (apply HF; exact H). destruct (assign _ _ _ _ _ _) as [h' [u|e| |]]; auto.
Qed.
Lemma stmt_mono r1 r2 w file t v st ls : finer r1 r2 ->
  stmt r1 w file t v st ls <> PFuel -> stmt r2 w file t v st ls = stmt r1 w file t v st ls.
Proof.
  intros HF H. unfold stmt in *. destruct (str_eqb v (L "include")).
  { unfold stmt_include in *. destruct (resolve_file_name _ _ _) as [|a l]; auto. destruct (w_fs w (a :: l)); auto.
    destruct (r1 (a :: l) _ _) eqn:E; rewrite (HF (a :: l)); rewrite E; auto; discriminate. }
  destruct (str_eqb v (L "block")).
  { unfold stmt_block in *. destruct (get_token st ls) as [[[t2 v2] st2] ls2]. destruct t2; apply HF; exact H. }
  destruct (str_eqb v (L "endblock")).
  { unfold stmt_endblock in *. destruct (p_blocks _); auto. }
  destruct (str_eqb v (L "relativepath")); [|apply stmt_entry_mono; auto].
  destruct (get_token st ls) as [[[t2 v2] st2] ls2]. apply stmt_entry_mono; auto.
Qed.
Lemma loop_mono1 n w : finer (loop n w) (loop (S n) w).
Proof.
  induction n as [|n IH]; intros f s l H; [exfalso; apply H; reflexivity|].
  destruct (loop_cases n w f s l) as [(v & st1 & ls1 & G & E)|(t & v & st1 & ls1 & G & Nt & E)];
  destruct (loop_cases (S n) w f s l) as [(v' & st1' & ls1' & G' & E')|(t' & v' & st1' & ls1' & G' & Nt' & E')];
  rewrite G in G'; [injection G' as <- <- <-|injection G' as <- _ _ _|injection G' as -> _ _ _|injection G' as <- <- <- <-];
  try congruence.
  rewrite E', E in *. apply stmt_mono; auto.
Qed.
Lemma loop_mono n m w f s l : n <= m -> loop n w f s l <> PFuel -> loop m w f s l = loop n w f s l.
Proof.
  induction 1 as [|m Hle IH]; auto. intro H. rewrite <- IH by auto. apply loop_mono1. rewrite IH; auto.
Qed.
Lemma process_mono n m w file st : n <= m -> process_main n w file st <> PFuel ->
  process_main m w file st = process_main n w file st.
Proof. unfold process_main. intros Hle H. destruct (w_fs w file); auto; apply loop_mono; auto. Qed.

(** ---- termination ---- *)
Definition J (lines : list str) (tl : str) (ls : list str) : Prop :=
  (forall l, In l ls -> In l lines) /\
  (tl = [] \/ exists l q a, In l lines /\ clean l = q ++ a /\ tl = trim a).
Definition inc_arg (lines : list str) (arg : str) : Prop :=
  exists l q a, In l lines /\ clean l = q ++ L "include" ++ a /\ arg = trim a.

Lemma clean_trim l : trim (clean l) = clean l.
Proof. rewrite clean_eq. apply trim_idem. Qed.
Lemma trim_all_space s : forallb is_space s = true -> trim s = [].
Proof. intro H. rewrite <- (app_nil_r s). rewrite trim_app_space_l by auto. reflexivity. Qed.

Lemma scan_rest tl t v r : scan tl = (t, v, r) -> tl <> [] ->
  exists x z, tl = x ++ z /\ trim z = r /\ (v = L "include" -> exists y z', tl = y ++ L "include" ++ z' /\ trim z' = r).
Proof.
  rewrite scan_eq. unfold scan'. intros H Hne.
  assert (TV : forall pre y, exists x z, pre ++ y = x ++ trim y ++ z /\ trim z = []).
  { intros pre y. destruct (trim_decomp y) as (a & b & E & Ha & Hb). exists (pre ++ a), b.
    rewrite E at 1. rewrite <- app_assoc. split; auto. apply trim_all_space; auto. }
  assert (NIL : exists x z, tl = x ++ z /\ trim z = []) by (exists tl, []; rewrite app_nil_r; auto).
  destruct (str_eqb (firstn 2 tl) (L ":=")) eqn:E1.
  { injection H as <- <- <-. destruct NIL as (x & z & A & B). exists x, z. split; auto. split; auto.
    intro V. destruct (TV (firstn 2 tl) (skipn 2 tl)) as (y & z' & C & D). rewrite firstn_skipn in C. assert (V' : trim (skipn 2 tl) = L "include") by exact V. rewrite V' in C. eauto. }
  destruct (is_prefix (L "=") tl) eqn:E2.
  { injection H as <- <- <-. destruct NIL as (x & z & A & B). exists x, z. split; auto. split; auto.
    intro V. destruct (TV (firstn 1 tl) (skipn 1 tl)) as (y & z' & C & D). rewrite firstn_skipn in C. assert (V' : trim (skipn 1 tl) = L "include") by exact V. rewrite V' in C. eauto. }
  destruct (match_flag tl) as [[f x]|] eqn:E3.
  { apply match_flag_some in E3 as [-> Hf]. injection H as <- <- <-. exists f, x. split; auto. split; auto.
    intros ->. exists [], x. auto. }
  destruct (match_word tl) as [[f x]|] eqn:E4.
  { apply match_word_some in E4 as (-> & Hf & Hl). injection H as <- <- <-. exists f, x. split; auto. split; auto.
    intros ->. exists [], x. auto. }
  injection H as <- <- <-. exists tl, []. rewrite app_nil_r. split; auto. split; auto.
  intros ->. exists [], []. rewrite app_nil_r. auto.
Qed.

Lemma trim_split s x z : trim s = x ++ z -> exists x' z', s = x' ++ x ++ z' /\ trim z' = trim z.
Proof.
  intro E. destruct (trim_decomp s) as (a & b & Es & Ha & Hb). rewrite E in Es. exists a, (z ++ b).
  rewrite Es, <- !app_assoc. split; auto. apply trim_app_space_r; auto.
Qed.

Lemma scan_J lines tl ls t v r : J lines tl ls -> tl <> [] -> scan tl = (t, v, r) ->
  J lines r ls /\ (v = L "include" -> inc_arg lines r).
Proof.
  intros [HJ1 [->|(l & q & a & Hl & Hc & ->)]] Hne S; [congruence|].
  destruct (scan_rest _ _ _ _ S Hne) as (x & z & E & Ez & Hi). split.
  - split; auto. right. destruct (trim_split a x z E) as (x' & z' & Ea & Ez').
    exists l, (q ++ x' ++ x), z'. split; auto. split; [rewrite Hc, Ea, <- !app_assoc; reflexivity|]. congruence.
  - intro V. destruct (Hi V) as (y & z2 & E2 & Ez2).
    rewrite app_assoc in E2. destruct (trim_split a _ z2 E2) as (x' & z' & Ea & Ez').
    exists l, (q ++ x' ++ y), z'. split; auto. split; [rewrite Hc, Ea, <- !app_assoc; reflexivity|]. congruence.
Qed.
Lemma get_line_J lines ls : forall n c ls' n', (forall l, In l ls -> In l lines) ->
  get_line ls n = Some (c, ls', n') -> J lines c ls'.
Proof.
  induction ls as [|l ls IH]; intros n c ls' n' HJ; cbn [get_line]; [discriminate|].
  destruct (clean l) as [|a l0] eqn:E.
  - apply IH. intros x Hx. apply HJ. right. auto.
  - intro H. injection H as <- <- <-. split; [intros x Hx; apply HJ; right; auto|].
    right. exists l, [], (a :: l0). split; [apply HJ; left; auto|]. split; auto. rewrite <- E. symmetry. apply clean_trim.
Qed.
Lemma get_token_J lines st ls t v st' ls' : J lines (p_tl st) ls -> get_token st ls = (t, v, st', ls') ->
  J lines (p_tl st') ls' /\ (v = L "include" -> inc_arg lines (p_tl st')).
Proof.
  intros HJ. unfold get_token. destruct (p_tl st) as [|c0 tl0] eqn:Etl.
  - destruct (get_line ls (p_line st)) as [[[c ls1] n1]|] eqn:E.
    + cbn [p_tl with_tl]. destruct (scan c) as [[t0 v0] r0] eqn:S. intros H.
      assert (p_tl st' = r0 /\ ls' = ls1 /\ v = v0) as (-> & -> & ->).
      { injection H as _ <- <- <-. destruct t0; auto. }
      refine (scan_J lines c ls1 _ _ _ (get_line_J lines ls _ _ _ _ (proj1 HJ) E) _ S).
      apply get_line_next in E. tauto.
    + intros H. injection H as _ <- <- <-. cbn. rewrite Etl. split; [|discriminate].
      split; [intros l []|auto].
  - rewrite Etl. destruct (scan (c0 :: tl0)) as [[t0 v0] r0] eqn:S. intros H.
    assert (p_tl st' = r0 /\ ls' = ls /\ v = v0) as (-> & -> & ->).
    { injection H as _ <- <- <-. destruct t0; auto. }
    eapply scan_J; eauto. discriminate.
Qed.
Lemma get_token_weight_le st ls t v st' ls' : get_token st ls = (t, v, st', ls') ->
  weight (p_tl st') ls' <= weight (p_tl st) ls.
Proof.
  intro G. destruct (match t with TEof => true | _ => false end) eqn:Et.
  - destruct t; try discriminate. pose proof G as G0. apply get_token_eof_state in G as [n ->].
    assert (ls' = []).
    { unfold get_token in G0. destruct (p_tl st) as [|c tl]; [destruct (get_line _ _) as [[[? ?] ?]|]|];
      try (destruct (scan _) as [[[] ?] ?] eqn:S; try discriminate; rewrite scan_eq in S; unfold scan' in S;
        destruct (str_eqb _ _); try discriminate; destruct (is_prefix _ _); try discriminate;
        destruct (match_flag _) as [[]|]; try discriminate; destruct (match_word _) as [[]|]; discriminate).
      injection G0; auto. }
    subst ls'. unfold weight. cbn. lia.
  - assert (t <> TEof) by (intros ->; discriminate). apply get_token_weight in G; auto. lia.
Qed.

Lemma flags_J lines n : forall ro t v st ls ro' t4 v4 st4 ls4, J lines (p_tl st) ls ->
  flags n ro t v st ls = Some (ro', t4, v4, st4, ls4) ->
  J lines (p_tl st4) ls4 /\ weight (p_tl st4) ls4 <= weight (p_tl st) ls.
Proof.
  induction n as [|n IH]; intros ro t v st ls ro' t4 v4 st4 ls4 HJ H.
  - destruct t; cbn in H; try discriminate; injection H as _ _ _ <- <-; auto.
  - cbn [flags] in H. destruct t; try (injection H as _ _ _ <- <-; auto; fail).
    destruct (get_token _ ls) as [[[t2 v2] st2] ls2] eqn:G.
    assert (E : p_tl (if contains (L "[RO]") (map to_upper v) then st else with_err st) = p_tl st) by (destruct (contains _ _); reflexivity).
    pose proof (get_token_weight_le _ _ _ _ _ _ G) as W. rewrite E in W.
    rewrite <- E in HJ. apply (get_token_J lines _ _ _ _ _ _ HJ) in G as [G _].
    destruct (IH _ _ _ _ _ _ _ _ _ _ G H). split; auto. lia.
Qed.

Lemma inc_arg_includes w file content arg sigma files path c :
  w_fs w file = File content -> inc_arg (lines_of content) arg ->
  path = resolve_file_name w files (expand sigma arg) -> w_fs w path = File c -> includes w file path.
Proof.
  intros Hf (l & q & a & Hl & Hc & Ha) Hp Hc2.
  exists content, l, q, a, arg, sigma, (expand sigma arg), files, c.
  split; auto. split; auto. split; [apply says_clean; auto|]. split; [rewrite Ha; apply trim_is_trim|].
  split; [apply expand_spec; reflexivity|]. auto.
Qed.

Lemma weight_flush tl ls : weight [] ls <= weight tl ls.
Proof. unfold weight. cbn. lia. Qed.
Lemma J_flush lines tl ls : J lines tl ls -> J lines [] ls.
Proof. intros [H _]. split; auto. Qed.

Lemma loop_tl : forall n w f s l st', loop n w f s l = PDone st' -> p_tl st' = [].
Proof.
  induction n as [|n IH]; intros w f s l st' H; [discriminate|].
            destruct (loop_cases n w f s l) as [(v & st1 & ls1 & G & E)|(t & v & st1 & ls1 & G & Nt & E)]; rewrite E in H.
            - destruct (get_token_eof_state _ _ _ _ _ G) as [n1 ->].
              destruct (proj1 (get_token_eof s l)) as [Etl _]; [eauto|].
              unfold on_eof in H. destruct (p_count _).
              + destruct (p_blocks _); [|discriminate]. match type of H with (if ?b then _ else _) = _ => destruct b end; [discriminate|].
                injection H as <-. exact Etl.
              + injection H as <-. exact Etl.
            - assert (ENT : forall rel t2 v2 st2 ls2, stmt_entry (loop n w) w f rel t2 v2 st2 ls2 = PDone st' -> p_tl st' = []).
              { clear H E. intros rel t2 v2 st2 ls2 H. unfold stmt_entry in H. destruct t2; eauto.
                destruct (get_token st2 ls2) as [[[t3 v3] st3] ls3].
                destruct (flags _ _ _ _ _ _) as [[[[[ro t4] v4] st4] ls4]|]; [|discriminate].
                destruct t4; eauto. destruct (assign _ _ _ _ _ _) as [h' [u|e| |]]; try discriminate. eauto. }
              unfold stmt in H. destruct (str_eqb v (L "include")).
              { unfold stmt_include in H. destruct (resolve_file_name _ _ _) as [|a l0]; [discriminate|]. destruct (w_fs w (a :: l0)); try discriminate.
                destruct (loop n w (a :: l0) _ _) eqn:LI; try discriminate. eauto. }
              destruct (str_eqb v (L "block")).
              { unfold stmt_block in H. destruct (get_token st1 ls1) as [[[t2 v2] st2] ls2]. destruct t2; eauto. }
              destruct (str_eqb v (L "endblock")).
              { unfold stmt_endblock in H. destruct (p_blocks _); [discriminate|]. eauto. }
              destruct (str_eqb v (L "relativepath")); [|eauto].
              destruct (get_token st1 ls1) as [[[t2 v2] st2] ls2]. eauto.
Qed.

Lemma loop_terminates w file : Acc (fun g f => includes w f g) file ->
  forall content, w_fs w file = File content ->
  forall m st ls, weight (p_tl st) ls < m -> J (lines_of content) (p_tl st) ls ->
  exists n, loop n w file st ls <> PFuel.
Proof.
  induction 1 as [file _ IHA]. intros content Hf.
  induction m as [|m IHm]; intros st ls Hw HJ; [lia|].
  destruct (get_token st ls) as [[[t v] st1] ls1] eqn:G.
  destruct (match t with TEof => true | _ => false end) eqn:Et.
  { exists 1. destruct (loop_cases 0 w file st ls) as [(v' & st1' & ls1' & G' & E')|(t' & v' & st1' & ls1' & G' & Nt' & E')].
    - rewrite E'. unfold on_eof. destruct (p_count _); [|discriminate].
      match goal with |- (if ?b then _ else _) <> _ => destruct b; discriminate end.
    - rewrite G in G'. injection G' as -> _ _ _. destruct t'; congruence. }
  assert (Nt : t <> TEof) by (intros ->; discriminate). clear Et.
  assert (RED : (exists n, stmt (loop n w) w file t v st1 ls1 <> PFuel) -> exists n, loop n w file st ls <> PFuel).
  { intros [n Hn]. exists (S n). destruct (loop_cases n w file st ls) as [(v' & st1' & ls1' & G' & E')|(t' & v' & st1' & ls1' & G' & Nt' & E')];
    rewrite G in G'; [injection G' as -> _ _ _; congruence|]. injection G' as <- <- <- <-. rewrite E'. exact Hn. }
  apply RED. clear RED.
  pose proof (get_token_weight _ _ _ _ _ _ G Nt) as W1. destruct (get_token_J _ _ _ _ _ _ _ HJ G) as [J1 HI].
  assert (ENT : forall rel t2 v2 st2 ls2, weight (p_tl st2) ls2 < m -> J (lines_of content) (p_tl st2) ls2 ->
     exists n, stmt_entry (loop n w) w file rel t2 v2 st2 ls2 <> PFuel).
  { intros rel t2 v2 st2 ls2 W2 J2. unfold stmt_entry.
    assert (NW : exists n, loop n w file (flush_line (with_err st2)) ls2 <> PFuel).
    { apply IHm; [|eapply J_flush; eauto]. cbn. pose proof (weight_flush (p_tl st2) ls2). lia. }
    destruct t2; auto. clear NW.
    destruct (get_token st2 ls2) as [[[t3 v3] st3] ls3] eqn:G3.
    pose proof (get_token_weight_le _ _ _ _ _ _ G3) as W3. destruct (get_token_J _ _ _ _ _ _ _ J2 G3) as [J3 _].
    destruct (flags_total (S (weight (p_tl st3) ls3)) false t3 v3 st3 ls3) as [[[[[ro t4] v4] st4] ls4] F]; [lia|].
    rewrite F. destruct (flags_J _ _ _ _ _ _ _ _ _ _ _ _ J3 F) as [J4 W4].
    assert (NW : exists n, loop n w file (flush_line (with_err st4)) ls4 <> PFuel).
    { apply IHm; [|eapply J_flush; eauto]. cbn. pose proof (weight_flush (p_tl st4) ls4). lia. }
    destruct t4; auto; clear NW.
    - destruct (assign _ _ _ _ _ _) as [h' [u|e| |]].
      + apply IHm; cbn; auto. lia.
      + exists 0. discriminate.
      + exists 0. discriminate.
      + exists 0. discriminate.
    - apply IHm; cbn; auto. lia. }
  unfold stmt. destruct (str_eqb v (L "include")) eqn:V1.
  { apply str_eqb_eq in V1. specialize (HI V1). unfold stmt_include.
    set (name := expand (token_lookup w st1) (p_tl st1)).
    destruct (resolve_file_name w (p_incs st1) name) as [|a l] eqn:Er; [exists 0; discriminate|].
    destruct (w_fs w (a :: l)) as [| |c2] eqn:Ef; try (exists 0; discriminate).
    assert (Hinc : includes w file (a :: l)).
    { eapply (inc_arg_includes w file content (p_tl st1) (token_lookup w st1) (p_incs st1)); eauto. }
    match goal with |- context [loop _ w (a :: l) ?s3 _] =>
      destruct (IHA (a :: l) Hinc c2 Ef (S (weight (p_tl s3) (lines_of c2))) s3 (lines_of c2)) as [n1 H1]; [lia| |set (S3 := s3) in *] end.
    { cbn. split; auto. }
    destruct (loop n1 w (a :: l) S3 (lines_of c2)) as [st4|e st4| |] eqn:L1; [| | |congruence].
    - destruct (IHm (with_line st4 (p_line st1)) ls1) as [n2 H2].
      + cbn. rewrite (loop_tl _ _ _ _ _ _ L1). pose proof (weight_flush (p_tl st1) ls1). lia.
      + cbn. rewrite (loop_tl _ _ _ _ _ _ L1). eapply J_flush; eauto.
      + exists (max n1 n2). rewrite (loop_mono n1 (max n1 n2)) by (try lia; congruence). rewrite L1.
        rewrite (loop_mono n2 (max n1 n2)) by (try lia; auto). exact H2.
    - exists n1. rewrite L1. discriminate.
    - exists n1. rewrite L1. discriminate. }
  destruct (str_eqb v (L "block")) eqn:V2.
  { unfold stmt_block. destruct (get_token st1 ls1) as [[[t2 v2] st2] ls2] eqn:G2.
    pose proof (get_token_weight_le _ _ _ _ _ _ G2) as W2. destruct (get_token_J _ _ _ _ _ _ _ J1 G2) as [J2 _].
    pose proof (weight_flush (p_tl st2) ls2). apply J_flush in J2.
    destruct t2; apply IHm; cbn; auto; lia. }
  destruct (str_eqb v (L "endblock")) eqn:V3.
  { unfold stmt_endblock. destruct (p_blocks _); [exists 0; discriminate|].
    pose proof (weight_flush (p_tl st1) ls1). apply J_flush in J1. apply IHm; cbn; auto. lia. }
  destruct (str_eqb v (L "relativepath")) eqn:V4; [|apply ENT; auto; lia].
  destruct (get_token st1 ls1) as [[[t2 v2] st2] ls2] eqn:G2.
  pose proof (get_token_weight_le _ _ _ _ _ _ G2) as W2. destruct (get_token_J _ _ _ _ _ _ _ J1 G2) as [J2 _].
  apply ENT; auto. lia.
Qed.

Lemma parse_terminates w file st : Acc (fun g f => includes w f g) file -> exists n, process_main n w file st <> PFuel.
Proof.
  intro HA. unfold process_main. destruct (w_fs w file) as [| |content] eqn:E.
  - exists 0. discriminate.
  - exists 1. discriminate || idtac.
    cbn [loop get_token p_tl with_incs with_line with_tl get_line]. unfold on_eof.
    destruct (p_count _); [|discriminate].
    match goal with |- (if ?b then _ else _) <> _ => destruct b; discriminate end.
  - eapply (loop_terminates w file HA content E); [apply Nat.lt_succ_diag_r|]. cbn. split; auto.
Qed.
