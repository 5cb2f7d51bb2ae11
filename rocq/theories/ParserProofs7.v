(** Verdicts of the parser, self-inclusion, and reuse of a parser object. *)
From Verif Require Import Base ConfigModel ConfigSpec ConfigProofs ConfigProofs2 ConfigProofs3 ConfigProofs4
  ExpandModel ExpandSpec ExpandProofs ParserModel ParserSpec ParserProofs ParserProofs2 ParserProofs3 ParserProofs4 ParserProofs5
  DocSpec DocProofs.

Lemma parse_verdict n w file :
  match parse n w file with
  | PDone st => exists s, defines w file s /\ p_heap st = s_cfg s
  | PThrow _ _ => forall s, ~ defines w file s
  | PStuck => False
  | PFuel => True
  end.
Proof.
  pose proof (parse_fine n w file) as F. destruct (parse n w file) as [st|e st| |] eqn:E; auto.
  - apply parse_sound in E. exact E.
  - intros s D. destruct (parse_complete w file s D) as (n0 & st' & _ & H).
    specialize (H (n + n0) ltac:(lia)). unfold parse in *.
    rewrite (process_mono n (n + n0)) in H by (try lia; rewrite E; discriminate). rewrite E in H. discriminate.
Qed.

Lemma self_include_loop w f rest : w_full w f = true -> plain_value f -> f <> [] -> ~ In "$"%char f ->
  w_fs w f = File (file_text ((L "include " ++ f) :: rest)) ->
  forall n st ls, p_tl st = [] -> loop n w f st ((L "include " ++ f) :: ls) = PFuel.
Proof.
  intros Hfull (Ht & Hh & Hnl) Hne Hd Hfs n. induction n as [|n IH]; intros st ls Htl; [reflexivity|].
  apply is_trim_unique in Ht.
  assert (exists m e, f = m ++ [e] /\ is_space e = false) as (m & e & Ef & He).
  { destruct (trim_is_trim f) as (a & b & _ & _ & _ & _ & Hl). rewrite <- Ht in Hl.
    destruct (rev_case f) as [E|[e [m E]]]; [congruence|]. exists m, e. split; auto. apply (Hl e m E). }
  assert (N : next (mkPos [] ((L "include " ++ f) :: ls) (p_line st)) (Word (L "include")) (mkPos f ls (p_line st + 1))).
  { apply (next_word_line _ (L "include") (L " " ++ f)).
    - intro X. apply in_app_or in X as [X|X]; [vm_compute in X; intuition discriminate|auto].
    - rewrite Ef. change (L "include " ++ m ++ [e]) with ("i"%char :: L "nclude " ++ m ++ [e]). rewrite app_assoc, trim_tight by auto.
      rewrite <- app_assoc. reflexivity.
    - apply kw_word. cbn. auto.
    - right. do 2 eexists. split; reflexivity.
    - rewrite trim_app_space_l by auto. congruence. }
  assert (N1 : next (at_pos st ((L "include " ++ f) :: ls)) (Word (L "include")) (mkPos f ls (p_line st + 1)))
    by (unfold at_pos; rewrite Htl; exact N).
  destruct (stmt_step n w f st _ _ _ N1) as (t & v & K & -> & ->). unfold stmt. cbn [text]. rewrite str_eqb_refl. unfold stmt_include.
  cbn [p_tl moved with_tl here]. rewrite expand_plain by auto. unfold resolve_file_name. rewrite Hfull.
  destruct f as [|c0 r0] eqn:E0; [congruence|]. rewrite <- E0 in *. rewrite Hfs.
  assert (EL : lines_of (file_text ((L "include " ++ f) :: rest)) = (L "include " ++ f) :: lines_of (file_text rest)).
  { unfold file_text. cbn [map concat]. rewrite <- app_assoc. cbn [app]. rewrite lines_of_line; auto.
    intro X. apply in_app_or in X as [X|X]; [vm_compute in X; intuition discriminate|auto]. }
  rewrite EL. rewrite IH by reflexivity. reflexivity.
Qed.
Lemma self_include w f rest : w_full w f = true -> plain_value f -> f <> [] -> ~ In "$"%char f ->
  w_fs w f = File (file_text ((L "include " ++ f) :: rest)) -> forall n, parse n w f = PFuel.
Proof.
  intros H1 H2 H3 H4 H5 n. unfold parse, process_main. rewrite H5.
  assert (EL : lines_of (file_text ((L "include " ++ f) :: rest)) = (L "include " ++ f) :: lines_of (file_text rest)).
  { unfold file_text. cbn [map concat]. rewrite <- app_assoc. cbn [app]. rewrite lines_of_line; auto.
    intro X. apply in_app_or in X as [X|X]; [vm_compute in X; intuition discriminate|]. apply H2 in X. auto. }
  rewrite EL. eapply self_include_loop; eauto.
Qed.

(** Termination does not depend on the fuel once it is large enough. *)
Lemma parse_total w file : Acc (fun g f => includes w f g) file ->
  exists n0 r, r <> PFuel /\ forall n, n0 <= n -> parse n w file = r.
Proof.
  intro H. destruct (parse_terminates w file fresh H) as [n Hn]. exists n, (parse n w file). split; [exact Hn|].
  intros m Hm. unfold parse. apply process_mono; auto.
Qed.

(** A parser with the error flag set never succeeds at top level again. *)
Lemma loop_count n : forall w f s l st', loop n w f s l = PDone st' ->
  p_count st' = pred (p_count s) /\ (p_count st' = 0 -> p_err st' = false).
Proof.
  induction n as [|n IH]; intros w f s l st' H; [discriminate|].
  assert (GC : forall st ls t v st' ls', get_token st ls = (t, v, st', ls') -> p_count st' = p_count st).
  { clear. intros st ls t v st' ls'. unfold get_token. destruct (match p_tl st with [] => _ | _ => _ end) as [[st1 ls1]|] eqn:E.
    - assert (p_count st1 = p_count st).
      { destruct (p_tl st); [destruct (get_line ls (p_line st)) as [[[c ls2] n1]|]; [|discriminate]|];
        injection E as <- _; reflexivity. }
      destruct (scan (p_tl st1)) as [[t0 v0] r0]. intro H0. injection H0 as _ _ <- _. destruct t0; exact H.
    - intro H. injection H as _ _ <- _. reflexivity. }
  assert (FC : forall n ro t v st ls ro' t4 v4 st4 ls4, flags n ro t v st ls = Some (ro', t4, v4, st4, ls4) -> p_count st4 = p_count st).
  { clear -GC. induction n as [|n IH]; intros ro t v st ls ro' t4 v4 st4 ls4 H.
    - destruct t; cbn in H; try discriminate; injection H as _ _ _ <- _; auto.
    - cbn [flags] in H. destruct t; try (injection H as _ _ _ <- _; auto; fail).
      destruct (get_token _ ls) as [[[t2 v2] st2] ls2] eqn:G. apply IH in H. rewrite H.
      rewrite (GC _ _ _ _ _ _ G). destruct (contains _ _); reflexivity. }
  destruct (loop_cases n w f s l) as [(v & st1 & ls1 & G & E)|(t & v & st1 & ls1 & G & Nt & E)]; rewrite E in H; clear E;
    rewrite <- (GC _ _ _ _ _ _ G).
  - unfold on_eof in H. destruct (p_count _) eqn:Ec.
    + match type of H with (if ?b then _ else _) = _ => destruct b eqn:Eb end; [discriminate|]. injection H as <-.
      split; [destruct (p_blocks _); reflexivity|]. intros _; exact Eb.
    + injection H as <-. split; [reflexivity|]. cbn in *. congruence.
  - assert (ENT : forall rel t2 v2 st2 ls2, stmt_entry (loop n w) w f rel t2 v2 st2 ls2 = PDone st' ->
       p_count st' = pred (p_count st2) /\ (p_count st' = 0 -> p_err st' = false)).
    { clear H. intros rel t2 v2 st2 ls2 H. unfold stmt_entry in H. destruct t2; try (apply IH in H; exact H).
      destruct (get_token st2 ls2) as [[[t3 v3] st3] ls3] eqn:G3.
      destruct (flags _ _ _ _ _ _) as [[[[[ro t4] v4] st4] ls4]|] eqn:F; [|discriminate].
      apply FC in F. apply GC in G3. rewrite <- G3, <- F.
      destruct t4; try (apply IH in H; exact H). destruct (assign _ _ _ _ _ _) as [h' [u|e| |]]; try discriminate. apply IH in H; exact H. }
    unfold stmt in H. destruct (str_eqb v (L "include")).
    { unfold stmt_include in H. destruct (resolve_file_name _ _ _) as [|a l0]; [discriminate|]. destruct (w_fs w (a :: l0)); try discriminate.
      destruct (loop n w (a :: l0) _ _) eqn:LI; try discriminate. apply IH in H, LI. cbn in LI. destruct LI as [LI _].
      cbn in H. rewrite LI in H. exact H. }
    destruct (str_eqb v (L "block")).
    { unfold stmt_block in H. destruct (get_token st1 ls1) as [[[t2 v2] st2] ls2] eqn:G2. apply GC in G2. rewrite <- G2.
      destruct t2; apply IH in H; exact H. }
    destruct (str_eqb v (L "endblock")).
    { unfold stmt_endblock in H. destruct (p_blocks _); [discriminate|]. apply IH in H; exact H. }
    destruct (str_eqb v (L "relativepath")); [|eauto].
    destruct (get_token st1 ls1) as [[[t2 v2] st2] ls2] eqn:G2. apply GC in G2. rewrite <- G2. eauto.
Qed.
Lemma error_latches n w file st : p_err st = true -> p_count st = 0 ->
  forall st', process_main n w file st <> PDone st'.
Proof.
  intros He Hc st' H. unfold process_main in H.
  assert (Z : forall ls, loop n w file (with_incs (with_line (with_tl st []) 0) (file :: p_incs st) (S (p_count st))) ls <> PDone st').
  { intros ls X. pose proof (loop_count _ _ _ _ _ _ X) as [A B]. cbn in A. rewrite Hc in A. cbn in A.
    apply loop_err in X; auto. cbn in X. congruence. }
  destruct (w_fs w file); [discriminate| |]; eapply Z; exact H.
Qed.
