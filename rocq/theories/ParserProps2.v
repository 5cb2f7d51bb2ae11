(** C59 and C60 stated as the exact behaviour of the code. *)
From Verif Require Import Base ConfigModel ConfigSpec ConfigProofs ConfigProofs2 ConfigProofs3 ConfigProofs4
  ExpandModel ExpandSpec ExpandProofs ParserModel ParserSpec ParserProofs ParserProofs2 ParserProofs3 ParserProofs4 ParserProofs5
  ParserProofs6 ParserProofs7 DocSpec DocProofs ParserProps.

(** The state of a parser object between two parse_config calls, as far as it
    decides what happens next: nothing left over / a latched error / an
    unfinished file. *)
Definition ready (st : pst) : Prop := live (p_heap st) /\ p_err st = false /\ p_count st = 0 /\ p_incs st = [] /\ p_blocks st = [] /\ p_ctx st = [].
Definition failed (st : pst) : Prop := live (p_heap st) /\ p_err st = true /\ p_count st = 0.
Definition unfinished (st : pst) : Prop := live (p_heap st) /\ 1 <= p_count st.

(** Specification: [file] is well formed on top of an existing configuration
    and existing local definitions, and defines [s]. *)
Definition defines_on (w : world) (cfg : heap) (sym : smap str) (file : str) (s : sst) : Prop :=
  exists lines, match w_fs w file with NoFile => False | Dir => lines = [] | File c => lines = lines_of c end /\
    good w file (mkPos [] lines 0) (mkS cfg sym [] [file] []) s /\ s_names s = [].
Lemma defines_on_fresh w file s : defines_on w (p_heap fresh) (p_sym fresh) file s <-> defines w file s.
Proof. reflexivity. Qed.

(** Where an exception can leave the statement loop. *)
Lemma loop_throw n : forall w f s l e st', loop n w f s l = PThrow e st' -> 1 <= p_count s ->
  (p_count st' = 0 /\ p_err st' = true /\ p_count s = 1) \/ (p_count s <= p_count st' /\ forall g, e = NotParsed g -> p_blocks st' = []).
Proof.
  induction n as [|n IH]; intros w f s l e st' H C1; [discriminate|].
  assert (GC : forall st ls t v st' ls', get_token st ls = (t, v, st', ls') -> p_count st' = p_count st).
  { clear. intros st ls t v st' ls'. unfold get_token. destruct (match p_tl st with [] => _ | _ => _ end) as [[st1 ls1]|] eqn:E.
    - assert (p_count st1 = p_count st). { destruct (p_tl st); [destruct (get_line ls (p_line st)) as [[[c ls2] n1]|]; [|discriminate]|]; injection E as <- _; reflexivity. }
      destruct (scan (p_tl st1)) as [[t0 v0] r0]. intro H0. injection H0 as _ _ <- _. destruct t0; exact H.
    - intro H. injection H as _ _ <- _. reflexivity. }
  assert (FC : forall n ro t v st ls ro' t4 v4 st4 ls4, flags n ro t v st ls = Some (ro', t4, v4, st4, ls4) -> p_count st4 = p_count st).
  { clear -GC. induction n as [|n IH]; intros ro t v st ls ro' t4 v4 st4 ls4 H.
    - destruct t; cbn in H; try discriminate; injection H as _ _ _ <- _; auto.
    - cbn [flags] in H. destruct t; try (injection H as _ _ _ <- _; auto; fail).
      destruct (get_token _ ls) as [[[t2 v2] st2] ls2] eqn:G. apply IH in H. rewrite H. rewrite (GC _ _ _ _ _ _ G). destruct (contains _ _); reflexivity. }
  destruct (loop_cases n w f s l) as [(v & st1 & ls1 & G & E)|(t & v & st1 & ls1 & G & Nt & E)]; rewrite E in H; clear E; rewrite <- (GC _ _ _ _ _ _ G) in C1 |- *.
  - unfold on_eof in H. cbn [p_count with_incs] in H. destruct (p_count st1) as [|[|c]] eqn:Ec; cbn [pred] in H; try lia; [|discriminate].
    match type of H with (if ?b then _ else _) = _ => destruct b eqn:Eb end; [|discriminate]. injection H as _ <-. left. split; [destruct (p_blocks _); cbn; rewrite ?Ec; reflexivity|auto].
  - assert (ENT : forall rel t2 v2 st2 ls2, stmt_entry (loop n w) w f rel t2 v2 st2 ls2 = PThrow e st' -> 1 <= p_count st2 ->
       (p_count st' = 0 /\ p_err st' = true /\ p_count st2 = 1) \/ (p_count st2 <= p_count st' /\ forall g, e = NotParsed g -> p_blocks st' = [])).
    { clear H. intros rel t2 v2 st2 ls2 H C2. unfold stmt_entry in H. destruct t2; try (apply IH in H; exact H || exact C2).
      destruct (get_token st2 ls2) as [[[t3 v3] st3] ls3] eqn:G3.
      destruct (flags _ _ _ _ _ _) as [[[[[ro t4] v4] st4] ls4]|] eqn:F; [|discriminate].
      apply FC in F. apply GC in G3. rewrite <- G3, <- F in C2 |- *.
      destruct t4; try (apply IH in H; [exact H|exact C2]). destruct (assign _ _ _ _ _ _) as [h' [u|e'| |]]; try discriminate; [apply IH in H; [exact H|exact C2]|].
      injection H as <- <-. right. cbn. split; auto. discriminate. }
    unfold stmt in H. destruct (str_eqb v (L "include")).
    { unfold stmt_include in H. destruct (resolve_file_name _ _ _) as [|a l0]; [injection H as <- <-; right; split; auto; discriminate|]. destruct (w_fs w (a :: l0)); try (injection H as <- <-; right; cbn; split; auto; discriminate).
      destruct (loop n w (a :: l0) _ _) as [st4|e4 st4| |] eqn:LI; try discriminate.
      - apply loop_count in LI. cbn [p_count with_incs with_line with_tl flush_line] in LI. destruct LI as [LI _]. cbn [pred] in LI. apply IH in H; cbn [p_count with_line] in H |- *; [|lia]. rewrite LI in H. exact H.
      - injection H as <- <-. apply IH in LI; cbn [p_count with_incs with_line with_tl flush_line] in LI |- *; [|lia]. destruct LI as [(_ & _ & X)|(X & Y)]; [lia|]. right. split; auto. lia. }
    destruct (str_eqb v (L "block")).
    { unfold stmt_block in H. destruct (get_token st1 ls1) as [[[t2 v2] st2] ls2] eqn:G2. apply GC in G2. rewrite <- G2 in C1 |- *. destruct t2; (apply IH in H; [exact H|exact C1]). }
    destruct (str_eqb v (L "endblock")).
    { unfold stmt_endblock in H. destruct (p_blocks (flush_line st1)) eqn:Eb; [|apply IH in H; [exact H|exact C1]]. injection H as <- <-. right. split; auto. }
    destruct (str_eqb v (L "relativepath")); [|eauto].
    destruct (get_token st1 ls1) as [[[t2 v2] st2] ls2] eqn:G2. apply GC in G2. rewrite <- G2 in C1 |- *. eauto.
Qed.

Lemma main_fine n w file st : live (p_heap st) -> fine (process_main n w file st).
Proof. intro H. unfold process_main. destruct (w_fs w file); try exact H; apply loop_fine; exact H. Qed.

(** C59: a parser that is ready accepts exactly the files that are well formed
    on top of what it already holds, adds exactly what they define, and is
    ready again; a missing file leaves it ready. *)
Theorem C59_ready n w file st : ready st ->
  match process_main n w file st with
  | PDone st' => ready st' /\ exists s, defines_on w (p_heap st) (p_sym st) file s /\ p_heap st' = s_cfg s /\ p_sym st' = s_sym s
  | PThrow e st' => (forall s, ~ defines_on w (p_heap st) (p_sym st) file s) /\
      ((w_fs w file = NoFile /\ e = FileNotFound file /\ ready st' /\ p_heap st' = p_heap st /\ p_sym st' = p_sym st) \/ failed st' \/ unfinished st')
  | PStuck => False
  | PFuel => True
  end.
Proof.
  intros (Lv & E0 & C0 & I0 & B0 & X0). pose proof (main_fine n w file st Lv) as F.
  set (enter := with_incs (with_line (with_tl st []) 0) (file :: p_incs (with_line (with_tl st []) 0)) (S (p_count (with_line (with_tl st []) 0)))).
  assert (RE : Rel enter (mkS (p_heap st) (p_sym st) [] [file] [])).
  { unfold Rel, enter. cbn. rewrite C0, I0, E0, B0, X0. repeat split; auto. constructor. }
  destruct (process_main n w file st) as [st'|e st'| |] eqn:H; auto.
  - assert (Hd : forall lines, loop n w file enter lines = PDone st' -> exists s, good w file (mkPos [] lines 0) (mkS (p_heap st) (p_sym st) [] [file] []) s /\ s_names s = [] /\ p_heap st' = s_cfg s /\ p_sym st' = s_sym s /\ ready st').
    { intros lines Hl. pose proof (loop_count _ _ _ _ _ _ Hl) as [Cn Ce]. unfold enter in Cn. cbn in Cn. rewrite C0 in Cn.
      destruct (loop_sound _ _ _ _ _ _ _ Hl (Ce Cn) RE) as (s & Hg & (H1 & H2 & H3 & H4 & H5 & H6 & H7 & H8) & Hn). specialize (Hn Cn). exists s. split; [exact Hg|]. refine (conj Hn (conj H1 (conj H2 _))).
      rewrite Hn in H3. cbn in H5. refine (conj F (conj H7 (conj Cn (conj H5 _)))). inversion H3 as [X1 X2|ns nm c bs X E1 E2 E3]; [auto|destruct ns; discriminate]. }
    assert (K : exists lines, match w_fs w file with NoFile => False | Dir => lines = [] | File c => lines = lines_of c end /\ loop n w file enter lines = PDone st').
    { unfold process_main in H. fold enter in H. destruct (w_fs w file); [discriminate|exists []|exists (lines_of content)]; auto. }
    destruct K as (lines & K1 & K2). destruct (Hd lines K2) as (s & A1 & A2 & A3 & A4 & A5). split; auto. exists s. split; auto. exists lines. auto.
  - split.
    + intros s (lines & Hl & Hg & Hn). destruct (loop_complete _ _ _ _ _ Hg enter lines RE eq_refl (fun _ => Hn) ltac:(unfold enter; cbn; lia)) as (st2 & n0 & _ & HL). specialize (HL (n + n0) ltac:(lia)).
      unfold process_main in H. fold enter in H. destruct (w_fs w file); [contradiction| |]; subst lines; rewrite <- (loop_mono n (n + n0)) in H by (try lia; rewrite H; discriminate); rewrite HL in H; discriminate.
    + unfold process_main in H. fold enter in H. destruct (w_fs w file) eqn:Ef.
      * injection H as <- <-. left. split; auto. split; auto. split; [|auto]. refine (conj Lv _). cbn. auto.
      * right. apply loop_throw in H; [|unfold enter; cbn; lia]. destruct H as [(A1 & A2 & _)|(A1 & _)]; [left; exact (conj F (conj A2 A1))|right; split; [exact F|unfold enter in A1; cbn in A1; lia]].
      * right. apply loop_throw in H; [|unfold enter; cbn; lia]. destruct H as [(A1 & A2 & _)|(A1 & _)]; [left; exact (conj F (conj A2 A1))|right; split; [exact F|unfold enter in A1; cbn in A1; lia]].
Qed.
Theorem C59_ready_accepts w file st s : ready st -> defines_on w (p_heap st) (p_sym st) file s ->
  exists n st', ready st' /\ p_heap st' = s_cfg s /\ p_sym st' = s_sym s /\ forall m, n <= m -> process_main m w file st = PDone st'.
Proof.
  intros (Lv & E0 & C0 & I0 & B0 & X0) (lines & Hl & Hg & Hn).
  set (enter := with_incs (with_line (with_tl st []) 0) (file :: p_incs (with_line (with_tl st []) 0)) (S (p_count (with_line (with_tl st []) 0)))).
  assert (RE : Rel enter (mkS (p_heap st) (p_sym st) [] [file] [])).
  { unfold Rel, enter. cbn. rewrite C0, I0, E0, B0, X0. repeat split; auto. constructor. }
  destruct (loop_complete _ _ _ _ _ Hg enter lines RE eq_refl (fun _ => Hn) ltac:(unfold enter; cbn; lia)) as (st2 & n0 & HE & HL). destruct HE as (H1 & H2 & H3 & H4 & H5 & H6 & H7 & H8).
  assert (PM : forall m, n0 <= m -> process_main m w file st = PDone st2). { intros m Hm. unfold process_main. fold enter. destruct (w_fs w file); [contradiction| |]; subst lines; apply HL; auto. }
  exists n0, st2. split; [|auto]. pose proof (main_fine n0 w file st Lv) as F. rewrite (PM n0) in F by lia. rewrite Hn in H3. cbn in H5, H6. refine (conj F (conj H7 (conj H6 (conj H5 _)))). inversion H3 as [X1 X2|ns nm c bs X E1 E2 E3]; [auto|destruct ns; discriminate].
Qed.
(** C59: after a reported error every later parse is refused; the parser never
    recovers. *)
Theorem C59_failed n w file st : failed st ->
  match process_main n w file st with PThrow _ st' => failed st' \/ unfinished st' | PFuel => True | _ => False end.
Proof.
  intros (Lv & E0 & C0). pose proof (main_fine n w file st Lv) as F. destruct (process_main n w file st) as [st'|e st'| |] eqn:H; auto.
  - exact (error_latches n w file st E0 C0 st' H).
  - unfold process_main in H. destruct (w_fs w file).
    + injection H as <- <-. left. exact (conj Lv (conj E0 C0)).
    + apply loop_throw in H; [|cbn; lia]. destruct H as [(A1 & A2 & _)|(A1 & _)]; [left; exact (conj F (conj A2 A1))|right; split; [exact F|cbn in A1; lia]].
    + apply loop_throw in H; [|cbn; lia]. destruct H as [(A1 & A2 & _)|(A1 & _)]; [left; exact (conj F (conj A2 A1))|right; split; [exact F|cbn in A1; lia]].
Qed.
(** C59: after an exception inside a file the parser never recovers either, and
    the only syntax error it still reports is an endblock without a block. *)
Theorem C59_unfinished n w file st : unfinished st ->
  match process_main n w file st with
  | PDone st' => unfinished st'
  | PThrow e st' => unfinished st' /\ forall g, e = NotParsed g -> p_blocks st' = []
  | PStuck => False
  | PFuel => True
  end.
Proof.
  intros (Lv & C1). pose proof (main_fine n w file st Lv) as F. destruct (process_main n w file st) as [st'|e st'| |] eqn:H; auto.
  - unfold process_main in H. destruct (w_fs w file); [discriminate| |]; apply loop_count in H; cbn in H; (split; [exact F|lia]).
  - unfold process_main in H. destruct (w_fs w file).
    + injection H as <- <-. split; [exact (conj Lv C1)|discriminate].
    + apply loop_throw in H; [|cbn; lia]. cbn in H. destruct H as [(A1 & A2 & A3)|(A1 & A2)]; [lia|]. split; [split; [exact F|lia]|exact A2].
    + apply loop_throw in H; [|cbn; lia]. cbn in H. destruct H as [(A1 & A2 & A3)|(A1 & A2)]; [lia|]. split; [split; [exact F|lia]|exact A2].
Qed.
(** C59: a session is any sequence of parses with one parser object; the states
    it passes through are these three kinds. *)
Inductive session (w : world) : pst -> Prop :=
| se_new : session w fresh
| se_parse st st' n file : session w st -> (process_main n w file st = PDone st' \/ exists e, process_main n w file st = PThrow e st') -> session w st'.
Theorem C59_session w st : session w st -> ready st \/ failed st \/ unfinished st.
Proof.
  induction 1 as [|st st' n file S IH H].
  - left. refine (conj live_fresh _). cbn. auto.
  - destruct IH as [R|[R|R]].
    + pose proof (C59_ready n w file st R) as X. destruct H as [H|(e & H)]; rewrite H in X; [left; apply X|]. destruct X as (_ & [(_ & _ & X & _)|[X|X]]); auto.
    + pose proof (C59_failed n w file st R) as X. destruct H as [H|(e & H)]; rewrite H in X; [contradiction|]. tauto.
    + pose proof (C59_unfinished n w file st R) as X. destruct H as [H|(e & H)]; rewrite H in X; tauto.
Qed.
Print Assumptions C59_ready.
Print Assumptions C59_ready_accepts.
Print Assumptions C59_failed.
Print Assumptions C59_unfinished.
Print Assumptions C59_session.
Example C59_kinds : (exists st, parse 50 demo_w (L "/main.cfg") = PDone st /\ p_count st = 0 /\ p_err st = false) /\
  (exists e st, parse 50 demo_w (L "/junk.cfg") = PThrow e st /\ p_err st = true /\ p_count st = 0) /\
  (exists e st, parse 50 demo_w (L "/bad.cfg") = PThrow e st /\ p_count st = 1).
Proof.
  split; [|split].
  - eexists. split; [vm_compute; reflexivity|]. split; reflexivity.
  - do 2 eexists. split; [vm_compute; reflexivity|]. split; reflexivity.
  - do 2 eexists. split; [vm_compute; reflexivity|]. reflexivity.
Qed.

(** C60: a statement is a directive when the text of its first token is that of
    the directive, whatever the kind of the token: alone on its line, the bare
    word, "= word" and ":= word" mean the same. *)
Lemma kw_line kw : In kw keywords -> forall st ls, p_tl st = [] ->
  get_token st (kw :: ls) = (TWord, kw, with_line st (p_line st + 1), ls) /\
  get_token st ((L "= " ++ kw) :: ls) = (TAssign, kw, with_line st (p_line st + 1), ls) /\
  get_token st ((L ":= " ++ kw) :: ls) = (TLocal, kw, with_line st (p_line st + 1), ls).
Proof.
  intros K st ls T. unfold get_token. rewrite T. cbn [get_line].
  assert (W : with_tl (with_line st (p_line st + 1)) [] = with_line st (p_line st + 1)) by (unfold with_tl, with_line; cbn; rewrite T; reflexivity).
  destruct K as [<-|[<-|[<-|[<-|[]]]]];
  (refine (conj _ (conj _ _)); match goal with |- context [clean ?x] => let y := eval vm_compute in (clean x) in replace (clean x) with y by (vm_compute; reflexivity) end;
   cbn [p_tl with_tl with_line]; match goal with |- context [scan ?x] => let y := eval vm_compute in (scan x) in replace (scan x) with y by (vm_compute; reflexivity) end;
   cbv zeta; rewrite <- W; reflexivity).
Qed.
Theorem C60_kind_irrelevant kw : In kw keywords -> forall n w file st ls, p_tl st = [] ->
  loop n w file st ((L "= " ++ kw) :: ls) = loop n w file st (kw :: ls) /\
  loop n w file st ((L ":= " ++ kw) :: ls) = loop n w file st (kw :: ls).
Proof.
  intros K n w file st ls T. destruct n as [|n]; [auto|]. cbn [loop]. destruct (kw_line kw K st ls T) as (E1 & E2 & E3). rewrite E1, E2, E3.
  assert (S : forall t, stmt (fun f s l => loop n w f s l) w file t kw (with_line st (p_line st + 1)) ls = stmt (fun f s l => loop n w f s l) w file TWord kw (with_line st (p_line st + 1)) ls).
  { intro t. unfold stmt. destruct K as [<-|[<-|[<-|[<-|[]]]]]; rewrite ?str_eqb_refl; reflexivity. }
  rewrite (S TAssign), (S TLocal). auto.
Qed.
Print Assumptions C60_kind_irrelevant.
