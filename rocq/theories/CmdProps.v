(** CmdProps.v -- C106: splitting a command line. *)
From Coq Require Import List Bool Arith Ascii ZArith Lia Permutation.
Import ListNotations.
From Verif Require Import Base RegexModel RegexProps CmdModel CmdSpec.

(** ---- a parser without memory ---- *)
Record pst := mkP { p_args : list str; p_buf : str; p_arg : bool; p_e : bool; p_s : bool; p_d : bool }.
Definition pstep (s : pst) (c : ascii) : pst :=
  let '(mkP a b ar e q d) := s in
  if e then mkP a (b ++ [c]) true false q d
  else if Ascii.eqb c "\" then mkP a b ar true q d
  else if Ascii.eqb c "'" && negb d then mkP a b (if q then ar else true) e (negb q) d
  else if Ascii.eqb c """" && negb q then mkP a b (if d then ar else true) e q (negb d)
  else if is_space c then
    if ar then if q || d then mkP a (b ++ [c]) ar e q d else mkP (a ++ [b]) [] false e q d
    else s
  else mkP a (b ++ [c]) true e q d.
Definition prun (s : pst) (cmd : str) : pst := fold_left pstep cmd s.
Definition pst0 : pst := mkP [] [] false false false false.
Definition pfin (s : pst) : list str := if p_arg s then p_args s ++ [p_buf s] else p_args s.
Definition pwords (cmd : str) : list str := pfin (prun pst0 cmd).

Lemma prun_app s a b : prun s (a ++ b) = prun (prun s a) b.
Proof. apply fold_left_app. Qed.
Lemma prun_cons s c r : prun s (c :: r) = prun (pstep s c) r.
Proof. reflexivity. Qed.

(** ---- complete command lines ---- *)
Lemma eqb_ne a b : a <> b -> Ascii.eqb a b = false.
Proof. intro H. apply Ascii.eqb_neq. exact H. Qed.
Lemma is_space_not c : is_space c = true -> c <> "\"%char /\ c <> "'"%char /\ c <> """"%char.
Proof. intro H. repeat split; intros ->; discriminate. Qed.
Lemma run_quoted q r o : quoted q r o -> q = "'"%char \/ q = """"%char -> forall a b,
  prun (mkP a b true false (Ascii.eqb q "'") (Ascii.eqb q """")) r = mkP a (b ++ o) true false (Ascii.eqb q "'") (Ascii.eqb q """").
Proof.
  intros H Q. induction H as [|c r o N1 N2 H IH|c r o H IH]; intros a b.
  - rewrite app_nil_r. reflexivity.
  - rewrite prun_cons. replace (pstep _ c) with (mkP a (b ++ [c]) true false (Ascii.eqb q "'") (Ascii.eqb q """")).
    + rewrite IH, <- app_assoc. reflexivity.
    + cbn [pstep]. rewrite (eqb_ne c "\") by exact N2. destruct Q as [-> | ->].
      * rewrite (eqb_ne c "'") by exact N1. change (Ascii.eqb "'" "'") with true. change (Ascii.eqb "'" """") with false. cbn [negb andb]. rewrite andb_false_r. destruct (is_space c); reflexivity.
      * rewrite (eqb_ne c """") by exact N1. change (Ascii.eqb """" "'") with false. change (Ascii.eqb """" """") with true. cbn [negb andb]. rewrite andb_false_r. destruct (is_space c); reflexivity.
  - rewrite !prun_cons. replace (pstep (pstep _ _) c) with (mkP a (b ++ [c]) true false (Ascii.eqb q "'") (Ascii.eqb q """")) by reflexivity. rewrite IH, <- app_assoc. reflexivity.
Qed.
Lemma run_piece r o : piece r o -> forall a b ar, prun (mkP a b ar false false false) r = mkP a (b ++ o) true false false false.
Proof.
  intros [c N1 N2 N3 NS|c|r' o' H|r' o' H] a b ar.
  - cbn [prun fold_left pstep]. rewrite (eqb_ne _ _ N1), (eqb_ne _ _ N2), (eqb_ne _ _ N3), NS. reflexivity.
  - reflexivity.
  - rewrite prun_cons. cbn [pstep]. change (Ascii.eqb "'" "\") with false. change (Ascii.eqb "'" "'") with true. cbn [negb andb]. rewrite prun_app.
    pose proof (run_quoted _ _ _ H (or_introl eq_refl) a b) as R. change (Ascii.eqb "'" "'") with true in R. change (Ascii.eqb "'" """") with false in R. rewrite R. reflexivity.
  - rewrite prun_cons. cbn [pstep]. change (Ascii.eqb """" "\") with false. change (Ascii.eqb """" "'") with false. change (Ascii.eqb """" """") with true. cbn [negb andb]. rewrite prun_app.
    pose proof (run_quoted _ _ _ H (or_intror eq_refl) a b) as R. change (Ascii.eqb """" "'") with false in R. change (Ascii.eqb """" """") with true in R. rewrite R. reflexivity.
Qed.
Lemma piece_ne r o : piece r o -> r <> [].
Proof. intros []; discriminate. Qed.
Lemma run_pieces r o : pieces r o -> forall a b ar, prun (mkP a b ar false false false) r = mkP a (b ++ o) (match r with [] => ar | _ => true end) false false false.
Proof.
  induction 1 as [|x o r o' P H IH]; intros a b ar; [rewrite app_nil_r; reflexivity|].
  rewrite prun_app, (run_piece _ _ P), IH, <- app_assoc. f_equal. pose proof (piece_ne _ _ P). destruct x; [contradiction|]. cbn [app]. destruct r; reflexivity.
Qed.
Lemma run_spaces sp : spaces sp -> forall a, prun (mkP a [] false false false false) sp = mkP a [] false false false false.
Proof.
  induction sp as [|c r IH]; intros SP a; [reflexivity|]. rewrite prun_cons. pose proof (SP c (or_introl eq_refl)) as SC. destruct (is_space_not c SC) as (N1 & N2 & N3).
  cbn [pstep]. rewrite (eqb_ne _ _ N1), (eqb_ne _ _ N2), (eqb_ne _ _ N3), SC. cbn [andb]. apply IH. intros x I. apply SP. now right.
Qed.
Lemma run_command cmd args : command cmd args -> forall a, exists a' b ar, prun (mkP a [] false false false false) cmd = mkP a' b ar false false false /\ pfin (mkP a' b ar false false false) = a ++ args.
Proof.
  induction 1 as [sp SP|sp raw o rest args SP (NE & W) RS H IH]; intro a.
  - rewrite (run_spaces sp SP). exists a, [], false. split; [reflexivity|]. cbn. rewrite app_nil_r. reflexivity.
  - rewrite !prun_app, (run_spaces sp SP), (run_pieces raw o W). destruct raw as [|x raw]; [contradiction|]. destruct RS as [->|(c & r & -> & SC)].
    + exists a, o, true. split; [reflexivity|]. cbn. inversion H as [|sp' raw' o' rest' args' _ (NE' & _) _ _ E]; subst; [reflexivity|]. exfalso. symmetry in E. destruct sp'; [|discriminate]. destruct raw'; [contradiction|discriminate].
    + destruct (is_space_not c SC) as (N1 & N2 & N3). rewrite prun_cons. cbn [pstep app]. rewrite (eqb_ne _ _ N1), (eqb_ne _ _ N2), (eqb_ne _ _ N3), SC. cbn [andb orb].
      specialize (IH (a ++ [o])). rewrite prun_cons in IH. cbn [pstep] in IH. rewrite (eqb_ne _ _ N1), (eqb_ne _ _ N2), (eqb_ne _ _ N3), SC in IH. cbn [andb] in IH. destruct IH as (a' & b & ar & R & F). exists a', b, ar. split; [exact R|]. rewrite F, <- app_assoc. reflexivity.
Qed.
Lemma run_settled s : settled s -> forall st, p_e st = false -> p_e (prun st s) = false.
Proof.
  induction 1 as [|c r N H IH|c r H IH]; intros [a b ar e q d] E; cbn [p_e] in E; subst e.
  - reflexivity.
  - rewrite prun_cons. apply IH. cbn [pstep]. rewrite (eqb_ne _ _ N). destruct (Ascii.eqb c "'" && negb d); [reflexivity|]. destruct (Ascii.eqb c """" && negb q); [reflexivity|]. destruct (is_space c); [|reflexivity]. destruct ar; [|reflexivity]. destruct (q || d); reflexivity.
  - rewrite !prun_cons. apply IH. reflexivity.
Qed.
(** A text means at most what the parser says. *)
Lemma pwords_sound cmd args : means cmd args -> pwords cmd = args.
Proof.
  intros (s & ST & EQ & C). assert (PS : pwords s = args).
  { unfold pwords. pose proof (run_settled s ST pst0 eq_refl) as E. destruct C as [C|[C|C]]; destruct (run_command _ _ C []) as (a' & b & ar & R & F); fold pst0 in R; cbn [app] in F.
    - rewrite R. exact F.
    - rewrite prun_app in R. destruct (prun pst0 s) as [a0 b0 ar0 e0 q0 d0]. cbn [p_e] in E. subst e0. cbn [prun fold_left pstep] in R. change (Ascii.eqb "'" "\") with false in R. change (Ascii.eqb "'" "'") with true in R. change (Ascii.eqb "'" """") with false in R. change (is_space "'") with false in R.
      destruct d0; cbn [negb andb] in R; [discriminate|]. destruct q0; cbn [negb] in R; [|discriminate]. injection R as <- <- <-. exact F.
    - rewrite prun_app in R. destruct (prun pst0 s) as [a0 b0 ar0 e0 q0 d0]. cbn [p_e] in E. subst e0. cbn [prun fold_left pstep] in R. change (Ascii.eqb """" "\") with false in R. change (Ascii.eqb """" "'") with false in R. change (Ascii.eqb """" """") with true in R. change (is_space """") with false in R.
      destruct q0; cbn [negb andb] in R; [discriminate|]. destruct d0; cbn [negb] in R; [|discriminate]. injection R as <- <- <-. exact F. }
  destruct EQ as [-> | ->]; [exact PS|]. unfold pwords in *. rewrite prun_app. pose proof (run_settled s ST pst0 eq_refl) as E. destruct (prun pst0 s) as [a0 b0 ar0 e0 q0 d0]. cbn [p_e] in E. subst e0. exact PS.
Qed.

(** ---- and every text means something ---- *)
Definition lead (a : str) (args : list str) : Prop := forall b bs, command b bs -> command (a ++ b) (args ++ bs).
Lemma command_space c b bs : is_space c = true -> command b bs -> command (c :: b) bs.
Proof.
  intros SC [sp SP|sp raw o rest args SP W RS H].
  - apply cm_end. intros x [<-|I]; auto.
  - apply (cm_word (c :: sp)); auto. intros x [<-|I]; auto.
Qed.
Lemma lead_nil : lead [] [].
Proof. intros b bs H. exact H. Qed.
Lemma lead_space a args c : lead a args -> is_space c = true -> lead (a ++ [c]) args.
Proof. intros H SC b bs C. rewrite <- app_assoc. apply H. apply command_space; auto. Qed.
Lemma lead_word a args raw o c : lead a args -> word raw o -> is_space c = true -> lead (a ++ raw ++ [c]) (args ++ [o]).
Proof.
  intros H W SC b bs C. rewrite <- !app_assoc. apply H. cbn [app]. apply (cm_word [] raw o (c :: b) bs); [intros x []|exact W|right; eauto|]. apply command_space; auto.
Qed.
Lemma pieces_app a o b o' : pieces a o -> pieces b o' -> pieces (a ++ b) (o ++ o').
Proof. induction 1 as [|x ox r orr P H IH]; intro B; [exact B|]. rewrite <- !app_assoc. constructor; auto. Qed.
Lemma piece_pieces a o : piece a o -> pieces a o.
Proof. intro P. rewrite <- (app_nil_r a), <- (app_nil_r o). apply ps_cons; [exact P|constructor]. Qed.
Lemma quoted_snoc q r o c : quoted q r o -> c <> q -> c <> "\"%char -> quoted q (r ++ [c]) (o ++ [c]).
Proof. induction 1; intros; cbn [app]; [apply q_char; auto; apply q_nil|apply q_char; auto|apply q_esc; auto]. Qed.
Lemma quoted_snoc_esc q r o c : quoted q r o -> quoted q (r ++ ["\"%char; c]) (o ++ [c]).
Proof. induction 1; cbn [app]; [apply q_esc, q_nil|apply q_char; auto|apply q_esc; auto]. Qed.
Lemma settled_snoc s c : settled s -> c <> "\"%char -> settled (s ++ [c]).
Proof. induction 1; intros; cbn [app]; [apply st_char; auto; apply st_nil|apply st_char; auto|apply st_esc; auto]. Qed.
Lemma settled_snoc_esc s c : settled s -> settled (s ++ ["\"%char; c]).
Proof. induction 1; cbn [app]; [apply st_esc, st_nil|apply st_char; auto|apply st_esc; auto]. Qed.
(** What the parser has read, in terms of the grammar. *)
Inductive place (s : str) : pst -> Prop :=
| pl_out args e : lead s args -> place s (mkP args [] false e false false)
| pl_in a args raw o e : s = a ++ raw -> lead a args -> word raw o -> place s (mkP args o true e false false)
| pl_single a args raw o r o' e : s = a ++ raw ++ "'"%char :: r -> lead a args -> pieces raw o -> quoted "'"%char r o' -> place s (mkP args (o ++ o') true e true false)
| pl_double a args raw o r o' e : s = a ++ raw ++ """"%char :: r -> lead a args -> pieces raw o -> quoted """"%char r o' -> place s (mkP args (o ++ o') true e false true).
Lemma place_e s a b ar e q d e' : place s (mkP a b ar e q d) -> place s (mkP a b ar e' q d).
Proof. intro P. inversion P; subst; econstructor; eauto. Qed.
Lemma word_snoc raw o a c : (raw = [] /\ o = [] \/ word raw o) -> piece a c -> word (raw ++ a) (o ++ c).
Proof.
  intros [(-> & ->)|(NE & P)] Q; (split; [|apply pieces_app; [|apply piece_pieces; exact Q]]); try (pose proof (piece_ne _ _ Q)).
  - exact H.
  - constructor.
  - destruct raw; [contradiction|discriminate].
  - exact P.
Qed.
(** One character, escaped ([u] = backslash and the character) or not. *)
Lemma place_esc s st c : place s st -> place (s ++ ["\"%char; c]) (pstep (mkP (p_args st) (p_buf st) (p_arg st) true (p_s st) (p_d st)) c).
Proof.
  intros [args e L|a args raw o e -> L W|a args raw o r o' e -> L P Q|a args raw o r o' e -> L P Q]; cbn [p_args p_buf p_arg p_s p_d pstep].
  - apply (pl_in _ s args ["\"%char; c] [c]); auto. split; [discriminate|]. apply piece_pieces. constructor.
  - apply (pl_in _ a args (raw ++ ["\"%char; c]) (o ++ [c])); [rewrite app_assoc; reflexivity|exact L|]. apply word_snoc; [auto|constructor].
  - replace ((o ++ o') ++ [c]) with (o ++ o' ++ [c]) by apply app_assoc. apply (pl_single _ a args raw o (r ++ ["\"%char; c]) (o' ++ [c])); [rewrite <- !app_assoc; reflexivity|exact L|exact P|]. apply quoted_snoc_esc. exact Q.
  - replace ((o ++ o') ++ [c]) with (o ++ o' ++ [c]) by apply app_assoc. apply (pl_double _ a args raw o (r ++ ["\"%char; c]) (o' ++ [c])); [rewrite <- !app_assoc; reflexivity|exact L|exact P|]. apply quoted_snoc_esc. exact Q.
Qed.
Lemma place_char s st c : place s st -> p_e st = false -> c <> "\"%char -> place (s ++ [c]) (pstep st c).
Proof.
  intros PL E N. destruct PL as [args e L|a args raw o e -> L W|a args raw o r o' e -> L P Q|a args raw o r o' e -> L P Q]; cbn [p_e] in E; subst e; cbn [pstep]; rewrite (eqb_ne _ _ N).
  - destruct (Ascii.eqb_spec c "'") as [->|N1]; cbn [negb andb].
    { apply (pl_single _ s args [] [] [] []); [reflexivity|exact L|constructor|constructor]. }
    destruct (Ascii.eqb_spec c """") as [->|N2]; cbn [negb andb].
    { apply (pl_double _ s args [] [] [] []); [reflexivity|exact L|constructor|constructor]. }
    destruct (is_space c) eqn:SC; [constructor; apply lead_space; auto|]. apply (pl_in _ s args [c] [c]); auto. split; [discriminate|]. apply piece_pieces. constructor; auto.
  - destruct (Ascii.eqb_spec c "'") as [->|N1]; cbn [negb andb].
    { rewrite <- (app_nil_r o). apply (pl_single _ a args raw o [] []); [rewrite <- app_assoc; reflexivity|exact L|apply W|constructor]. }
    destruct (Ascii.eqb_spec c """") as [->|N2]; cbn [negb andb].
    { rewrite <- (app_nil_r o). apply (pl_double _ a args raw o [] []); [rewrite <- app_assoc; reflexivity|exact L|apply W|constructor]. }
    destruct (is_space c) eqn:SC; cbn [orb].
    { constructor. rewrite <- app_assoc. apply lead_word; auto. }
    apply (pl_in _ a args (raw ++ [c]) (o ++ [c])); [rewrite app_assoc; reflexivity|exact L|]. apply word_snoc; [auto|constructor; auto].
  - cbn [negb andb]. destruct (Ascii.eqb_spec c "'") as [->|N1]; cbn [negb andb].
    { apply (pl_in _ a args (raw ++ "'"%char :: r ++ ["'"%char]) (o ++ o')); [rewrite <- !app_assoc; reflexivity|exact L|]. split; [destruct raw; discriminate|]. apply pieces_app; [exact P|]. apply piece_pieces. constructor. exact Q. }
    rewrite andb_false_r. replace (if is_space c then _ else _) with (mkP args ((o ++ o') ++ [c]) true false true false) by (destruct (is_space c); reflexivity).
    replace ((o ++ o') ++ [c]) with (o ++ o' ++ [c]) by apply app_assoc. apply (pl_single _ a args raw o (r ++ [c]) (o' ++ [c])); [rewrite <- !app_assoc; reflexivity|exact L|exact P|]. apply quoted_snoc; auto.
  - cbn [negb andb]. rewrite andb_false_r. destruct (Ascii.eqb_spec c """") as [->|N1]; cbn [negb andb].
    { apply (pl_in _ a args (raw ++ """"%char :: r ++ [""""%char]) (o ++ o')); [rewrite <- !app_assoc; reflexivity|exact L|]. split; [destruct raw; discriminate|]. apply pieces_app; [exact P|]. apply piece_pieces. constructor. exact Q. }
    replace (if is_space c then _ else _) with (mkP args ((o ++ o') ++ [c]) true false false true) by (destruct (is_space c); reflexivity).
    replace ((o ++ o') ++ [c]) with (o ++ o' ++ [c]) by apply app_assoc. apply (pl_double _ a args raw o (r ++ [c]) (o' ++ [c])); [rewrite <- !app_assoc; reflexivity|exact L|exact P|]. apply quoted_snoc; auto.
Qed.
Lemma reads cmd : exists s, settled s /\ place s (prun pst0 cmd) /\ (if p_e (prun pst0 cmd) then cmd = s ++ ["\"%char] else cmd = s).
Proof.
  induction cmd as [|c cmd (s & ST & PL & EQ)] using rev_ind.
  - exists []. split; [constructor|]. split; [|reflexivity]. constructor. exact lead_nil.
  - rewrite prun_app. set (st := prun pst0 cmd) in *. clearbody st. change (prun st [c]) with (pstep st c). destruct (p_e st) eqn:E.
    + exists (s ++ ["\"%char; c]). split; [apply settled_snoc_esc; exact ST|]. pose proof (place_esc s st c PL) as PE. replace (mkP _ _ _ true _ _) with st in PE by (destruct st; cbn in *; congruence).
      split; [exact PE|]. destruct st as [a b ar e q d]. cbn [p_e] in E. subst e. cbn [pstep p_e]. rewrite EQ, <- app_assoc. reflexivity.
    + subst s. destruct (ascii_dec c "\") as [->|N].
      * exists cmd. split; [exact ST|]. destruct st as [a b ar e q d]. cbn [p_e] in E. subst e. cbn [pstep]. rewrite Ascii.eqb_refl. cbn [p_e]. split; [|reflexivity]. eapply place_e; exact PL.
      * exists (cmd ++ [c]). split; [apply settled_snoc; auto|]. split; [apply place_char; auto|].
        replace (p_e (pstep st c)) with false; [reflexivity|]. destruct st as [a b ar e q d]. cbn [p_e] in E. subst e. symmetry. exact (run_settled [c] (st_char c [] N st_nil) (mkP a b ar false q d) eq_refl).
Qed.
Lemma pwords_complete cmd : means cmd (pwords cmd).
Proof.
  destruct (reads cmd) as (s & ST & PL & EQ). exists s. split; [exact ST|]. split; [destruct (p_e (prun pst0 cmd)); auto|].
  unfold pwords. set (st := prun pst0 cmd) in *. clearbody st. clear EQ. assert (END : command [] []) by (apply cm_end; intros x []).
  assert (ONE : forall raw o, word raw o -> command raw [o]). { intros raw o W. rewrite <- (app_nil_r raw). apply (cm_word [] raw o [] []); auto. intros x []. }
  destruct PL as [args e L|a args raw o e -> L W|a args raw o r o' e -> L P Q|a args raw o r o' e -> L P Q]; cbn [pfin p_arg p_args p_buf].
  - left. specialize (L _ _ END). rewrite !app_nil_r in L. exact L.
  - left. apply L, ONE, W.
  - right. left. rewrite <- !app_assoc. apply L, ONE. split; [destruct raw; discriminate|]. apply pieces_app; [exact P|]. apply piece_pieces. cbn [app]. constructor. exact Q.
  - right. right. rewrite <- !app_assoc. apply L, ONE. split; [destruct raw; discriminate|]. apply pieces_app; [exact P|]. apply piece_pieces. cbn [app]. constructor. exact Q.
Qed.
Lemma means_iff cmd args : means cmd args <-> args = pwords cmd.
Proof. split; [intro H; symmetry; apply pwords_sound; exact H|intros ->; apply pwords_complete]. Qed.
