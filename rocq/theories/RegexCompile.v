(** RegexCompile.v -- the result of compile. *)
From Coq Require Import List Ascii Bool Arith Lia.
Import ListNotations.
From Verif Require Import Base RegexModel RegexSpec RegexAst RegexGen RegexPass RegexSim RegexSim2 RegexSim3 RegexSim4 RegexGrammar RegexGrammar2 RegexGrammar3.

Lemma lim : forall z, (LIMIT <=? z) = false -> z < B64.
Proof. intros z H. apply Nat.leb_gt in H. rewrite B64_eq. unfold LIMIT in H. lia. Qed.
Definition prog (l : alts_t) : str := MAGIC :: galts l (Some 0) (Some 0) ++ node oEND 0.

(** Chains without EXACTLY nodes. *)
Inductive qhops (code : str) : nat -> nat -> Prop :=
| q_refl p : qhops code p p
| q_step p o q r : node_at code p = Some (o, Some q) -> o <> oEXACTLY -> p < q -> qhops code q r -> qhops code p r.
Lemma q_trans : forall code p q r, qhops code p q -> qhops code q r -> qhops code p r.
Proof. intros code p q r H. induction H; intro K; [exact K|]. eapply q_step; eauto. Qed.
Lemma q_one : forall code p o q, node_at code p = Some (o, Some q) -> o <> oEXACTLY -> p < q -> qhops code p q.
Proof. intros. eapply q_step; eauto. apply q_refl. Qed.
Lemma q_le : forall code p q, qhops code p q -> p <= q.
Proof. intros code p q H. induction H; lia. Qed.
Lemma q_node : forall pre op off Y, op < 256 -> op <> oBACK -> op <> oEXACTLY -> off < B64 -> 0 < off -> qhops (pre ++ node op off ++ Y) (length pre) (length pre + off).
Proof. intros. eapply q_one; [rewrite node_at_node by assumption; destruct (Nat.eqb_spec off 0); [lia|reflexivity]|assumption|lia]. Qed.
(* the same with the text behind written in one piece *)
Lemma q_node' : forall code pre op off Y p q, code = pre ++ node op off ++ Y -> p = length pre -> q = length pre + off -> op < 256 -> op <> oBACK -> op <> oEXACTLY -> off < B64 -> 0 < off -> qhops code p q.
Proof. intros. subst. now apply q_node. Qed.
Ltac asc := rewrite <- ?app_assoc; reflexivity.
Ltac len := rewrite ?app_length, ?len_node; cbn [length]; try lia.
Lemma q_galts : forall l pre Y kc, length (galts l None None) < B64 -> qhops (pre ++ galts l (Some 0) kc ++ Y) (length pre) (length pre + length (galts l None None)).
Proof.
  induction l as [b|b l IH]; intros pre Y kc H; cbn [galts] in *; rewrite !app_length, len_node in H.
  - eapply (q_node' _ pre oBRANCH); [asc|reflexivity|cbn [link]; rewrite app_length, len_node; lia|ops|ops|ops|cbn [link]; lia|cbn [link]; lia].
  - rewrite len_branch in H. eapply q_trans.
    + eapply (q_node' _ pre oBRANCH); [asc|reflexivity|reflexivity|ops|ops|ops|lia|lia].
    + pose proof (IH (pre ++ node oBRANCH (3 + length (gbranch b None)) ++ gbranch b (plusk kc (length (galts l None None)))) Y kc ltac:(lia)) as Q.
      rewrite !app_length, len_node, (len_branch b (plusk kc (length (galts l None None)))) in Q. rewrite <- !app_assoc in Q. rewrite <- !app_assoc. rewrite !app_length, len_node. cbn [plusk]. rewrite !Nat.add_assoc in *. exact Q.
Qed.
Lemma q_atom : forall a pre Y d, wf_atom a -> length (gatom a None) + d < B64 -> (forall s, a <> ALit s) -> qhops (pre ++ gatom a (Some d) ++ Y) (length pre) (length pre + length (gatom a None) + d).
Proof.
  intros a pre Y d W H NL. destruct a as [| | |neg em cs|s|n l]; [| | | |now elim (NL s)|]; cbn [gatom] in *; rewrite ?app_length, ?len_node in H; cbn [length] in H.
  - eapply (q_node' _ pre oBOL); [asc|reflexivity|cbn [link length]; len|ops|ops|ops|cbn [link]; lia|cbn [link]; lia].
  - eapply (q_node' _ pre oEOL); [asc|reflexivity|cbn [link length]; len|ops|ops|ops|cbn [link]; lia|cbn [link]; lia].
  - eapply (q_node' _ pre oANY); [asc|reflexivity|cbn [link length]; len|ops|ops|ops|cbn [link]; lia|cbn [link]; lia].
  - eapply (q_node' _ pre (if neg then oANYBUT else oANYOF)); [asc|reflexivity|cbn [link]; len|destruct neg; ops|destruct neg; ops|destruct neg; ops|cbn [link]; len|cbn [link]; lia].
  - destruct W as [W1 W2]. rewrite (len_alts l (Some 0) (Some 0)) in H. eapply q_trans.
    + eapply (q_node' _ pre (oOPEN + n)); [asc|reflexivity|reflexivity|ops|ops|ops|lia|lia].
    + pose proof (q_galts l (pre ++ node (oOPEN + n) 3) (node (oCLOSE + n) (3 + d) ++ Y) (Some 0) ltac:(lia)) as Q.
      rewrite app_length, len_node in Q. rewrite <- !app_assoc in Q. eapply q_trans; [rewrite <- !app_assoc; exact Q|].
      eapply (q_node' _ (pre ++ node (oOPEN + n) 3 ++ galts l (Some 0) (Some 0)) (oCLOSE + n)); [asc| | |ops|ops|ops| |].
      * rewrite !app_length, len_node, (len_alts l (Some 0) (Some 0)). lia.
      * rewrite !app_length, !len_node, !(len_alts l (Some 0) (Some 0)). cbn [link]. lia.
      * cbn [link]. lia.
      * cbn [link]. lia.
Qed.
Lemma q_piece : forall p pre Y d, wf_piece p -> length (gpiece p None) + d < B64 -> (forall s, p <> PAtom (ALit s)) -> qhops (pre ++ gpiece p (Some d) ++ Y) (length pre) (length pre + length (gpiece p None) + d).
Proof.
  intros p pre Y d W H NL. destruct p as [a|a|a|a]; cbn [gpiece wf_piece] in *.
  - apply q_atom; auto. intros s ->. now elim (NL s).
  - destruct (simple a).
    + rewrite app_length, len_node in H. eapply (q_node' _ pre oSTAR); [asc|reflexivity|cbn [link]; len|ops|ops|ops|cbn [link]; lia|cbn [link]; lia].
    + rewrite !app_length, !len_node, len_atom in H.
      eapply q_trans; [eapply (q_node' _ pre oBRANCH); [asc|reflexivity|reflexivity|ops|ops|ops|lia|lia]|].
      eapply q_trans; [eapply (q_node' _ (pre ++ node oBRANCH (3 + length (gatom a None) + 3) ++ gatom a (Some 0) ++ node oBACK (length (gatom a None) + 3)) oBRANCH); [asc|rewrite !app_length, !len_node, (len_atom a (Some 0)); lia|reflexivity|ops|ops|ops|pose proof B64_big; lia|lia]|].
      eapply (q_node' _ (pre ++ node oBRANCH (3 + length (gatom a None) + 3) ++ gatom a (Some 0) ++ node oBACK (length (gatom a None) + 3) ++ node oBRANCH 3) oNOTHING); [asc| | |ops|ops|ops| |]; cbn [link].
      * rewrite !app_length, !len_node, (len_atom a (Some 0)). lia.
      * rewrite !app_length, !len_node, !(len_atom a (Some 0)). lia.
      * lia.
      * lia.
  - destruct (simple a) eqn:Sa.
    + rewrite app_length, len_node in H. eapply (q_node' _ pre oPLUS); [asc|reflexivity|cbn [link]; len|ops|ops|ops|cbn [link]; lia|cbn [link]; lia].
    + rewrite !app_length, !len_node, len_atom in H. destruct W as (Wa & Ww & Wl).
      assert (NA : forall s, a <> ALit s) by (intros s ->; cbn in Sa; rewrite (Wl s eq_refl) in Sa; discriminate).
      pose proof (q_atom a pre (node oBRANCH 6 ++ node oBACK (length (gatom a None) + 3) ++ node oBRANCH 3 ++ node oNOTHING (link (Some d) 3) ++ Y) 0 Wa ltac:(lia) NA) as Q.
      eapply q_trans; [rewrite <- !app_assoc; exact Q|].
      eapply q_trans; [eapply (q_node' _ (pre ++ gatom a (Some 0)) oBRANCH); [asc|rewrite !app_length, (len_atom a (Some 0)); lia|reflexivity|ops|ops|ops|pose proof B64_big; lia|lia]|].
      eapply q_trans; [eapply (q_node' _ (pre ++ gatom a (Some 0) ++ node oBRANCH 6 ++ node oBACK (length (gatom a None) + 3)) oBRANCH); [asc|rewrite !app_length, !len_node, (len_atom a (Some 0)); lia|reflexivity|ops|ops|ops|pose proof B64_big; lia|lia]|].
      eapply (q_node' _ (pre ++ gatom a (Some 0) ++ node oBRANCH 6 ++ node oBACK (length (gatom a None) + 3) ++ node oBRANCH 3) oNOTHING); [asc| | |ops|ops|ops| |]; cbn [link].
      * rewrite !app_length, !len_node, (len_atom a (Some 0)). lia.
      * rewrite !app_length, !len_node, !(len_atom a (Some 0)). lia.
      * lia.
      * lia.
  - rewrite !app_length, !len_node, (len_atom a (Some 3)) in H.
    eapply q_trans; [eapply (q_node' _ pre oBRANCH); [asc|reflexivity|reflexivity|ops|ops|ops|lia|lia]|].
    eapply q_trans; [eapply (q_node' _ (pre ++ node oBRANCH (3 + length (gatom a None)) ++ gatom a (Some 3)) oBRANCH); [asc|rewrite !app_length, !len_node, (len_atom a (Some 3)); lia|reflexivity|ops|ops|ops|pose proof B64_big; lia|lia]|].
    eapply (q_node' _ (pre ++ node oBRANCH (3 + length (gatom a None)) ++ gatom a (Some 3) ++ node oBRANCH 3) oNOTHING); [asc| | |ops|ops|ops| |]; cbn [link].
    * rewrite !app_length, !len_node, (len_atom a (Some 3)). lia.
    * rewrite !app_length, !len_node, !(len_atom a (Some 3)). lia.
    * lia.
    * lia.
Qed.
Lemma must_q : forall code p q, qhops code p q -> forall n lo le, q - p < n -> exists n', n - (q - p) <= n' /\ find_must n code (Some p) lo le = find_must n' code (Some q) lo le.
Proof.
  intros code p q H. induction H as [p|p o q r S1 NE L1 H IH]; intros n lo le Hn; [exists n; split; [lia|reflexivity]|].
  pose proof (q_le _ _ _ H). destruct n as [|n]; [lia|]. destruct (IH n lo le ltac:(lia)) as (n' & Hn' & E). exists n'. split; [lia|].
  cbn [find_must]. rewrite S1. destruct (Nat.eqb_spec o oEXACTLY); [contradiction|exact E].
Qed.
Lemma take_nul : forall s Y, ~ In NUL s -> take_while (fun c => negb (Ascii.eqb c NUL)) (s ++ NUL :: Y) = s.
Proof.
  induction s as [|c s IH]; intros Y H; [reflexivity|]. cbn [app take_while].
  destruct (Ascii.eqb_spec c NUL) as [Q|Q]; [elim H; left; exact Q|]. cbn [negb]. f_equal. apply IH. intro K. apply H. now right.
Qed.
Lemma c_string_at : forall pre s Y p, ~ In NUL s -> p = length pre -> c_string (pre ++ s ++ NUL :: Y) p = Some s.
Proof.
  intros pre s Y p H ->. unfold c_string. rewrite skipn_app, skipn_all, Nat.sub_diag. cbn [skipn app]. rewrite take_nul by exact H.
  rewrite !app_length. cbn [length]. destruct (Nat.ltb_spec (length pre + length s) (length pre + (length s + S (length Y)))); [reflexivity|lia].
Qed.
(** The literal texts at the top level of a branch. *)
Fixpoint lits (b : branch) : list str := match b with BNil => [] | BCons (PAtom (ALit s)) b => s :: lits b | BCons _ b => lits b end.
Definition must_in (code : str) (ls : list str) (r : option nat * nat) : Prop :=
  match r with (None, _) => True | (Some p, m) => exists s, In s ls /\ firstn m (skipn p code) = s end.
Lemma must_b : forall b pre ls, wf_branch b -> length (gbranch b None) + 3 < B64 -> forall code, code = pre ++ gbranch b (Some 0) ++ node oEND 0 -> incl (lits b) ls ->
  forall n lo le, length (gbranch b None) + 2 <= n -> must_in code ls (lo, le) -> exists r, find_must n code (Some (length pre)) lo le = COk r /\ must_in code ls r.
Proof.
  pose proof B64_big as BB.
  assert (END : forall pre n lo le, 2 <= n -> find_must n (pre ++ node oEND 0) (Some (length pre)) lo le = COk (lo, le)).
  { intros pre n lo le Hn. destruct n as [|[|n]]; [lia|lia|]. cbn [find_must]. pose proof (node_at_node pre oEND 0 [] ltac:(ops) ltac:(ops) ltac:(lia)) as N. rewrite app_nil_r in N. rewrite N. reflexivity. }
  (* one piece, leading to q *)
  assert (ST : forall p pre Y code ls n lo le, wf_piece p -> length (gpiece p None) < B64 -> code = pre ++ gpiece p (Some 0) ++ Y -> (forall s, p = PAtom (ALit s) -> In s ls) -> length (gpiece p None) < n -> must_in code ls (lo, le) ->
     exists n' lo' le', n - length (gpiece p None) <= n' /\ find_must n code (Some (length pre)) lo le = find_must n' code (Some (length pre + length (gpiece p None))) lo' le' /\ must_in code ls (lo', le')).
  { intros p pre Y code ls n lo le W H -> IL Hn MI.
    assert (D : (exists s, p = PAtom (ALit s)) \/ forall s, p <> PAtom (ALit s)).
    { destruct p as [a|a|a|a]; try (right; discriminate). destruct a; try (right; discriminate). left. eauto. }
    destruct D as [(s & ->)|NL].
    - cbn [gpiece gatom wf_piece wf_atom] in *. destruct W as [_ W]. rewrite !app_length, len_node in *. cbn [length] in *.
      assert (E : pre ++ (node oEXACTLY (link (Some 0) (3 + length (s ++ [NUL]))) ++ s ++ [NUL]) ++ Y = pre ++ node oEXACTLY (3 + (length s + 1)) ++ s ++ NUL :: Y).
      { cbn [link]. rewrite app_length. cbn [length]. rewrite Nat.add_0_r, <- !app_assoc. reflexivity. }
      rewrite !app_length in E. cbn [length] in E. rewrite E in *.
      destruct n as [|n]; [lia|]. cbn [find_must]. rewrite node_at_node by (try ops; lia). cbn [Nat.eqb]. destruct (Nat.eqb_spec (3 + (length s + 1)) 0); [lia|].
      pose proof (c_string_at (pre ++ node oEXACTLY (3 + (length s + 1))) s Y (length pre + 3) W ltac:(rewrite app_length, len_node; lia)) as CS. rewrite <- !app_assoc in CS. rewrite CS. rewrite Nat.eqb_refl.
      destruct (le <=? length s).
      + exists n, (Some (length pre + 3)), (length s). split; [lia|]. split; [reflexivity|]. exists s. split; [now apply IL|].
        rewrite app_assoc. replace (length pre + 3) with (length (pre ++ node oEXACTLY (3 + (length s + 1)))) by (rewrite app_length, len_node; lia).
        rewrite skipn_app, skipn_all, Nat.sub_diag. cbn [skipn app]. rewrite firstn_app, Nat.sub_diag, firstn_all. cbn [firstn]. apply app_nil_r.
      + exists n, lo, le. split; [lia|]. split; [reflexivity|exact MI].
    - pose proof (q_piece p pre Y 0 W ltac:(lia) NL) as Q. rewrite Nat.add_0_r in Q. destruct (must_q _ _ _ Q n lo le ltac:(lia)) as (n' & Hn' & E). exists n', lo, le. split; [lia|]. split; [exact E|exact MI]. }
  induction b as [|p b IH]; intros pre ls W H code Ec IL n lo le Hn MI.
  - subst code. cbn [gbranch link] in *. rewrite len_node in *. destruct n as [|n]; [lia|]. cbn [find_must]. rewrite node_at_node by (try ops; lia). cbn [Nat.eqb Nat.add].
    pose proof (END (pre ++ node oNOTHING 3) n lo le ltac:(lia)) as E. rewrite app_length, len_node in E. rewrite <- app_assoc in E. exists (lo, le). rewrite (Nat.add_comm (length pre)) in E. cbn [Nat.add] in E. rewrite Nat.add_comm. cbn. split; [exact E|exact MI].
  - destruct W as [Wp Wb]. assert (I1 : forall s, p = PAtom (ALit s) -> In s ls) by (intros s ->; apply IL; now left).
    assert (I2 : incl (lits b) ls) by (intros x Hx; apply IL; destruct p as [[]| | |]; cbn; auto).
    destruct b as [|p' b']; cbn [gbranch] in *.
    + destruct (ST p pre (node oEND 0) code ls n lo le Wp ltac:(lia) Ec I1 ltac:(lia) MI) as (n' & lo' & le' & Hn' & E & MI'). rewrite E.
      exists (lo', le'). split; [|exact MI']. subst code. pose proof (END (pre ++ gpiece p (Some 0)) n' lo' le' ltac:(lia)) as E'. rewrite app_length, (len_piece p (Some 0)), <- app_assoc in E'. exact E'.
    + rewrite app_length, (len_piece p (Some 0)) in *. rewrite <- app_assoc in Ec.
      destruct (ST p pre _ code ls n lo le Wp ltac:(lia) Ec I1 ltac:(lia) MI) as (n' & lo' & le' & Hn' & E & MI'). rewrite E.
      pose proof (IH (pre ++ gpiece p (Some 0)) ls Wb ltac:(lia) code ltac:(rewrite Ec; asc) I2 n' lo' le' ltac:(lia) MI') as R. rewrite app_length, (len_piece p (Some 0)) in R. exact R.
Qed.
