(** RegexSim3.v -- the two passes, continued. *)
From Coq Require Import List Ascii Bool Arith Lia.
Import ListNotations.
From Verif Require Import Base RegexModel RegexSpec RegexAst RegexGen RegexPass RegexSim RegexSim2.

Lemma B64_big : 100 < B64.
Proof. rewrite B64_eq. lia. Qed.
Lemma st_node_at : forall x X op off Y, op < 256 -> op <> oBACK -> off < B64 ->
  node_at (x ++ X ++ node op off ++ Y) (length x + length X) = Some (op, if off =? 0 then None else Some (length x + length X + off)).
Proof. intros. rewrite app_assoc, <- app_length. now apply node_at_node. Qed.
Lemma optails_ok : forall l X d t np x z n e, wf_alts l -> length x + length X + length (galts l None None) + 3 <= z -> z < B64 ->
  length (galts l None None) + 2 <= n -> e < 256 -> e <> oBRANCH -> e <> oBACK ->
  optails n (Some (length x + length X)) (At (length x + length X + length (galts l None None))) (st d t np (Some x) z (X ++ galts l (Some 0) None ++ node e 0))
  = COk (st d t np (Some x) z (X ++ galts l (Some 0) (Some 0) ++ node e 0)).
Proof.
  pose proof B64_big as BB.
  assert (END : forall X d t np x z n e, 2 <= n -> e < 256 -> e <> oBRANCH -> e <> oBACK -> forall v,
    optails n (Some (length x + length X)) v (st d t np (Some x) z (X ++ node e 0)) = COk (st d t np (Some x) z (X ++ node e 0))).
  { intros X d t np x z n e Hn He H1 H2 v. destruct n as [|[|n]]; [lia|lia|]. cbn [optails].
    pose proof (regoptail_st e 0 d t np (Some x) z X [] v He) as R. rewrite app_nil_r in R. cbn [atc] in R.
    destruct (Nat.eqb_spec e oBRANCH); [contradiction|]. rewrite R. cbn [cbind]. unfold st at 1. cbn [r_code putc].
    pose proof (st_node_at x X e 0 [] He H2 ltac:(lia)) as N. rewrite app_nil_r in N. rewrite N. reflexivity. }
  induction l as [b|b l IH]; intros X d t np x z n e W Hz Hb Hn He H1 H2; cbn [galts wf_alts] in *; rewrite !app_length, ?len_node, ?len_branch in *.
  - destruct n as [|n]; [lia|]. cbn [optails link].
    rewrite <- !app_assoc.
    pose proof (regoptail_st oBRANCH (3 + length (gbranch b None) + 0) d t np (Some x) z X (gbranch b None ++ node e 0) (At (length x + length X + (3 + length (gbranch b None)))) ltac:(ops)) as R.
    cbn [atc] in R. rewrite R, Nat.eqb_refl.
    pose proof (regtail_st0 (gbranch b) d t np (Some x) z (X ++ node oBRANCH (3 + length (gbranch b None) + 0)) (node e 0) (length X + (3 + length (gbranch b None))) 0) as T.
    rewrite !app_length, !len_node in T. cbn [atc] in T. rewrite <- !app_assoc, !Nat.add_assoc in T. rewrite !Nat.add_assoc.
    rewrite T; [|cbn [okc]; lia|apply len_branch|intro; now apply tl_branch|lia|lia].
    cbn [cbind]. unfold st at 1. cbn [r_code putc]. rewrite st_node_at by (try ops; lia).
    destruct (Nat.eqb_spec (3 + length (gbranch b None) + 0) 0); [lia|].
    replace (length x + length X + (3 + length (gbranch b None) + 0)) with (length x + length ((X ++ node oBRANCH (3 + length (gbranch b None) + 0)) ++ gbranch b (Some 0))) by (rewrite !app_length, len_node, len_branch; lia).
    rewrite !app_assoc. apply END; auto. lia.
  - destruct W as [Wb Wl]. destruct n as [|n]; [lia|]. cbn [optails link plusk].
    rewrite <- !app_assoc. set (v := length x + length X + (3 + (length (gbranch b None) + length (galts l None None)))).
    pose proof (regoptail_st oBRANCH (3 + length (gbranch b None)) d t np (Some x) z X (gbranch b None ++ galts l (Some 0) None ++ node e 0) (At v) ltac:(ops)) as R.
    cbn [atc] in R. rewrite R, Nat.eqb_refl. unfold v in *. clear R v.
    pose proof (regtail_st0 (gbranch b) d t np (Some x) z (X ++ node oBRANCH (3 + length (gbranch b None))) (galts l (Some 0) None ++ node e 0) (length X + (3 + (length (gbranch b None) + length (galts l None None)))) (length (galts l None None) + 0)) as T.
    rewrite !app_length, !len_node, len_alts in T. cbn [atc] in T. rewrite <- !app_assoc, !Nat.add_assoc in T. rewrite !Nat.add_assoc.
    rewrite T; [|cbn [okc]; lia|apply len_branch|intro; now apply tl_branch|lia|lia].
    cbn [cbind]. unfold st at 1. cbn [r_code putc]. rewrite st_node_at by (try ops; lia).
    destruct (Nat.eqb_spec (3 + length (gbranch b None)) 0); [lia|].
    pose proof (IH ((X ++ node oBRANCH (3 + length (gbranch b None))) ++ gbranch b (Some (length (galts l None None) + 0))) d t np x z n e) as I.
    rewrite !app_length, len_node, len_branch in I. rewrite <- !app_assoc, !Nat.add_assoc in I. rewrite !Nat.add_assoc.
    apply I; auto; lia.
Qed.

(** The simulation. *)
Definition SimAtom n := forall d t np c z X, ~ In NUL t -> 1 <= np ->
  match pa_atom n t np with
  | COk (a, t', np') => okc c z (length X + length (gatom a None)) ->
      exists d', regatom n (st d t np c z X) = COk (st d' t' np' c z (X ++ gatom a None), atc c (length X), mkF (w_atom a) (simple a) (sp_atom a))
  | CFail => c = None -> regatom n (st d t np c z X) = CFail
  | CNoFuel => c = None -> regatom n (st d t np c z X) = CNoFuel
  | CUB => False
  end.
Definition SimPiece n := forall d t np c z X, ~ In NUL t -> 1 <= np ->
  match pa_piece n t np with
  | COk (p, t', np') => okc c z (length X + length (gpiece p None)) ->
      exists d' si, regpiece n (st d t np c z X) = COk (st d' t' np' c z (X ++ gpiece p None), atc c (length X), mkF (w_piece p) si (sp_piece p))
  | CFail => c = None -> regpiece n (st d t np c z X) = CFail
  | CNoFuel => c = None -> regpiece n (st d t np c z X) = CNoFuel
  | CUB => False
  end.
Definition gps (b : branch) : str := match b with BNil => [] | _ => gbranch b None end.
Definition SimPieces0 n := forall d t np c z X, ~ In NUL t -> 1 <= np ->
  match pa_pieces n t np with
  | COk (b, t', np') => okc c z (length X + length (gps b)) ->
      exists d' ch, pieces n None (st d t np c z X) WORST = COk (st d' t' np' c z (X ++ gps b), ch, mkF (w_branch b) false (sp_branch b)) /\ (ch = None <-> b = BNil)
  | CFail => c = None -> pieces n None (st d t np c z X) WORST = CFail
  | CNoFuel => c = None -> pieces n None (st d t np c z X) WORST = CNoFuel
  | CUB => False
  end.
Definition SimPieces1 n := forall p d t np c z X w sp, ~ In NUL t -> 1 <= np -> wf_piece p ->
  let s := st d t np c z (X ++ gpiece p None) in let f := mkF w false sp in
  match pa_pieces n t np with
  | COk (b, t', np') => okc c z (length X + length (gbranch (BCons p b) None)) ->
      exists d' ch, pieces n (Some (atc c (length X))) s f = COk (st d' t' np' c z (X ++ gbranch (BCons p b) None), Some ch, mkF (w || w_branch b) false sp)
  | CFail => c = None -> pieces n (Some (atc c (length X))) s f = CFail
  | CNoFuel => c = None -> pieces n (Some (atc c (length X))) s f = CNoFuel
  | CUB => False
  end.
Definition SimBranch n := forall d t np c z X, ~ In NUL t -> 1 <= np ->
  match pa_branch n t np with
  | COk (b, t', np') => okc c z (length X + length (galts (One b) None None)) ->
      exists d', regbranch n (st d t np c z X) = COk (st d' t' np' c z (X ++ galts (One b) None None), atc c (length X), mkF (w_branch b) false (sp_branch b))
  | CFail => c = None -> regbranch n (st d t np c z X) = CFail
  | CNoFuel => c = None -> regbranch n (st d t np c z X) = CNoFuel
  | CUB => False
  end.
Definition SimAlts n := forall b d t np c z X r0 w sp, ~ In NUL t -> 1 <= np -> wf_branch b ->
  (forall x Y, c = Some x -> hops (x ++ X ++ Y) (length x + r0) (length x + length X)) ->
  let s := st d t np c z (X ++ galts (One b) None None) in let f := mkF (w && w_branch b) false (sp || sp_branch b) in
  match pa_alts n b t np with
  | COk (l, t', np') => okc c z (length X + length (galts l None None)) ->
      exists d', alts n (atc c r0) s f = COk (st d' t' np' c z (X ++ galts l None None), mkF (w && w_alts l) false (sp || sp_alts l))
  | CFail => c = None -> alts n (atc c r0) s f = CFail
  | CNoFuel => c = None -> alts n (atc c r0) s f = CNoFuel
  | CUB => False
  end.
Definition greg (paren : bool) (np : nat) (l : alts_t) : str := if paren then gatom (AGrp np l) None else galts l (Some 0) (Some 0) ++ node oEND 0.
Definition SimReg n := forall paren d t np c z X, ~ In NUL t -> 1 <= np ->
  match pa_reg n paren t np with
  | COk (l, t', np') => okc c z (length X + length (greg paren np l)) ->
      exists d', reg n paren (st d t np c z X) = COk (st d' t' np' c z (X ++ greg paren np l), atc c (length X), mkF (w_alts l) false (sp_alts l))
  | CFail => c = None -> reg n paren (st d t np c z X) = CFail
  | CNoFuel => c = None -> reg n paren (st d t np c z X) = CNoFuel
  | CUB => False
  end.

Lemma peek_st : forall d t np c z X, peek (st d t np c z X) = pk t. Proof. reflexivity. Qed.
Lemma adv_st : forall d ch t np c z X, adv (st d (ch :: t) np c z X) = st (ch :: d) t np c z X. Proof. reflexivity. Qed.
Lemma adv_st' : forall d t np c z X, exists d', adv (st d t np c z X) = st d' (tl t) np c z X.
Proof. intros d [|ch t] np c z X; eexists; reflexivity. Qed.
Lemma okcN : forall c z m, c = None -> okc c z m. Proof. intros. now subst. Qed.
Lemma SimAtom_S : forall n, SimReg n -> SimAtom (S n).
Proof.
  intros n SR d t np c z X N P. cbn [pa_atom regatom]. rewrite st_rest.
  destruct t as [|ch t]; [auto|]. rewrite adv_st. pose proof (notin_tl _ N) as N0. cbn [tl] in N0.
  destruct (Ascii.eqb ch "^") eqn:D1; [intro O; cbn [gatom link] in *; rewrite regnode_st by exact O; eexists; reflexivity|].
  destruct (Ascii.eqb ch "$") eqn:D2; [intro O; cbn [gatom link] in *; rewrite regnode_st by exact O; eexists; reflexivity|].
  destruct (Ascii.eqb ch ".") eqn:D3; [intro O; cbn [gatom link] in *; rewrite regnode_st by exact O; eexists; reflexivity|].
  destruct (Ascii.eqb ch "[") eqn:D4.
  { pose proof (cls_atom_ok (ch :: d) t np c z X) as K. destruct (p_class t) as [[[[neg em] it] q]|]; exact K. }
  destruct (Ascii.eqb ch "(") eqn:D5.
  { pose proof (SR true (ch :: d) t np c z X N0 P) as K. destruct (pa_reg n true t np) as [[[l t1] np1]| | |]; cbn [cbind].
    - intro O. destruct (K O) as [d' E]. rewrite E. cbn [cbind]. eexists. reflexivity.
    - intro C. rewrite (K C). reflexivity.
    - exact K.
    - intro C. rewrite (K C). reflexivity. }
  destruct (Ascii.eqb ch "|" || Ascii.eqb ch ")")%bool eqn:C6; [auto|].
  destruct (is_mult ch) eqn:C7; [auto|].
  destruct (Ascii.eqb ch "\") eqn:C8.
  { destruct t as [|e t]; [auto|]. intro O. cbn [gatom link] in *. rewrite !app_length, len_node in O. cbn [length] in O.
    rewrite regnode_st by (eapply okc_le; [exact O|lia]). cbn [cbind].
    rewrite regc_st by (rewrite app_length, len_node; eapply okc_le; [exact O|lia]). cbn [cbind]. rewrite adv_st.
    rewrite regc_st by (rewrite !app_length, len_node; cbn [length]; eapply okc_le; [exact O|lia]). cbn [cbind].
    eexists. rewrite <- !app_assoc. reflexivity. }
  intro O. apply lit_atom_ok; [|exact O].
  apply orb_false_iff in C6. destruct C6 as [C6 C6']. unfold is_mult in C7. rewrite !orb_false_iff in C7. destruct C7 as [[C7 C9] C10].
  change META with ["^";"$";".";"[";"(";")";"|";"?";"+";"*";"\"]%char. cbn [existsb]. rewrite D1, D2, D3, D4, D5, C6, C6', C7, C8, C9, C10. reflexivity.
Qed.

Ltac go_ok O := eapply okc_le; [exact O|rewrite ?app_length, ?len_node, ?len_atom, ?len_piece, ?len_branch, ?len_alts; cbn [length]; lia].
Lemma tlz : forall c z m f, okc c z m -> (forall x, c = Some x -> m < B64 -> tailed f) -> c <> None -> tailed f.
Proof. intros [x|] z m f O T H; [|congruence]. cbn [okc] in O. apply (T x eq_refl). lia. Qed.
Lemma SimPiece_S : forall n, SimAtom n -> SimPiece (S n).
Proof.
  intros n SA d t np c z X N P. cbn [pa_piece regpiece].
  pose proof (SA d t np c z X N P) as K. pose proof (proj2 (proj2 (proj2 (proj2 (proj2 (pa_wf n))))) t np) as W.
  destruct (pa_atom n t np) as [[[a t1] np1]| | |]; cbn [cbind]; [|intro C; rewrite (K C); reflexivity|exact K|intro C; rewrite (K C); reflexivity].
  destruct (W _ _ _ N P eq_refl) as (Wa & N1 & P1 & _). clear W.
  assert (MAIN : okc c z (length X + length (gatom a None)) -> exists d', regatom n (st d t np c z X) = COk (st d' t1 np1 c z (X ++ gatom a None), atc c (length X), mkF (w_atom a) (simple a) (sp_atom a))) by exact K. clear K.
  destruct (is_mult (pk t1)) eqn:M; cbn [negb].
  2: { intro O. destruct (MAIN O) as [d' E]. rewrite E. cbn [cbind]. rewrite peek_st, M. cbn [negb]. eauto. }
  destruct (negb (w_atom a) && negb (Ascii.eqb (pk t1) "?"))%bool eqn:F.
  { intro C. destruct (MAIN (okcN _ _ _ C)) as [d' E]. rewrite E. cbn [cbind]. rewrite peek_st, M. cbn [negb f_width]. rewrite F. reflexivity. }
  (* the multiplied piece *)
  assert (STEP : forall op, op = pk t1 -> is_mult op = true -> let p := (if Ascii.eqb op "*" then PStar a else if Ascii.eqb op "+" then PPlus a else POpt a) in
    okc c z (length X + length (gpiece p None)) -> forall d',
    (if (Ascii.eqb op "*" && simple a)%bool then reginsert oSTAR (atc c (length X)) (st d' t1 np1 c z (X ++ gatom a None))
         else if Ascii.eqb op "*" then
           let* sa := reginsert oBRANCH (atc c (length X)) (st d' t1 np1 c z (X ++ gatom a None)) in
           let* (sb, b) := regnode oBACK sa in
           let* sc := regoptail (atc c (length X)) b sb in
           let* sd := regoptail (atc c (length X)) (atc c (length X)) sc in
           let* (se, b2) := regnode oBRANCH sd in
           let* sf := regtail (atc c (length X)) b2 se in
           let* (sg, nt) := regnode oNOTHING sf in
           regtail (atc c (length X)) nt sg
         else if (Ascii.eqb op "+" && simple a)%bool then reginsert oPLUS (atc c (length X)) (st d' t1 np1 c z (X ++ gatom a None))
         else if Ascii.eqb op "+" then
           let* (sa, next) := regnode oBRANCH (st d' t1 np1 c z (X ++ gatom a None)) in
           let* sb := regtail (atc c (length X)) next sa in
           let* (sc, b) := regnode oBACK sb in
           let* sd := regtail b (atc c (length X)) sc in
           let* (se, b2) := regnode oBRANCH sd in
           let* sf := regtail next b2 se in
           let* (sg, nt) := regnode oNOTHING sf in
           regtail (atc c (length X)) nt sg
         else
           let* sa := reginsert oBRANCH (atc c (length X)) (st d' t1 np1 c z (X ++ gatom a None)) in
           let* (sb, b2) := regnode oBRANCH sa in
           let* sc := regtail (atc c (length X)) b2 sb in
           let* (sd, next) := regnode oNOTHING sc in
           let* se := regtail (atc c (length X)) next sd in
           regoptail (atc c (length X)) next se) = COk (st d' t1 np1 c z (X ++ gpiece p None))).
  { intros op Hop Mop p O d'. set (la := length (gatom a None)) in *.
    destruct (Ascii.eqb_spec op "*") as [E1|E1].
    - destruct (simple a) eqn:Sa; cbn [andb].
      + unfold p in *. cbn [gpiece link] in *. rewrite Sa in *. rewrite app_length, len_node in O.
        apply reginsert_st. fold la. eapply okc_le; [exact O|fold la; lia].
      + unfold p in *. cbn [gpiece link] in *. rewrite Sa in *. rewrite !app_length, !len_node, len_atom in O. fold la in O |- *.
        rewrite reginsert_st by (fold la; eapply okc_le; [exact O|lia]). cbn [cbind].
        rewrite regnode_st by (rewrite !app_length, len_node; fold la; eapply okc_le; [exact O|lia]). cbn [cbind].
        rewrite <- !app_assoc, !app_length, len_node. fold la.
        rewrite regoptail_st by ops. rewrite Nat.eqb_refl.
        pose proof (regtail_st0 (gatom a) d' t1 np1 c z (X ++ node oBRANCH 0) (node oBACK 0) (length X + (3 + la)) 0) as T.
        rewrite !app_length, !len_node in T. fold la in T. rewrite <- !app_assoc in T.
        rewrite T; [|eapply okc_le; [exact O|lia]|apply len_atom|intro; now apply tl_atom|lia|lia]. clear T. cbn [cbind].
        rewrite regoptail_st by ops. rewrite Nat.eqb_refl.
        pose proof (regtail_back d' t1 np1 c z X (node oBRANCH 0 ++ gatom a (Some 0)) [] (length X + 3) (length X)) as T.
        rewrite !app_length, !len_node, len_atom, !app_nil_r in T. fold la in T. rewrite <- !app_assoc in T.
        rewrite T; [|eapply okc_le; [exact O|cbn [length]; lia]|reflexivity|].
        2: { intros x Hx. subst c. cbn [okc] in O. pose proof (tailed_hops (gatom a) (tl_atom a Wa ltac:(lia)) (x ++ X ++ node oBRANCH 0) 0 (node oBACK 0) ltac:(lia)) as H.
             rewrite !app_length, len_node in H. fold la in H. rewrite <- !app_assoc in H.
             replace (length x + (length X + 3)) with (length x + (length X + 3)) by lia. replace (length x + length X + (3 + la)) with (length x + (length X + 3) + la + 0) by lia. exact H. }
        clear T. cbn [cbind].
        rewrite regnode_st by (rewrite !app_length, !len_node, len_atom; fold la; eapply okc_le; [exact O|lia]). cbn [cbind].
        rewrite <- !app_assoc, !app_length, !len_node, len_atom. fold la.
        pose proof (regtail_st0 (fun k => node oBRANCH (link k 3)) d' t1 np1 c z X (gatom a (Some 0) ++ node oBACK (3 + la) ++ node oBRANCH 0) (length X + (3 + (la + 3))) (la + 3)) as T.
        cbn [link] in T. rewrite !app_length, !len_node, len_atom in T. fold la in T.
        rewrite T; [|eapply okc_le; [exact O|lia]|reflexivity|intro; apply tailed_n0; ops|lia|lia]. clear T. cbn [cbind].
        rewrite regnode_st by (rewrite !app_length, !len_node, len_atom; fold la; eapply okc_le; [exact O|lia]). cbn [cbind].
        rewrite <- !app_assoc, !app_length, !len_node, len_atom. fold la.
        pose proof (regtail_st (fun k => node oBRANCH (link k 3)) d' t1 np1 c z (X ++ node oBRANCH (3 + (la + 3)) ++ gatom a (Some 0) ++ node oBACK (3 + la)) (node oNOTHING 0) (length X) (length X + (3 + (la + (3 + 3)))) 0) as T.
        cbn [link] in T. rewrite !app_length, !len_node, len_atom in T. fold la in T. rewrite <- !app_assoc in T.
        rewrite T; [|eapply okc_le; [exact O|lia]|reflexivity|intro; apply tailed_n0; ops|lia|lia|].
        2: { intros x Hx. subst c. cbn [okc] in O. eapply hops_one; [rewrite st_node_at by (try ops; lia); cbn [Nat.eqb]|]; [|lia].
             do 3 f_equal. replace (length x + length X + (3 + (la + 3))) with (length x + (length X + (3 + (la + 3)))) by lia. reflexivity. }
        rewrite ?Nat.add_0_r. do 3 f_equal. rewrite (Nat.add_comm la 3). replace (3 + (3 + la)) with (3 + la + 3) by lia. reflexivity.
    - cbn [andb]. destruct (Ascii.eqb_spec op "+") as [E2|E2].
      + destruct (simple a) eqn:Sa; cbn [andb].
        * unfold p in *. cbn [gpiece link] in *. rewrite Sa in *. rewrite app_length, len_node in O.
          apply reginsert_st. fold la. eapply okc_le; [exact O|fold la; lia].
        * unfold p in *. cbn [gpiece link] in *. rewrite Sa in *. rewrite !app_length, !len_node, len_atom in O. fold la in O |- *.
          rewrite regnode_st by (rewrite app_length; fold la; eapply okc_le; [exact O|lia]). cbn [cbind].
          rewrite <- !app_assoc, !app_length. fold la.
          rewrite (regtail_st0 (gatom a) d' t1 np1 c z X (node oBRANCH 0) (length X + la) 0); [|rewrite len_node; fold la; eapply okc_le; [exact O|lia]|apply len_atom|intro; now apply tl_atom|lia|fold la; lia]. cbn [cbind].
          rewrite regnode_st by (rewrite !app_length, len_node, len_atom; fold la; eapply okc_le; [exact O|lia]). cbn [cbind].
          rewrite <- !app_assoc, !app_length, len_node, len_atom. fold la.
          pose proof (regtail_back d' t1 np1 c z X (gatom a (Some 0) ++ node oBRANCH 0) [] (length X + (la + 3)) (length X)) as T.
          rewrite !app_length, !len_node, len_atom, !app_nil_r in T. fold la in T. rewrite <- !app_assoc in T.
          rewrite T; [|eapply okc_le; [exact O|cbn [length]; lia]|reflexivity|intros x _; rewrite !Nat.add_assoc; apply h_refl]. clear T. cbn [cbind].
          rewrite regnode_st by (rewrite !app_length, !len_node, len_atom; fold la; eapply okc_le; [exact O|lia]). cbn [cbind].
          rewrite <- !app_assoc, !app_length, !len_node, len_atom. fold la.
          pose proof (regtail_st0 (fun k => node oBRANCH (link k 3)) d' t1 np1 c z (X ++ gatom a (Some 0)) (node oBACK (la + 3) ++ node oBRANCH 0) (length X + (la + (3 + 3))) 3) as T.
          cbn [link] in T. rewrite !app_length, !len_node, len_atom in T. fold la in T. rewrite <- !app_assoc in T.
          rewrite T; [|eapply okc_le; [exact O|lia]|reflexivity|intro; apply tailed_n0; ops|lia|lia]. clear T. cbn [cbind].
          rewrite regnode_st by (rewrite !app_length, !len_node, len_atom; fold la; eapply okc_le; [exact O|lia]). cbn [cbind].
          rewrite <- !app_assoc, !app_length, !len_node, len_atom. fold la.
          pose proof (regtail_st (fun k => node oBRANCH (link k 3)) d' t1 np1 c z (X ++ gatom a (Some 0) ++ node oBRANCH (3 + 3) ++ node oBACK (la + 3)) (node oNOTHING 0) (length X) (length X + (la + (3 + (3 + 3)))) 0) as T.
          cbn [link] in T. rewrite !app_length, !len_node, len_atom in T. fold la in T. rewrite <- !app_assoc in T.
          rewrite T; [rewrite ?Nat.add_0_r; reflexivity|eapply okc_le; [exact O|lia]|reflexivity|intro; apply tailed_n0; ops|lia|lia|].
          intros x Hx. subst c. cbn [okc] in O.
          pose proof (tailed_hops (gatom a) (tl_atom a Wa ltac:(lia)) (x ++ X) 0 (node oBRANCH 6 ++ node oBACK (la + 3) ++ node oBRANCH 0 ++ node oNOTHING 0) ltac:(lia)) as H.
          rewrite !app_length in H. fold la in H. rewrite <- !app_assoc in H.
          eapply hops_trans; [exact H|].
          pose proof (st_node_at x (X ++ gatom a (Some 0)) oBRANCH 6 (node oBACK (la + 3) ++ node oBRANCH 0 ++ node oNOTHING 0) ltac:(ops) ltac:(ops) ltac:(pose proof B64_big; lia)) as S1.
          rewrite !app_length, len_atom in S1. fold la in S1. rewrite <- !app_assoc in S1. cbn [Nat.eqb] in S1.
          rewrite Nat.add_0_r. rewrite <- (Nat.add_assoc (length x)).
          replace (length x + (length X + (la + (3 + 3)))) with (length x + (length X + la) + 6) by lia.
          eapply hops_one; [exact S1|lia].
      + cbn [andb]. unfold p in *. cbn [gpiece link] in *. rewrite !app_length, !len_node, len_atom in O. fold la in O |- *.
        rewrite reginsert_st by (fold la; eapply okc_le; [exact O|lia]). cbn [cbind].
        rewrite regnode_st by (rewrite !app_length, len_node; fold la; eapply okc_le; [exact O|lia]). cbn [cbind].
        rewrite <- !app_assoc, !app_length, len_node. fold la.
        pose proof (regtail_st0 (fun k => node oBRANCH (link k 3)) d' t1 np1 c z X (gatom a None ++ node oBRANCH 0) (length X + (3 + la)) la) as T.
        cbn [link] in T. rewrite !app_length, !len_node in T. fold la in T.
        rewrite T; [|eapply okc_le; [exact O|lia]|reflexivity|intro; apply tailed_n0; ops|lia|lia]. clear T. cbn [cbind].
        rewrite regnode_st by (rewrite !app_length, !len_node; fold la; eapply okc_le; [exact O|lia]). cbn [cbind].
        rewrite <- !app_assoc, !app_length, !len_node. fold la.
        pose proof (regtail_st (fun k => node oBRANCH (link k 3)) d' t1 np1 c z (X ++ node oBRANCH (3 + la) ++ gatom a None) (node oNOTHING 0) (length X) (length X + (3 + (la + 3))) 0) as T.
        cbn [link] in T. rewrite !app_length, !len_node in T. fold la in T. rewrite <- !app_assoc in T.
        rewrite T; [|eapply okc_le; [exact O|lia]|reflexivity|intro; apply tailed_n0; ops|lia|lia|].
        2: { intros x Hx. subst c. cbn [okc] in O. eapply hops_one; [rewrite st_node_at by (try ops; lia); cbn [Nat.eqb]|]; [|lia].
             replace (length x + length X + (3 + la)) with (length x + (length X + (3 + la))) by lia. reflexivity. }
        clear T. cbn [cbind].
        rewrite regoptail_st by ops. rewrite Nat.eqb_refl.
        pose proof (regtail_st0 (gatom a) d' t1 np1 c z (X ++ node oBRANCH (3 + la)) (node oBRANCH (3 + 0) ++ node oNOTHING 0) (length X + (3 + (la + 3))) 3) as T.
        rewrite !app_length, !len_node in T. fold la in T. rewrite <- !app_assoc in T.
        rewrite T; [|eapply okc_le; [exact O|lia]|apply len_atom|intro; now apply tl_atom|lia|lia]. reflexivity. }
  specialize (STEP _ eq_refl M).
  assert (SH : length (gatom a None) <= length (gpiece (if Ascii.eqb (pk t1) "*" then PStar a else if Ascii.eqb (pk t1) "+" then PPlus a else POpt a) None)).
  { destruct (Ascii.eqb (pk t1) "*"); [|destruct (Ascii.eqb (pk t1) "+")]; cbn [gpiece]; try destruct (simple a); rewrite !app_length, ?(len_atom a (Some 0)), ?(len_atom a (Some 3)); lia. }
  destruct (is_mult (pk (tl t1))) eqn:M2.
  - intro C. destruct (MAIN (okcN _ _ _ C)) as [d' E]. rewrite E. cbn [cbind]. rewrite peek_st, M. cbn [negb f_width f_simple]. rewrite F.
    rewrite STEP by now apply okcN. cbn [cbind]. destruct (adv_st' d' t1 np1 c z (X ++ gpiece (if Ascii.eqb (pk t1) "*" then PStar a else if Ascii.eqb (pk t1) "+" then PPlus a else POpt a) None)) as [d'' E2]. rewrite E2, peek_st, M2. reflexivity.
  - intro O. destruct MAIN as [d' E]; [eapply okc_le; [exact O|lia]|]. rewrite E. cbn [cbind]. rewrite peek_st, M. cbn [negb f_width f_simple]. rewrite F.
    rewrite STEP by exact O. cbn [cbind]. destruct (adv_st' d' t1 np1 c z (X ++ gpiece (if Ascii.eqb (pk t1) "*" then PStar a else if Ascii.eqb (pk t1) "+" then PPlus a else POpt a) None)) as [d'' E2]. rewrite E2, peek_st, M2.
    exists d'', false. do 2 f_equal. destruct (Ascii.eqb_spec (pk t1) "*") as [Q|Q]; [rewrite Q; reflexivity|]. destruct (Ascii.eqb_spec (pk t1) "+") as [Q'|Q']; reflexivity.
Qed.
