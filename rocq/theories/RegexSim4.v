(** RegexSim4.v -- the two passes, concluded. *)
From Coq Require Import List Ascii Bool Arith Lia.
Import ListNotations.
From Verif Require Import Base RegexModel RegexSpec RegexAst RegexGen RegexPass RegexSim RegexSim2 RegexSim3.

Lemma stop_st : forall t, (match t with [] => true | c :: _ => (Ascii.eqb c "|" || Ascii.eqb c ")")%bool end) = stop t.
Proof. reflexivity. Qed.
Lemma len_cons : forall p b, length (gbranch (BCons p b) None) = length (gpiece p None) + length (gps b).
Proof. intros p [|p' b']; cbn [gbranch gps]; [cbn [length]; lia|]. rewrite app_length, (len_piece p (Some 0)). reflexivity. Qed.
Lemma SimPieces1_S : forall n, SimPiece n -> SimPieces1 n -> SimPieces1 (S n).
Proof.
  intros n SP SS p d t np c z X w sp N P Wp. cbv zeta. cbn [pa_pieces pieces]. rewrite st_rest, stop_st.
  destruct (stop t).
  { intro O. rewrite orb_false_r. cbn [gbranch w_branch]. eauto. }
  pose proof (SP d t np c z (X ++ gpiece p None) N P) as K. pose proof (proj1 (proj2 (proj2 (proj2 (proj2 (pa_wf n))))) t np) as W.
  destruct (pa_piece n t np) as [[[p2 t1] np1]| | |]; cbn [cbind]; [|intro C; rewrite (K C); reflexivity|exact K|intro C; rewrite (K C); reflexivity].
  destruct (W _ _ _ N P eq_refl) as (Wp2 & N1 & P1). clear W.
  pose proof (SS p2) as R.
  assert (GO : forall d' si, okc c z (length X + length (gpiece p None) + length (gpiece p2 None)) ->
    regtail (atc c (length X)) (atc c (length (X ++ gpiece p None))) (st d' t1 np1 c z ((X ++ gpiece p None) ++ gpiece p2 None)) = COk (st d' t1 np1 c z ((X ++ gpiece p (Some 0)) ++ gpiece p2 None)) /\
    mkF (f_width (mkF w false sp) || f_width (mkF (w_piece p2) si (sp_piece p2))) false (f_sp (mkF w false sp)) = mkF (w || w_piece p2) false sp).
  { intros d' si O. split; [|reflexivity]. rewrite <- !app_assoc, app_length.
    apply regtail_st0; [exact O|apply len_piece|intro; now apply tl_piece|lia|lia]. }
  assert (AT : atc c (length (X ++ gpiece p None)) = atc c (length (X ++ gpiece p (Some 0)))) by (rewrite !app_length, (len_piece p (Some 0)); reflexivity).
  destruct (pa_pieces n t1 np1) as [[[b t2] np2]| | |] eqn:Q; cbn [cbind].
  - intro O. rewrite len_cons in O. change (gps (BCons p2 b)) with (gbranch (BCons p2 b) None) in O.
    destruct K as (d' & si & E); [rewrite app_length; rewrite len_cons in O; eapply okc_le; [exact O|lia]|]. rewrite E. cbn [cbind].
    destruct (GO d' si) as [G1 G2]; [rewrite len_cons in O; eapply okc_le; [exact O|lia]|].
    rewrite G1. cbn [cbind]. rewrite G2, AT.
    specialize (R d' t1 np1 c z (X ++ gpiece p (Some 0)) (w || w_piece p2)%bool sp N1 P1 Wp2). cbv zeta in R. rewrite Q in R.
    destruct R as (d'' & ch & R); [rewrite app_length, (len_piece p (Some 0)); eapply okc_le; [exact O|lia]|]. rewrite R. exists d'', ch. cbn [gbranch w_branch]. rewrite <- app_assoc, orb_assoc. reflexivity.
  - intro C. destruct K as (d' & si & E); [now apply okcN|]. rewrite E. cbn [cbind]. destruct (GO d' si) as [G1 G2]; [now apply okcN|]. rewrite G1. cbn [cbind]. rewrite G2, AT.
    specialize (R d' t1 np1 c z (X ++ gpiece p (Some 0)) (w || w_piece p2)%bool sp N1 P1 Wp2). cbv zeta in R. rewrite Q in R. exact (R C).
  - specialize (R d t1 np1 c z X w sp N1 P1 Wp2). cbv zeta in R. rewrite Q in R. exact R.
  - intro C. destruct K as (d' & si & E); [now apply okcN|]. rewrite E. cbn [cbind]. destruct (GO d' si) as [G1 G2]; [now apply okcN|]. rewrite G1. cbn [cbind]. rewrite G2, AT.
    specialize (R d' t1 np1 c z (X ++ gpiece p (Some 0)) (w || w_piece p2)%bool sp N1 P1 Wp2). cbv zeta in R. rewrite Q in R. exact (R C).
Qed.
Lemma SimPieces0_S : forall n, SimPiece n -> SimPieces1 n -> SimPieces0 (S n).
Proof.
  intros n SP SS d t np c z X N P. cbn [pa_pieces pieces]. rewrite st_rest, stop_st.
  destruct (stop t).
  { intro O. exists d, None. rewrite app_nil_r. split; [reflexivity|tauto]. }
  pose proof (SP d t np c z X N P) as K. pose proof (proj1 (proj2 (proj2 (proj2 (proj2 (pa_wf n))))) t np) as W.
  destruct (pa_piece n t np) as [[[p t1] np1]| | |]; cbn [cbind]; [|intro C; rewrite (K C); reflexivity|exact K|intro C; rewrite (K C); reflexivity].
  destruct (W _ _ _ N P eq_refl) as (Wp & N1 & P1). clear W.
  pose proof (fun d' => SS p d' t1 np1 c z X (w_piece p) (sp_piece p) N1 P1 Wp) as R. cbv zeta in R.
  destruct (pa_pieces n t1 np1) as [[[b t2] np2]| | |] eqn:Q; cbn [cbind].
  - intro O. cbn [gps] in O. destruct K as (d' & si & E); [rewrite len_cons in O; eapply okc_le; [exact O|lia]|]. rewrite E. cbn [cbind].
    destruct (R d' O) as (d'' & ch & R'). cbn [f_width f_sp WORST orb].
    rewrite R'. exists d'', (Some ch). split; [reflexivity|]. split; discriminate.
  - intro C. destruct K as (d' & si & E); [now apply okcN|]. rewrite E. exact (R d' C).
  - exact (R d).
  - intro C. destruct K as (d' & si & E); [now apply okcN|]. rewrite E. exact (R d' C).
Qed.
Lemma SimBranch_S : forall n, SimPieces0 n -> SimBranch (S n).
Proof.
  intros n SP d t np c z X N P. cbn [pa_branch regbranch].
  pose proof (SP d t np c z (X ++ node oBRANCH 0) N P) as K.
  assert (G : forall b, length (gps b) <= length (gbranch b None)) by (intros [|? ?]; cbn [gps]; [cbn; lia|lia]).
  destruct (pa_pieces n t np) as [[[b t1] np1]| | |] eqn:Q.
  - intro O. cbn [galts link] in *. rewrite app_length, len_node in O. specialize (G b).
    rewrite regnode_st by (eapply okc_le; [exact O|lia]). cbn [cbind].
    destruct K as (d' & ch & E & I); [rewrite app_length, len_node; eapply okc_le; [exact O|lia]|]. rewrite E. cbn [cbind].
    destruct ch as [ch|].
    + exists d'. destruct b as [|p b]; [destruct I as [_ I]; discriminate (I eq_refl)|]. cbn [gps]. rewrite <- app_assoc. reflexivity.
    + assert (b = BNil) by (apply I; reflexivity). subst b. cbn [gps gbranch link] in *. rewrite app_nil_r. rewrite len_node in O.
      rewrite regnode_st by (rewrite app_length, len_node; eapply okc_le; [exact O|lia]). cbn [cbind]. exists d'. rewrite <- app_assoc. reflexivity.
  - intro C. rewrite regnode_st by now apply okcN. cbn [cbind]. rewrite (K C). reflexivity.
  - exact K.
  - intro C. rewrite regnode_st by now apply okcN. cbn [cbind]. rewrite (K C). reflexivity.
Qed.
Lemma len_one_more : forall b l, length (galts (One b) None None) <= length (galts (More b l) None None) /\ length (galts (More b l) None None) = length (galts (One b) None None) + length (galts l None None).
Proof. intros b l. cbn [galts]. rewrite !app_length, !len_node. cbn [plusk]. lia. Qed.
Lemma pa_alts_len : forall n b t np l t' np', pa_alts n b t np = COk (l, t', np') -> length (galts (One b) None None) <= length (galts l None None).
Proof.
  intros [|n] b t np l t' np' E; [discriminate|]. cbn [pa_alts] in E. destruct (Ascii.eqb (pk t) "|").
  - cds E. injection E as <- <- <-. apply len_one_more.
  - injection E as <- <- <-. lia.
Qed.
Lemma galts_one_k : forall b kb kc, galts (One b) kb kc = node oBRANCH (link kb (3 + length (gbranch b None))) ++ gbranch b kc.
Proof. reflexivity. Qed.
Lemma SimAlts_S : forall n, SimBranch n -> SimAlts n -> SimAlts (S n).
Proof.
  intros n SB SA b d t np c z X r0 w sp N P Wb HC. cbv zeta. cbn [pa_alts alts]. rewrite peek_st.
  destruct (Ascii.eqb (pk t) "|").
  2: { intro O. exists d. reflexivity. }
  destruct (adv_st' d t np c z (X ++ galts (One b) None None)) as [d0 AE]. rewrite AE. clear AE.
  pose proof (SB d0 (tl t) np c z (X ++ galts (One b) None None) (notin_tl _ N) P) as K. pose proof (proj1 (proj2 (proj2 (pa_wf n))) (tl t) np) as W.
  destruct (pa_branch n (tl t) np) as [[[b2 t1] np1]| | |]; cbn [cbind]; [|intro C; rewrite (K C); reflexivity|exact K|intro C; rewrite (K C); reflexivity].
  destruct (W _ _ _ (notin_tl _ N) P eq_refl) as (Wb2 & N1 & P1). clear W.
  set (X2 := X ++ node oBRANCH (3 + length (gbranch b None)) ++ gbranch b None).
  assert (GO : forall d', okc c z (length X + length (galts (One b) None None) + length (galts (One b2) None None)) ->
    regtail (atc c r0) (atc c (length (X ++ galts (One b) None None))) (st d' t1 np1 c z ((X ++ galts (One b) None None) ++ galts (One b2) None None)) = COk (st d' t1 np1 c z (X2 ++ galts (One b2) None None))).
  { intros d' O. rewrite <- !app_assoc, app_length.
    pose proof (regtail_st (fun kb => galts (One b) kb None) d' t1 np1 c z X (galts (One b2) None None) r0 (length X + length (galts (One b) None None)) 0) as T. cbv beta in T.
    rewrite T; [| |intro; apply len_alts|intro; now apply (tl_alts (One b))|lia|lia|intros x ->; apply HC; reflexivity].
    - unfold X2. rewrite galts_one_k. cbn [link]. rewrite Nat.add_0_r, <- !app_assoc. reflexivity.
    - exact O. }
  assert (LX : length X2 = length X + length (galts (One b) None None)) by (unfold X2; rewrite galts_one_k, !app_length, !len_node; lia).
  assert (HC2 : okc c z (length X + length (galts (One b) None None)) -> forall x Y, c = Some x -> hops (x ++ X2 ++ Y) (length x + r0) (length x + length X2)).
  { intros O x Y ->. cbn [okc] in O. rewrite galts_one_k, app_length, len_node in O. unfold X2. rewrite <- !app_assoc. eapply hops_trans; [apply HC; reflexivity|].
    eapply hops_one; [rewrite st_node_at by (try ops; lia); cbn [Nat.eqb Nat.add]|]; [|rewrite !app_length, len_node; lia].
    rewrite !app_length, len_node. replace (length x + length X + S (S (S (length (gbranch b None))))) with (length x + (length X + (3 + length (gbranch b None)))) by lia. reflexivity. }
  assert (FL : forall l, mkF (w && w_branch b && w_branch b2) false (sp || sp_branch b || sp_branch b2) = mkF ((w && w_branch b) && w_branch b2) false ((sp || sp_branch b) || sp_branch b2) /\
     mkF (w && w_branch b && w_alts l) false (sp || sp_branch b || sp_alts l) = mkF (w && w_alts (More b l)) false (sp || sp_alts (More b l))).
  { intro l. split; [reflexivity|]. cbn [w_alts sp_alts]. now rewrite andb_assoc, orb_assoc. }
  assert (OX : okc c z (length X + length (galts (One b) None None)) -> match pa_alts n b2 t1 np1 with
    | COk (l, t', np') => okc c z (length X2 + length (galts l None None)) -> forall d', exists d'', alts n (atc c r0) (st d' t1 np1 c z (X2 ++ galts (One b2) None None)) (mkF (w && w_branch b && w_branch b2) false (sp || sp_branch b || sp_branch b2)) = COk (st d'' t' np' c z (X2 ++ galts l None None), mkF (w && w_branch b && w_alts l) false (sp || sp_branch b || sp_alts l))
    | CFail => c = None -> forall d', alts n (atc c r0) (st d' t1 np1 c z (X2 ++ galts (One b2) None None)) (mkF (w && w_branch b && w_branch b2) false (sp || sp_branch b || sp_branch b2)) = CFail
    | CNoFuel => c = None -> forall d', alts n (atc c r0) (st d' t1 np1 c z (X2 ++ galts (One b2) None None)) (mkF (w && w_branch b && w_branch b2) false (sp || sp_branch b || sp_branch b2)) = CNoFuel
    | CUB => False end).
  { intro O. pose proof (fun d' => SA b2 d' t1 np1 c z X2 r0 (w && w_branch b)%bool (sp || sp_branch b)%bool N1 P1 Wb2 (HC2 O)) as R. cbv zeta in R.
    destruct (pa_alts n b2 t1 np1) as [[[l t'] np']| | |]; [intros O' d'; exact (R d' O')|intros C d'; exact (R d' C)|exact (R d)|intros C d'; exact (R d' C)]. }
  pose proof (pa_alts_len n b2 t1 np1) as PL.
  destruct (pa_alts n b2 t1 np1) as [[[l t2] np2]| | |] eqn:Q; cbn [cbind].
  - intro O. destruct (len_one_more b l) as [_ LM]. rewrite LM in O. specialize (PL _ _ _ eq_refl).
    destruct K as (d' & E); [rewrite app_length; eapply okc_le; [exact O|lia]|]. rewrite E. cbn [cbind].
    rewrite GO by (eapply okc_le; [exact O|lia]). cbn [cbind f_width f_sp].
    destruct (OX ltac:(eapply okc_le; [exact O|lia]) ltac:(rewrite LX; eapply okc_le; [exact O|lia]) d') as (d'' & E2). rewrite E2.
    exists d''. rewrite (proj2 (FL l)). unfold X2. cbn [galts plusk]. rewrite <- !app_assoc. reflexivity.
  - intro C. destruct K as (d' & E); [now apply okcN|]. rewrite E. cbn [cbind]. rewrite GO by now apply okcN. cbn [cbind f_width f_sp]. now rewrite (OX (okcN _ _ _ C) C d').
  - destruct c; [|exact (OX I)]. pose proof (SA b2 d t1 np1 None z X2 r0 w sp N1 P1 Wb2 ltac:(discriminate)) as R. cbv zeta in R. rewrite Q in R. exact R.
  - intro C. destruct K as (d' & E); [now apply okcN|]. rewrite E. cbn [cbind]. rewrite GO by now apply okcN. cbn [cbind f_width f_sp]. now rewrite (OX (okcN _ _ _ C) C d').
Qed.
Lemma SimReg_S : forall n, SimBranch n -> SimAlts n -> SimReg (S n).
Proof.
  intros n SB SA paren d t np c z X N P. cbn [pa_reg reg]. pose proof B64_big as BB.
  change (r_npar (st d t np c z X)) with np.
  destruct (paren && (NSUBEXP <=? np))%bool eqn:NG; [auto|].
  assert (NP : paren = true -> np < 10).
  { intros ->. cbn [andb] in NG. apply Nat.leb_gt in NG. exact NG. } clear NG.
  set (np0 := if paren then S np else np). assert (P0 : 1 <= np0) by (unfold np0; destruct paren; lia).
  set (X0 := if paren then X ++ node (oOPEN + np) 0 else X). set (X1 := if paren then X ++ node (oOPEN + np) 3 else X).
  set (hd := if paren then 3 else 0).
  assert (L0 : length X0 = length X + hd) by (unfold X0, hd; destruct paren; rewrite ?app_length, ?len_node; lia).
  assert (L1 : length X1 = length X + hd) by (unfold X1, hd; destruct paren; rewrite ?app_length, ?len_node; lia).
  (* the opening *)
  assert (OPEN : okc c z (length X + hd) -> (if paren then let* (s1, ret) := regnode (oOPEN + np) (mkR (r_done (st d t np c z X)) (r_rest (st d t np c z X)) (S np) (r_code (st d t np c z X)) (r_size (st d t np c z X))) in COk (s1, Some ret) else COk (st d t np c z X, None))
     = COk (st d t np0 c z X0, if paren then Some (atc c (length X)) else None)).
  { intro O. destruct paren; [|reflexivity]. change (mkR _ _ _ _ _) with (st d t (S np) c z X). rewrite regnode_st by exact O. reflexivity. }
  pose proof (SB d t np0 c z X0 N P0) as K. pose proof (proj1 (proj2 (proj2 (pa_wf n))) t np0) as W.
  destruct (pa_branch n t np0) as [[[b t1] np1]| | |]; cbn [cbind];
    [|intro C; rewrite OPEN by (now apply okcN); cbn [cbind]; rewrite (K C); reflexivity|exact K|intro C; rewrite OPEN by (now apply okcN); cbn [cbind]; rewrite (K C); reflexivity].
  destruct (W _ _ _ N P0 eq_refl) as (Wb & N1 & P1). clear W.
  assert (LINK : okc c z (length X + hd + length (galts (One b) None None)) -> forall d',
    match (if paren then Some (atc c (length X)) else None) with Some r => let* s3 := regtail r (atc c (length X0)) (st d' t1 np1 c z (X0 ++ galts (One b) None None)) in COk (s3, r) | None => COk (st d' t1 np1 c z (X0 ++ galts (One b) None None), atc c (length X0)) end
    = COk (st d' t1 np1 c z (X1 ++ galts (One b) None None), atc c (length X))).
  { intros O d'. destruct paren; [|reflexivity]. unfold X0, X1. rewrite <- !app_assoc. rewrite app_length, len_node.
    pose proof (regtail_st0 (fun k => node (oOPEN + np) (link k 3)) d' t1 np1 c z X (galts (One b) None None) (length X + 3) 0) as T. cbv beta in T. cbn [link] in T.
    specialize (NP eq_refl).
    rewrite T; [reflexivity|rewrite len_node; eapply okc_le; [exact O|unfold hd; lia]|reflexivity|intro; apply tailed_n0; ops|lia|rewrite len_node; lia]. }
  assert (HC : okc c z (length X + hd) -> forall x Y, c = Some x -> hops (x ++ X1 ++ Y) (length x + length X) (length x + length X1)).
  { intros O x Y ->. unfold X1 in *. destruct paren; [|apply h_refl]. specialize (NP eq_refl). rewrite <- app_assoc.
    eapply hops_one; [rewrite st_node_at by (try ops; lia); cbn [Nat.eqb]|]; [|rewrite app_length, len_node; lia]. rewrite app_length, len_node, Nat.add_assoc. reflexivity. }
  pose proof (pa_alts_len n b t1 np1) as PL. pose proof (proj1 (proj2 (pa_wf n)) b t1 np1) as W.
  pose proof (fun O d' => SA b d' t1 np1 c z X1 (length X) true false N1 P1 Wb (HC O)) as R. cbv zeta in R. cbn [andb orb] in R.
  destruct (pa_alts n b t1 np1) as [[[l t2] np2]| | |] eqn:Q; cbn [cbind].
  2: { intro C. destruct (K (okcN _ _ _ C)) as [d' E]. rewrite OPEN by (now apply okcN). cbn [cbind]. rewrite E. cbn [cbind].
       rewrite LINK by (now apply okcN). cbn [cbind f_width f_sp]. rewrite (R (okcN _ _ _ C) d' C). reflexivity. }
  2: { pose proof (SA b d t1 np1 None z X1 (length X) true false N1 P1 Wb ltac:(discriminate)) as R'. cbv zeta in R'. rewrite Q in R'. exact R'. }
  2: { intro C. destruct (K (okcN _ _ _ C)) as [d' E]. rewrite OPEN by (now apply okcN). cbn [cbind]. rewrite E. cbn [cbind].
       rewrite LINK by (now apply okcN). cbn [cbind f_width f_sp]. rewrite (R (okcN _ _ _ C) d' C). reflexivity. }
  destruct (W _ _ _ N1 P1 Wb eq_refl) as (Wl & N2 & P2). clear W. specialize (PL _ _ _ eq_refl).
  set (en := if paren then oCLOSE + np else oEND).
  assert (EN : en < 256 /\ en <> oBRANCH /\ en <> oBACK). { unfold en. destruct paren; [specialize (NP eq_refl)|]; split; ops. }
  destruct EN as (EN1 & EN2 & EN3).
  assert (CORE : okc c z (length X + hd + length (galts l None None) + 3) -> exists d',
     (let* (s1, open) := (if paren then let* (s1, ret) := regnode (oOPEN + np) (mkR (r_done (st d t np c z X)) (r_rest (st d t np c z X)) (S np) (r_code (st d t np c z X)) (r_size (st d t np c z X))) in COk (s1, Some ret) else COk (st d t np c z X, None)) in
      let* (s2, br, fl) := regbranch n s1 in
      let* (s3, ret) := (match open with Some r => let* s3 := regtail r br s2 in COk (s3, r) | None => COk (s2, br) end) in
      let* (s4, fl4) := alts n ret s3 (mkF (f_width fl) false (f_sp fl)) in
      let* (s5, ender) := regnode en s4 in
      let* s6 := regtail ret ender s5 in
      let* s7 := (match ret with Dummy => COk s6 | At a => optails (match r_code s6 with Some c => S (S (length c)) | None => 0 end) (Some a) ender s6 end) in
      if paren then (if Ascii.eqb (peek s7) ")" then COk (adv s7, ret, fl4) else CFail)
      else match r_rest s7 with [] => COk (s7, ret, fl4) | _ => CFail end)
     = let s7 := st d' t2 np2 c z (X1 ++ galts l (Some 0) (Some 0) ++ node en 0) in
       if paren then (if Ascii.eqb (peek s7) ")" then COk (adv s7, atc c (length X), mkF (w_alts l) false (sp_alts l)) else CFail)
       else match r_rest s7 with [] => COk (s7, atc c (length X), mkF (w_alts l) false (sp_alts l)) | _ => CFail end).
  { intro O. rewrite OPEN by (eapply okc_le; [exact O|lia]). cbn [cbind].
    destruct K as [d' E]; [rewrite L0; eapply okc_le; [exact O|lia]|]. rewrite E. cbn [cbind].
    rewrite LINK by (eapply okc_le; [exact O|lia]). cbn [cbind f_width f_sp].
    destruct (R ltac:(eapply okc_le; [exact O|lia]) d' ltac:(rewrite L1; eapply okc_le; [exact O|lia])) as [d2 E2]. rewrite E2. cbn [cbind].
    rewrite regnode_st by (rewrite app_length, L1; eapply okc_le; [exact O|lia]). cbn [cbind].
    rewrite <- !app_assoc, app_length, L1.
    pose proof (regtail_st (fun kb => galts l kb None) d2 t2 np2 c z X1 (node en 0) (length X) (length X + hd + length (galts l None None)) 0) as T. cbv beta in T.
    rewrite T; [|rewrite L1, len_node; exact O|intro; apply len_alts|intro; now apply tl_alts|lia|rewrite L1; lia|intros x Hx; apply HC; [eapply okc_le; [exact O|lia]|exact Hx]].
    clear T. cbn [cbind]. exists d2.
    assert (OT : (match atc c (length X) with Dummy => COk (st d2 t2 np2 c z (X1 ++ galts l (Some 0) None ++ node en 0)) | At a => optails (match r_code (st d2 t2 np2 c z (X1 ++ galts l (Some 0) None ++ node en 0)) with Some c => S (S (length c)) | None => 0 end) (Some a) (atc c (length X + hd + length (galts l None None))) (st d2 t2 np2 c z (X1 ++ galts l (Some 0) None ++ node en 0)) end)
      = COk (st d2 t2 np2 c z (X1 ++ galts l (Some 0) (Some 0) ++ node en 0))).
    { destruct c as [x|]; cbn [atc].
      2: { f_equal. apply st_len; [reflexivity|]. rewrite !app_length, (len_alts l (Some 0) (Some 0)), (len_alts l (Some 0) None). reflexivity. }
      cbn [okc] in O. unfold st at 1. cbn [r_code putc]. rewrite <- L1, !Nat.add_assoc.
      assert (FU : length (galts l None None) + 3 <= length (x ++ X1 ++ galts l (Some 0) None ++ node en 0)) by (rewrite !app_length, len_node, (len_alts l (Some 0) None); lia).
      unfold X1 in *. destruct paren; unfold hd in *.
      - specialize (NP eq_refl). cbn [optails]. rewrite <- !app_assoc.
        pose proof (regoptail_st (oOPEN + np) 3 d2 t2 np2 (Some x) z X (galts l (Some 0) None ++ node en 0) (At (length x + length (X ++ node (oOPEN + np) 3) + length (galts l None None))) ltac:(ops)) as R1. cbn [atc] in R1.
        rewrite R1. destruct (Nat.eqb_spec (oOPEN + np) oBRANCH); [exfalso; ops|]. cbn [cbind]. unfold st at 1. cbn [r_code putc].
        rewrite st_node_at by (try ops; lia). cbn [Nat.eqb].
        pose proof (optails_ok l (X ++ node (oOPEN + np) 3) d2 t2 np2 x z (S (length (x ++ X ++ node (oOPEN + np) 3 ++ galts l (Some 0) None ++ node en 0))) en) as OO.
        rewrite !app_length, !len_node in OO. rewrite !app_length, !len_node. rewrite <- !app_assoc, !Nat.add_assoc in OO. rewrite !Nat.add_assoc.
        apply OO; auto; rewrite ?(len_alts l (Some 0) None); lia.
      - apply optails_ok; auto; lia. }
    rewrite OT. reflexivity. }
  assert (GL : length (greg paren np l) = hd + length (galts l None None) + 3).
  { unfold greg, hd. destruct paren; cbn [gatom]; rewrite !app_length, !len_node, (len_alts l (Some 0) (Some 0)); lia. }
  assert (GE : X1 ++ galts l (Some 0) (Some 0) ++ node en 0 = X ++ greg paren np l).
  { unfold X1, greg, en. destruct paren; cbn [gatom link]; rewrite <- ?app_assoc; reflexivity. }
  fold en. rewrite GE in CORE.
  assert (FIN : match (if paren then (if Ascii.eqb (pk t2) ")" then COk (l, tl t2, np2) else CFail) else match t2 with [] => COk (l, [], np2) | _ => CFail end) with
     | COk (l', t', np') => l' = l /\ forall dd, exists d'', (let s7 := st dd t2 np2 c z (X ++ greg paren np l) in
       if paren then (if Ascii.eqb (peek s7) ")" then COk (adv s7, atc c (length X), mkF (w_alts l) false (sp_alts l)) else CFail)
       else match r_rest s7 with [] => COk (s7, atc c (length X), mkF (w_alts l) false (sp_alts l)) | _ => CFail end) = COk (st d'' t' np' c z (X ++ greg paren np l), atc c (length X), mkF (w_alts l) false (sp_alts l))
     | CFail => forall dd, (let s7 := st dd t2 np2 c z (X ++ greg paren np l) in
       if paren then (if Ascii.eqb (peek s7) ")" then COk (adv s7, atc c (length X), mkF (w_alts l) false (sp_alts l)) else CFail)
       else match r_rest s7 with [] => COk (s7, atc c (length X), mkF (w_alts l) false (sp_alts l)) | _ => CFail end) = CFail
     | _ => False end).
  { cbv zeta. destruct paren.
    - destruct (Ascii.eqb (pk t2) ")") eqn:PP.
      + split; [reflexivity|]. intro dd. rewrite peek_st, PP. destruct (adv_st' dd t2 np2 c z (X ++ greg true np l)) as [d'' ->]. eauto.
      + intro dd. rewrite peek_st, PP. reflexivity.
    - destruct t2; [split; [reflexivity|]; intro dd; exists dd; reflexivity|intro dd; reflexivity]. }
  destruct (if paren then (if Ascii.eqb (pk t2) ")" then COk (l, tl t2, np2) else CFail) else match t2 with [] => COk (l, [], np2) | _ => CFail end) as [[[l' t'] np']| | |]; try contradiction.
  - destruct FIN as [-> FIN]. intro O. rewrite GL in O. destruct CORE as [d' E]; [eapply okc_le; [exact O|lia]|]. rewrite E. apply FIN.
  - intro C. destruct CORE as [d' E]; [now apply okcN|]. rewrite E. apply FIN.
Qed.
Lemma sim_all : forall n, SimReg n /\ SimAlts n /\ SimBranch n /\ SimPieces0 n /\ SimPieces1 n /\ SimPiece n /\ SimAtom n.
Proof.
  induction n as [|n (IR & IA & IB & I0 & I1 & IP & IT)].
  - repeat split; repeat intro; reflexivity.
  - repeat apply conj; auto using SimReg_S, SimAlts_S, SimBranch_S, SimPieces0_S, SimPieces1_S, SimPiece_S, SimAtom_S.
Qed.
