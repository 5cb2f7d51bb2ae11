(** RegexLayout.v -- the nodes of a program as a relation on positions. *)
From Coq Require Import List Ascii Bool Arith Lia.
Import ListNotations.
From Verif Require Import Base RegexModel RegexSpec RegexAst RegexGen RegexSim3 RegexCompile.

Section Code.
Context (code : str).
Definition is_node (p op : nat) (nx : option nat) : Prop := node_at code p = Some (op, nx).
(** [at_x x p q]: the nodes of x begin at p and lead to q. *)
Fixpoint at_atom (a : atom) (p : nat) (q : option nat) : Prop :=
  match a with
  | ABol => is_node p oBOL q
  | AEol => is_node p oEOL q
  | AAny => is_node p oANY q
  | ACls neg em _ => is_node p (if neg then oANYBUT else oANYOF) q /\ c_string code (p + 3) = Some em
  | ALit s => is_node p oEXACTLY q /\ c_string code (p + 3) = Some s
  | AGrp n l => exists c, is_node p (oOPEN + n) (Some (p + 3)) /\ at_alts l (p + 3) c /\ is_node c (oCLOSE + n) q
  end
with at_piece (x : piece) (p : nat) (q : option nat) : Prop :=
  match x with
  | PAtom a => at_atom a p q
  | PStar a => if simple a then is_node p oSTAR q /\ at_atom a (p + 3) None
               else exists b k, is_node p oBRANCH (Some b) /\ at_atom a (p + 3) (Some k) /\ is_node k oBACK (Some p) /\ is_node b oBRANCH (Some (b + 3)) /\ is_node (b + 3) oNOTHING q /\ p < b
  | PPlus a => if simple a then is_node p oPLUS q /\ at_atom a (p + 3) None
               else exists b c, at_atom a p (Some b) /\ is_node b oBRANCH (Some c) /\ is_node (b + 3) oBACK (Some p) /\ is_node c oBRANCH (Some (c + 3)) /\ is_node (c + 3) oNOTHING q /\ b < c
  | POpt a => exists b k, is_node p oBRANCH (Some b) /\ at_atom a (p + 3) (Some k) /\ is_node b oBRANCH (Some (b + 3)) /\ k = b + 3 /\ is_node (b + 3) oNOTHING q /\ p < b
  end
with at_branch (b : branch) (p : nat) (q : option nat) : Prop :=
  match b with
  | BNil => is_node p oNOTHING q
  | BCons x b => match b with BNil => at_piece x p q | BCons _ _ => exists m, at_piece x p (Some m) /\ at_branch b m q end
  end
with at_alts (l : alts_t) (p : nat) (q : nat) : Prop :=
  match l with
  | One b => is_node p oBRANCH (Some q) /\ at_branch b (p + 3) (Some q)
  | More b l => exists m, is_node p oBRANCH (Some m) /\ at_branch b (p + 3) (Some q) /\ at_alts l m q /\ p < m
  end.
End Code.

(** The program texts have these layouts. *)
Lemma is_node_eq : forall code pre op off Y p q, code = pre ++ node op off ++ Y -> p = length pre -> op < 256 -> op <> oBACK -> off < B64 -> q = (if off =? 0 then None else Some (p + off)) -> is_node code p op q.
Proof. intros code pre op off Y p q -> -> H1 H2 H3 ->. unfold is_node. now apply node_at_node. Qed.
Lemma is_node_some : forall code pre op off Y p q, code = pre ++ node op off ++ Y -> p = length pre -> op < 256 -> op <> oBACK -> off < B64 -> 0 < off -> q = p + off -> is_node code p op (Some q).
Proof. intros. eapply is_node_eq; eauto. destruct (Nat.eqb_spec off 0); [lia|congruence]. Qed.
Lemma is_back : forall code pre off Y p q, code = pre ++ node oBACK off ++ Y -> p = length pre -> off < B64 -> 0 < off -> off <= p -> q = p - off -> is_node code p oBACK (Some q).
Proof. intros. subst. unfold is_node. now apply node_at_back. Qed.
Definition lk (k : option nat) (p len : nat) : option nat := match k with None => None | Some d => Some (p + len + d) end.
Lemma link_node : forall code pre op k len Y p q, code = pre ++ node op (link k len) ++ Y -> p = length pre -> op < 256 -> op <> oBACK -> (match k with None => True | Some d => len + d < B64 end) -> 0 < len -> q = lk k p len -> is_node code p op q.
Proof.
  intros code pre op k len Y p q E1 E2 H1 H2 H3 H4 ->. pose proof B64_big. eapply is_node_eq; eauto.
  - destruct k; cbn [link]; lia.
  - destruct k as [d|]; cbn [link lk]; [|reflexivity]. destruct (Nat.eqb_spec (len + d) 0); [lia|]. f_equal. lia.
Qed.
Definition fits (k : option nat) (n : nat) : Prop := match k with None => n < B64 | Some d => n + d < B64 end.
Lemma layout :
  (forall a, wf_atom a -> forall code pre Y k, code = pre ++ gatom a k ++ Y -> fits k (length (gatom a None)) -> at_atom code a (length pre) (lk k (length pre) (length (gatom a None)))) /\
  (forall x, wf_piece x -> forall code pre Y k, code = pre ++ gpiece x k ++ Y -> fits k (length (gpiece x None)) -> at_piece code x (length pre) (lk k (length pre) (length (gpiece x None)))) /\
  (forall b, wf_branch b -> forall code pre Y k, code = pre ++ gbranch b k ++ Y -> fits k (length (gbranch b None)) -> at_branch code b (length pre) (lk k (length pre) (length (gbranch b None)))) /\
  (forall l, wf_alts l -> forall code pre Y, code = pre ++ galts l (Some 0) (Some 0) ++ Y -> length (galts l None None) < B64 -> at_alts code l (length pre) (length pre + length (galts l None None))).
Proof.
  pose proof B64_big as BB.
  assert (FK : forall k n, fits k n -> n < B64) by (intros [d|] n H; cbn in H; lia).
  assert (FM : forall k n, fits k n -> match k with None => True | Some d => n + d < B64 end) by (intros [d|] n H; cbn in *; auto).
  apply ast_ind.
  - intros _ code pre Y k E F. cbn [gatom at_atom] in *. rewrite len_node in *. eapply link_node; [exact E|reflexivity|ops|ops|now apply FM|lia|reflexivity].
  - intros _ code pre Y k E F. cbn [gatom at_atom] in *. rewrite len_node in *. eapply link_node; [exact E|reflexivity|ops|ops|now apply FM|lia|reflexivity].
  - intros _ code pre Y k E F. cbn [gatom at_atom] in *. rewrite len_node in *. eapply link_node; [exact E|reflexivity|ops|ops|now apply FM|lia|reflexivity].
  - intros neg em cs W code pre Y k E F. cbn [gatom at_atom wf_atom] in *. rewrite (app_length (node _ _)), len_node in F. rewrite (app_length (node _ _)), len_node. rewrite <- app_assoc in E. split.
    + eapply link_node; [exact E|reflexivity|destruct neg; ops|destruct neg; ops|now apply FM|lia|reflexivity].
    + rewrite E. rewrite app_assoc, <- (app_assoc em). apply c_string_at; [tauto|]. rewrite app_length, len_node. reflexivity.
  - intros t W code pre Y k E F. cbn [gatom at_atom wf_atom] in *. rewrite (app_length (node _ _)), len_node in F. rewrite (app_length (node _ _)), len_node. rewrite <- app_assoc in E. split.
    + eapply link_node; [exact E|reflexivity|ops|ops|now apply FM|lia|reflexivity].
    + rewrite E. rewrite app_assoc, <- (app_assoc t). apply c_string_at; [tauto|]. rewrite app_length, len_node. reflexivity.
  - intros n l IH [W1 W2] code pre Y k E F. cbn [gatom at_atom wf_atom] in *. rewrite !app_length, !len_node, (len_alts l (Some 0) (Some 0)) in *.
    pose proof (FK _ _ F). exists (length pre + 3 + length (galts l None None)). split; [|split].
    + eapply (is_node_some code pre _ 3); [rewrite E, <- app_assoc; reflexivity|reflexivity|ops|ops|lia|lia|reflexivity].
    + replace (length pre + 3) with (length (pre ++ node (oOPEN + n) 3)) by (rewrite app_length, len_node; lia). eapply IH; [exact W2|rewrite E; asc|lia].
    + eapply (link_node code (pre ++ node (oOPEN + n) 3 ++ galts l (Some 0) (Some 0)) _ k 3); [rewrite E; asc|rewrite !app_length, len_node, (len_alts l (Some 0) (Some 0)); lia|ops|ops| |lia|].
      * apply FM in F. destruct k; [lia|exact I].
      * destruct k; cbn [lk]; f_equal; lia.
  - intros a IH W code pre Y k E F. cbn [gpiece at_piece wf_piece] in *. now apply IH with Y.
  - intros a IH W code pre Y k E F. cbn [gpiece at_piece wf_piece] in *. destruct W as (W & Ww & Wl). destruct (simple a) eqn:Sa.
    + rewrite (app_length (node _ _)), len_node in *. rewrite <- app_assoc in E. split.
      * eapply link_node; [exact E|reflexivity|ops|ops|now apply FM|lia|reflexivity].
      * replace (length pre + 3) with (length (pre ++ node oSTAR (link k (3 + length (gatom a None))))) by (rewrite app_length, len_node; lia).
        apply (IH W code _ Y None); [rewrite E; asc|cbn; apply FK in F; lia].
    + rewrite !app_length, !len_node in *. pose proof (FK _ _ F) as F0. rewrite (len_atom a (Some 0)) in *. set (La := length (gatom a None)) in *.
      exists (length pre + (3 + La + 3)), (length pre + 3 + La). split; [|split; [|split; [|split; [|split]]]].
      * eapply (is_node_some code pre _ (3 + La + 3)); [rewrite E, <- app_assoc; reflexivity|reflexivity|ops|ops|lia|lia|reflexivity].
      * pose proof (IH W code (pre ++ node oBRANCH (3 + La + 3)) (node oBACK (La + 3) ++ node oBRANCH 3 ++ node oNOTHING (link k 3) ++ Y) (Some 0)) as Q. rewrite app_length, len_node in Q. fold La in Q. cbn [lk fits] in Q. rewrite !Nat.add_0_r in Q. apply Q; [rewrite E; asc|lia].
      * eapply (is_back code (pre ++ node oBRANCH (3 + La + 3) ++ gatom a (Some 0)) (La + 3)); [rewrite E; asc|rewrite !app_length, len_node, (len_atom a (Some 0)); fold La; lia|lia|lia|lia|lia].
      * eapply (is_node_some code (pre ++ node oBRANCH (3 + La + 3) ++ gatom a (Some 0) ++ node oBACK (La + 3)) _ 3); [rewrite E; asc|rewrite !app_length, !len_node, (len_atom a (Some 0)); fold La; lia|ops|ops|lia|lia|lia].
      * eapply (link_node code (pre ++ node oBRANCH (3 + La + 3) ++ gatom a (Some 0) ++ node oBACK (La + 3) ++ node oBRANCH 3) _ k 3); [rewrite E; asc|rewrite !app_length, !len_node, (len_atom a (Some 0)); fold La; lia|ops|ops|apply FM in F; destruct k; [lia|exact I]|lia|destruct k; cbn [lk]; f_equal; lia].
      * lia.
  - intros a IH W code pre Y k E F. cbn [gpiece at_piece wf_piece] in *. destruct W as (W & Ww & Wl). destruct (simple a) eqn:Sa.
    + rewrite (app_length (node _ _)), len_node in *. rewrite <- app_assoc in E. split.
      * eapply link_node; [exact E|reflexivity|ops|ops|now apply FM|lia|reflexivity].
      * replace (length pre + 3) with (length (pre ++ node oPLUS (link k (3 + length (gatom a None))))) by (rewrite app_length, len_node; lia).
        apply (IH W code _ Y None); [rewrite E; asc|cbn; apply FK in F; lia].
    + rewrite !app_length, !len_node in *. pose proof (FK _ _ F) as F0. rewrite (len_atom a (Some 0)) in *. set (La := length (gatom a None)) in *.
      exists (length pre + La), (length pre + La + 6). split; [|split; [|split; [|split; [|split]]]].
      * pose proof (IH W code pre (node oBRANCH 6 ++ node oBACK (La + 3) ++ node oBRANCH 3 ++ node oNOTHING (link k 3) ++ Y) (Some 0)) as Q. fold La in Q. cbn [lk fits] in Q. rewrite !Nat.add_0_r in Q. apply Q; [rewrite E; asc|lia].
      * eapply (is_node_some code (pre ++ gatom a (Some 0)) _ 6); [rewrite E; asc|rewrite !app_length, (len_atom a (Some 0)); reflexivity|ops|ops|lia|lia|lia].
      * eapply (is_back code (pre ++ gatom a (Some 0) ++ node oBRANCH 6) (La + 3)); [rewrite E; asc|rewrite !app_length, len_node, (len_atom a (Some 0)); fold La; lia|lia|lia|lia|lia].
      * eapply (is_node_some code (pre ++ gatom a (Some 0) ++ node oBRANCH 6 ++ node oBACK (La + 3)) _ 3); [rewrite E; asc|rewrite !app_length, !len_node, (len_atom a (Some 0)); fold La; lia|ops|ops|lia|lia|lia].
      * eapply (link_node code (pre ++ gatom a (Some 0) ++ node oBRANCH 6 ++ node oBACK (La + 3) ++ node oBRANCH 3) _ k 3); [rewrite E; asc|rewrite !app_length, !len_node, (len_atom a (Some 0)); fold La; lia|ops|ops|apply FM in F; destruct k; [lia|exact I]|lia|destruct k; cbn [lk]; f_equal; lia].
      * lia.
  - intros a IH W code pre Y k E F. cbn [gpiece at_piece wf_piece] in *. destruct W as (W & Wl).
    rewrite !app_length, !len_node in *. pose proof (FK _ _ F) as F0. rewrite (len_atom a (Some 3)) in *. set (La := length (gatom a None)) in *.
    exists (length pre + (3 + La)), (length pre + (3 + La) + 3). split; [|split; [|split; [|split; [|split]]]].
    * eapply (is_node_some code pre _ (3 + La)); [rewrite E, <- app_assoc; reflexivity|reflexivity|ops|ops|lia|lia|reflexivity].
    * pose proof (IH W code (pre ++ node oBRANCH (3 + La)) (node oBRANCH 3 ++ node oNOTHING (link k 3) ++ Y) (Some 3)) as Q. rewrite app_length, len_node in Q. fold La in Q. cbn [lk fits] in Q. replace (length pre + (3 + La) + 3) with (length pre + 3 + La + 3) by lia. apply Q; [rewrite E; asc|lia].
    * eapply (is_node_some code (pre ++ node oBRANCH (3 + La) ++ gatom a (Some 3)) _ 3); [rewrite E; asc|rewrite !app_length, !len_node, (len_atom a (Some 3)); fold La; lia|ops|ops|lia|lia|lia].
    * reflexivity.
    * eapply (link_node code (pre ++ node oBRANCH (3 + La) ++ gatom a (Some 3) ++ node oBRANCH 3) _ k 3); [rewrite E; asc|rewrite !app_length, !len_node, (len_atom a (Some 3)); fold La; lia|ops|ops|apply FM in F; destruct k; [lia|exact I]|lia|destruct k; cbn [lk]; f_equal; lia].
    * lia.
  - intros _ code pre Y k E F. cbn [gbranch at_branch] in *. rewrite len_node in *. eapply link_node; [exact E|reflexivity|ops|ops|now apply FM|lia|reflexivity].
  - intros x IHx b IHb [Wx Wb] code pre Y k E F. destruct b as [|x' b']; [cbn [gbranch at_branch] in *; exact (IHx Wx code pre Y k E F)|].
    set (b := BCons x' b') in *. change (gbranch (BCons x b) k) with (gpiece x (Some 0) ++ gbranch b k) in E. change (gbranch (BCons x b) None) with (gpiece x (Some 0) ++ gbranch b None) in *.
    change (at_branch code (BCons x b)) with (fun p q => exists m, at_piece code x p (Some m) /\ at_branch code b m q). cbv beta. rewrite app_length, (len_piece x (Some 0)) in *.
    exists (length pre + length (gpiece x None)). split.
    + pose proof (IHx Wx code pre (gbranch b k ++ Y) (Some 0)) as Q. cbn [lk fits] in Q. rewrite !Nat.add_0_r in Q. apply Q; [rewrite E; asc|apply FK in F; lia].
    + pose proof (IHb Wb code (pre ++ gpiece x (Some 0)) Y k) as Q. rewrite app_length, (len_piece x (Some 0)) in Q.
      replace (lk k (length pre) (length (gpiece x None) + length (gbranch b None))) with (lk k (length pre + length (gpiece x None)) (length (gbranch b None))) by (destruct k; cbn [lk]; f_equal; lia).
      apply Q; [rewrite E; asc|]. destruct k; cbn [fits] in *; lia.
  - intros b IH W code pre Y E F. cbn [galts at_alts link wf_alts] in *. rewrite app_length, len_node in *. split.
    + eapply (is_node_some code pre _ (3 + length (gbranch b None) + 0)); [rewrite E; asc|reflexivity|ops|ops|lia|lia|lia].
    + pose proof (IH W code (pre ++ node oBRANCH (3 + length (gbranch b None) + 0)) Y (Some 0)) as Q. rewrite app_length, len_node in Q. cbn [lk fits] in Q. rewrite !Nat.add_0_r in Q. rewrite Nat.add_assoc. apply Q; [rewrite E, ?Nat.add_0_r; asc|lia].
  - intros b IHb l IHl [Wb Wl] code pre Y E F. cbn [galts at_alts link plusk wf_alts] in *. rewrite !app_length, len_node in *. set (Lb := length (gbranch b None)) in *. set (Ll := length (galts l None None)) in *.
    exists (length pre + (3 + Lb)). split; [|split; [|split]].
    + eapply (is_node_some code pre _ (3 + Lb)); [rewrite E; asc|reflexivity|ops|ops|lia|lia|lia].
    + pose proof (IHb Wb code (pre ++ node oBRANCH (3 + Lb)) (galts l (Some 0) (Some 0) ++ Y) (Some (Ll + 0))) as Q. rewrite app_length, len_node in Q. cbn [lk fits] in Q. fold Lb in Q. replace (length pre + (3 + (Lb + Ll))) with (length pre + 3 + Lb + (Ll + 0)) by lia. apply Q; [rewrite E; asc|lia].
    + pose proof (IHl Wl code (pre ++ node oBRANCH (3 + Lb) ++ gbranch b (Some (Ll + 0))) Y) as Q. rewrite !app_length, len_node, (len_branch b (Some (Ll + 0))) in Q. fold Lb Ll in Q. replace (length pre + (3 + (Lb + Ll))) with (length pre + (3 + Lb) + Ll) by lia. apply Q; [rewrite E; asc|lia].
    + lia.
Qed.
