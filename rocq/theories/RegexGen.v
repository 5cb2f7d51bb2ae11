(** RegexGen.v -- nodes, chains of next pointers, and regtail on the program
    texts of RegexAst. *)
From Coq Require Import List Ascii Bool Arith Lia.
Import ListNotations.
From Verif Require Import Base RegexModel RegexSpec RegexAst.

Lemma B64_ex : { n | n = 256 * 256 }. Proof. eexists. reflexivity. Qed.
Definition B64 := proj1_sig B64_ex.
Lemma B64_eq : B64 = 256 * 256. Proof. exact (proj2_sig B64_ex). Qed.
Lemma nat_byte : forall n, n < 256 -> nat_of_ascii (byte n) = n.
Proof. intros n H. apply nat_ascii_embedding. exact H. Qed.
Lemma byte_nat : forall c, byte (nat_of_ascii c) = c.
Proof. intro c. apply ascii_nat_embedding. Qed.
Lemma nat_lt256 : forall c, nat_of_ascii c < 256.
Proof. intro c. apply nat_ascii_bounded. Qed.
Lemma decode : forall off, off < B64 -> nat_of_ascii (byte (off / 256 mod 256)) * 256 + nat_of_ascii (byte (off mod 256)) = off.
Proof.
  intros off H. rewrite B64_eq in H.
  pose proof (Nat.mod_upper_bound (off / 256) 256) as A. pose proof (Nat.mod_upper_bound off 256) as B.
  rewrite !nat_byte by lia. rewrite (Nat.mod_small (off / 256)).
  - rewrite (Nat.div_mod off 256) at 3 by lia. lia.
  - apply Nat.div_lt_upper_bound; lia.
Qed.
Lemma nth_pre : forall (A B : str) n, nth_error (A ++ B) (length A + n) = nth_error B n.
Proof. intros. rewrite nth_error_app2 by lia. f_equal. lia. Qed.
Lemma nth_pre0 : forall (A B : str), nth_error (A ++ B) (length A) = nth_error B 0.
Proof. intros. rewrite nth_error_app2 by lia. f_equal. lia. Qed.

(** Reading a node. *)
Lemma node_at_node : forall pre op off Y, op < 256 -> op <> oBACK -> off < B64 ->
  node_at (pre ++ node op off ++ Y) (length pre) = Some (op, if off =? 0 then None else Some (length pre + off)).
Proof.
  intros pre op off Y Ho Hb Hf. unfold node_at.
  rewrite nth_pre0, !nth_pre. cbn [node app nth_error].
  rewrite decode by exact Hf. rewrite nat_byte by exact Ho.
  destruct (off =? 0); [reflexivity|]. destruct (Nat.eqb_spec op oBACK); [contradiction|reflexivity].
Qed.
Lemma node_at_back : forall pre off Y, off < B64 -> 0 < off -> off <= length pre ->
  node_at (pre ++ node oBACK off ++ Y) (length pre) = Some (oBACK, Some (length pre - off)).
Proof.
  intros pre off Y Hf H0 Hl. unfold node_at.
  rewrite nth_pre0, !nth_pre. cbn [node app nth_error].
  rewrite decode by exact Hf. rewrite nat_byte by (unfold oBACK; lia).
  destruct (Nat.eqb_spec off 0); [lia|]. rewrite Nat.eqb_refl.
  destruct (Nat.leb_spec off (length pre)); [reflexivity|lia].
Qed.
Lemma node_at_back0 : forall pre Y, node_at (pre ++ node oBACK 0 ++ Y) (length pre) = Some (oBACK, None).
Proof. intros. unfold node_at. rewrite nth_pre0, !nth_pre. reflexivity. Qed.
Lemma lupd_app2 : forall {T} (A B : list T) n x, lupd (A ++ B) (length A + n) x = A ++ lupd B n x.
Proof. intros T A B n x. induction A as [|a A IH]; [reflexivity|]. cbn. f_equal. exact IH. Qed.
Lemma set_next_node : forall pre op Y old off, set_next (pre ++ node op old ++ Y) (length pre) off = pre ++ node op off ++ Y.
Proof.
  intros. unfold set_next. rewrite lupd_app2. rewrite lupd_app2. cbn [node app].
  reflexivity.
Qed.

(** Forward chains. *)
Inductive hops (code : str) : nat -> nat -> Prop :=
| h_refl p : hops code p p
| h_step p o q r : node_at code p = Some (o, Some q) -> p < q -> hops code q r -> hops code p r.
Lemma hops_trans : forall code p q r, hops code p q -> hops code q r -> hops code p r.
Proof. intros code p q r H. induction H; intro K; [exact K|]. eapply h_step; eauto. Qed.
Lemma hops_le : forall code p q, hops code p q -> p <= q.
Proof. intros code p q H. induction H; lia. Qed.
Lemma hops_one : forall code p o q, node_at code p = Some (o, Some q) -> p < q -> hops code p q.
Proof. intros. eapply h_step; eauto. apply h_refl. Qed.
Lemma node_at_lt : forall code p x, node_at code p = Some x -> p + 2 < length code.
Proof.
  intros code p x H. unfold node_at in H.
  destruct (nth_error code p); [|discriminate]. destruct (nth_error code (p + 1)); [|discriminate].
  destruct (nth_error code (p + 2)) eqn:E; [|discriminate]. apply nth_error_Some. congruence.
Qed.
Lemma last_hops : forall code p q o, hops code p q -> node_at code q = Some (o, None) ->
  forall n, q - p < n -> last_node n code p = COk (q, o).
Proof.
  intros code p q o H N. induction H as [p|p o' q r S1 L H IH]; intros n Hn.
  - destruct n; [lia|]. cbn [last_node]. now rewrite N.
  - destruct n; [lia|]. cbn [last_node]. rewrite S1. apply IH; [exact N|]. pose proof (hops_le _ _ _ H). lia.
Qed.

(** Texts with one open next pointer at the end of the chain. *)
Definition tailed (f : option nat -> str) : Prop :=
  exists A op B, op <> oBACK /\ op < 256 /\ (forall k, f k = A ++ node op (link k (3 + length B)) ++ B) /\
    forall pre Y, hops (pre ++ A ++ Y) (length pre) (length pre + length A).
Lemma tailed_len : forall f k, tailed f -> length (f k) = length (f None).
Proof. intros f k (A & op & B & _ & _ & E & _). rewrite !E, !app_length, !len_node. reflexivity. Qed.
Lemma tailed_hops : forall f, tailed f -> forall pre d Y, length (f None) + d < B64 ->
  hops (pre ++ f (Some d) ++ Y) (length pre) (length pre + length (f None) + d).
Proof.
  intros f (A & op & B & Nb & Lo & E & H) pre d Y Hl.
  rewrite !E in *. rewrite !app_length, len_node in Hl. rewrite !app_length, len_node.
  eapply hops_trans.
  - rewrite <- !app_assoc. apply (H pre).
  - eapply hops_one.
    + replace (pre ++ (A ++ node op (link (Some d) (3 + length B)) ++ B) ++ Y) with ((pre ++ A) ++ node op (link (Some d) (3 + length B)) ++ B ++ Y) by (rewrite <- !app_assoc; reflexivity).
      rewrite <- app_length. rewrite node_at_node; [|exact Lo|exact Nb|cbn [link]; lia].
      cbn [link]. destruct (Nat.eqb_spec (3 + length B + d) 0); [lia|]. rewrite app_length.
      replace (length pre + length A + (3 + length B + d)) with (length pre + (length A + (3 + length B)) + d) by lia. reflexivity.
    + lia.
Qed.
Lemma hops_tail : forall f, tailed f -> forall pre k Y, exists A op B, op <> oBACK /\ op < 256 /\ f k = A ++ node op (link k (3 + length B)) ++ B /\ (f (None) = A ++ node op 0 ++ B) /\
   (forall d, f (Some d) = A ++ node op (3 + length B + d) ++ B) /\ hops (pre ++ f k ++ Y) (length pre) (length pre + length A).
Proof.
  intros f (A & op & B & Nb & Lo & E & H) pre k Y. exists A, op, B. repeat split; auto.
  - apply (E None). - intro d. apply (E (Some d)). - rewrite E, <- !app_assoc. apply H.
Qed.
(** regtail from any point of a chain that leads to the text. *)
Lemma regtail_at : forall f s r0 pre Y v d, tailed f -> r_code s = Some (pre ++ f None ++ Y) -> hops (pre ++ f None ++ Y) r0 (length pre) ->
  v = length pre + length (f None) + d -> length (f None) + d < B64 ->
  regtail (At r0) (At v) s = COk (with_code s (Some (pre ++ f (Some d) ++ Y)) (r_size s)).
Proof.
  intros f s r0 pre Y v d T C H0 V Hl. destruct (hops_tail f T pre None Y) as (A & op & B & Nb & Lo & E & EN & ES & H).
  pose proof (hops_trans _ _ _ _ H0 H) as H1. clear E. rewrite EN in *. rewrite ES.
  rewrite !app_length, len_node in *.
  assert (R : forall x, pre ++ (A ++ node op x ++ B) ++ Y = (pre ++ A) ++ node op x ++ B ++ Y) by (intro; rewrite <- !app_assoc; reflexivity).
  rewrite R in H1, C. rewrite R.
  assert (N : node_at ((pre ++ A) ++ node op 0 ++ B ++ Y) (length (pre ++ A)) = Some (op, None)) by (apply node_at_node; [exact Lo|exact Nb|pose proof B64_eq; lia]).
  unfold regtail. rewrite C.
  rewrite app_length in N.
  pose proof (hops_le _ _ _ H1).
  rewrite (last_hops _ _ _ _ H1 N) by (pose proof (node_at_lt _ _ _ N); lia).
  cbn [cbind]. destruct (Nat.eqb_spec op oBACK); [contradiction|].
  destruct (Nat.leb_spec (length pre + length A) v); [|lia].
  rewrite <- app_length, set_next_node. rewrite app_length. do 4 f_equal. f_equal. f_equal. lia.
Qed.
Lemma regtail_ok : forall f s pre Y v d, tailed f -> r_code s = Some (pre ++ f None ++ Y) ->
  v = length pre + length (f None) + d -> length (f None) + d < B64 ->
  regtail (At (length pre)) (At v) s = COk (with_code s (Some (pre ++ f (Some d) ++ Y)) (r_size s)).
Proof. intros. eapply regtail_at; eauto. apply h_refl. Qed.

(** A single open node. *)
Lemma tailed_node : forall op, op <> oBACK -> op < 256 -> forall B, tailed (fun k => node op (link k (3 + length B)) ++ B).
Proof. intros op Nb Lo B. exists [], op, B. repeat split; auto. intros. cbn. rewrite Nat.add_0_r. apply h_refl. Qed.
Lemma tailed_ext : forall f g, (forall k, f k = g k) -> tailed f -> tailed g.
Proof. intros f g E (A & op & B & Nb & Lo & F & H). exists A, op, B. repeat split; auto. intro k. rewrite <- E. apply F. Qed.
Lemma tailed_app : forall h f d, tailed h -> tailed f -> length (h None) + d < B64 -> forall M, length M = d -> tailed (fun k => h (Some d) ++ M ++ f k).
Proof.
  intros h f d Th Tf Hl M HM. pose proof Tf as (A & op & B & Nb & Lo & F & H).
  exists (h (Some d) ++ M ++ A), op, B. repeat split; auto.
  - intro k. rewrite F, <- !app_assoc. reflexivity.
  - intros pre Y. eapply hops_trans.
    + rewrite <- !app_assoc. apply (tailed_hops h Th pre d (M ++ A ++ Y) Hl).
    + pose proof (H (pre ++ h (Some d) ++ M) Y) as G. rewrite <- !app_assoc in G. rewrite <- !app_assoc.
      rewrite !app_length in *. rewrite (tailed_len h (Some d) Th) in *. rewrite HM in *.
      replace (length pre + length (h None) + d) with (length pre + (length (h None) + d)) by lia.
      replace (length pre + (length (h None) + (d + length A))) with (length pre + (length (h None) + d) + length A) by lia. exact G.
Qed.
Lemma tailed_app0 : forall h f, tailed h -> tailed f -> length (h None) < B64 -> tailed (fun k => h (Some 0) ++ f k).
Proof. intros h f Th Tf Hl. refine (tailed_app h f 0 Th Tf _ [] eq_refl). lia. Qed.

Lemma tailed_n0 : forall op, op <> oBACK -> op < 256 -> tailed (fun k => node op (link k 3)).
Proof. intros op A B. apply (tailed_ext (fun k => node op (link k (3 + length ([] : str))) ++ [])). { intro. rewrite app_nil_r. reflexivity. } now apply tailed_node. Qed.

Fixpoint wf_atom (a : atom) : Prop :=
  match a with
  | ACls _ em cs => (forall c, in_set em c = existsb (fun '(lo, hi) => (nat_of_ascii lo <=? nat_of_ascii c) && (nat_of_ascii c <=? nat_of_ascii hi))%bool cs) /\ ~ In NUL em
  | ALit s => s <> [] /\ ~ In NUL s
  | AGrp n l => 1 <= n <= 9 /\ wf_alts l
  | _ => True
  end
with wf_piece (p : piece) : Prop :=
  match p with
  | PAtom a => wf_atom a
  | PStar a | PPlus a => wf_atom a /\ w_atom a = true /\ (forall s, a = ALit s -> length s = 1)
  | POpt a => wf_atom a /\ (forall s, a = ALit s -> length s = 1)
  end
with wf_branch (b : branch) : Prop := match b with BNil => True | BCons p b => wf_piece p /\ wf_branch b end
with wf_alts (l : alts_t) : Prop := match l with One b => wf_branch b | More b l => wf_branch b /\ wf_alts l end.

Ltac ops := unfold oBOL, oEOL, oANY, oANYOF, oANYBUT, oBRANCH, oBACK, oEXACTLY, oNOTHING, oSTAR, oPLUS, oOPEN, oCLOSE, oEND in *; try discriminate; lia.
Lemma tailed_alts_all :
  (forall a, wf_atom a -> length (gatom a None) < B64 -> tailed (gatom a)) /\ (forall p, wf_piece p -> length (gpiece p None) < B64 -> tailed (gpiece p)) /\
  (forall b, wf_branch b -> length (gbranch b None) < B64 -> tailed (gbranch b)) /\ (forall l, wf_alts l -> length (galts l None None) < B64 -> forall kc, tailed (fun kb => galts l kb kc)).
Proof.
  assert (B64E : 100 < B64) by (rewrite B64_eq; lia).
  apply ast_ind.
  - intros _ _. apply (tailed_n0 oBOL); ops.
  - intros _ _. apply (tailed_n0 oEOL); ops.
  - intros _ _. apply (tailed_n0 oANY); ops.
  - intros neg em cs _ _. cbn [gatom]. apply tailed_node; destruct neg; ops.
  - intros s _ _. cbn [gatom]. apply tailed_node; ops.
  - intros n l IH [W1 W2] Hl. cbn [gatom] in *. rewrite !app_length, !len_node in Hl.
    rewrite (len_alts l (Some 0) (Some 0)) in Hl.
    apply (tailed_app0 (fun k => node (oOPEN + n) (link k 3)) (fun k => galts l (Some 0) (Some 0) ++ node (oCLOSE + n) (link k 3))).
    + apply tailed_n0; ops.
    + apply (tailed_app0 (fun kb => galts l kb (Some 0)) (fun k => node (oCLOSE + n) (link k 3))).
      * apply IH; [exact W2|lia]. * apply tailed_n0; ops. * rewrite len_alts. lia.
    + rewrite len_node. lia.
  - intros a IH W Hl. exact (IH W Hl).
  - intros a IH (W & _) Hl. cbn [gpiece] in *. destruct (simple a); [apply tailed_node; ops|].
    apply (tailed_ext (fun k => node oBRANCH (link (Some (length (gatom a None) + 3)) 3) ++ (gatom a (Some 0) ++ node oBACK (length (gatom a None) + 3)) ++ node oBRANCH (link (Some 0) 3) ++ node oNOTHING (link k 3))).
    { intro k. cbn [link]. rewrite <- !app_assoc. replace (3 + length (gatom a None) + 3) with (3 + (length (gatom a None) + 3)) by lia. reflexivity. }
    rewrite !app_length, !len_node, len_atom in Hl.
    apply (tailed_app (fun k => node oBRANCH (link k 3))).
    + apply tailed_n0; ops.
    + apply (tailed_app0 (fun k => node oBRANCH (link k 3)) (fun k => node oNOTHING (link k 3))); [apply tailed_n0; ops|apply tailed_n0; ops|rewrite len_node; lia].
    + rewrite len_node. lia.
    + rewrite !app_length, len_atom, !len_node. reflexivity.
  - intros a IH (W & _) Hl. cbn [gpiece] in *. destruct (simple a); [apply tailed_node; ops|].
    rewrite !app_length, !len_node, len_atom in Hl.
    apply (tailed_app0 (gatom a)); [apply IH; [exact W|lia]| |lia].
    apply (tailed_app (fun k => node oBRANCH (link k 3)) (fun k => node oBRANCH 3 ++ node oNOTHING (link k 3)) 3).
    + apply tailed_n0; ops.
    + apply (tailed_app0 (fun k => node oBRANCH (link k 3)) (fun k => node oNOTHING (link k 3))); [apply tailed_n0; ops|apply tailed_n0; ops|rewrite len_node; lia].
    + rewrite len_node. lia.
    + reflexivity.
  - intros a IH (W & _) Hl. cbn [gpiece] in *. rewrite !app_length, !len_node, len_atom in Hl.
    apply (tailed_app (fun k => node oBRANCH (link k 3)) (fun k => node oBRANCH 3 ++ node oNOTHING (link k 3)) (length (gatom a None))).
    + apply tailed_n0; ops.
    + apply (tailed_app0 (fun k => node oBRANCH (link k 3)) (fun k => node oNOTHING (link k 3))); [apply tailed_n0; ops|apply tailed_n0; ops|rewrite len_node; lia].
    + rewrite len_node. lia.
    + apply len_atom.
  - intros _ _. apply (tailed_n0 oNOTHING); ops.
  - intros p IHp b IHb [Wp Wb] Hl. cbn [gbranch] in *. destruct b as [|p' b']; [exact (IHp Wp Hl)|].
    rewrite app_length, len_piece in Hl.
    apply (tailed_app0 (gpiece p)); [apply IHp; [exact Wp|lia]|apply IHb; [exact Wb|lia]|lia].
  - intros b IH W Hl kc. cbn [galts] in *. rewrite <- (len_branch b kc). apply tailed_node; ops.
  - intros b IHb l IHl [Wb Wl] Hl kc. cbn [galts] in *. rewrite !app_length, len_node, len_branch in Hl.
    apply (tailed_app (fun k => node oBRANCH (link k 3)) (fun kb => galts l kb kc) (length (gbranch b None))).
    + apply tailed_n0; ops.
    + apply IHl; [exact Wl|lia].
    + rewrite len_node. lia.
    + apply len_branch.
Qed.
Definition tl_atom := proj1 tailed_alts_all. Definition tl_piece := proj1 (proj2 tailed_alts_all).
Definition tl_branch := proj1 (proj2 (proj2 tailed_alts_all)). Definition tl_alts := proj2 (proj2 (proj2 tailed_alts_all)).
