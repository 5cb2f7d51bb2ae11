(** RegexGrammar2.v -- soundness and completeness of the pure parser. *)
From Coq Require Import List Ascii Bool Arith Lia.
Import ListNotations.
From Verif Require Import Base RegexModel RegexSpec RegexAst RegexGen RegexSim RegexSim2 RegexGrammar.

(** Width: what has no width matches the empty text. *)
Lemma matches_nil : forall r i j, matches [] r i j -> i = 0 /\ j = 0 \/ i = j.
Proof.
  intros r i j H. remember ([] : str) as s. induction H; subst; auto; try (destruct i; discriminate); lia.
Qed.
Lemma nil_seq : forall a b, matches [] (Seq a b) 0 0 <-> matches [] a 0 0 /\ matches [] b 0 0.
Proof.
  intros a b. split.
  - intro H. inversion H; subst. assert (j = 0) by (apply matches_nil in H2; lia). subst. auto.
  - intros [A B]. econstructor; eauto.
Qed.
Lemma nil_plus : forall a, matches [] (Plus a) 0 0 -> matches [] a 0 0.
Proof. intros a H. inversion H; subst. assert (j = 0) by (apply matches_nil in H1; lia). now subst. Qed.
Lemma nil_chr : forall c i j, ~ matches [] (Chr c) i j.
Proof. intros c i j H. inversion H; subst. destruct i; discriminate. Qed.
Lemma chars_then_nil : forall s r, s <> [] -> ~ matches [] (chars_then s r) 0 0.
Proof. intros [|c s] r H K; [congruence|]. cbn in K. apply nil_seq in K. destruct K as [K _]. exact (nil_chr _ _ _ K). Qed.
Lemma width_nil :
  (forall a, wf_atom a -> (w_atom a = false <-> matches [] (den_atom a) 0 0)) /\
  (forall p, wf_piece p -> forall r, (matches [] (den_then p r) 0 0 <-> w_piece p = false /\ matches [] r 0 0)) /\
  (forall b, wf_branch b -> (w_branch b = false <-> matches [] (den_branch b) 0 0)) /\
  (forall l, wf_alts l -> (w_alts l = false <-> matches [] (den_alts l) 0 0)).
Proof.
  apply ast_ind.
  - intros _. cbn. split; [constructor|auto].
  - intros _. cbn. split; [intros _; exact (m_eol [])|auto].
  - intros _. cbn. split; [discriminate|]. intro H. inversion H.
  - intros neg em cs _. cbn. split; [discriminate|]. intro H. inversion H.
  - intros [|c s] [W _]; [congruence|]. cbn. split; [discriminate|]. intro H. inversion H.
  - intros n l IH [_ W]. cbn. rewrite (IH W). split; [now constructor|]. intro H. now inversion H.
  - intros a IH W r. cbn in W. specialize (IH W). destruct a; cbn [den_then w_piece]; try (rewrite nil_seq, IH; tauto).
    destruct W as [W _]. split; [intro H; now apply chars_then_nil in H|]. cbn. intros [? _]. discriminate.
  - intros a IH (W & Wd & _) r. cbn [den_then w_piece]. rewrite nil_seq. split; [tauto|]. intros [_ H]. split; [constructor|exact H].
  - intros a IH (W & Wd & _) r. cbn [den_then w_piece]. rewrite nil_seq. split; [|intros [? _]; discriminate].
    intros [H _]. apply nil_plus in H. apply (IH W) in H. congruence.
  - intros a IH (W & _) r. cbn [den_then w_piece]. rewrite nil_seq. split; [tauto|]. intros [_ H]. split; [constructor|exact H].
  - intros _. cbn. split; [constructor|auto].
  - intros p IHp b IHb [Wp Wb]. cbn [den_branch w_branch]. rewrite (IHp Wp), orb_false_iff, (IHb Wb). reflexivity.
  - intros b IH W. exact (IH W).
  - intros b IHb l IHl [Wb Wl]. cbn [w_alts den_alts]. rewrite andb_false_iff, (IHb Wb), (IHl Wl). split.
    + intros [H|H]; [now apply m_alt_l|now apply m_alt_r].
    + intro H. inversion H; subst; auto.
Qed.

(** Character classes. *)
Lemma p_cls_sound : forall k prev t em it q, length t <= k -> p_cls prev t = Some (em, it, q) -> exists txt, t = txt ++ "]"%char :: q /\ class_text prev txt it.
Proof.
  induction k as [|k IH]; intros prev t em it q Hk E; destruct t as [|c r]; cbn [p_cls] in E; try discriminate; [cbn in Hk; lia|]. cbn [length] in *.
  destruct (Ascii.eqb_spec c "]") as [->|C1]; [injection E as <- <- <-; exists []; split; [reflexivity|constructor]|].
  destruct (Ascii.eqb_spec c "-") as [->|C2].
  - destruct r as [|f r']; [discriminate|]. cbn [length] in *. destruct (Ascii.eqb_spec f "]") as [->|C3]; [injection E as <- <- <-; exists (L "-"); split; [reflexivity|constructor]|].
    destruct (Nat.ltb_spec (S (nat_of_ascii f)) (S (nat_of_ascii prev))); [discriminate|]. destruct (p_cls f r') as [[[em' it'] q']|] eqn:P; [|discriminate]. injection E as <- <- <-.
    apply IH in P; [|lia]. destruct P as (txt & -> & CT). exists ("-"%char :: f :: txt). split; [reflexivity|]. constructor; auto. lia.
  - destruct (p_cls c r) as [[[em' it'] q']|] eqn:P; [|discriminate]. injection E as <- <- <-. apply IH in P; [|lia]. destruct P as (txt & -> & CT).
    exists (c :: txt). split; [reflexivity|]. now constructor.
Qed.
Lemma p_cls_complete : forall prev txt it, class_text prev txt it -> forall q, exists em, p_cls prev (txt ++ "]"%char :: q) = Some (em, it, q).
Proof.
  intros prev txt it H. induction H as [p|p|p q t cs N L1 H IH|p q t cs N1 N2 H IH]; intro rest.
  - eexists. reflexivity.
  - eexists. reflexivity.
  - destruct (IH rest) as [em E]. cbn [app p_cls]. replace (Ascii.eqb "-" "]") with false by reflexivity. rewrite Ascii.eqb_refl.
    destruct (Ascii.eqb_spec q "]"); [contradiction|]. destruct (Nat.ltb_spec (S (nat_of_ascii q)) (S (nat_of_ascii p))); [lia|]. rewrite E. eauto.
  - destruct (IH rest) as [em E]. cbn [app p_cls]. destruct (Ascii.eqb_spec q "]"); [contradiction|]. destruct (Ascii.eqb_spec q "-"); [contradiction|]. rewrite E. eauto.
Qed.
Lemma p_set_sound : forall t em it q, p_set t = Some (em, it, q) -> exists txt, t = txt ++ "]"%char :: q /\ class_body txt it.
Proof.
  intros [|p r] em it q E; [discriminate|]. cbn [p_set] in E. destruct (p_cls p r) as [[[em' it'] q']|] eqn:P; [|discriminate]. injection E as <- <- <-.
  apply (p_cls_sound (length r)) in P; [|lia]. destruct P as (txt & -> & CT). exists (p :: txt). split; [reflexivity|]. now constructor.
Qed.
Lemma p_class_sound : forall t neg em it q np, p_class t = Some (neg, em, it, q) -> exists txt, "["%char :: t = txt ++ q /\ g_atom np txt (Cls neg it) np.
Proof.
  intros [|p r] neg em it q np E; [discriminate|]. cbn [p_class] in E. destruct (Ascii.eqb_spec p "^") as [->|NC].
  - destruct (p_set r) as [[[em' it'] q']|] eqn:P; [|discriminate]. injection E as <- <- <- <-. apply p_set_sound in P. destruct P as (txt & -> & B).
    exists (L "[^" ++ txt ++ L "]"). split; [rewrite <- !app_assoc; reflexivity|]. now constructor.
  - destruct (p_set (p :: r)) as [[[em' it'] q']|] eqn:P; [|discriminate]. injection E as <- <- <- <-. apply p_set_sound in P. destruct P as (txt & Q & B).
    exists (L "[" ++ txt ++ L "]"). split; [rewrite Q, <- !app_assoc; reflexivity|]. constructor; [exact B|]. intros p' r' ->. cbn in Q. congruence.
Qed.
Lemma p_class_complete_pos : forall t it q, class_body t it -> (forall p r, t = p :: r -> p <> "^"%char) -> exists em, p_class (t ++ "]"%char :: q) = Some (false, em, it, q).
Proof.
  intros t it q B F. destruct B as [p t cs CT]. destruct (p_cls_complete _ _ _ CT q) as [em E]. specialize (F p t eq_refl).
  cbn [app p_class p_set]. destruct (Ascii.eqb_spec p "^"); [contradiction|]. rewrite E. eauto.
Qed.
Lemma p_class_complete_neg : forall t it q, class_body t it -> exists em, p_class ("^"%char :: t ++ "]"%char :: q) = Some (true, em, it, q).
Proof.
  intros t it q B. destruct B as [p t cs CT]. destruct (p_cls_complete _ _ _ CT q) as [em E].
  cbn [app p_class p_set]. rewrite Ascii.eqb_refl, E. eauto.
Qed.

(** Soundness. *)
Lemma special_iff : forall c, special c <-> existsb (Ascii.eqb c) META = true.
Proof. intro c. unfold special. rewrite existsb_exists. split; [intro H; exists c; split; [exact H|apply Ascii.eqb_refl]|]. intros (x & H & E). apply Ascii.eqb_eq in E. now subst. Qed.
Lemma g_chars : forall s n t2 r2 n2, (forall c, In c s -> ~ special c) -> g_branch n t2 r2 n2 -> g_branch n (s ++ t2) (chars_then s r2) n2.
Proof.
  induction s as [|c s IH]; intros n t2 r2 n2 H G; [exact G|].
  change ((c :: s) ++ t2) with ([c] ++ (s ++ t2)). cbn [chars_then fold_right]. apply gb_cons with n.
  - apply gp_atom. apply gt_chr. apply H. now left.
  - apply IH; [|exact G]. intros x Hx. apply H. now right.
Qed.
Lemma p_run_nonspecial : forall t c, In c (firstn (p_run t) t) -> ~ special c.
Proof.
  intros t c H. rewrite special_iff. set (p := fun c => negb (existsb (Ascii.eqb c) META)).
  assert (I : In c (take_while p t)).
  { unfold p_run in H. fold p in H. pose proof (take_while_split p t) as TS.
    set (run := take_while p t) in *. assert (K : forall k, k <= length run -> In c (firstn k t) -> In c run).
    { intros k Hk I. rewrite TS in I. rewrite firstn_app in I. replace (k - length run) with 0 in I by lia. cbn [firstn] in I. rewrite app_nil_r in I. rewrite <- (firstn_skipn k run). apply in_or_app. now left. }
    destruct ((1 <? length run) && _)%bool; [apply (K (length run - 1)); [lia|exact H]|apply (K (length run)); [lia|exact H]]. }
  apply take_while_all in I. unfold p in I. destruct (existsb _ _); [discriminate|congruence].
Qed.
Definition atom_text (np : nat) (txt : str) (a : atom) (np' : nat) : Prop :=
  match a with
  | ALit s => np' = np /\ ((exists c, s = [c] /\ g_atom np txt (Chr c) np) \/ (txt = s /\ (forall c, In c s -> ~ special c)))
  | _ => g_atom np txt (den_atom a) np'
  end.
Lemma pa_sound : forall n,
  (forall t np l t' np', ~ In NUL t -> 1 <= np -> pa_reg n true t np = COk (l, t', np') -> exists txt, t = txt ++ ")"%char :: t' /\ np < 10 /\ g_alt (S np) txt (den_alts l) np') /\
  (forall t np l t' np', ~ In NUL t -> 1 <= np -> pa_reg n false t np = COk (l, t', np') -> t' = [] /\ g_alt np t (den_alts l) np') /\
  (forall b t np l t' np', ~ In NUL t -> 1 <= np -> wf_branch b -> pa_alts n b t np = COk (l, t', np') -> exists txt, t = txt ++ t' /\ forall t0 n0, g_branch n0 t0 (den_branch b) np -> g_alt n0 (t0 ++ txt) (den_alts l) np') /\
  (forall t np b t' np', ~ In NUL t -> 1 <= np -> pa_branch n t np = COk (b, t', np') -> exists txt, t = txt ++ t' /\ g_branch np txt (den_branch b) np') /\
  (forall t np b t' np', ~ In NUL t -> 1 <= np -> pa_pieces n t np = COk (b, t', np') -> exists txt, t = txt ++ t' /\ g_branch np txt (den_branch b) np') /\
  (forall t np p t' np', ~ In NUL t -> 1 <= np -> pa_piece n t np = COk (p, t', np') -> exists txt, t = txt ++ t' /\ forall t2 r2 n2, g_branch np' t2 r2 n2 -> g_branch np (txt ++ t2) (den_then p r2) n2) /\
  (forall t np a t' np', ~ In NUL t -> 1 <= np -> pa_atom n t np = COk (a, t', np') -> exists txt, t = txt ++ t' /\ atom_text np txt a np').
Proof.
  induction n as [|n (IR1 & IR2 & IA & IB & IPS & IP & IT)]; [repeat split; discriminate|].
  split; [|split; [|split; [|split; [|split; [|split]]]]].
  - intros t np l t' np' N P E. cbn [pa_reg] in E. cbn [andb] in E. destruct (Nat.leb_spec NSUBEXP np) as [|NG]; [discriminate|].
    cds E. pose proof (proj1 (proj2 (proj2 (pa_wf n))) _ _ _ _ _ N (le_S _ _ P) Heqc) as (W1 & N1 & Q1).
    destruct (IB _ _ _ _ _ N (le_S _ _ P) Heqc) as (x1 & E1 & G1). destruct (IA _ _ _ _ _ _ N1 Q1 W1 Heqc0) as (x2 & E2 & G2).
    destruct (Ascii.eqb_spec (pk s0) ")") as [Q|]; [|discriminate]. injection E as <- <- <-.
    destruct s0 as [|c0 s0]; [discriminate|]. cbn in Q. subst. exists (x1 ++ x2). rewrite <- app_assoc. unfold NSUBEXP in NG. repeat split; auto.
  - intros t np l t' np' N P E. cbn [pa_reg andb] in E.
    cds E. pose proof (proj1 (proj2 (proj2 (pa_wf n))) _ _ _ _ _ N P Heqc) as (W1 & N1 & Q1).
    destruct (IB _ _ _ _ _ N P Heqc) as (x1 & E1 & G1). destruct (IA _ _ _ _ _ _ N1 Q1 W1 Heqc0) as (x2 & E2 & G2).
    destruct s0; [|discriminate]. injection E as <- <- <-. rewrite app_nil_r in E2. subst. split; [reflexivity|]. now apply G2.
  - intros b t np l t' np' N P W E. cbn [pa_alts] in E. destruct (Ascii.eqb_spec (pk t) "|") as [Q|].
    + cds E. pose proof (proj1 (proj2 (proj2 (pa_wf n))) _ _ _ _ _ (notin_tl _ N) P Heqc) as (W1 & N1 & Q1).
      destruct (IB _ _ _ _ _ (notin_tl _ N) P Heqc) as (x1 & E1 & G1). destruct (IA _ _ _ _ _ _ N1 Q1 W1 Heqc0) as (x2 & E2 & G2).
      injection E as <- <- <-. destruct t as [|c0 t]; [discriminate|]. cbn in Q, E1. subst. exists (L "|" ++ (x1 ++ x2)). rewrite <- !app_assoc. split; [reflexivity|].
      intros t0 m G. cbn [den_alts]. apply ga_more with np; [exact G|]. now apply G2.
    + injection E as <- <- <-. exists []. split; [reflexivity|]. intros t0 m G. rewrite app_nil_r. now apply ga_one.
  - intros t np b t' np' N P E. exact (IPS _ _ _ _ _ N P E).
  - intros t np b t' np' N P E. cbn [pa_pieces] in E. destruct (stop t).
    + injection E as <- <- <-. exists []. split; [reflexivity|]. constructor.
    + cds E. pose proof (proj1 (proj2 (proj2 (proj2 (proj2 (pa_wf n))))) _ _ _ _ _ N P Heqc) as (W1 & N1 & Q1).
      destruct (IP _ _ _ _ _ N P Heqc) as (x1 & E1 & G1). destruct (IPS _ _ _ _ _ N1 Q1 Heqc0) as (x2 & E2 & G2). injection E as <- <- <-. subst.
      exists (x1 ++ x2). rewrite <- app_assoc. split; [reflexivity|]. cbn [den_branch]. now apply G1.
  - intros t np p t' np' N P E. cbn [pa_piece] in E. cds E. pose proof (proj2 (proj2 (proj2 (proj2 (proj2 (pa_wf n))))) _ _ _ _ _ N P Heqc) as (Wa & N1 & Q1 & ML).
    destruct (IT _ _ _ _ _ N P Heqc) as (x & E1 & G1).
    assert (GA : (exists s0, a = ALit s0 /\ length s0 <> 1 /\ x = s0 /\ n0 = np /\ (forall c, In c s0 -> ~ special c)) \/ g_atom np x (den_atom a) n0).
    { destruct a; cbn [atom_text] in G1; auto. destruct G1 as [-> [(c & -> & G)|[-> G]]]; [right; exact G|].
      destruct s0 as [|c [|c' s0]]; [left; exists []; auto|right|left; exists (c :: c' :: s0); repeat split; auto; cbn; lia].
      cbn. apply gt_chr. apply G. now left. }
    destruct (is_mult (pk s)) eqn:M; cbn [negb] in E.
    + destruct (negb (w_atom a) && negb (Ascii.eqb (pk s) "?"))%bool eqn:F; [discriminate|].
      destruct (is_mult (pk (tl s))); [discriminate|]. injection E as <- <- <-. specialize (ML eq_refl).
      assert (GA' : g_atom np x (den_atom a) n0). { destruct GA as [(s0 & -> & L1 & _)|GA]; [|exact GA]. now specialize (ML s0 eq_refl). } clear GA.
      destruct s as [|op s]; [discriminate|]. cbn [pk tl] in *. subst t. exists (x ++ [op]). rewrite <- app_assoc. split; [reflexivity|].
      intros t2 r2 n2 G2. pose proof (proj1 width_nil a Wa) as WN.
      destruct (Ascii.eqb_spec op "*") as [->|O1].
      * cbn in F. rewrite andb_true_r in F. apply negb_false_iff in F. apply gb_cons with n0; [|exact G2]. apply gp_star; [exact GA'|]. rewrite <- WN. congruence.
      * destruct (Ascii.eqb_spec op "+") as [->|O2].
        -- cbn in F. rewrite andb_true_r in F. apply negb_false_iff in F. apply gb_cons with n0; [|exact G2]. apply gp_plus; [exact GA'|]. rewrite <- WN. congruence.
        -- assert (op = "?"%char). { unfold is_mult in M. rewrite !orb_true_iff, !Ascii.eqb_eq in M. tauto. } subst op. apply gb_cons with n0; [|exact G2]. now apply gp_opt.
    + injection E as <- <- <-. exists x. split; [exact E1|]. intros t2 r2 n2 G2.
      destruct GA as [(s0 & -> & L1 & -> & -> & NS)|GA]; [cbn [den_then]; now apply g_chars|].
      assert (D : den_then (PAtom a) r2 = Seq (den_atom a) r2 \/ exists s0, a = ALit s0 /\ length s0 <> 1).
      { destruct a; auto. destruct s0 as [|c [|c' s0]]; [right; exists []; auto|left; reflexivity|right; exists (c :: c' :: s0); split; [reflexivity|cbn; lia]]. }
      destruct D as [-> | (s0 & -> & L1)]; [apply gb_cons with n0; [now apply gp_atom|exact G2]|].
      cbn [atom_text] in G1. destruct G1 as [-> [(c & -> & _)|[-> NS]]]; [now elim L1|]. cbn [den_then]. now apply g_chars.
  - intros t np a t' np' N P E. cbn [pa_atom] in E. destruct t as [|ch t]; [discriminate|].
    pose proof (notin_tl _ N) as N0. cbn [tl] in N0.
    destruct (Ascii.eqb_spec ch "^") as [->|C1]; [injection E as <- <- <-; exists (L "^"); split; [reflexivity|constructor]|].
    destruct (Ascii.eqb_spec ch "$") as [->|C2]; [injection E as <- <- <-; exists (L "$"); split; [reflexivity|constructor]|].
    destruct (Ascii.eqb_spec ch ".") as [->|C3]; [injection E as <- <- <-; exists (L "."); split; [reflexivity|constructor]|].
    destruct (Ascii.eqb_spec ch "[") as [->|C4].
    { destruct (p_class t) as [[[[neg em] it] q]|] eqn:K; [|discriminate]. injection E as <- <- <-. exact (p_class_sound _ _ _ _ _ np K). }
    destruct (Ascii.eqb_spec ch "(") as [->|C5].
    { destruct (pa_reg n true t np) as [[[l t1] np1]| | |] eqn:K; cbn [cbind] in E; try discriminate. injection E as <- <- <-.
      destruct (IR1 _ _ _ _ _ N0 P K) as (txt & -> & L10 & G). exists (L "(" ++ txt ++ L ")"). split; [rewrite <- !app_assoc; reflexivity|]. now constructor. }
    destruct (Ascii.eqb ch "|" || Ascii.eqb ch ")")%bool eqn:C6; [discriminate|].
    destruct (is_mult ch) eqn:C7; [discriminate|].
    destruct (Ascii.eqb_spec ch "\") as [->|C8].
    { destruct t as [|x t]; [discriminate|]. injection E as <- <- <-. exists ["\"%char; x]. split; [reflexivity|]. split; [reflexivity|]. left. exists x. split; [reflexivity|constructor]. }
    injection E as <- <- <-. exists (firstn (p_run (ch :: t)) (ch :: t)). split; [symmetry; apply firstn_skipn|]. split; [reflexivity|]. right. split; [reflexivity|]. apply p_run_nonspecial.
Qed.
