(** RegexSize.v -- how large the program of an expression is. *)
From Coq Require Import List Ascii Bool Arith Lia.
Import ListNotations.
From Verif Require Import Base RegexModel RegexSpec RegexAst RegexGen RegexGrammar RegexGrammar2 RegexCompile RegexCompile2 RegexWays RegexProps.

(** Every class lists at most the characters of its ranges. *)
Fixpoint z_atom (a : atom) : Prop := match a with ACls _ em cs => length em <= ranges_size cs | AGrp _ l => z_alts l | _ => True end
with z_piece (p : piece) : Prop := match p with PAtom a | PStar a | PPlus a | POpt a => z_atom a end
with z_branch (b : branch) : Prop := match b with BNil => True | BCons p b => z_piece p /\ z_branch b end
with z_alts (l : alts_t) : Prop := match l with One b => z_branch b | More b l => z_branch b /\ z_alts l end.

Lemma z_cls : forall k prev t em it q, length t <= k -> p_cls prev t = Some (em, it, q) -> length em <= ranges_size it.
Proof.
  induction k as [|k IH]; intros prev t em it q Hk E; destruct t as [|c r]; cbn [p_cls] in E; try discriminate; [cbn in Hk; lia|]. cbn [length] in *.
  destruct (Ascii.eqb c "]"); [injection E as <- <- <-; cbn; lia|]. destruct (Ascii.eqb c "-").
  - destruct r as [|f r']; [discriminate|]. destruct (Ascii.eqb f "]"); [injection E as <- <- <-; apply le_n|].
    destruct (_ <? _); [discriminate|]. destruct (p_cls f r') as [[[em' it'] q']|] eqn:P; [|discriminate]. injection E as <- <- <-. apply IH in P; [|cbn in Hk; lia].
    rewrite app_length. unfold range. rewrite map_length, seq_length. cbn [ranges_size]. lia.
  - destruct (p_cls c r) as [[[em' it'] q']|] eqn:P; [|discriminate]. injection E as <- <- <-. apply IH in P; [|lia]. cbn [length ranges_size]. lia.
Qed.
Lemma z_class : forall t neg em it q, p_class t = Some (neg, em, it, q) -> length em <= ranges_size it.
Proof.
  assert (S1 : forall t em it q, p_set t = Some (em, it, q) -> length em <= ranges_size it).
  { intros [|p r] em it q E; [discriminate|]. cbn [p_set] in E. destruct (p_cls p r) as [[[em' it'] q']|] eqn:P; [|discriminate]. injection E as <- <- <-. apply (z_cls (length r)) in P; [|lia]. cbn [length ranges_size]. lia. }
  intros [|p r] neg em it q E; [discriminate|]. cbn [p_class] in E. destruct (Ascii.eqb p "^").
  - destruct (p_set r) as [[[em' it'] q']|] eqn:P; [|discriminate]. injection E as <- <- <- <-. now apply S1 in P.
  - destruct (p_set (p :: r)) as [[[em' it'] q']|] eqn:P; [|discriminate]. injection E as <- <- <- <-. now apply S1 in P.
Qed.
Lemma z_parsed : forall n,
  (forall paren t np l t' np', pa_reg n paren t np = COk (l, t', np') -> z_alts l) /\
  (forall b t np l t' np', z_branch b -> pa_alts n b t np = COk (l, t', np') -> z_alts l) /\
  (forall t np b t' np', pa_branch n t np = COk (b, t', np') -> z_branch b) /\
  (forall t np b t' np', pa_pieces n t np = COk (b, t', np') -> z_branch b) /\
  (forall t np p t' np', pa_piece n t np = COk (p, t', np') -> z_piece p) /\
  (forall t np a t' np', pa_atom n t np = COk (a, t', np') -> z_atom a).
Proof.
  induction n as [|n (IR & IA & IB & IPS & IP & IT)]; [repeat split; intros; discriminate|]. repeat split.
  - intros paren t np l t' np' E. cbn [pa_reg] in E. destruct (_ && _)%bool; [discriminate|].
    destruct (pa_branch n t _) as [[[b t1] n1]| | |] eqn:E1; cbn [cbind] in E; try discriminate. destruct (pa_alts n b t1 n1) as [[[l2 t2] n2]| | |] eqn:E2; cbn [cbind] in E; try discriminate.
    apply IB in E1. apply (IA _ _ _ _ _ _ E1) in E2. destruct paren; [destruct (Ascii.eqb _ _)|destruct t2]; try discriminate; injection E as <- <- <-; exact E2.
  - intros b t np l t' np' Z E. cbn [pa_alts] in E. destruct (Ascii.eqb (pk t) "|"); [|injection E as <- <- <-; exact Z].
    destruct (pa_branch n (tl t) np) as [[[b1 t1] n1]| | |] eqn:E1; cbn [cbind] in E; try discriminate. destruct (pa_alts n b1 t1 n1) as [[[l2 t2] n2]| | |] eqn:E2; cbn [cbind] in E; try discriminate.
    injection E as <- <- <-. apply IB in E1. apply (IA _ _ _ _ _ _ E1) in E2. split; assumption.
  - intros t np b t' np' E. cbn [pa_branch] in E. eapply IPS; exact E.
  - intros t np b t' np' E. cbn [pa_pieces] in E. destruct (stop t); [injection E as <- <- <-; exact I|].
    destruct (pa_piece n t np) as [[[p1 t1] n1]| | |] eqn:E1; cbn [cbind] in E; try discriminate. destruct (pa_pieces n t1 n1) as [[[l2 t2] n2]| | |] eqn:E2; cbn [cbind] in E; try discriminate.
    injection E as <- <- <-. split; [eapply IP; exact E1|eapply IPS; exact E2].
  - intros t np p t' np' E. cbn [pa_piece] in E. destruct (pa_atom n t np) as [[[a t1] n1]| | |] eqn:E1; cbn [cbind] in E; try discriminate. apply IT in E1.
    destruct (negb (is_mult (pk t1))); [injection E as <- <- <-; exact E1|]. destruct (_ && _)%bool; [discriminate|]. destruct (is_mult (pk (tl t1))); [discriminate|].
    destruct (Ascii.eqb (pk t1) "*"); [|destruct (Ascii.eqb (pk t1) "+")]; injection E as <- <- <-; exact E1.
  - intros t np a t' np' E. cbn [pa_atom] in E. destruct t as [|ch t]; [discriminate|].
    destruct (Ascii.eqb ch "^"); [injection E as <- <- <-; exact I|]. destruct (Ascii.eqb ch "$"); [injection E as <- <- <-; exact I|]. destruct (Ascii.eqb ch "."); [injection E as <- <- <-; exact I|].
    destruct (Ascii.eqb ch "["). { destruct (p_class t) as [[[[neg em] it] q]|] eqn:K; [|discriminate]. injection E as <- <- <-. exact (z_class _ _ _ _ _ K). }
    destruct (Ascii.eqb ch "("). { destruct (pa_reg n true t np) as [[[l t1] n1]| | |] eqn:E1; cbn [cbind] in E; try discriminate. injection E as <- <- <-. exact (IR _ _ _ _ _ _ E1). }
    destruct (_ || _)%bool; [discriminate|]. destruct (is_mult ch); [discriminate|]. destruct (Ascii.eqb ch "\"); [destruct t; [discriminate|]|]; injection E as <- <- <-; exact I.
Qed.
Lemma chars_size : forall s r, re_size (chars_then s r) = 5 * length s + re_size r.
Proof. intros s r. induction s as [|c s IH]; [reflexivity|]. change (re_size (chars_then (c :: s) r)) with (5 + re_size (chars_then s r)). rewrite IH. cbn [length]. lia. Qed.
Lemma size_le :
  (forall a, wf_atom a -> z_atom a -> (forall s, a = ALit s -> length s = 1) -> length (gatom a None) <= re_size (den_atom a)) /\
  (forall p, wf_piece p -> z_piece p -> forall r, length (gpiece p None) + re_size r <= re_size (den_then p r)) /\
  (forall b, wf_branch b -> z_branch b -> szp b <= re_size (den_branch b)) /\
  (forall l, wf_alts l -> z_alts l -> length (galts l None None) <= re_size (den_alts l) + 6).
Proof.
  apply ast_ind.
  - intros _ _ _. cbn [gatom]. rewrite len_node. cbn. lia.
  - intros _ _ _. cbn [gatom]. rewrite len_node. cbn. lia.
  - intros _ _ _. cbn [gatom]. rewrite len_node. cbn. lia.
  - intros neg em cs _ Z _. cbn [gatom z_atom den_atom re_size] in *. rewrite !app_length, len_node. cbn [length]. lia.
  - intros s [W _] _ L1. specialize (L1 s eq_refl). destruct s as [|c [|d s]]; try discriminate. cbn [gatom]. rewrite !app_length, len_node. cbn. lia.
  - intros n l IH [_ W] Z _. cbn [gatom z_atom den_atom re_size] in *. rewrite !app_length, !len_node, (len_alts l (Some 0) (Some 0)). specialize (IH W Z). lia.
  - intros a IH W Z r. destruct a as [| | |neg em cs|s|n l]; try (specialize (IH W Z ltac:(intros; discriminate)); cbn [gpiece den_then re_size]; lia).
    cbn [den_then]. rewrite chars_size. cbn [gpiece gatom]. rewrite !app_length, len_node. destruct W as [W _]. destruct s; [congruence|]. cbn [length]. lia.
  - intros a IH (W & Wd & W3) Z r. specialize (IH W Z W3). pose proof (gpiece_len a) as (G1 & G2 & G3). cbn [den_then re_size]. lia.
  - intros a IH (W & Wd & W3) Z r. specialize (IH W Z W3). pose proof (gpiece_len a) as (G1 & G2 & G3). cbn [den_then re_size]. lia.
  - intros a IH (W & W3) Z r. specialize (IH W Z W3). pose proof (gpiece_len a) as (G1 & G2 & G3). cbn [den_then re_size]. lia.
  - intros _ _. cbn. lia.
  - intros p IHp b IHb [Wp Wb] [Zp Zb]. rewrite szp_cons. cbn [den_branch]. specialize (IHb Wb Zb). specialize (IHp Wp Zp (den_branch b)). lia.
  - intros b IH W Z. cbn [galts den_alts]. rewrite app_length, len_node. pose proof (szp_le b). specialize (IH W Z). lia.
  - intros b IHb l IHl [Wb Wl] [Zb Zl]. cbn [galts den_alts re_size]. rewrite !app_length, len_node. cbn [plusk]. pose proof (szp_le b). specialize (IHb Wb Zb). specialize (IHl Wl Zl). lia.
Qed.
Lemma prog_size : forall e l np, ~ In NUL e -> okpass e l np -> wf_alts l -> length (prog l) <= re_size (den_alts l) + 10.
Proof.
  intros e l np N P W. pose proof (proj1 (z_parsed (compile_fuel e)) _ _ _ _ _ _ P) as Z. pose proof (proj2 (proj2 (proj2 size_le)) l W Z) as Q.
  unfold prog. cbn [length]. rewrite app_length, len_node, (len_alts l (Some 0) (Some 0)). lia.
Qed.
(** Every expression of the grammar whose program is small enough is accepted. *)
Theorem C92_small_is_accepted : forall e r ng, ~ In NUL e -> g_alt 1 e r ng -> re_size r + 10 < LIMIT -> exists x, compile_string e = COk (Some x).
Proof.
  intros e r ng N G Sz. unfold compile_string. rewrite c_str_id by exact N. destruct (grammar_tree e r ng N G) as (l0 & P0 & D0).
  destruct (compile_ok e N) as [(l & np & P & W & H)|(P & _)].
  - assert (l0 = l) by (unfold okpass in *; congruence). subst l0. pose proof (prog_size e l np N P W) as Q. rewrite D0 in Q.
    assert (B : (LIMIT <=? length (prog l)) = false) by (apply Nat.leb_gt; lia). rewrite B in H. destruct H as (x & H & _). eauto.
  - unfold okpass in P0. congruence.
Qed.
Print Assumptions C92_small_is_accepted.
