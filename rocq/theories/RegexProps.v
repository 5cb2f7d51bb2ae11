(** RegexProps.v -- C92: which expressions kwiversys::RegularExpression compiles. *)
From Coq Require Import List Ascii Bool Arith Lia.
Import ListNotations.
From Verif Require Import Base RegexModel RegexSpec RegexAst RegexGen RegexSim2 RegexSim3 RegexGrammar RegexGrammar2 RegexGrammar3 RegexCompile RegexCompile2 RegexWays.

Lemma c_str_id : forall e, ~ In NUL e -> c_str e = e.
Proof. intros e N. apply (Base.take_while_all (fun c => negb (Ascii.eqb c NUL))). apply forallb_forall. intros c Hc. destruct (Ascii.eqb_spec c NUL); [congruence|reflexivity]. Qed.
Lemma c_str_nul : forall e, ~ In NUL (c_str e).
Proof. intros e H. pose proof (Base.take_while_forall (fun c => negb (Ascii.eqb c NUL)) e) as F. rewrite forallb_forall in F. apply F in H. rewrite Ascii.eqb_refl in H. discriminate. Qed.
Lemma grammar_tree : forall e r ng, ~ In NUL e -> g_alt 1 e r ng -> exists l, okpass e l ng /\ den_alts l = r.
Proof. intros e r ng N G. exact (proj1 (proj2 (pa_complete (compile_fuel e))) e r 1 ng G (le_n _) N (le_n _)). Qed.
Lemma tree_grammar : forall e l np, ~ In NUL e -> okpass e l np -> g_alt 1 e (den_alts l) np.
Proof. intros e l np N P. exact (proj2 (proj1 (proj2 (pa_sound (compile_fuel e))) e 1 l [] np N (le_n _) P)). Qed.
Lemma tree_size : forall e l np, okpass e l np -> length (prog l) <= 260 * length e + 10.
Proof.
  intros e l np P. pose proof (proj1 (pa_fuel (compile_fuel e)) false e 1 (le_n _)) as F. unfold okpass in P. rewrite P in F. destruct F as (_ & F & _).
  unfold prog. cbn [length]. rewrite app_length, len_node, (len_alts l (Some 0) (Some 0)). cbn [length] in F. lia.
Qed.

(** The compiler never reads or writes outside its buffers and always ends. *)
Theorem C92_compile_total : forall e, exists o, compile_string e = COk o.
Proof.
  intros e. unfold compile_string. pose proof (c_str_nul e) as N.
  destruct (compile_ok (c_str e) N) as [(l & np & _ & _ & H)|(_ & H)]; [|eauto]. destruct (LIMIT <=? _); [eauto|]. destruct H as (x & H & _). eauto.
Qed.
Print Assumptions C92_compile_total.

(** What is accepted is an expression of the grammar ... *)
Theorem C92_accepted_is_legal : forall e x, ~ In NUL e -> compile_string e = COk (Some x) -> exists r ng, g_alt 1 e r ng.
Proof.
  intros e x N E. unfold compile_string in E. rewrite c_str_id in E by exact N.
  destruct (compile_ok e N) as [(l & np & P & _ & H)|(_ & H)]; [|congruence]. exists (den_alts l), np. now apply tree_grammar.
Qed.
Print Assumptions C92_accepted_is_legal.
(** ... and every expression of the grammar of up to 125 characters is accepted. *)
Theorem C92_legal_is_accepted : forall e r ng, ~ In NUL e -> g_alt 1 e r ng -> length e <= 125 -> exists x, compile_string e = COk (Some x).
Proof.
  intros e r ng N G Le. unfold compile_string. rewrite c_str_id by exact N. destruct (grammar_tree e r ng N G) as (l0 & P0 & _).
  destruct (compile_ok e N) as [(l & np & P & _ & H)|(P & _)].
  - pose proof (tree_size e l np P) as Sz. assert (Q : (LIMIT <=? length (prog l)) = false).
    { apply Nat.leb_gt. unfold LIMIT. lia. }
    rewrite Q in H. destruct H as (x & H & _). eauto.
  - unfold okpass in P0. congruence.
Qed.
Print Assumptions C92_legal_is_accepted.
(** An expression denotes one thing. *)
Theorem C92_unambiguous : forall e r1 n1 r2 n2, ~ In NUL e -> g_alt 1 e r1 n1 -> g_alt 1 e r2 n2 -> r1 = r2 /\ n1 = n2.
Proof.
  intros e r1 n1 r2 n2 N G1 G2. destruct (grammar_tree e r1 n1 N G1) as (l1 & P1 & D1). destruct (grammar_tree e r2 n2 N G2) as (l2 & P2 & D2).
  unfold okpass in *. rewrite P1 in P2. injection P2 as -> ->. split; congruence.
Qed.
Print Assumptions C92_unambiguous.
(** At most nine groups, numbered from 1. *)
Lemma g_mono : (forall n t r n', g_alt n t r n' -> n <= n' /\ (n' <= 10 \/ n' = n)) /\ (forall n t r n', g_branch n t r n' -> n <= n' /\ (n' <= 10 \/ n' = n)) /\
  (forall n t r n', g_piece n t r n' -> n <= n' /\ (n' <= 10 \/ n' = n)) /\ (forall n t r n', g_atom n t r n' -> n <= n' /\ (n' <= 10 \/ n' = n)).
Proof. apply g_ind4; intros; try lia. Qed.
Theorem C92_nine_groups : forall e r ng, g_alt 1 e r ng -> ng <= 10.
Proof. intros e r ng G. apply (proj1 g_mono) in G. lia. Qed.
Print Assumptions C92_nine_groups.

(** The grammar is not all there is to acceptance: 100 classes of 255 characters
    do not fit. *)
Definition full : str := L "[" ++ ["001"%char; "-"%char; "255"%char] ++ L "]".
Lemma full_legal : forall k, exists r, g_branch 1 (concat (repeat full k)) r 1.
Proof.
  induction k as [|k [r IH]]; [exists Eps; constructor|]. eexists. cbn [repeat concat]. econstructor; [|exact IH]. apply gp_atom. unfold full. apply gt_cls.
  - apply cb. apply ct_range; [discriminate|apply Nat.leb_le; vm_compute; reflexivity|]. constructor.
  - intros p q E. injection E as <- _. discriminate.
Qed.
Definition too_big : str := concat (repeat full 130).
Lemma too_big_nul : ~ In NUL too_big.
Proof. intro I0. unfold too_big in I0. apply in_concat in I0. destruct I0 as (y & I1 & I2). apply repeat_spec in I1. subst y. cbn in I2. destruct I2 as [I2|[I2|[I2|[I2|[I2|[]]]]]]; discriminate I2. Qed.
(* its tree *)
Definition full_cls : atom := ACls false ("001"%char :: range 2 255 ++ []) [("001", "001")%char; ("001", "255")%char].
Fixpoint fulls (k : nat) : branch := match k with O => BNil | S k => BCons (PAtom full_cls) (fulls k) end.
Lemma full_atom : forall n rest, pa_atom (S n) (full ++ rest) 1 = COk (full_cls, rest, 1).
Proof. reflexivity. Qed.
Lemma fulls_parse : forall k n, 3 * k + 3 <= n -> pa_pieces n (concat (repeat full k)) 1 = COk (fulls k, [], 1).
Proof.
  induction k as [|k IH]; intros n H.
  - destruct n; [lia|]. reflexivity.
  - destruct n as [|n]; [lia|]. cbn [repeat concat pa_pieces].
    replace (stop (full ++ concat (repeat full k))) with false by reflexivity.
    destruct n as [|[|n]]; [lia|lia|]. cbn [pa_piece]. rewrite full_atom. cbn [cbind].
    replace (is_mult (pk (concat (repeat full k)))) with false by (destruct k; reflexivity). cbn [negb cbind].
    rewrite IH by lia. reflexivity.
Qed.
Lemma fulls_size : forall k, 259 * k <= szp (fulls k).
Proof.
  induction k as [|k IH]; [cbn; lia|]. cbn [fulls]. rewrite szp_cons. unfold full_cls at 1. cbn [gpiece gatom]. rewrite !app_length, len_node. cbn [length]. rewrite !app_length. unfold range. rewrite map_length, seq_length. cbn [length]. lia.
Qed.
Lemma szp_alts : forall b, szp b + 3 <= length (galts (One b) None None).
Proof. intros b. cbn [galts]. rewrite app_length, len_node. unfold szp. destruct b; lia. Qed.
Lemma too_big_rejected : compile too_big = COk None.
Proof.
  assert (P : okpass too_big (One (fulls 130)) 1).
  { unfold okpass, compile_fuel. set (n := 6 * length too_big + 6). assert (Hn : 3 * 130 + 6 <= n).
    { unfold n, too_big. assert (A : forall k, length (concat (repeat full k)) = 5 * k) by (induction k as [|k IH]; [reflexivity|]; cbn [repeat concat]; rewrite app_length, IH; change (length full) with 5; lia). rewrite A. lia. }
    clearbody n. destruct n as [|[|n]]; [lia|lia|]. cbn [pa_reg pa_branch andb]. unfold too_big. rewrite fulls_parse by lia. cbn [cbind pa_alts pk]. destruct n; [lia|]. reflexivity. }
  destruct (compile_ok too_big too_big_nul) as [(l & np & P' & _ & H)|(P' & _)]; [|unfold okpass in P; congruence].
  assert (EL : l = One (fulls 130)) by (unfold okpass in P, P'; congruence). subst l.
  assert (Q : (LIMIT <=? length (prog (One (fulls 130)))) = true).
  { apply Nat.leb_le. unfold LIMIT, prog. cbn [length]. rewrite app_length, len_node, (len_alts _ (Some 0) (Some 0)). pose proof (szp_alts (fulls 130)). pose proof (fulls_size 130). lia. }
  rewrite Q in H. exact H.
Qed.
Lemma rejected_string : forall e, ~ In NUL e -> compile e = COk None -> ~ exists x, compile_string e = COk (Some x).
Proof. intros e N E [x H]. unfold compile_string in H. rewrite c_str_id in H by exact N. congruence. Qed.
Lemma too_big_legal : exists r, g_alt 1 too_big r 1.
Proof. destruct (full_legal 130) as [r G]. exists r. now apply ga_one. Qed.
Theorem C92_every_legal_accepted_refuted : ~ (forall e r ng, ~ In NUL e -> g_alt 1 e r ng -> exists x, compile_string e = COk (Some x)).
Proof.
  intro H. destruct too_big_legal as [r G]. exact (rejected_string too_big too_big_nul too_big_rejected (H too_big r 1 too_big_nul G)).
Qed.
Print Assumptions C92_every_legal_accepted_refuted.

Definition re_ex : re := Seq (Chr "a") (Seq (Star (Grp 1 (Alt (Seq (Chr "b") Eps) (Seq (Chr "c") Eps)))) Eps).
Lemma plain : forall n c, ~ special c -> g_piece n [c] (Chr c) n.
Proof. intros. now apply gp_atom, gt_chr. Qed.
Example C92_ex_legal : g_alt 1 (L "a(b|c)*") re_ex 2.
Proof.
  assert (Q : forall n c, ~ special c -> g_branch n [c] (Seq (Chr c) Eps) n) by (intros n c H; apply (gb_cons n [c] _ n [] _ n); [now apply plain|constructor]).
  apply ga_one. apply (gb_cons 1 ["a"%char] (Chr "a") 1 (L "(b|c)*") _ 2); [apply plain; intro K; apply special_iff in K; discriminate K|].
  apply (gb_cons 1 (L "(b|c)*") _ 2 [] _ 2); [|constructor]. apply (gp_star 1 (L "(b|c)")).
  - apply (gt_grp 1 (L "b|c") _ 2); [lia|]. apply (ga_more 2 ["b"%char] _ 2 ["c"%char] _ 2); [|apply ga_one]; apply Q; intro K; apply special_iff in K; discriminate K.
  - intro H. inversion H as [| | | | | |? ? ? ? M| | | | | | | |]; subst. inversion M as [| | | | | | | | | | | | |? ? ? ? M1|? ? ? ? M1]; subst; inversion M1 as [| | | | | | | | | | | |? ? ? ? ? M2 M3| |]; subst; inversion M2; subst; discriminate.
Qed.
Example C92_ex_accepted : exists x, compile_string (L "a(b|c)*") = COk (Some x).
Proof. eexists. vm_compute. reflexivity. Qed.
Example C92_ex_rejected : compile_string (L "a**") = COk None /\ compile_string (L "(a") = COk None /\ compile_string (L "(a*)*") = COk None.
Proof. repeat split; vm_compute; reflexivity. Qed.
