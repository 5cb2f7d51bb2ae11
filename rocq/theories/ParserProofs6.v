(** Blank lines, comments and outer white space do not matter. *)
From Verif Require Import Base ConfigModel ConfigSpec ConfigProofs ConfigProofs2 ConfigProofs3 ConfigProofs4
  ExpandModel ExpandSpec ExpandProofs ParserModel ParserSpec ParserProofs ParserProofs2 ParserProofs3 ParserProofs4 ParserProofs5.

Definition simh (h1 h2 : heap) : Prop := exists nm st de ro l1 l2,
  h1 = [mkBlock None nm st de ro l1] /\ h2 = [mkBlock None nm st de ro l2].
Definition sim (s1 s2 : pst) : Prop :=
  simh (p_heap s1) (p_heap s2) /\ p_sym s1 = p_sym s2 /\ p_ctx s1 = p_ctx s2 /\ p_blocks s1 = p_blocks s2 /\
  p_incs s1 = p_incs s2 /\ p_count s1 = p_count s2 /\ p_err s1 = p_err s2 /\ p_tl s1 = p_tl s2.
Definition simr (r1 r2 : presult) : Prop :=
  match r1, r2 with
  | PDone s1, PDone s2 => sim s1 s2
  | PThrow e1 s1, PThrow e2 s2 => e1 = e2 /\ sim s1 s2
  | PFuel, PFuel => True
  | _, _ => False
  end.
Definition siml (l1 l2 : list str) : Prop := exists cs, reads l1 cs /\ reads l2 cs.

Lemma simh_content h1 h2 : simh h1 h2 -> same_content h1 h2.
Proof. intros (nm & st & de & ro & l1 & l2 & -> & ->). split; [reflexivity|]. intro k. repeat split. Qed.
Lemma simr_outcome r1 r2 : simr r1 r2 -> same_outcome r1 r2.
Proof.
  destruct r1, r2; cbn; auto; intros; try (apply simh_content; apply H).
  destruct H as [-> H]. split; auto. apply simh_content, H.
Qed.

Lemma reads_get ls cs : reads ls cs -> forall n,
  match cs with
  | [] => get_line ls n = None
  | c :: cs' => exists ls' n', get_line ls n = Some (c, ls', n') /\ reads ls' cs' /\ c <> []
  end.
Proof.
  induction 1 as [|l ls cs Hs Hr IH|l c ls cs Hs Hc Hr IH]; intro n; [reflexivity| |].
  - apply says_clean in Hs. cbn [get_line]. rewrite <- Hs. apply IH.
  - apply says_clean in Hs. cbn [get_line]. rewrite <- Hs. destruct c; [congruence|]. eauto.
Qed.

Ltac simsplit H := destruct H as (?SH & ?S1 & ?S2 & ?S3 & ?S4 & ?S5 & ?S6 & ?S7).
Ltac simdone := unfold sim; cbn [p_heap p_sym p_ctx p_blocks p_incs p_count p_err p_tl p_line
   with_tl with_line with_err with_heap with_sym with_ctx with_incs flush_line] in *; repeat split; auto; try congruence.

Lemma get_token_sim a b l1 l2 : sim a b -> siml l1 l2 ->
  exists t v a' b' l1' l2', get_token a l1 = (t, v, a', l1') /\ get_token b l2 = (t, v, b', l2') /\
    sim a' b' /\ siml l1' l2'.
Proof.
  intros H [cs [R1 R2]]. unfold get_token. simsplit H. rewrite <- S7. destruct (p_tl a) as [|c0 r0] eqn:Etl.
  - pose proof (reads_get _ _ R1 (p_line a)) as G1. pose proof (reads_get _ _ R2 (p_line b)) as G2.
    destruct cs as [|c cs'].
    + rewrite G1, G2. do 6 eexists. split; [reflexivity|]. split; [reflexivity|]. split; [simdone|exists []; split; constructor].
    + destruct G1 as (ls1 & n1 & -> & R1' & Hc). destruct G2 as (ls2 & n2 & -> & R2' & _).
      cbn [p_tl with_tl]. destruct (scan c) as [[t v] r].
      do 6 eexists. split; [reflexivity|]. split; [reflexivity|]. split; [destruct t; simdone|exists cs'; auto].
  - rewrite <- S7, Etl. destruct (scan (c0 :: r0)) as [[t v] r].
    do 6 eexists. split; [reflexivity|]. split; [reflexivity|]. split; [destruct t; simdone|exists cs; auto].
Qed.

Lemma flags_sim n1 : forall n2 ro t v a b l1 l2 r1 r2, sim a b -> siml l1 l2 ->
  flags n1 ro t v a l1 = Some r1 -> flags n2 ro t v b l2 = Some r2 ->
  exists ro' t' v' a' b' l1' l2', r1 = (ro', t', v', a', l1') /\ r2 = (ro', t', v', b', l2') /\ sim a' b' /\ siml l1' l2'.
Proof.
  induction n1 as [|n1 IH]; intros n2 ro t v a b l1 l2 r1 r2 H HL F1 F2.
  - destruct t; cbn [flags] in F1; try discriminate; destruct n2; cbn [flags] in F2; injection F1 as <-; injection F2 as <-;
    do 7 eexists; split; try reflexivity; split; try reflexivity; auto.
  - destruct t; cbn [flags] in F1; try (destruct n2; cbn [flags] in F2; injection F1 as <-; injection F2 as <-;
    do 7 eexists; split; try reflexivity; split; try reflexivity; auto; fail).
    destruct n2; cbn [flags] in F2; [discriminate|].
    assert (H' : sim (if contains (L "[RO]") (map to_upper v) then a else with_err a) (if contains (L "[RO]") (map to_upper v) then b else with_err b)).
    { destruct (contains _ _); auto. simsplit H. simdone. }
    destruct (get_token_sim _ _ l1 l2 H' HL) as (t' & v' & a' & b' & l1' & l2' & G1 & G2 & Hs & Hl).
    rewrite G1 in F1. rewrite G2 in F2. eapply IH; eauto.
Qed.

Section Worlds.
Variables w1 w2 : world.
Hypothesis HW : same_texts w1 w2.

Lemma look_sim a b : sim a b -> forall x, expand (token_lookup w1 a) x = expand (token_lookup w2 b) x.
Proof.
  intros H x. assert (E : token_lookup w1 a = token_lookup w2 b); [|rewrite E; reflexivity].
  destruct HW as (_ & E1 & E2 & _). simsplit H. unfold token_lookup. rewrite E1, E2, S1.
  destruct SH as (nm & st & de & ro & la & lb & -> & ->). reflexivity.
Qed.
Lemma dir_sim f : dir_of w1 f = dir_of w2 f.
Proof. destruct HW as (_ & _ & _ & _ & E & _). unfold dir_of. rewrite E. reflexivity. Qed.
Lemma exists_sim p : file_exists w1 p = file_exists w2 p /\ is_dir w1 p = is_dir w2 p.
Proof. destruct HW as (E & _). specialize (E p). unfold file_exists, is_dir. destruct (w_fs w1 p), (w_fs w2 p); try contradiction; auto. Qed.
Lemma find_ext {A} (p q : A -> bool) l : (forall x, p x = q x) -> find p l = find q l.
Proof. intro H. induction l as [|x l IH]; cbn; auto. rewrite H, IH. reflexivity. Qed.
Lemma resolve_sim i x : resolve_file_name w1 i x = resolve_file_name w2 i x.
Proof.
  assert (FF : forall ps, find_file w1 x ps = find_file w2 x ps).
  { intro ps. unfold find_file, find_name. destruct HW as (_ & _ & _ & _ & _ & E1 & E2 & _). rewrite E1, E2.
    rewrite (find_ext _ (fun p => file_exists w2 (slash p ++ x))) by (intro; apply exists_sim).
    destruct (find _ _); auto. destruct (slash s ++ x) eqn:E; auto. rewrite (proj2 (exists_sim _)). reflexivity. }
  unfold resolve_file_name. pose proof HW as (_ & _ & _ & E1 & E2 & _ & _ & E3). rewrite E1, E3, !FF.
  replace (map (dir_of w1) i) with (map (dir_of w2) i); auto. apply map_ext. intro. symmetry. apply dir_sim.
Qed.

Lemma assign_sim h1 h2 k v f n1 n2 ro : simh h1 h2 ->
  snd (assign h1 k v f n1 ro) = snd (assign h2 k v f n2 ro) /\
  match snd (assign h1 k v f n1 ro) with Ok _ | Throw _ => True | _ => False end /\
  simh (fst (assign h1 k v f n1 ro)) (fst (assign h2 k v f n2 ro)).
Proof.
  intros (nm & st & de & r & la & lb & -> & ->). unfold assign, i_set_value, fuel. cbn [length i_set_value_f nth_error b_parent].
  unfold is_read_only_b. cbn [b_ro]. destruct (shas k r).
  - cbn [fst snd b_store]. split; [reflexivity|]. split; [exact I|]. do 6 eexists. split; reflexivity.
  - cbn [set_location upd lupd nth_error]. destruct ro; cbn; split; auto; split; auto; do 6 eexists; split; reflexivity.
Qed.

Lemma entry_sim n : (forall f a b l1 l2, sim a b -> siml l1 l2 -> simr (loop n w1 f a l1) (loop n w2 f b l2)) ->
  forall f rel t v a b l1 l2, sim a b -> siml l1 l2 ->
  simr (stmt_entry (loop n w1) w1 f rel t v a l1) (stmt_entry (loop n w2) w2 f rel t v b l2).
Proof.
  intros IH f rel t v a b l1 l2 H HL. unfold stmt_entry.
  assert (D : simr (loop n w1 f (flush_line (with_err a)) l1) (loop n w2 f (flush_line (with_err b)) l2)).
  { apply IH; auto. simsplit H. simdone. }
  destruct t; try exact D. clear D.
  destruct (get_token_sim a b l1 l2 H HL) as (t3 & v3 & a3 & b3 & l3 & m3 & -> & -> & H3 & HL3).
  destruct (flags_total (S (weight (p_tl a3) l3)) false t3 v3 a3 l3) as [r1 F1]; [lia|].
  destruct (flags_total (S (weight (p_tl b3) m3)) false t3 v3 b3 m3) as [r2 F2]; [lia|].
  rewrite F1, F2. destruct (flags_sim _ _ _ _ _ _ _ _ _ _ _ H3 HL3 F1 F2) as (ro & t4 & v4 & a4 & b4 & l4 & m4 & -> & -> & H4 & HL4).
  assert (D : simr (loop n w1 f (flush_line (with_err a4)) l4) (loop n w2 f (flush_line (with_err b4)) m4)).
  { apply IH; auto. simsplit H4. simdone. }
  destruct t4; try exact D; clear D.
  - cbv zeta. rewrite (look_sim _ _ H4), dir_sim. pose proof H4 as H4'. simsplit H4'. rewrite S2.
    destruct (assign_sim (p_heap a4) (p_heap b4) (p_ctx b4 ++ v) (if rel then dir_of w2 f ++ L "/" ++ expand (token_lookup w2 b4) v4 else expand (token_lookup w2 b4) v4) f (p_line a4) (p_line b4) ro SH) as (A1 & A0 & A2).
    destruct (assign (p_heap a4) _ _ _ _ _) as [h1 o1]. destruct (assign (p_heap b4) _ _ _ _ _) as [h2 o2]. cbn [fst snd] in A0, A1, A2. subst o2.
    destruct o1.
    + apply IH; auto. simdone.
    + split; auto. simdone.
    + contradiction.
    + contradiction.
  - rewrite (look_sim _ _ H4). apply IH; auto. simsplit H4. simdone.
Qed.

Lemma loop_sim n : forall f a b l1 l2, sim a b -> siml l1 l2 -> simr (loop n w1 f a l1) (loop n w2 f b l2).
Proof.
  induction n as [|n IH]; intros f a b l1 l2 H HL; [exact I|].
  destruct (get_token_sim a b l1 l2 H HL) as (t & v & a1 & b1 & la & lb & G1 & G2 & H1 & HL1).
  cbn [loop]. rewrite G1, G2.
  assert (ST : simr (stmt (loop n w1) w1 f t v a1 la) (stmt (loop n w2) w2 f t v b1 lb)).
  { unfold stmt. destruct (str_eqb v (L "include")).
    { unfold stmt_include. rewrite (look_sim _ _ H1). pose proof H1 as H1'. simsplit H1'. rewrite S4, S7, resolve_sim.
      destruct (resolve_file_name _ _ _) as [|c0 r0]; [split; auto|].
      destruct HW as (HF & _). specialize (HF (c0 :: r0)).
      destruct (w_fs w1 (c0 :: r0)) as [| |x1], (w_fs w2 (c0 :: r0)) as [| |x2]; try contradiction.
      1,2: split; auto; simdone.
      match goal with |- simr match loop _ _ _ ?sa _ with _ => _ end match loop _ _ _ ?sb _ with _ => _ end =>
        assert (HS : sim sa sb) by simdone; pose proof (IH (c0 :: r0) sa sb (lines_of x1) (lines_of x2) HS HF) as X end.
      destruct (loop n w1 (c0 :: r0) _ _), (loop n w2 (c0 :: r0) _ _); try contradiction; try exact X.
      apply IH; [exact X|exact HL1]. }
    destruct (str_eqb v (L "block")).
    { unfold stmt_block. destruct (get_token_sim a1 b1 la lb H1 HL1) as (t2 & v2 & a2 & b2 & l2' & m2 & -> & -> & H2 & HL2).
      simsplit H2. destruct t2; apply IH; auto; simdone. }
    destruct (str_eqb v (L "endblock")).
    { unfold stmt_endblock. simsplit H1. cbn [flush_line with_tl p_blocks]. rewrite S3. destruct (p_blocks b1) eqn:Eb; [split; auto; simdone|].
      apply IH; auto; simdone. }
    destruct (str_eqb v (L "relativepath")).
    { destruct (get_token_sim a1 b1 la lb H1 HL1) as (t2 & v2 & a2 & b2 & l2' & m2 & -> & -> & H2 & HL2).
      apply entry_sim; auto. }
    apply entry_sim; auto. }
  destruct t; try exact ST. clear ST.
  unfold on_eof. simsplit H1. cbn [p_count with_incs]. rewrite S5. destruct (Init.Nat.pred (p_count b1)).
  - cbn [p_blocks with_incs]. rewrite S3. destruct (p_blocks b1) eqn:Eb; cbn [p_err with_incs with_err with_ctx]; [rewrite S6; destruct (p_err b1) eqn:Ee|]; cbn; try (split; [reflexivity|]); simdone.
  - cbn. simdone.
Qed.
Lemma parse_sim n f : simr (parse n w1 f) (parse n w2 f).
Proof.
  unfold parse, process_main. pose proof (proj1 HW f) as HF.
  assert (HS : simh (p_heap fresh) (p_heap fresh)) by (do 6 eexists; split; reflexivity).
  destruct (w_fs w1 f), (w_fs w2 f); try contradiction.
  - split; auto. simdone.
  - apply loop_sim; [simdone|exists []; split; constructor].
  - apply loop_sim; [simdone|exact HF].
Qed.
End Worlds.
