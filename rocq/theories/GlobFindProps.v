(** GlobFindProps.v -- C96, C97: the files kwiversys::Glob::FindFiles lists. *)
From Coq Require Import List Ascii Bool Arith Lia.
Import ListNotations.
From Verif Require Import Base TokenizeSpec TokenizeProofs RegexModel RegexSpec RegexProps PathModel GlobModel GlobSpec GlobProofs GlobProofs2 GlobProps GlobFindSpec GlobFind.

Lemma compiled_answers : forall p x, ~ In NUL p -> (forall its, glob_text p its -> glob_size its + 16 < LIMIT) -> compile_string (pattern_to_regex true p) = COk x -> answers x (selects p).
Proof.
  intros p [x|] N SZ E name NN.
  - destruct (C95_meaning p x N E) as (its & GT & H). destruct (H name NN) as [n0 F]. destruct (F n0 (le_n _)) as (b & Hb & B). exists b. split.
    + exists n0. intros n _ Hn _. destruct (F n Hn) as (b' & Hb' & B'). rewrite Hb'. f_equal. rewrite <- B in B'. destruct b, b'; auto; [now apply (proj2 B')|symmetry; now apply (proj1 B')].
    + rewrite B. split; [intro G; exists its; auto|]. intros (its' & GT' & G). now rewrite (C95_one_reading p its its' GT GT').
  - exists false. split; [apply ev_all; reflexivity|]. split; [discriminate|]. intros (its & GT & _). exfalso. destruct (C95_accepted p its N GT (SZ its GT)) as [x E']. congruence.
Qed.
Lemma expressions_ok : forall ps, (forall p, In p ps -> ~ In NUL p /\ forall its, glob_text p its -> glob_size its + 16 < LIMIT) -> exists xs, expressions ps = Some xs /\ Forall2 (fun p x => answers x (selects p)) ps xs.
Proof.
  induction ps as [|p ps IH]; intro H; [exists []; split; [reflexivity|constructor]|]. destruct IH as (xs & E & F); [intros q I0; apply H; now right|].
  destruct (H p (or_introl eq_refl)) as [N SZ]. destruct (C92_compile_total (pattern_to_regex true p)) as [x Ex]. exists (x :: xs). cbn [expressions]. rewrite Ex, E. split; [reflexivity|]. constructor; [|exact F]. eapply compiled_answers; eauto.
Qed.
(** The pieces of the pattern between slashes. *)
Lemma components_splits : forall s cur, ~ In slash cur -> exists l, splits (fun c => c = slash) (cur ++ s) l /\ components_from cur s = filter nonempty l.
Proof.
  induction s as [|c s IH]; intros cur N.
  - exists [cur]. rewrite app_nil_r. split; [constructor; intros c I0 ->; contradiction|]. cbn. destruct cur; reflexivity.
  - cbn [components_from]. destruct (Ascii.eqb_spec c slash) as [->|NE].
    + destruct (IH [] ltac:(intros [])) as (l & S0 & E). exists (cur :: l). split; [apply sp_more; [intros c I0 ->; contradiction|reflexivity|exact S0]|]. cbn [filter]. destruct cur; cbn [nonempty]; [exact E|now rewrite E].
    + destruct (IH (cur ++ [c])) as (l & S0 & E). { intro K. apply in_app_or in K. destruct K as [K|[K|[]]]; [contradiction|congruence]. } exists l. rewrite <- app_assoc in S0. split; [exact S0|exact E].
Qed.
Lemma component_in : forall s cur p, In p (components_from cur s) -> forall c, In c p -> In c cur \/ In c s.
Proof.
  induction s as [|d s IH]; intros cur p H c I0; cbn [components_from] in H.
  - destruct cur; [destruct H|]. destruct H as [<-|[]]. now left.
  - destruct (Ascii.eqb d slash).
    + destruct cur as [|e cur]; [destruct (IH [] p H c I0) as [[]|X]; right; now right|]. destruct H as [<-|H]; [now left|]. destruct (IH [] p H c I0) as [[]|X]. right. now right.
    + destruct (IH _ p H c I0) as [X|X]; [apply in_app_or in X; destruct X as [X|[->|[]]]; [now left|right; now left]|right; now right].
Qed.
(** The scan for the last slash. *)
Lemma nth_mid : forall (s1 : str) prev c r, nth_error (s1 ++ prev :: c :: r) (length s1) = Some prev /\ nth_error (s1 ++ prev :: c :: r) (S (length s1)) = Some c.
Proof. intros s1 prev c r. split; [rewrite nth_error_app2, Nat.sub_diag by lia; reflexivity|]. rewrite nth_error_app2 by lia. replace (S (length s1) - length s1) with 1 by lia. reflexivity. Qed.
Lemma last_slash_ok : forall r s1 prev last s, s = s1 ++ prev :: r -> (forall j, j < S (length s1) -> ~ wild_at s j) ->
  (slash_at s last /\ last < S (length s1) /\ (forall j, j < S (length s1) -> slash_at s j -> j <= last)) \/ (last = 0 /\ forall j, j < S (length s1) -> ~ slash_at s j) ->
  fixed_part s (last_slash prev (S (length s1)) last r).
Proof.
  induction r as [|c r IH]; intros s1 prev last s Es NW INV; cbn [last_slash].
  - assert (LE : forall j, slash_at s j -> j < S (length s1)). { intros j (_ & E & _). assert (j < length s) by (apply nth_error_Some; congruence). subst s. rewrite app_length in H. cbn in H. lia. }
    destruct INV as [(A & _ & B)|(A & B)]; [left; split; [exact A|intros j K; apply B; auto]|right; split; [exact A|intros j K; exact (B j (LE j K) K)]].
  - change (0 <? S (length s1)) with true. cbn [andb].
    assert (N1 : nth_error s (length s1) = Some prev) by (subst s; apply nth_mid). assert (N2 : nth_error s (S (length s1)) = Some c) by (subst s; apply nth_mid).
    assert (UN : unescaped s (S (length s1)) <-> prev <> "\"%char). { unfold unescaped. replace (S (length s1) - 1) with (length s1) by lia. rewrite N1. split; [intros [_ H]; congruence|intro H; split; [lia|congruence]]. }
    set (last' := if (Ascii.eqb c slash && negb (Ascii.eqb prev "\"))%bool then S (length s1) else last).
    assert (SL : slash_at s (S (length s1)) <-> (Ascii.eqb c slash && negb (Ascii.eqb prev "\"))%bool = true).
    { rewrite andb_true_iff, negb_true_iff, Ascii.eqb_eq, Ascii.eqb_neq, <- UN. unfold slash_at. rewrite N2. split; [intros (A & B & _); split; [congruence|exact A]|intros [-> A]; auto]. }
    assert (INV' : (slash_at s last' /\ last' < S (S (length s1)) /\ (forall j, j < S (S (length s1)) -> slash_at s j -> j <= last')) \/ (last' = 0 /\ forall j, j < S (S (length s1)) -> ~ slash_at s j)).
    { unfold last'. destruct (_ && _)%bool eqn:Q.
      - left. split; [now apply SL|]. split; [lia|]. intros; lia.
      - assert (NS : ~ slash_at s (S (length s1))) by (intro K; apply SL in K; discriminate).
        destruct INV as [(A & A1 & B)|(A & B)].
        + left. split; [exact A|]. split; [lia|]. intros j Hj K. destruct (Nat.eq_dec j (S (length s1))) as [->|]; [contradiction|]. apply B; [lia|exact K].
        + right. split; [exact A|]. intros j Hj K. destruct (Nat.eq_dec j (S (length s1))) as [->|]; [contradiction|]. apply (B j); [lia|exact K]. }
    clearbody last'.
    assert (WI : wild_at s (S (length s1)) <-> ((Ascii.eqb c "[" || Ascii.eqb c "?" || Ascii.eqb c "*") && negb (Ascii.eqb prev "\"))%bool = true).
    { rewrite andb_true_iff, negb_true_iff, !orb_true_iff, !Ascii.eqb_eq, Ascii.eqb_neq, <- UN. unfold wild_at. rewrite N2. split; [intros [A [B|[B|B]]]; split; auto; injection B; auto|intros [[[->| ->]| ->] A]; auto]. }
    destruct ((Ascii.eqb c "[" || Ascii.eqb c "?" || Ascii.eqb c "*") && negb (Ascii.eqb prev "\"))%bool eqn:W.
    + assert (WT : wild_at s (S (length s1))) by (now apply WI).
      assert (LE : forall j, slash_at s j -> j < S (S (length s1))). { intros j (_ & _ & K). destruct (le_lt_dec (S (S (length s1))) j) as [G|G]; [|exact G]. exfalso. exact (K (S (length s1)) G WT). }
      destruct INV' as [(A & _ & B)|(A & B)]; [left; split; [exact A|intros j K; apply B; auto]|right; split; [exact A|intros j K; exact (B j (LE j K) K)]].
    + specialize (IH (s1 ++ [prev]) c last' s). rewrite app_length in IH. cbn [length] in IH. replace (length s1 + 1) with (S (length s1)) in IH by lia. apply IH; [rewrite <- app_assoc; exact Es| |exact INV'].
      intros j Hj K. destruct (Nat.eq_dec j (S (length s1))) as [->|]; [apply WI in K; discriminate|]. apply (NW j); [lia|exact K].
Qed.
Lemma last_slash_whole : forall s, fixed_part s (last_slash NUL 0 0 s).
Proof.
  intros [|c s]; [right; split; [reflexivity|intros j (_ & E & _); destruct j; discriminate]|]. cbn [last_slash]. change (0 <? 0) with false. cbn [andb].
  apply (last_slash_ok s [] c 0 (c :: s)); [reflexivity|..].
  - intros j Hj ((A & _) & _). cbn in Hj. lia.
  - right. split; [reflexivity|]. intros j Hj ((A & _) & _). cbn in Hj. lia.
Qed.

(** FindFiles ends and lists exactly the files found by following the pattern
    component by component from the fixed part of the path. *)
Theorem C96_find_files : forall w o cwd e, let s := absolute cwd e in
  wf_names w -> (o_recurse o = true -> forall node, finite_below w node) ->
  hd_error s = Some slash -> ~ In NUL s ->
  forall k ps l, fixed_part s k -> splits (fun c => c = slash) (skipn k s) l -> ps = filter nonempty l ->
  (forall p its, In p ps -> glob_text p its -> glob_size its + 16 < LIMIT) ->
  exists outs n0, (forall n, n0 <= n -> find_files n w o cwd e = Some outs) /\
    forall path, In path (files_of outs) <-> exists node, g_open w (start_dir s k) = Some node /\ found w o ps (start_dir s k) node path.
Proof.
  intros w o cwd e s WN FB HS NS k ps l FP SP EP SZ.
  assert (KU : forall k1 k2, fixed_part s k1 -> fixed_part s k2 -> k1 = k2).
  { intros k1 k2 [[A1 B1]|[A1 B1]] [[A2 B2]|[A2 B2]]; [specialize (B1 _ A2); specialize (B2 _ A1); lia|exfalso; exact (B2 _ A1)|exfalso; exact (B1 _ A2)|congruence]. }
  pose proof (KU _ _ FP (last_slash_whole s)) as EK.
  assert (SK : (if 0 <? k then k else if (Ascii.eqb (nth 1 s NUL) ":" && negb (Ascii.eqb (nth 0 s NUL) slash))%bool then 2 else 0) = k).
  { destruct (Nat.ltb_spec 0 k) as [H|H]; [reflexivity|]. destruct s as [|c r]; [discriminate|]. cbn in HS. injection HS as ->. change (nth 0 (slash :: r) NUL) with slash. change (Ascii.eqb slash slash) with true. rewrite andb_false_r. lia. }
  assert (CE : components_from [] (skipn k s) = ps).
  { destruct (components_splits (skipn k s) [] ltac:(intros [])) as (l' & S1 & E1). cbn [app] in S1. rewrite E1, EP. f_equal. eapply splits_unique; [|exact S1|exact SP]. intro c. apply ascii_dec. }
  destruct (expressions_ok ps) as (xs & EX & F).
  { intros p I0. split; [|intros its G; exact (SZ p its I0 G)]. rewrite <- CE in I0. intro K. destruct (component_in _ _ _ I0 _ K) as [[]|X]. apply NS. rewrite <- (firstn_skipn k s). apply in_or_app. now right. }
  assert (SD : (if 0 <? k then firstn k s ++ L "/" else L "/") = start_dir s k) by (unfold start_dir; destruct k; reflexivity).
  assert (FF : forall n, find_files n w o cwd e = match g_open w (start_dir s k) with None => Some [] | Some node => process n n w o xs true (start_dir s k) node end).
  { intro n. unfold find_files. change (if file_is_full_path e then e else cwd ++ L "/" ++ e) with s. cbv zeta. rewrite <- EK, SK, CE, EX, SD. reflexivity. }
  destruct (g_open w (start_dir s k)) as [node|].
  - destruct (process_ev w o WN FB ps xs F true (start_dir s k) node) as (outs & (n0 & E) & T). exists outs, n0. split; [intros n Hn; rewrite FF; apply E; exact Hn|]. intro path. rewrite T. cbn [pref]. split; [intro H; exists node; auto|intros (nd & X & H); injection X as <-; exact H].
  - exists [], 0. split; [intros n _; apply FF|]. intro path. split; [intros []|intros (nd & X & _); discriminate].
Qed.
Print Assumptions C96_find_files.
(** Every pattern has a fixed part and components. *)
Theorem C96_well_defined : forall s, exists k l, fixed_part s k /\ splits (fun c => c = slash) (skipn k s) l.
Proof. intro s. exists (last_slash NUL 0 0 s). destruct (components_splits (skipn (last_slash NUL 0 0 s) s) [] ltac:(intros [])) as (l & H & _). exists l. split; [apply last_slash_whole|exact H]. Qed.
Print Assumptions C96_well_defined.
