(** PathProps.v -- C83 (parts of a file name), C84 (slash conversion),
    C85 (collapsed paths), C86 (relative paths), C87 (searching files). *)
From Coq Require Import List Ascii Bool Arith Lia.
Import ListNotations.
From Verif Require Import Base PathModel PathSpec PathProofs.

(** ---------------------------------------------------------------- C85 *)
Lemma check_no_translation e p : e_trans e = [] -> check_translation e p = p.
Proof. intro H. unfold check_translation. rewrite H. destruct (length p <? 2); auto. cbn [fold_left]. apply removelast_last. Qed.
(** CollapseFullPath gives the text of the location the path leads to (before
    the translation table is applied) ... *)
Theorem C85_collapse e base p root names : located e base p root names ->
  exists n, forall m, n <= m -> collapse_full_path m e p base = Some (check_translation e (text_of root names)).
Proof.
  intro H. destruct H as [root comps P N|b broot bcomps comps P -> B|cwd broot bcomps comps P -> C B|comps P -> C].
  - pose proof (parts_root _ _ _ _ P) as (R1 & R2). apply parts_split_path in P as (n & P). exists n. intros m Hm. unfold collapse_full_path. rewrite (P m Hm). cbn [nth].
    destruct root as [|x root]; [congruence|]. unfold append_components. cbn [fold_left].
    assert (E : append_component [] (x :: root) = [x :: root]).
    { unfold append_component. destruct (str_eqb_spec (x :: root) (L "..")); [congruence|]. destruct (str_eqb_spec (x :: root) (L ".")); [congruence|]. reflexivity. }
    rewrite E. fold (append_components [x :: root] comps). rewrite appends_walk, join_text. auto.
  - apply parts_split_path in P as (n & P). apply parts_split_path in B as (n' & B). exists (n + n'). intros m Hm. unfold collapse_full_path. rewrite (P m), (B m) by lia. cbn [nth tl].
    rewrite appends_walk. unfold append_components. cbn [fold_left]. change (append_component (broot :: fold_left walk bcomps []) []) with (broot :: fold_left walk bcomps []).
    fold (append_components (broot :: fold_left walk bcomps []) comps). rewrite appends_walk, join_text. auto.
  - apply parts_split_path in P as (n & P). apply parts_split_path in B as (n' & B). exists (n + n'). intros m Hm. unfold collapse_full_path. rewrite (P m), C, (B m) by lia. cbn [nth tl].
    rewrite appends_walk. unfold append_components. cbn [fold_left]. change (append_component (broot :: fold_left walk bcomps []) []) with (broot :: fold_left walk bcomps []).
    fold (append_components (broot :: fold_left walk bcomps []) comps). rewrite appends_walk, join_text. auto.
  - apply parts_split_path in P as (n & P). exists n. intros m Hm. unfold collapse_full_path. rewrite (P m Hm), C. cbn [nth tl]. unfold append_components. cbn [fold_left]. change (append_component [[]] []) with [@nil ascii].
    fold (append_components [[]] comps). rewrite appends_walk, join_text. auto.
Qed.
(** ... and nothing else. *)
Theorem C85_only e base p m r : collapse_full_path m e p base = Some r ->
  exists root names, located e base p root names /\ r = check_translation e (text_of root names).
Proof.
  intro H. assert (D : forall root names, located e base p root names -> r = check_translation e (text_of root names)).
  { intros root names Lo. destruct (C85_collapse _ _ _ _ _ Lo) as (n & E). specialize (E (n + m)).
    assert (M : collapse_full_path (n + m) e p base = Some r).
    { clear E. unfold collapse_full_path in *. destruct (split_path m e p) as [pc|] eqn:S; [|discriminate]. rewrite (split_path_more _ _ _ _ (n + m) S) by lia.
      destruct (nth 0 pc []); auto. destruct base as [b|].
      - destruct (split_path m e b) as [bc|] eqn:S2; [|discriminate]. rewrite (split_path_more _ _ _ _ (n + m) S2) by lia. auto.
      - destruct (e_cwd e) as [cwd|]; auto. destruct (split_path m e cwd) as [bc|] eqn:S2; [|discriminate]. rewrite (split_path_more _ _ _ _ (n + m) S2) by lia. auto. }
    rewrite E in M by lia. congruence. }
  unfold collapse_full_path in H. destruct (split_path m e p) as [pc|] eqn:S; [|discriminate]. apply split_path_parts in S as (root & comps & -> & P). cbn [nth] in H.
  destruct root as [|x root].
  - destruct base as [b|].
    + destruct (split_path m e b) as [bc|] eqn:S2; [|discriminate]. apply split_path_parts in S2 as (br & bc' & -> & B). pose proof (located_base e (Some b) p b br bc' comps P eq_refl B) as Lo. eauto.
    + destruct (e_cwd e) as [cwd|] eqn:C.
      * destruct (split_path m e cwd) as [bc|] eqn:S2; [|discriminate]. apply split_path_parts in S2 as (br & bc' & -> & B). pose proof (located_cwd e None p cwd br bc' comps P eq_refl C B) as Lo. eauto.
      * pose proof (located_none e None p comps P eq_refl C) as Lo. eauto.
  - assert (N : x :: root <> []) by discriminate. pose proof (located_full e base p _ comps P N) as Lo. eauto.
Qed.

(** SplitPath, and so everything above, ends when no home directory is itself
    written with a tilde. *)
Definition plain_homes (e : penv) : Prop :=
  (forall h r, e_home e = Some h -> h <> "~"%char :: r) /\ (forall u h r, e_pw e u = Some h -> h <> "~"%char :: r).
Lemma split_root_tilde p u rest : split_root p = ("~"%char :: u, rest) -> exists r, p = "~"%char :: r.
Proof.
  destruct p as [|a [|b r]]; cbn [split_root].
  - discriminate.
  - destruct (is_sep a); [discriminate|]. destruct (Ascii.eqb_spec a "~"); [subst; eauto|discriminate].
  - destruct ((_ && _) || _)%bool; [discriminate|]. destruct (is_sep a); [discriminate|]. destruct (Ascii.eqb b ":").
    + destruct r as [|c r]; [|destruct (is_sep c)]; intro H; injection H; intros; subst; eauto.
    + destruct (Ascii.eqb_spec a "~"); [subst; eauto|discriminate].
Qed.
Lemma drop_last_sep_head h c r : drop_last_sep h = c :: r -> exists t, h = c :: t.
Proof.
  destruct h as [|x h]; [discriminate|]. unfold drop_last_sep. destruct (is_sep _); [|intro H; injection H; intros; subst; eauto].
  destruct h as [|y h]; [discriminate|]. cbn. intro H; injection H; intros; subst; eauto.
Qed.
Theorem C85_parts_exist e p : plain_homes e -> exists root comps, parts e p root comps.
Proof.
  intros (H1 & H2). destruct (split_root p) as [root rest] eqn:S.
  assert (PL : forall q, (forall r, q <> "~"%char :: r) -> exists root comps, parts e q root comps).
  { intros q Hq. destruct (split_root q) as [rt rs] eqn:Sq. exists rt, (pieces rs). constructor; auto. intros r ->. destruct (split_root_tilde _ _ _ Sq) as (r' & ->). eapply Hq; eauto. }
  destruct root as [|c root]; [exists [], (pieces rest); constructor; auto; discriminate|].
  destruct (Ascii.eqb_spec c "~") as [->|N]; [|exists (c :: root), (pieces rest); constructor; auto; congruence].
  set (home := if length (removelast ("~"%char :: root)) =? 1 then match e_home e with Some h => h | None => [] end
            else match e_pw e (tl (removelast ("~"%char :: root))) with Some d => d | None => [] end).
  destruct (PL (drop_last_sep home)) as (r2 & c2 & P).
  { intros r E. apply drop_last_sep_head in E as (t & E). unfold home in E. destruct (_ =? 1).
    - destruct (e_home e) eqn:Eh; [|discriminate]. eapply H1; eauto.
    - destruct (e_pw e _) eqn:Eh; [|discriminate]. eapply H2; eauto. }
  exists r2, (c2 ++ pieces rest). eapply parts_home; eauto.
Qed.
Theorem C85_total e base p : plain_homes e -> exists root names, located e base p root names.
Proof.
  intro H. destruct (C85_parts_exist e p H) as (root & comps & P). destruct root as [|x root].
  - destruct base as [b|].
    + destruct (C85_parts_exist e b H) as (br & bc & B). do 2 eexists. eapply located_base; eauto.
    + destruct (e_cwd e) as [cwd|] eqn:C; [|do 2 eexists; eapply located_none; eauto]. destruct (C85_parts_exist e cwd H) as (br & bc & B). do 2 eexists. eapply located_cwd; eauto.
  - do 2 eexists. eapply located_full; eauto. discriminate.
Qed.
(** ... which the code does not ensure: with HOME=~ it recurses for ever. *)
Theorem C85_home_recursion_refuted : exists e, (forall n, split_path n e (L "~") = None) /\ (forall n, collapse_full_path n e (L "~/x") None = None).
Proof.
  set (e := mkPenv (Some (L "~")) (fun _ => None) None (fun _ => None) (fun _ => false) (fun _ => false) []). exists e.
  assert (S : forall n, split_path (S n) e (L "~") = match split_path n e (L "~") with Some c => Some (c ++ []) | None => None end) by reflexivity.
  assert (S2 : forall n, split_path (Datatypes.S n) e (L "~/x") = match split_path n e (L "~") with Some c => Some (c ++ [L "x"]) | None => None end) by reflexivity.
  assert (A : forall n, split_path n e (L "~") = None) by (induction n as [|n IH]; [reflexivity|rewrite S, IH; reflexivity]).
  split; auto. intro n. unfold collapse_full_path. destruct n as [|n]; [reflexivity|]. rewrite S2, A. reflexivity.
Qed.

(** The names of a location are proper: nothing is left to collapse. *)
Lemma located_proper e base p root names : located e base p root names -> Forall proper names.
Proof.
  intro H. assert (N := fun q r c (P : parts e q r c) => parts_nosep e q r c P).
  destruct H as [root comps P _|b broot bcomps comps P _ B|cwd broot bcomps comps P _ _ B|comps P _ _]; repeat (apply walks_proper; eauto).
Qed.
Lemma split_root_full p root rest : split_root p = (root, rest) -> root <> [] -> (forall r, root <> "~"%char :: r) -> full_root root.
Proof.
  intros H N T. unfold full_root. destruct p as [|a [|b r]]; cbn [split_root] in H.
  - injection H as <- _. congruence.
  - destruct (is_sep a); [injection H as <- _; auto|]. destruct (Ascii.eqb a "~"); [injection H as <- _; exfalso; eapply T; eauto|injection H as <- _; congruence].
  - destruct ((_ && _) || _)%bool; [injection H as <- _; auto|]. destruct (is_sep a) eqn:Sa; [injection H as <- _; auto|]. destruct (Ascii.eqb b ":").
    + right. right. exists a. destruct r as [|c r]; [|destruct (is_sep c)]; injection H as <- _; repeat split; auto; intros ->; eapply T; eauto.
    + destruct (Ascii.eqb_spec a "~"); [subst; injection H as <- _; exfalso; eapply T; eauto|injection H as <- _; congruence].
Qed.
Lemma parts_full e p root comps : parts e p root comps -> root <> [] -> full_root root.
Proof. induction 1; eauto using split_root_full. Qed.
Lemma head_nosep names c t : Forall proper names -> slashed names = c :: t -> is_sep c = false.
Proof.
  intros H E. destruct H as [|n r (N1 & _ & _ & N4) _]; [discriminate|]. destruct n as [|x n]; [congruence|]. assert (x = c) by (destruct r; cbn in E; congruence). subst. apply N4. left. auto.
Qed.
Lemma slashed_nil names : Forall proper names -> slashed names = [] -> names = [].
Proof. intros H E. destruct H as [|n r (N1 & _ & _ & N4) _]; auto. destruct n as [|x n]; [congruence|]. destruct r; discriminate. Qed.
Lemma nosep_slash c : is_sep c = false -> Ascii.eqb c slash = false /\ Ascii.eqb c backslash = false.
Proof. unfold is_sep. apply orb_false_elim. Qed.
Lemma split_root_text root names : full_root root -> Forall proper names -> split_root (text_of root names) = (root, slashed names).
Proof.
  intros R H. unfold text_of. destruct R as [->|[->|(x & Sx & Tx & [->| ->])]]; cbn [app].
  - destruct (slashed names) as [|c t] eqn:E; auto. apply head_nosep in E; auto. destruct (nosep_slash c E) as [E1 E2]. cbn [split_root]. rewrite E1, E2. reflexivity.
  - reflexivity.
  - cbn [split_root]. rewrite Sx. destruct (nosep_slash x Sx) as [E1 E2]. rewrite E1, E2. reflexivity.
  - cbn [split_root]. rewrite Sx. destruct (nosep_slash x Sx) as [E1 E2]. rewrite E1, E2. cbn [andb orb]. change (Ascii.eqb ":" ":") with true. cbv iota.
    destruct (slashed names) as [|c t] eqn:E; auto. apply head_nosep in E; auto. rewrite E. auto.
Qed.
Lemma located_text e base root names : full_root root -> Forall proper names -> located e base (text_of root names) root names.
Proof.
  intros R H. pose proof (split_root_text root names R H) as S.
  assert (P : parts e (text_of root names) root names).
  { rewrite <- (pieces_slashed names H) at 2. constructor; auto. intros r ->. destruct R as [R|[R|(x & _ & Tx & [R|R])]]; injection R; intros; subst; try discriminate; congruence. }
  assert (N : root <> []) by (destruct R as [R|[R|(x & _ & _ & [R|R])]]; subst; discriminate).
  pose proof (located_full e base _ root names P N) as X. rewrite (walks_names names H []) in X. exact X.
Qed.
(** C85: collapsing is idempotent: the result denotes the same location from
    every directory and is its own collapsed form. *)
Theorem C85_idempotent e base base' p root names : e_trans e = [] -> located e base p root names -> full_root root ->
  exists n, forall m, n <= m -> collapse_full_path m e p base = Some (text_of root names) /\ collapse_full_path m e (text_of root names) base' = Some (text_of root names).
Proof.
  intros T H R. destruct (C85_collapse e base p root names H) as (n1 & E1).
  destruct (C85_collapse e base' (text_of root names) root names) as (n2 & E2); [apply located_text; auto; eapply located_proper; eauto|].
  exists (n1 + n2). intros m Hm. rewrite E1, E2 by lia. rewrite check_no_translation; auto.
Qed.
(** Two full locations have the same text only if they are the same. *)
Theorem C85_canonical r1 n1 r2 n2 : full_root r1 -> full_root r2 -> Forall proper n1 -> Forall proper n2 ->
  text_of r1 n1 = text_of r2 n2 -> r1 = r2 /\ n1 = n2.
Proof.
  intros R1 R2 H1 H2 E. pose proof (split_root_text _ _ R1 H1) as S1. rewrite E, (split_root_text _ _ R2 H2) in S1. injection S1 as -> S. split; auto.
  rewrite <- (pieces_slashed n1 H1), <- (pieces_slashed n2 H2), S. auto.
Qed.
(** From a full working directory (or base) every path leads to a full, proper location. *)
Theorem C85_full e base p root names : located e base p root names ->
  (match base with Some b => exists r c, parts e b r c /\ r <> [] | None => exists cwd r c, e_cwd e = Some cwd /\ parts e cwd r c /\ r <> [] end) ->
  full_root root /\ Forall proper names.
Proof.
  intros H B. split; [|eapply located_proper; eauto]. destruct H as [root comps P N|b broot bcomps comps P -> Q|cwd broot bcomps comps P -> C Q|comps P -> C].
  - eapply parts_full; eauto.
  - destruct B as (r & c & Q' & N). destruct (parts_det _ _ _ _ Q _ _ Q') as [-> ->]. eapply parts_full; eauto.
  - destruct B as (cwd' & r & c & C' & Q' & N). rewrite C in C'. injection C' as <-. destruct (parts_det _ _ _ _ Q _ _ Q') as [-> ->]. eapply parts_full; eauto.
  - destruct B as (cwd' & r & c & C' & _). congruence.
Qed.
Print Assumptions C85_collapse.
Print Assumptions C85_only.
Print Assumptions C85_total.
Print Assumptions C85_home_recursion_refuted.
Print Assumptions C85_idempotent.
Print Assumptions C85_canonical.
Print Assumptions C85_full.
Definition demo_env : penv := mkPenv (Some (L "/home/u")) (fun u => if str_eqb u (L "bob") then Some (L "/home/bob/") else None) (Some (L "/work/dir"))
  (fun v => if str_eqb v (L "PATH") then Some (L "/bin:/usr/bin/") else None) (fun p => str_eqb p (L "/usr/bin/tool")) (fun _ => false) [].
Example C85_nonvacuous : plain_homes demo_env /\
  collapse_full_path 3 demo_env (L "../a/./b//c/..") None = Some (L "/work/a/b") /\
  collapse_full_path 3 demo_env (L "~bob/x\y") None = Some (L "/home/bob/x/y") /\
  collapse_full_path 3 demo_env (L "/../x") (Some (L "/zz")) = Some (L "/x") /\
  located demo_env None (L "../a") (L "/") [L "work"; L "a"].
Proof.
  split.
  { split; intros; intro; subst; cbn in *; [discriminate|]. destruct (str_eqb u (L "bob")); discriminate. }
  split; [vm_compute; reflexivity|]. split; [vm_compute; reflexivity|]. split; [vm_compute; reflexivity|].
  change [L "work"; L "a"] with (fold_left walk (pieces (L "../a")) (fold_left walk (pieces (L "work/dir")) [])).
  eapply located_cwd with (cwd := L "/work/dir"); auto; apply parts_plain; try reflexivity; discriminate.
Qed.
