From Coq Require Import List Ascii Bool Arith Lia.
Import ListNotations.
From Verif Require Import Base PathModel PathSpec.

(** ---- find and rfind ---- *)
Lemma fsplit_some c s a b : fsplit c s = Some (a, b) -> s = a ++ c :: b /\ ~ In c a.
Proof.
  revert a b. induction s as [|x s IH]; intros a b H; cbn in H; [discriminate|].
  destruct (Ascii.eqb_spec x c) as [->|N]; [injection H as <- <-; auto|].
  destruct (fsplit c s) as [[a' b']|]; [|discriminate]. injection H as <- <-. destruct (IH a' b' eq_refl) as [-> I]. cbn. intuition congruence.
Qed.
Lemma fsplit_none c s : fsplit c s = None <-> ~ In c s.
Proof.
  induction s as [|x s IH]; cbn; [tauto|]. destruct (Ascii.eqb_spec x c) as [->|N]; [split; [discriminate|tauto]|].
  destruct (fsplit c s) as [[a b]|]; split; intro H; try discriminate; try tauto; exfalso; assert (X : ~ In c s) by tauto; apply IH in X; discriminate.
Qed.
Lemma rsplit_some c s a b : rsplit c s = Some (a, b) -> s = a ++ c :: b /\ ~ In c b.
Proof.
  revert a b. induction s as [|x s IH]; intros a b H; cbn in H; [discriminate|].
  destruct (rsplit c s) as [[a' b']|] eqn:E; [injection H as <- <-; destruct (IH a' b' eq_refl) as [-> I]; auto|].
  destruct (Ascii.eqb_spec x c) as [->|N]; [|discriminate]. injection H as <- <-. split; auto.
  clear IH. induction s as [|y s IH]; cbn in *; auto. destruct (rsplit c s) as [[? ?]|]; [discriminate|]. destruct (Ascii.eqb_spec y c); [discriminate|]. intuition.
Qed.
Lemma rsplit_none c s : rsplit c s = None <-> ~ In c s.
Proof.
  induction s as [|x s IH]; cbn; [tauto|]. destruct (rsplit c s) as [[a b]|].
  - split; [discriminate|]. intro H. assert (X : ~ In c s) by tauto. apply IH in X. discriminate.
  - destruct (Ascii.eqb_spec x c) as [->|N]; split; intro H; try discriminate; try tauto.
Qed.
Lemma rsplit_app c a b : ~ In c b -> rsplit c (a ++ c :: b) = Some (a, b).
Proof.
  intro N. induction a as [|x a IH]; cbn.
  - apply rsplit_none in N. rewrite N, Ascii.eqb_refl. auto.
  - rewrite IH. auto.
Qed.
Lemma fsplit_app c a b : ~ In c a -> fsplit c (a ++ c :: b) = Some (a, b).
Proof.
  induction a as [|x a IH]; cbn; intro N; [rewrite Ascii.eqb_refl; auto|].
  destruct (Ascii.eqb_spec x c) as [->|]; [tauto|]. rewrite IH by tauto. auto.
Qed.

(** ---- ReplaceString ---- *)
Lemma find_sub_some pat s a b : find_sub pat s = Some (a, b) -> s = a ++ pat ++ b /\
  forall a' b', s = a' ++ pat ++ b' -> length a <= length a'.
Proof.
  revert a b. induction s as [|c s IH]; intros a b H; cbn [find_sub] in H; destruct (is_prefix pat _) eqn:P.
  - injection H as <- <-. apply is_prefix_app in P as [r E]. destruct pat; [|discriminate]. split; auto. intros. cbn. lia.
  - discriminate.
  - injection H as <- <-. apply is_prefix_app in P as [r E]. rewrite E, skipn_app, skipn_all, Nat.sub_diag. split; auto. intros. cbn. lia.
  - destruct (find_sub pat s) as [[a' b']|]; [|discriminate]. injection H as <- <-. destruct (IH a' b' eq_refl) as [E M]. split; [rewrite E; reflexivity|].
    intros a2 b2 E2. destruct a2 as [|x a2]; [cbn in E2; rewrite E2, is_prefix_self in P; discriminate|]. injection E2 as _ E2. cbn. apply M in E2. lia.
Qed.
Lemma find_sub_none pat s : find_sub pat s = None <-> forall a b, s <> a ++ pat ++ b.
Proof.
  induction s as [|c s IH]; cbn [find_sub]; destruct (is_prefix pat _) eqn:P.
  - split; [discriminate|]. intro H. apply is_prefix_app in P as [r E]. exfalso. exact (H [] r E).
  - split; auto. intros _ a b E. destruct a; [|discriminate]. cbn in E. rewrite E, is_prefix_self in P. discriminate.
  - split; [discriminate|]. intro H. apply is_prefix_app in P as [r E]. exfalso. exact (H [] r E).
  - destruct (find_sub pat s) as [[a b]|]; split; intro H; try discriminate; auto.
    + exfalso. destruct IH as [_ IH]. assert (X : Some (a, b) = None); [|discriminate]. apply IH. intros a' b' E. apply (H (c :: a') b'). rewrite E. auto.
    + intros a b E. destruct a as [|x a]; [cbn in E; rewrite E, is_prefix_self in P; discriminate|]. injection E as _ E. destruct IH as [IH _]. exact (IH eq_refl a b E).
Qed.
(** Leftmost, non-overlapping replacement. *)
Inductive replaced (pat w : str) : str -> str -> Prop :=
| replaced_none s : (forall a b, s <> a ++ pat ++ b) -> replaced pat w s s
| replaced_some a b r : (forall a' b', a ++ pat ++ b = a' ++ pat ++ b' -> length a <= length a') -> replaced pat w b r -> replaced pat w (a ++ pat ++ b) (a ++ w ++ r).
Lemma replace_loop_spec pat w : pat <> [] -> forall n s, length s < n -> exists r, replace_loop n pat w s = Some r /\ replaced pat w s r.
Proof.
  intro NP. induction n as [|n IH]; intros s H; [lia|]. cbn [replace_loop]. destruct (find_sub pat s) as [[a b]|] eqn:F.
  - apply find_sub_some in F as [-> M]. destruct (IH b) as (r & -> & R).
    { destruct pat; [congruence|]. rewrite !app_length in H. cbn in H. lia. }
    eexists. split; [reflexivity|]. constructor; auto.
  - exists s. split; auto. constructor. apply find_sub_none. auto.
Qed.
Lemma same_len_app {A} (a : list A) : forall a' b b', length a = length a' -> a ++ b = a' ++ b' -> a = a'.
Proof. induction a as [|x a IH]; intros [|y a'] b b' H E; cbn in *; try discriminate; auto. injection E as -> E. f_equal. eapply IH; eauto. Qed.
Lemma replaced_det pat w s r1 : replaced pat w s r1 -> forall r2, replaced pat w s r2 -> r1 = r2.
Proof.
  induction 1 as [s N|a b r M R IH]; intros r2 H2.
  - inversion H2 as [s' N' E1 E2|a b r M R E1 E2]; subst; auto. exfalso. exact (N a b eq_refl).
  - inversion H2 as [s' N' E1 E2|a' b' r' M' R' E1 E2]; subst.
    + exfalso. exact (N' a b eq_refl).
    + assert (length a <= length a') by (eapply M; eauto). assert (length a' <= length a) by (eapply M'; eauto).
      assert (a = a') by (eapply same_len_app; [|symmetry; exact E1]; lia).
      subst. apply app_inv_head in E1. apply app_inv_head in E1. subst. rewrite (IH _ R'). auto.
Qed.

(** ---- pieces ---- *)
Lemma pieces_from_app cur s : no_sep s -> pieces_from cur s = [cur ++ s].
Proof.
  revert cur. induction s as [|c s IH]; intros cur H; cbn; [rewrite app_nil_r; auto|].
  rewrite (H c (or_introl eq_refl)), IH by (intros x Hx; apply H; right; auto). rewrite <- app_assoc. auto.
Qed.
Lemma pieces_from_sep cur s c r : no_sep s -> is_sep c = true -> pieces_from cur (s ++ c :: r) = (cur ++ s) :: pieces_from [] r.
Proof.
  revert cur. induction s as [|x s IH]; intros cur H Hc; cbn [app pieces_from]; [rewrite Hc, app_nil_r; auto|].
  rewrite (H x (or_introl eq_refl)), IH by (auto; intros y Hy; apply H; right; auto). rewrite <- app_assoc. auto.
Qed.
Lemma pieces_from_nonnil cur s : pieces_from cur s <> [].
Proof. revert cur. induction s as [|c s IH]; intro cur; cbn; [discriminate|]. destruct (is_sep c); [discriminate|auto]. Qed.
Lemma pieces_from_nosep cur s : no_sep cur -> forall p, In p (pieces_from cur s) -> no_sep p.
Proof.
  revert cur. induction s as [|c s IH]; intros cur H p Hp; cbn in Hp.
  - destruct Hp as [<-|[]]. auto.
  - destruct (is_sep c) eqn:E.
    + destruct Hp as [<-|Hp]; auto. apply (IH [] (fun _ F => match F with end) p Hp).
    + apply (IH (cur ++ [c])) in Hp; auto. intros x Hx. apply in_app_iff in Hx as [Hx|[<-|[]]]; auto.
Qed.
Lemma pieces_nosep s p : In p (pieces s) -> no_sep p.
Proof. unfold pieces. destruct s; [intros []|]. apply pieces_from_nosep. intros ? []. Qed.
Lemma sep_slash : is_sep slash = true. Proof. reflexivity. Qed.
Lemma pieces_from_slashed n r : no_sep n -> (forall x, In x r -> no_sep x) -> pieces_from [] (slashed (n :: r)) = n :: r.
Proof.
  revert n. induction r as [|m r IH]; intros n Hn Hr; [cbn [slashed]; rewrite pieces_from_app; auto|].
  cbn [slashed]. rewrite pieces_from_sep by (auto using sep_slash). cbn [app]. f_equal. apply IH; [apply Hr; left; auto|intros; apply Hr; right; auto].
Qed.
Lemma pieces_slashed names : Forall proper names -> pieces (slashed names) = names.
Proof.
  destruct names as [|n r]; auto. intro H. inversion H as [|? ? H1 H2]; subst.
  assert (N : slashed (n :: r) <> []). { destruct H1 as [N _]. destruct n; [congruence|]. destruct r; discriminate. }
  unfold pieces. destruct (slashed (n :: r)) eqn:E; [congruence|]. rewrite <- E. apply pieces_from_slashed.
  - apply H1.
  - intros x Hx. rewrite Forall_forall in H2. apply H2; auto.
Qed.
Lemma slashed_sep_text s : (forall c, In c s -> c <> backslash) -> forall cur, slashed (pieces_from cur s) = cur ++ s.
Proof.
  induction s as [|c s IH]; intros H cur; cbn [pieces_from]; [cbn; rewrite app_nil_r; auto|].
  destruct (is_sep c) eqn:E.
  - assert (c = slash). { unfold is_sep in E. apply orb_prop in E as [E|E]; apply Ascii.eqb_eq in E; auto. subst. exfalso. apply (H backslash); [left|]; auto. }
    subst. cbn [slashed]. destruct (pieces_from [] s) eqn:P; [apply pieces_from_nonnil in P; tauto|]. rewrite <- P. rewrite IH by (intros; apply H; right; auto). auto.
  - rewrite IH by (intros; apply H; right; auto). rewrite <- app_assoc. auto.
Qed.

(** ---- SplitPath ---- *)
Lemma split_path_parts n : forall e p l, split_path n e p = Some l -> exists root comps, l = root :: comps /\ parts e p root comps.
Proof.
  induction n as [|n IH]; intros e p l H; cbn [split_path] in H; [discriminate|]. destruct (split_root p) as [root rest] eqn:S.
  destruct root as [|c root].
  - injection H as <-. eexists. eexists. split; eauto. apply parts_plain; auto. discriminate.
  - destruct (Ascii.eqb_spec c "~") as [->|N].
    + destruct (split_path n e _) as [l0|] eqn:E; [|discriminate]. injection H as <-. apply IH in E as (r2 & c2 & -> & P).
      exists r2, (c2 ++ pieces rest). split; auto. eapply parts_home; eauto.
    + injection H as <-. eexists. eexists. split; eauto. apply parts_plain; auto. congruence.
Qed.
Lemma split_path_more n : forall e p l m, split_path n e p = Some l -> n <= m -> split_path m e p = Some l.
Proof.
  induction n as [|n IH]; intros e p l m H Hm; cbn [split_path] in H; [discriminate|]. destruct m as [|m]; [lia|]. cbn [split_path].
  destruct (split_root p) as [root rest]. destruct root as [|c root]; auto. destruct (Ascii.eqb c "~"); auto.
  destruct (split_path n e _) as [l0|] eqn:E; [|discriminate]. rewrite (IH _ _ _ m E) by lia. auto.
Qed.
Lemma parts_split_path e p root comps : parts e p root comps -> exists n, forall m, n <= m -> split_path m e p = Some (root :: comps).
Proof.
  induction 1 as [p root rest S N|p u rest home root comps Sp E P (n & IH)].
  - exists 1. intros m Hm. destruct m as [|m]; [lia|]. cbn [split_path]. rewrite S. destruct root as [|c r]; auto. destruct (Ascii.eqb_spec c "~") as [->|]; auto. exfalso. eapply N; eauto.
  - exists (S n). intros m Hm. destruct m as [|m]; [lia|]. cbn [split_path]. rewrite Sp. rewrite Ascii.eqb_refl. cbv zeta. rewrite <- E. rewrite IH by lia. auto.
Qed.
Lemma parts_det e p r1 c1 : parts e p r1 c1 -> forall r2 c2, parts e p r2 c2 -> r1 = r2 /\ c1 = c2.
Proof.
  intros H1 r2 c2 H2. apply parts_split_path in H1 as (n1 & H1). apply parts_split_path in H2 as (n2 & H2).
  specialize (H1 (n1 + n2)). specialize (H2 (n1 + n2)). rewrite H1 in H2 by lia. specialize (H2 ltac:(lia)). injection H2 as -> ->. auto.
Qed.
Lemma parts_nosep e p root comps : parts e p root comps -> forall c, In c comps -> no_sep c.
Proof.
  induction 1 as [p root rest S N|p u rest home root comps S E P IH]; intros c Hc; [eapply pieces_nosep; eauto|].
  apply in_app_iff in Hc as [Hc|Hc]; auto. eapply pieces_nosep; eauto.
Qed.

(** ---- AppendComponents ---- *)
Lemma walk_proper dir c : Forall proper dir -> no_sep c -> Forall proper (walk dir c).
Proof.
  intros H N. unfold walk. destruct (str_eqb_spec c []) as [|E1]; auto. destruct (str_eqb_spec c (L ".")) as [|E2]; auto. destruct (str_eqb_spec c (L "..")) as [|E3].
  - apply Forall_forall. intros x Hx. rewrite Forall_forall in H. apply H. clear -Hx. induction dir as [|a dir IH]; [destruct Hx|]. cbn in Hx. destruct dir; [destruct Hx|]. destruct Hx as [->|Hx]; [left; auto|right; auto].
  - apply Forall_app. split; auto. constructor; auto. repeat split; auto.
Qed.
Lemma walks_proper comps : forall dir, Forall proper dir -> (forall c, In c comps -> no_sep c) -> Forall proper (fold_left walk comps dir).
Proof.
  induction comps as [|c comps IH]; intros dir H N; auto. cbn [fold_left]. apply IH; [apply walk_proper; auto; apply N; left; auto|intros; apply N; right; auto].
Qed.
Lemma walks_names names : Forall proper names -> forall dir, fold_left walk names dir = dir ++ names.
Proof.
  induction 1 as [|n names (N1 & N2 & N3 & N4) H IH]; intro dir; cbn [fold_left]; [rewrite app_nil_r; auto|]. rewrite IH. unfold walk.
  destruct (str_eqb_spec n []); [congruence|]. destruct (str_eqb_spec n (L ".")); [congruence|]. destruct (str_eqb_spec n (L "..")); [congruence|]. rewrite <- app_assoc. auto.
Qed.
Lemma append_walk root dir c : append_component (root :: dir) c = root :: walk dir c.
Proof.
  unfold append_component, walk. destruct (str_eqb_spec c (L "..")) as [->|N].
  - cbn [str_eqb length]. change (str_eqb (L "..") []) with false. change (str_eqb (L "..") (L ".")) with false. change (str_eqb (L "..") (L "..")) with true. cbv iota.
    destruct dir as [|d dir]; auto.
  - destruct c as [|x c]; auto. change (str_eqb (x :: c) []) with false. cbn [negb andb]. destruct (str_eqb (x :: c) (L ".")); auto.
Qed.
Lemma appends_walk root comps : forall dir, append_components (root :: dir) comps = root :: fold_left walk comps dir.
Proof. induction comps as [|c comps IH]; intro dir; auto. unfold append_components in *. cbn [fold_left]. rewrite append_walk, IH. auto. Qed.
Lemma join_rest_slashed names : join_rest names = match names with [] => [] | _ => slash :: slashed names end.
Proof. induction names as [|n names IH]; auto. cbn [join_rest slashed]. rewrite IH. destruct names; [rewrite app_nil_r; auto|auto]. Qed.
Lemma join_text root names : join_path (root :: names) = text_of root names.
Proof.
  destruct names as [|n names]; cbn; [unfold text_of; rewrite app_nil_r; auto|]. unfold text_of. f_equal. rewrite join_rest_slashed. cbn [slashed]. destruct names; [rewrite app_nil_r; auto|auto].
Qed.
Lemma split_root_nodot p root rest : split_root p = (root, rest) -> root <> L "..".
Proof.
  intros H E. subst. destruct p as [|a [|b r]]; cbn [split_root] in H.
  - discriminate.
  - destruct (is_sep a); [discriminate|]. destruct (Ascii.eqb a "~"); discriminate.
  - repeat match type of H with (if ?b then _ else _) = _ => destruct b eqn:?; try discriminate end.
    + destruct r as [|c r]; [|destruct (is_sep c)]; try discriminate; injection H; intros; subst; discriminate.
    + destruct (Ascii.eqb_spec a "~"); [subst|discriminate]. injection H. intros. discriminate.
Qed.
Lemma split_root_first p root rest : split_root p = (root, rest) -> root <> L "." /\ root <> L "..".
Proof.
  intros H. split; [|eapply split_root_nodot; eauto]. intro E. subst. destruct p as [|a [|b r]]; cbn [split_root] in H.
  - discriminate.
  - destruct (is_sep a); [discriminate|]. destruct (Ascii.eqb a "~"); discriminate.
  - repeat match type of H with (if ?b then _ else _) = _ => destruct b eqn:?; try discriminate end.
    + destruct r as [|c r]; [|destruct (is_sep c)]; discriminate.
    + destruct (Ascii.eqb_spec a "~"); [subst|discriminate]. injection H. intros. discriminate.
Qed.
Lemma parts_root e p root comps : parts e p root comps -> root <> L "." /\ root <> L "..".
Proof. induction 1; eauto using split_root_first. Qed.
