(** PathProps2.v -- C83 (parts of a file name), C84 (slash conversion), C86
    (relative paths and subdirectories), C87 (searching files). *)
From Coq Require Import List Ascii Bool Arith Lia.
Import ListNotations.
From Verif Require Import Base PathModel PathSpec PathProofs PathProps.

(** ---------------------------------------------------------------- C83 *)
(** The name is what follows the last slash. *)
Theorem C83_name s : exists dir, s = dir ++ get_filename_name s /\ ~ In slash (get_filename_name s) /\ (dir = [] \/ exists d, dir = d ++ [slash]).
Proof.
  unfold get_filename_name. destruct (rsplit slash s) as [[a b]|] eqn:E.
  - apply rsplit_some in E as [-> N]. exists (a ++ [slash]). rewrite <- app_assoc. cbn. split; auto. split; auto. right. eauto.
  - apply rsplit_none in E. exists []. auto.
Qed.
(** The longest extension starts at the first dot of the name, the last
    extension at the last dot; with the rest they make up the name. *)
Theorem C83_extension s : let name := get_filename_name s in
  name = get_filename_without_extension s ++ get_filename_extension s /\ ~ In "."%char (get_filename_without_extension s) /\
  (get_filename_extension s = [] \/ exists t, get_filename_extension s = "."%char :: t).
Proof.
  unfold get_filename_without_extension, get_filename_extension. destruct (fsplit "." (get_filename_name s)) as [[a b]|] eqn:E.
  - apply fsplit_some in E as [E N]. split; [exact E|]. split; auto. right. eauto.
  - apply fsplit_none in E. rewrite app_nil_r. auto.
Qed.
Theorem C83_last_extension s : let name := get_filename_name s in
  name = get_filename_without_last_extension s ++ get_filename_last_extension s /\
  ((get_filename_last_extension s = [] /\ ~ In "."%char name) \/ exists t, get_filename_last_extension s = "."%char :: t /\ ~ In "."%char t).
Proof.
  unfold get_filename_without_last_extension, get_filename_last_extension. destruct (rsplit "." (get_filename_name s)) as [[a b]|] eqn:E.
  - apply rsplit_some in E as [E N]. split; [exact E|]. right. eauto.
  - apply rsplit_none in E. rewrite app_nil_r. auto.
Qed.
Example C83_nonvacuous : get_filename_name (L "/a/b.tar.gz") = L "b.tar.gz" /\ get_filename_extension (L "/a/b.tar.gz") = L ".tar.gz" /\
  get_filename_last_extension (L "/a/b.tar.gz") = L ".gz" /\ get_filename_without_last_extension (L "/a.x/b") = L "b".
Proof. repeat split; reflexivity. Qed.

(** ---------------------------------------------------------------- C84 *)
Lemma conv_id s : ~ In backslash s -> conv_slashes s = s.
Proof. induction s as [|c s IH]; cbn; auto. intro H. destruct (Ascii.eqb_spec c backslash) as [->|]; [tauto|]. cbn [andb]. rewrite IH by tauto. auto. Qed.
Definition ends_slash (s : str) : bool := match rev s with c :: _ => Ascii.eqb c slash | [] => false end.
Definition starts_slash (s : str) : bool := match s with c :: _ => Ascii.eqb c slash | [] => false end.
Lemma two_slashes_app x y : two_slashes (x ++ y) = (two_slashes x || two_slashes y || (ends_slash x && starts_slash y))%bool.
Proof.
  unfold ends_slash. induction x as [|c x IH]; cbn [app two_slashes rev]; [cbn; rewrite orb_false_r; auto|]. rewrite IH.
  destruct x as [|d x]; cbn [app rev].
  - destruct y as [|d y]; [cbn; rewrite !andb_false_r; auto|]. cbn [starts_slash]. generalize (two_slashes (d :: y)) as t. intro t. destruct (Ascii.eqb c slash), (Ascii.eqb d slash), t; reflexivity.
  - destruct (Ascii.eqb c slash && Ascii.eqb d slash)%bool; auto. cbn [orb]. destruct (rev x ++ [d]) eqn:R; [destruct (rev x); discriminate|]. auto.
Qed.
Lemma two_slashes_sub s : two_slashes s = true <-> exists a b, s = a ++ [slash; slash] ++ b.
Proof.
  split.
  - induction s as [|c s IH]; cbn; [discriminate|]. intro H. apply orb_prop in H as [H|H].
    + apply andb_prop in H as [H1 H2]. destruct s as [|d s]; [discriminate|]. apply Ascii.eqb_eq in H1, H2. subst. exists [], s. auto.
    + destruct (IH H) as (a & b & ->). exists (c :: a), b. auto.
  - intros (a & b & ->). rewrite !two_slashes_app. cbn. rewrite !orb_true_r. auto.
Qed.
(** ConvertToUnixSlashes always ends; what it does: every backslash not
    followed by a blank becomes a slash; if the original has "//" anywhere but
    at the very start, pairs of slashes are halved from the left; then a leading
    tilde is expanded and one trailing slash dropped. *)
Theorem C84_exact e p : exists q,
  (if has_double_slash p then replaced [slash; slash] [slash] (conv_slashes p) q else q = conv_slashes p) /\
  convert_to_unix_slashes e p = Some (match q with [] => [] | _ => strip_trailing (expand_tilde e q) end).
Proof.
  unfold convert_to_unix_slashes. destruct (has_double_slash p).
  - destruct (replace_loop_spec [slash; slash] [slash] ltac:(discriminate) (S (length (conv_slashes p))) (conv_slashes p) ltac:(lia)) as (r & E & R).
    exists r. split; auto. unfold replace_string. rewrite E. destruct r; auto.
  - exists (conv_slashes p). split; auto. destruct (conv_slashes p); auto.
Qed.
Theorem C84_replace_string source pat w : pat <> [] -> exists r, replace_string source pat w = Some r /\ replaced pat w source r /\ forall r', replaced pat w source r' -> r' = r.
Proof.
  intro N. destruct (replace_loop_spec pat w N (S (length source)) source ltac:(lia)) as (r & E & R). exists r. destruct pat; [congruence|].
  split; auto. split; auto. intros r' R'. eapply replaced_det; eauto.
Qed.
Lemma strip_spec p : strip_trailing p = p \/ p = strip_trailing p ++ [slash].
Proof.
  unfold strip_trailing. destruct ((1 <? length p) && _ && _)%bool eqn:E; auto. apply andb_prop in E as [E _]. apply andb_prop in E as [E1 E2]. right.
  apply Nat.ltb_lt in E1. apply Ascii.eqb_eq in E2. rewrite <- E2. apply app_removelast_last. intro H. subst. cbn in E1. lia.
Qed.
(** A path without backslashes, doubled slashes and leading tilde only loses its
    trailing slash, unless it is "/" or a drive root. *)
Theorem C84_plain e p : ~ In backslash p -> two_slashes p = false -> (forall r, p <> "~"%char :: r) ->
  convert_to_unix_slashes e p = Some (strip_trailing p) /\
  (forall q, p = q ++ [slash] -> q <> [] -> (forall x, q <> [x; ":"%char]) -> strip_trailing p = q) /\
  (ends_slash p = false -> strip_trailing p = p).
Proof.
  intros B D T. split; [|split].
  - destruct (C84_exact e p) as (q & Q & ->). assert (H : has_double_slash p = false). { destruct p as [|c p]; auto. cbn in *. apply orb_false_elim in D as [_ D]. auto. }
    rewrite H, conv_id in Q by auto. subst. destruct p as [|c p]; auto. unfold expand_tilde. destruct (Ascii.eqb_spec c "~") as [->|]; auto. exfalso. eapply T; eauto.
  - intros q -> N X. unfold strip_trailing. rewrite last_last, removelast_last, app_length. cbn [length]. destruct q as [|a [|b q]]; [congruence|reflexivity|].
    destruct q as [|c q].
    + cbn. destruct (Ascii.eqb_spec b ":") as [->|]; auto. exfalso. eapply X; eauto.
    + cbn [length app]. replace (S (S (S (length q))) + 1 =? 3) with false by (symmetry; apply Nat.eqb_neq; lia). reflexivity.
  - intro E. unfold strip_trailing. destruct p as [|c p] using rev_ind; auto. unfold ends_slash in E. rewrite rev_app_distr in E. cbn in E. rewrite last_last, E, andb_false_r. auto.
Qed.
(** With runs of at most two slashes, no doubled slash is left if one beyond
    the start was seen. *)
Lemma replaced_head s r : replaced [slash; slash] [slash] s r -> starts_slash s = false -> starts_slash r = false.
Proof.
  destruct 1 as [s N|a b r M R]; auto. destruct a; cbn; auto.
Qed.
Theorem C84_no_doubles s r : (forall a b, s <> a ++ [slash; slash; slash] ++ b) -> replaced [slash; slash] [slash] s r -> two_slashes r = false.
Proof.
  intros T H. induction H as [s N|a b r M R IH].
  - destruct (two_slashes s) eqn:E; auto. apply two_slashes_sub in E as (a & b & E). exfalso. exact (N a b E).
  - assert (A : two_slashes a = false). { destruct (two_slashes a) eqn:E; auto. apply two_slashes_sub in E as (a1 & a2 & ->). specialize (M a1 (a2 ++ [slash; slash] ++ b)). rewrite <- !app_assoc in M. specialize (M eq_refl). rewrite !app_length in M. cbn in M. lia. }
    assert (EA : ends_slash a = false). { destruct (ends_slash a) eqn:E; auto. unfold ends_slash in E. destruct a as [|x a _] using rev_ind; [discriminate|]. rewrite rev_app_distr in E. cbn in E. apply Ascii.eqb_eq in E. subst. exfalso. apply (T a b). rewrite <- app_assoc. auto. }
    assert (SB : starts_slash b = false). { destruct b as [|x b]; auto. cbn. destruct (Ascii.eqb_spec x slash) as [->|]; auto. exfalso. apply (T a b). auto. }
    rewrite !two_slashes_app, A, EA. cbn [orb andb]. rewrite (replaced_head _ _ R SB). cbn [two_slashes ends_slash rev app]. rewrite IH; [rewrite andb_false_r; auto|].
    intros a1 b1 ->. apply (T (a ++ [slash; slash] ++ a1) b1). rewrite <- !app_assoc. auto.
Qed.
(** Not so in general: the result may keep doubled slashes and change when
    converted again. *)
Theorem C84_idempotent_refuted : exists e p q q', convert_to_unix_slashes e p = Some q /\ convert_to_unix_slashes e q = Some q' /\ q' <> q /\ two_slashes q = true.
Proof. exists demo_env, (L "a///b"), (L "a//b"), (L "a/b"). repeat split; discriminate. Qed.
Theorem C84_doubles_refuted : exists e, convert_to_unix_slashes e (L "//a") = Some (L "//a") /\ convert_to_unix_slashes e (L "a\\b") = Some (L "a//b") /\ convert_to_unix_slashes e (L "//a//b") = Some (L "/a/b").
Proof. exists demo_env. repeat split; reflexivity. Qed.
Print Assumptions C84_exact.
Print Assumptions C84_plain.
Print Assumptions C84_no_doubles.

(** ------------------------------------------------------- C83, directory *)
Lemma last_cons {A} (a : A) l d : l <> [] -> last (a :: l) d = last l d.
Proof. destruct l; [congruence|auto]. Qed.
Lemma slashed_snoc names n : names <> [] -> slashed (names ++ [n]) = slashed names ++ slash :: n.
Proof.
  induction names as [|m names IH]; [congruence|]. intros _. destruct names as [|k names]; [reflexivity|]. specialize (IH ltac:(discriminate)).
  change (slashed ((m :: k :: names) ++ [n])) with (m ++ slash :: slashed ((k :: names) ++ [n])). rewrite IH. change (slashed (m :: k :: names)) with (m ++ slash :: slashed (k :: names)).
  rewrite <- app_assoc. reflexivity.
Qed.
Lemma proper_nosep n c : proper n -> In c n -> is_sep c = false.
Proof. intros (_ & _ & _ & H). apply H. Qed.
Lemma proper_ends n : proper n -> ends_slash n = false.
Proof.
  intros (N & _ & _ & H). unfold ends_slash. destruct n as [|x n _] using rev_ind; [congruence|]. rewrite rev_app_distr. cbn. apply nosep_slash. apply H. apply in_app_iff. right. left. auto.
Qed.
Lemma proper_two n : proper n -> two_slashes n = false.
Proof.
  intros (_ & _ & _ & H). destruct (two_slashes n) eqn:E; auto. apply two_slashes_sub in E as (a & b & ->). assert (X : is_sep slash = false); [|discriminate]. apply H. apply in_app_iff. right. left. auto.
Qed.
Lemma slashed_ends names : Forall proper names -> ends_slash (slashed names) = false.
Proof.
  intro H. destruct names as [|n names _] using rev_ind; auto. apply Forall_app in H as [H1 H2]. inversion H2 as [|? ? P _]; subst. destruct names as [|m names]; [apply proper_ends; auto|].
  rewrite slashed_snoc by discriminate. pose proof (proper_ends n P) as E. destruct P as (N & _). destruct n as [|x n _] using rev_ind; [congruence|]. unfold ends_slash in *. rewrite rev_app_distr in E. cbn [rev]. rewrite rev_app_distr. cbn [rev]. rewrite rev_app_distr. cbn [app rev] in *. auto.
Qed.
Lemma slashed_starts names : Forall proper names -> starts_slash (slashed names) = false.
Proof. intro H. destruct (slashed names) as [|c t] eqn:E; auto. apply head_nosep in E; auto. cbn. apply nosep_slash. auto. Qed.
Lemma slashed_two names : Forall proper names -> two_slashes (slashed names) = false.
Proof.
  induction 1 as [|n names P H IH]; auto. destruct names as [|m names]; [apply proper_two; auto|].
  change (slashed (n :: m :: names)) with (n ++ [slash] ++ slashed (m :: names)). rewrite !two_slashes_app, (proper_two n P), (proper_ends n P), IH, (slashed_starts _ H). reflexivity.
Qed.
Lemma slashed_nobackslash names : Forall proper names -> ~ In backslash (slashed names).
Proof.
  induction 1 as [|n names P H IH]; auto. assert (N : ~ In backslash n). { intro I. assert (X : is_sep backslash = false) by (eapply proper_nosep; eauto). discriminate. }
  destruct names as [|m names]; auto. change (slashed (n :: m :: names)) with (n ++ slash :: slashed (m :: names)). rewrite in_app_iff. intros [I|[I|I]]; auto. discriminate.
Qed.
Lemma convert_text e names : Forall proper names -> convert_to_unix_slashes e (text_of [slash] names) = Some (text_of [slash] names).
Proof.
  intro H. unfold text_of. change ([slash] ++ slashed names) with (slash :: slashed names).
  assert (D : two_slashes (slash :: slashed names) = false). { change (slash :: slashed names) with ([slash] ++ slashed names). rewrite two_slashes_app, (slashed_two names H), (slashed_starts names H). reflexivity. }
  destruct (C84_plain e (slash :: slashed names)) as (C1 & _ & C3); auto.
  - intros [I|I]; [discriminate|]. eapply slashed_nobackslash; eauto.
  - discriminate.
  - rewrite C1. f_equal. destruct (slashed names) as [|c t] eqn:E; [reflexivity|]. apply C3. pose proof (slashed_ends names H) as X. rewrite E in X. unfold ends_slash in *. cbn [rev] in *. destruct (rev t); auto.
Qed.
(** On a collapsed path below "/", GetFilenamePath is the parent location and
    GetFilenameName the last name; the one exception is the parent "/:". *)
Theorem C83_parent e names n : Forall proper (names ++ [n]) ->
  get_filename_name (text_of [slash] (names ++ [n])) = n /\
  get_filename_path e (text_of [slash] (names ++ [n])) = Some (if list_eq_dec (list_eq_dec ascii_dec) names [L ":"] then L "/:/" else text_of [slash] names).
Proof.
  intro H. apply Forall_app in H as [H1 H2]. inversion H2 as [|? ? P _]; subst.
  assert (NS : ~ In slash n). { intro I. assert (X : is_sep slash = false) by (eapply proper_nosep; eauto). discriminate. }
  assert (R : rsplit slash (text_of [slash] (names ++ [n])) = Some (match names with [] => [] | _ => slash :: slashed names end, n)).
  { unfold text_of. destruct names as [|m names]; [exact (rsplit_app slash [] n NS)|]. rewrite slashed_snoc by discriminate. apply (rsplit_app slash ([slash] ++ slashed (m :: names)) n NS). }
  split.
  - unfold get_filename_name. rewrite R. auto.
  - unfold get_filename_path. rewrite convert_text by (apply Forall_app; auto). rewrite R. destruct names as [|m names]; [reflexivity|].
    destruct (list_eq_dec (list_eq_dec ascii_dec) (m :: names) [L ":"]) as [E|E]; [rewrite E; reflexivity|].
    destruct (((length (slash :: slashed (m :: names)) =? 2) && _)%bool) eqn:C; [|reflexivity]. exfalso. apply andb_prop in C as [C1 C2]. apply Nat.eqb_eq in C1. apply Ascii.eqb_eq in C2.
    apply E. cbn [length] in C1. destruct (slashed (m :: names)) as [|c [|d t]] eqn:S; try discriminate. cbn in C2. subst c. rewrite <- (pieces_slashed (m :: names) H1), S. reflexivity.
Qed.
Example C83_parent_nonvacuous : Forall proper [L "a"; L "b.txt"] /\ get_filename_path demo_env (L "/a/b.txt") = Some (L "/a") /\ get_filename_path demo_env (L "/:/x") = Some (L "/:/") /\
  get_filename_path demo_env (L "/a/b/") = Some (L "/a") /\ get_filename_name (L "/a/b/") = [].
Proof.
  split; [|repeat split; reflexivity]. repeat (apply Forall_cons || apply Forall_nil); (split; [discriminate|split; [discriminate|split; [discriminate|intros c H; vm_compute in H; intuition (subst; reflexivity)]]]).
Qed.
Print Assumptions C83_parent.

(** ---------------------------------------------------------------- C86 *)
(** Paths that start at the root: root "//" if they start with two slashes. *)
Definition rooted (root p : str) : Prop := exists rest, p = root ++ rest /\ (root = [slash; slash] \/ (root = [slash] /\ starts_slash rest = false)).
Lemma rooted_split root p : rooted root p -> exists rest, split_root p = (root, rest).
Proof.
  intros (rest & -> & [->|[-> S]]); [exists rest; reflexivity|]. destruct rest as [|c r]; [exists []; reflexivity|]. cbn in S. exists (c :: r). cbn. rewrite S. reflexivity.
Qed.
Lemma rooted_full root p : rooted root p -> full_root root /\ root <> [] /\ (forall r, root <> "~"%char :: r) /\ file_is_full_path p = true.
Proof. intros (rest & -> & [->|[-> S]]); unfold full_root; repeat split; auto; discriminate. Qed.
Lemma rooted_located e base root p : rooted root p -> exists comps, parts e p root comps /\ located e base p root (fold_left walk comps []).
Proof.
  intro H. destruct (rooted_split _ _ H) as (rest & S). destruct (rooted_full _ _ H) as (_ & N & T & _). assert (P : parts e p root (pieces rest)) by (constructor; auto).
  exists (pieces rest). split; auto. constructor; auto.
Qed.
(** What SplitString makes of the text of a location. *)
Lemma ssf_last cur s : no_sep s -> split_string_from true cur s = [cur ++ s].
Proof.
  revert cur. induction s as [|c s IH]; intros cur H; cbn; [rewrite app_nil_r; auto|]. destruct (nosep_slash c (H c (or_introl eq_refl))) as [-> _]. rewrite IH by (intros x Hx; apply H; right; auto). rewrite <- app_assoc. auto.
Qed.
Lemma ssf_sep cur s r : no_sep s -> split_string_from true cur (s ++ slash :: r) = (cur ++ s) :: split_string_from false [] r.
Proof.
  revert cur. induction s as [|c s IH]; intros cur H; cbn [app split_string_from]; [rewrite app_nil_r; auto|]. destruct (nosep_slash c (H c (or_introl eq_refl))) as [-> _]. cbn [andb]. rewrite IH by (intros x Hx; apply H; right; auto). rewrite <- app_assoc. auto.
Qed.
Lemma ssf_names names : Forall proper names -> names <> [] -> split_string_from false [] (slashed names) = names.
Proof.
  induction 1 as [|n names P H IH]; [congruence|]. intros _. destruct P as (N & _ & _ & S). destruct n as [|c n]; [congruence|].
  assert (S' : no_sep n) by (intros x Hx; apply S; right; auto). destruct names as [|m names].
  - change (split_string_from true [c] n = [c :: n]). rewrite ssf_last; auto.
  - change (split_string_from true [c] (n ++ slash :: slashed (m :: names)) = (c :: n) :: m :: names). rewrite ssf_sep by auto. rewrite IH by discriminate. auto.
Qed.
Definition segs (root : str) (names : list str) : list str :=
  match root with
  | [_] => match names with [] => [[]] | _ => names end
  | _ => match names with [] => [[slash]] | n :: r => (slash :: n) :: r end
  end.
Lemma split_string_text root names : (root = [slash; slash] \/ root = [slash]) -> Forall proper names -> split_string (text_of root names) = [slash] :: segs root names.
Proof.
  intros [->| ->] H; unfold text_of, segs.
  - change (split_string ([slash; slash] ++ slashed names)) with ([slash] :: split_string_from true [slash] (slashed names)). f_equal.
    destruct H as [|n names (_ & _ & _ & S) H]; auto. destruct names as [|m names]; [apply ssf_last; auto|].
    change (slashed (n :: m :: names)) with (n ++ slash :: slashed (m :: names)). rewrite ssf_sep by auto. rewrite ssf_names by (auto; discriminate). auto.
  - change (split_string ([slash] ++ slashed names)) with ([slash] :: split_string_from false [] (slashed names)). f_equal. destruct names as [|n names]; auto. apply ssf_names; auto. discriminate.
Qed.
Lemma drop_common_spec l : forall r n x y, drop_common l r = (n, x, y) -> exists c, l = c ++ x /\ r = c ++ y /\ length c = n /\
  (forall a b x' y', x = a :: x' -> y = b :: y' -> a <> b).
Proof.
  induction l as [|a l IH]; intros [|b r] n x y H; cbn in H; try (injection H as <- <- <-; exists []; repeat split; auto; intros; discriminate).
  destruct (str_eqb_spec a b) as [->|N].
  - destruct (drop_common l r) as [[n' x'] y'] eqn:E. injection H as <- <- <-. destruct (IH _ _ _ _ E) as (c & -> & -> & <- & D). exists (b :: c). repeat split; auto.
  - injection H as <- <- <-. exists []. repeat split; auto. intros. congruence.
Qed.
Definition ups (k : nat) : str := concat (repeat (L "../") k).
Lemma ups_S k : ups (S k) = ups k ++ L "../".
Proof. induction k as [|k IH]; auto. change (ups (S (S k))) with (L "../" ++ ups (S k)). rewrite IH at 1. change (ups (S k)) with (L "../" ++ ups k). rewrite app_assoc. auto. Qed.
Lemma last_ups k : k <> 0 -> ups k <> [] /\ last (ups k) " "%char = slash.
Proof.
  destruct k as [|k]; [congruence|]. intros _. rewrite ups_S. split; [destruct (ups k); discriminate|]. change (L "../") with (L ".." ++ [slash]). rewrite app_assoc, last_last. auto.
Qed.
Lemma fold_ups k : fold_left add_relative (repeat (L "../") k) [] = ups k.
Proof.
  assert (A : forall k j, fold_left add_relative (repeat (L "../") k) (ups j) = ups (j + k)); [|exact (A k 0)].
  clear k. induction k as [|k IH]; intro j; cbn [repeat fold_left]; [rewrite Nat.add_0_r; auto|].
  assert (E : add_relative (ups j) (L "../") = ups (S j)).
  { rewrite ups_S. unfold add_relative. destruct j as [|j]; [reflexivity|]. destruct (last_ups (S j) ltac:(discriminate)) as [_ ->]. rewrite Ascii.eqb_refl, andb_false_r. auto. }
  rewrite E, IH. f_equal. lia.
Qed.
Lemma last_nonslash s : s <> [] -> ends_slash s = false -> Ascii.eqb (last s " "%char) slash = false.
Proof. intros N E. unfold ends_slash in E. destruct s as [|x s _] using rev_ind; [congruence|]. rewrite rev_app_distr in E. cbn in E. rewrite last_last. auto. Qed.
Lemma fold_names names : Forall proper names -> forall acc, acc <> [] -> ends_slash acc = false ->
  fold_left add_relative names acc = acc ++ match names with [] => [] | _ => slash :: slashed names end.
Proof.
  induction 1 as [|n names P H IH]; intros acc N E; cbn [fold_left]; [rewrite app_nil_r; auto|].
  assert (A : add_relative acc n = acc ++ slash :: n). { unfold add_relative. rewrite last_nonslash by auto. destruct acc; [congruence|]. cbn [nonempty andb negb]. rewrite <- app_assoc. auto. }
  rewrite A, IH.
  - rewrite <- app_assoc. f_equal. destruct names; cbn [app]; auto. rewrite app_nil_r. auto.
  - destruct acc; discriminate.
  - pose proof (proper_ends n P) as X. destruct P as (Nn & _). unfold ends_slash in *. rewrite rev_app_distr. cbn [rev]. destruct (rev n) as [|z t] eqn:R; [|cbn; auto]. destruct n; [congruence|]. cbn in R. destruct (rev n); discriminate.
Qed.
(** The relative path as text. *)
Lemma rel_text k names : Forall proper names -> fold_left add_relative (repeat (L "../") k ++ names) [] = ups k ++ slashed names.
Proof.
  intro H. rewrite fold_left_app, fold_ups. destruct H as [|n names P H]; cbn [fold_left]; [cbn; rewrite app_nil_r; auto|].
  assert (A : add_relative (ups k) n = ups k ++ n). { unfold add_relative. destruct k as [|k]; [reflexivity|]. destruct (last_ups (S k) ltac:(discriminate)) as [_ ->]. rewrite Ascii.eqb_refl, andb_false_r. auto. }
  rewrite A, fold_names; auto.
  - rewrite <- app_assoc. f_equal. destruct names; cbn; [rewrite app_nil_r|]; auto.
  - destruct P as (Nn & _). destruct (ups k), n; try congruence; discriminate.
  - pose proof (proper_ends n P) as X. destruct P as (Nn & _). unfold ends_slash in *. rewrite rev_app_distr. destruct (rev n) as [|z t] eqn:R; [|cbn; auto]. destruct n; [congruence|]. cbn in R. destruct (rev n); discriminate.
Qed.
Lemma pieces_ups k s : pieces_from [] (ups k ++ s) = repeat (L "..") k ++ pieces_from [] s.
Proof. induction k as [|k IH]; auto. change (ups (S k)) with (L "../" ++ ups k). rewrite <- app_assoc. cbn [repeat app]. rewrite <- IH. reflexivity. Qed.
Definition pops (k : nat) (dir : list str) : list str := fold_left walk (repeat (L "..") k) dir.
Lemma walks_rel k s dir : fold_left walk (pieces (ups k ++ s)) dir = fold_left walk (pieces_from [] s) (pops k dir).
Proof.
  unfold pieces. destruct (ups k ++ s) eqn:E.
  - apply app_eq_nil in E as [E1 ->]. destruct k; [reflexivity|discriminate].
  - rewrite <- E, pieces_ups, fold_left_app. reflexivity.
Qed.
Lemma pops_app k l r : length r = k -> pops k (l ++ r) = l.
Proof.
  revert r. induction k as [|k IH]; intros r H; [destruct r; [apply app_nil_r|discriminate]|].
  destruct r as [|x r _] using rev_ind; [discriminate|]. unfold pops. cbn [repeat fold_left]. change (walk (l ++ r ++ [x]) (L "..")) with (removelast (l ++ r ++ [x])). rewrite app_assoc, removelast_last.
  apply IH. rewrite app_length in H. cbn in H. lia.
Qed.
Lemma pops_all k l : length l <= k -> pops k l = [].
Proof.
  revert l. induction k as [|k IH]; intros l H; [destruct l; [reflexivity|cbn in H; lia]|]. unfold pops. cbn [repeat fold_left]. change (walk l (L "..")) with (removelast l). apply IH.
  destruct l as [|x l _] using rev_ind; [cbn; lia|]. rewrite removelast_last. rewrite app_length in H. cbn in H. lia.
Qed.
Lemma filter_proper names : Forall proper names -> filter nonempty names = names.
Proof. induction 1 as [|n names (N & _) H IH]; auto. cbn. destruct n; [congruence|]. cbn. rewrite IH. auto. Qed.
Lemma walks_slashed names dir : Forall proper names -> fold_left walk (pieces_from [] (slashed names)) dir = dir ++ names.
Proof.
  intro H. destruct H as [|n names P H]; [cbn; rewrite app_nil_r; auto|]. rewrite pieces_from_slashed; [apply walks_names; constructor; auto|apply P|]. intros x Hx. rewrite Forall_forall in H. apply H. auto.
Qed.
Lemma rel_text_net k names : Forall proper names -> k <> 0 -> fold_left add_relative (repeat (L "../") k ++ segs [slash; slash] names) [] = ups k ++ slash :: slashed names.
Proof.
  intros H K. rewrite fold_left_app, fold_ups.
  assert (A : forall n, add_relative (ups k) n = ups k ++ n). { intro n. unfold add_relative. destruct (last_ups k K) as [_ ->]. rewrite Ascii.eqb_refl, andb_false_r. auto. }
  unfold segs. destruct H as [|n names P H]; cbn [fold_left]; rewrite A; [reflexivity|].
  rewrite fold_names; auto.
  - rewrite <- app_assoc. cbn [app]. f_equal. f_equal. destruct names; [cbn; rewrite app_nil_r|]; auto.
  - destruct (ups k); discriminate.
  - pose proof (proper_ends n P) as X. destruct P as (Nn & _). unfold ends_slash in *. rewrite rev_app_distr. cbn [rev]. destruct (rev n) as [|z t] eqn:R; [|cbn; auto]. destruct n; [congruence|]. cbn in R. destruct (rev n); discriminate.
Qed.
Lemma map_const {A} (l : list A) (s : str) : map (fun _ => s) l = repeat s (length l).
Proof. induction l; cbn; congruence. Qed.
Lemma Forall_app_r {A} (P : A -> Prop) l r : Forall P (l ++ r) -> Forall P r.
Proof. intro H. apply Forall_app in H. tauto. Qed.
Lemma Forall_app_l {A} (P : A -> Prop) l r : Forall P (l ++ r) -> Forall P l.
Proof. intro H. apply Forall_app in H. tauto. Qed.
Lemma filter_segs names : Forall proper names -> filter nonempty (segs [slash] names) = names.
Proof. intro H. destruct names as [|n names]; [reflexivity|]. apply filter_proper. auto. Qed.
Lemma nonempty_nil : nonempty [] = false. Proof. reflexivity. Qed.
Lemma plain_rel k s : k <> 0 -> split_root (ups k ++ s) = ([], ups k ++ s).
Proof. destruct k as [|k]; [congruence|]. intros _. reflexivity. Qed.
(** A name that is taken for a home directory or a drive at the start of a path. *)
Definition special_name (n : str) : Prop := (exists r, n = "~"%char :: r) \/ (exists x r, n = x :: ":"%char :: r).
Lemma plain_names names : Forall proper names -> match names with n :: _ => ~ special_name n | [] => True end -> split_root (slashed names) = ([], slashed names).
Proof.
  intros H S. destruct H as [|n names (N & _ & _ & NS) H]; [reflexivity|]. destruct n as [|a n]; [congruence|].
  assert (Sa : is_sep a = false) by (apply NS; left; auto). destruct (nosep_slash a Sa) as [E1 E2].
  assert (T : Ascii.eqb a "~" = false). { destruct (Ascii.eqb_spec a "~") as [->|]; auto. exfalso. apply S. left. eauto. }
  assert (X : forall b r, b <> ":"%char -> split_root (a :: b :: r) = ([], a :: b :: r)).
  { intros b r Nb. cbn [split_root]. rewrite E1, E2, Sa, T. cbn [andb orb]. destruct (Ascii.eqb_spec b ":"); [congruence|auto]. }
  destruct n as [|b n].
  - destruct names as [|m names]; [cbn [slashed split_root]; rewrite Sa, T; auto|]. change (slashed ([a] :: m :: names)) with (a :: slash :: slashed (m :: names)). apply X. discriminate.
  - assert (Nb : b <> ":"%char). { intros ->. apply S. right. eauto. }
    destruct names as [|m names]; [apply X; auto|]. change (slashed ((a :: b :: n) :: m :: names)) with (a :: b :: n ++ slash :: slashed (m :: names)). apply X. auto.
Qed.
Lemma rel_walk root ln rn n x y : (root = [slash; slash] \/ root = [slash]) -> Forall proper ln -> Forall proper rn ->
  drop_common ([slash] :: segs root ln) ([slash] :: segs root rn) = (n, x, y) ->
  let rel := fold_left add_relative (map (fun _ => L "../") (filter nonempty x) ++ filter nonempty y) [] in
  n <> 0 /\ fold_left walk (pieces rel) ln = rn /\
  (split_root rel = ([], rel) \/ exists m r, rn = ln ++ m :: r /\ special_name m).
Proof.
  intros HR Hl Hr D rel. cbn [drop_common] in D. rewrite str_eqb_refl in D. destruct (drop_common (segs root ln) (segs root rn)) as [[n' x'] y'] eqn:E. injection D as <- <- <-.
  split; [discriminate|]. unfold rel; clear rel. apply drop_common_spec in E as (c & E1 & E2 & _ & _). rewrite map_const.
  destruct HR as [->| ->].
  - (* "//" *)
    destruct c as [|h c].
    + cbn [app] in E1, E2. subst x' y'.
      assert (F : forall names, Forall proper names -> filter nonempty (segs [slash; slash] names) = segs [slash; slash] names).
      { intros names H. unfold segs. destruct H as [|a names P H]; [reflexivity|]. cbn. rewrite filter_proper; auto. }
      rewrite !F by auto. assert (K : length (segs [slash; slash] ln) <> 0) by (destruct ln; discriminate).
      rewrite rel_text_net by auto. split; [|left; apply plain_rel; auto].
      rewrite walks_rel. rewrite pops_all by (destruct ln; cbn; lia). change (pieces_from [] (slash :: slashed rn)) with ([] :: pieces_from [] (slashed rn)). cbn [fold_left].
      change (walk [] []) with (@nil str). rewrite walks_slashed; auto.
    + assert (Q : exists c', ln = c' ++ x' /\ rn = c' ++ y').
      { unfold segs in E1, E2. destruct Hl as [|l1 ln (P1 & _) Hl], Hr as [|r1 rn (P2 & _) Hr]; injection E1 as H1 E1; injection E2 as H2 E2.
        - exists []. symmetry in E1, E2. apply app_eq_nil in E1 as [-> ->]. apply app_eq_nil in E2 as [_ ->]. auto.
        - exfalso. congruence.
        - exfalso. congruence.
        - assert (r1 = l1) as -> by congruence. exists (l1 :: c). cbn. rewrite E1, E2. auto. }
      destruct Q as (c' & -> & ->). rewrite !filter_proper by (eapply Forall_app_r; eauto). rewrite rel_text by (eapply Forall_app_r; eauto). split.
      * rewrite walks_rel, pops_app by auto. apply walks_slashed. eapply Forall_app_r; eauto.
      * destruct x' as [|x0 x']; [|left; apply plain_rel; discriminate]. cbn [length ups repeat concat app].
        destruct y' as [|m y']; [left; reflexivity|].
        assert (DS : special_name m \/ ~ special_name m).
        { unfold special_name. destruct m as [|a [|b m]]; [right; intros [(?&?)|(?&?&?)]; discriminate| |].
          - destruct (Ascii.eqb_spec a "~") as [->|]; [left; left; eauto|right; intros [(?&?)|(?&?&?)]; congruence].
          - destruct (Ascii.eqb_spec a "~") as [->|]; [left; left; eauto|]. destruct (Ascii.eqb_spec b ":") as [->|]; [left; right; eauto|right; intros [(?&?)|(?&?&?)]; congruence]. }
        destruct DS as [DS|DS]; [right; exists m, y'; split; auto; rewrite app_nil_r; auto|left; apply plain_names; auto; eapply Forall_app_r; eauto].
  - (* "/" *)
    assert (Q : exists c', ln = c' ++ filter nonempty x' /\ rn = c' ++ filter nonempty y').
    { exists (filter nonempty c). rewrite <- !filter_app, <- E1, <- E2, !filter_segs by auto. auto. }
    destruct Q as (c' & Q1 & Q2). generalize dependent (filter nonempty x'). generalize dependent (filter nonempty y'). clear E1 E2. intros yy -> xx ->.
    rewrite rel_text by (eapply Forall_app_r; eauto). split.
    + rewrite walks_rel, pops_app by auto. apply walks_slashed. eapply Forall_app_r; eauto.
    + destruct xx as [|x0 xx]; [|left; apply plain_rel; discriminate]. cbn [length ups repeat concat app].
      destruct yy as [|m yy]; [left; reflexivity|].
      assert (DS : special_name m \/ ~ special_name m).
      { unfold special_name. destruct m as [|a [|b m]]; [right; intros [(?&?)|(?&?&?)]; discriminate| |].
        - destruct (Ascii.eqb_spec a "~") as [->|]; [left; left; eauto|right; intros [(?&?)|(?&?&?)]; congruence].
        - destruct (Ascii.eqb_spec a "~") as [->|]; [left; left; eauto|]. destruct (Ascii.eqb_spec b ":") as [->|]; [left; right; eauto|right; intros [(?&?)|(?&?&?)]; congruence]. }
      destruct DS as [DS|DS]; [right; exists m, yy; split; auto; rewrite app_nil_r; auto|left; apply plain_names; auto; eapply Forall_app_r; eauto].
Qed.
(** C86: following RelativePath(local, remote) from local leads to remote,
    unless it starts with a name that is taken for a home directory or drive
    (possible only when remote lies directly below local). *)
Theorem C86_relative e root local remote : e_trans e = [] -> rooted root local -> rooted root remote ->
  exists rel n ln rn, located e None local root ln /\ located e None remote root rn /\
    (forall m, n <= m -> relative_path m e local remote = Some rel) /\
    ((forall m, n <= m -> collapse_full_path m e rel (Some local) = collapse_full_path m e remote None /\ collapse_full_path m e remote None = Some (text_of root rn))
     \/ exists nm r, rn = ln ++ nm :: r /\ special_name nm).
Proof.
  intros T Rl Rr. destruct (rooted_located e None root local Rl) as (lc & Pl & Ll). destruct (rooted_located e None root remote Rr) as (rc & Pr & Lr).
  set (ln := fold_left walk lc []) in *. set (rn := fold_left walk rc []) in *.
  assert (Hl : Forall proper ln) by (eapply located_proper; eauto). assert (Hr : Forall proper rn) by (eapply located_proper; eauto).
  assert (HR : root = [slash; slash] \/ root = [slash]) by (destruct Rl as (? & _ & [?|[? _]]); auto).
  destruct (C85_collapse _ _ _ _ _ Ll) as (n1 & C1). destruct (C85_collapse _ _ _ _ _ Lr) as (n2 & C2).
  destruct (drop_common ([slash] :: segs root ln) ([slash] :: segs root rn)) as [[n x] y] eqn:D.
  destruct (rel_walk root ln rn n x y HR Hl Hr D) as (N & W & SP).
  remember (fold_left add_relative (map (fun _ => L "../") (filter nonempty x) ++ filter nonempty y) []) as rel eqn:Erel.
  assert (LL : exists n3, split_root rel = ([], rel) -> forall m, n3 <= m -> collapse_full_path m e rel (Some local) = Some (text_of root rn)).
  { destruct (split_root rel) as [sr sl] eqn:S. destruct sr as [|c sr]; [|exists 0; intro X; discriminate].
    assert (sl = rel \/ sl <> rel) as [->|NE] by (destruct (str_dec sl rel); auto); [|exists 0; intro X; injection X; congruence].
    assert (PP : parts e rel [] (pieces rel)) by (constructor; auto; discriminate).
    pose proof (located_base e (Some local) rel local root lc (pieces rel) PP eq_refl Pl) as LB. fold ln in LB. rewrite W in LB.
    destruct (C85_collapse _ _ _ _ _ LB) as (n3 & C3). exists n3. intros _ m Hm. rewrite C3 by auto. rewrite check_no_translation; auto. }
  destruct LL as (n3 & C3). exists rel, (n1 + n2 + n3), ln, rn. split; [exact Ll|]. split; [exact Lr|]. split.
  - intros m Hm. unfold relative_path. destruct (rooted_full _ _ Rl) as (_ & _ & _ & ->). destruct (rooted_full _ _ Rr) as (_ & _ & _ & ->). cbn [negb]. rewrite C1, C2 by lia.
    rewrite !check_no_translation by auto. rewrite !split_string_text by auto. rewrite D. destruct (Nat.eqb_spec n 0); [congruence|]. rewrite Erel. auto.
  - destruct SP as [SP|SP]; [left|right; auto]. intros m Hm. rewrite (C3 SP), C2 by lia. rewrite check_no_translation by auto. auto.
Qed.
Print Assumptions C86_relative.
