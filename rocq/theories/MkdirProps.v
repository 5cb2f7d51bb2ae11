(** MkdirProps.v -- C88: creating directories; the path checks of image_io. *)
From Coq Require Import List Ascii Bool Arith Lia.
Import ListNotations.
From Verif Require Import Base PathModel PathSpec PathProofs PathProps PathProps2 PathProps3 MkdirModel.

(** A file system: the root is a directory, everything lies in a directory, no location is both. *)
Definition fs_ok (f : fs) : Prop :=
  f_dir f [] = true /\ (forall l n, f_present f (l ++ [n]) = true -> f_dir f l = true) /\ (forall l, f_dir f l = true -> f_file f l = false).
Definition prefix_of (p l : list str) : Prop := exists r, l = p ++ r.
Lemma loc_eqb_spec a : forall b, loc_eqb a b = true <-> a = b.
Proof.
  induction a as [|x a IH]; intros [|y b]; cbn; try (split; congruence). rewrite andb_true_iff, IH, str_eqb_eq. split; [intros [-> ->]; auto|intro H; injection H; auto].
Qed.
Lemma names_text names : Forall proper names -> names_from [] (text_of [slash] names) = names.
Proof.
  intro H. unfold text_of. cbn [app names_from]. rewrite Ascii.eqb_refl.
  assert (A : forall n acc r, no_sep n -> names_from acc (n ++ r) = names_from (acc ++ n) r).
  { induction n as [|c n IH]; intros acc r Hn; [rewrite app_nil_r; auto|]. cbn [app names_from]. destruct (nosep_slash c (Hn c (or_introl eq_refl))) as [-> _]. rewrite IH by (intros x Hx; apply Hn; right; auto). rewrite <- app_assoc. auto. }
  induction H as [|n names P H IH]; [reflexivity|]. assert (Nn := P). destruct Nn as (Nn & _ & _ & Sn). destruct names as [|m names].
  - cbn [slashed]. rewrite <- (app_nil_r n) at 1. rewrite A by auto. cbn. destruct n; [congruence|auto].
  - change (slashed (n :: m :: names)) with (n ++ slash :: slashed (m :: names)). rewrite A by auto. cbn [app names_from]. rewrite Ascii.eqb_refl. destruct n; [congruence|]. rewrite IH. auto.
Qed.
Lemma step_fold f names : fold_left (step_dir f) names None = None.
Proof. induction names; auto. Qed.
(** A canonical path leads to its location if the directories before it exist. *)
Lemma resolve_text f cwd names : Forall proper names ->
  resolve f cwd (text_of [slash] names) = if forallb (fun k => f_dir f (firstn k names)) (seq 0 (length names)) then Some names else None.
Proof.
  intro H. unfold resolve. change (text_of [slash] names) with (slash :: slashed names) at 1. cbv iota. rewrite names_text by auto. unfold start. change (text_of [slash] names) with (slash :: slashed names). cbv iota. rewrite Ascii.eqb_refl.
  assert (G : forall names pre, Forall proper names -> fold_left (step_dir f) names (Some pre) = if forallb (fun k => f_dir f (pre ++ firstn k names)) (seq 0 (length names)) then Some (pre ++ names) else None).
  { clear. induction names as [|n names IH]; intros pre H; [cbn; rewrite app_nil_r; auto|]. inversion H as [|? ? (N0 & N1 & N2 & _) H']; subst.
    cbn [fold_left length seq forallb firstn step_dir]. rewrite app_nil_r. destruct (f_dir f pre); cbn [andb]; [|apply step_fold].
    rewrite (proj2 (str_eqb_neq n (L ".")) N1), (proj2 (str_eqb_neq n (L "..")) N2), IH by auto. rewrite <- seq_shift.
    assert (X : forall l, forallb (fun k => f_dir f ((pre ++ [n]) ++ firstn k names)) l = forallb (fun k => f_dir f (pre ++ firstn k (n :: names))) (map S l)).
    { induction l; cbn; auto. rewrite IHl, <- app_assoc. auto. }
    rewrite X. rewrite <- app_assoc. auto. }
  rewrite G by auto. auto.
Qed.
Lemma fs_ok_prefix f : fs_ok f -> forall r l, f_present f (l ++ r) = true -> r <> [] -> f_dir f l = true.
Proof.
  intros (_ & P & _). induction r as [|x r IH] using rev_ind; intros l H N; [congruence|]. rewrite app_assoc in H. apply P in H.
  destruct r as [|y r]; [rewrite app_nil_r in H; auto|]. apply IH; [unfold f_present; rewrite H; auto|discriminate].
Qed.
Lemma prefix_dirs f names : fs_ok f -> f_present f names = true -> forallb (fun k => f_dir f (firstn k names)) (seq 0 (length names)) = true.
Proof.
  intros K H. apply forallb_forall. intros k Hk. apply in_seq in Hk. eapply fs_ok_prefix with (r := skipn k names); eauto; [rewrite firstn_skipn; auto|].
  intro E. apply (f_equal (@length str)) in E. rewrite skipn_length in E. cbn in E. lia.
Qed.
Lemma exists_text f cwd names : fs_ok f -> Forall proper names -> file_exists f cwd (text_of [slash] names) = f_present f names.
Proof.
  intros K H. unfold file_exists. rewrite resolve_text by auto. destruct (f_present f names) eqn:E.
  - rewrite prefix_dirs by auto. auto.
  - destruct (forallb _ _); auto.
Qed.
Lemma isdir_text f cwd names : fs_ok f -> Forall proper names -> file_is_directory f cwd (text_of [slash] names) = f_dir f names.
Proof.
  intros K H. unfold file_is_directory. rewrite resolve_text by auto. destruct (f_dir f names) eqn:E.
  - rewrite prefix_dirs; auto. unfold f_present. rewrite E. auto.
  - destruct (forallb _ _); auto.
Qed.
(** The texts before each slash of a canonical path. *)
Lemma tops_app a : forall pre b, tops pre (a ++ b) = tops pre a ++ tops (pre ++ a) b.
Proof. induction a as [|c a IH]; intros pre b; cbn; [rewrite app_nil_r; auto|]. rewrite IH, <- app_assoc. destruct (Ascii.eqb c slash); auto. Qed.
Lemma tops_nosep n : no_sep n -> forall pre, tops pre n = [].
Proof. induction n as [|c n IH]; intros H pre; auto. cbn. destruct (nosep_slash c (H c (or_introl eq_refl))) as [-> _]. apply IH. intros x Hx. apply H. right. auto. Qed.
Lemma text_snoc names n : names <> [] -> text_of [slash] (names ++ [n]) = text_of [slash] names ++ slash :: n.
Proof. intro N. unfold text_of. rewrite slashed_snoc by auto. rewrite app_assoc. auto. Qed.
Lemma tops_text names n : Forall proper (names ++ [n]) -> tops [] (text_of [slash] (names ++ [n])) = [] :: map (fun k => text_of [slash] (firstn (S k) names)) (seq 0 (length names)).
Proof.
  intro H. assert (G : forall names, Forall proper names -> tops [] (text_of [slash] names) = [] :: map (fun k => text_of [slash] (firstn (S k) names)) (seq 0 (length names - 1))).
  { clear. intros names. induction names as [|n names IH] using rev_ind; intro H; [reflexivity|]. apply Forall_app in H as [H Hn]. inversion Hn as [|? ? (_ & _ & _ & Sn) _]; subst.
    destruct names as [|m names].
    - cbn [app length Nat.sub seq map]. unfold text_of. cbn [slashed app tops]. rewrite Ascii.eqb_refl, tops_nosep; auto.
    - rewrite text_snoc by discriminate. rewrite tops_app, IH by auto. cbn [app tops]. rewrite Ascii.eqb_refl, tops_nosep by auto. f_equal.
      replace (length (m :: names ++ [n]) - 1) with (S (length names)) by (cbn; rewrite app_length; cbn; lia). replace (length (m :: names) - 1) with (length names) by (cbn; lia).
      rewrite seq_S, map_app. cbn [Nat.add map]. f_equal.
      + apply map_ext_in. intros k Hk. apply in_seq in Hk. f_equal. cbn [firstn]. f_equal. rewrite firstn_app. replace (k - length names) with 0 by lia. cbn. rewrite app_nil_r. auto.
      + f_equal. f_equal. cbn [firstn app]. f_equal. rewrite firstn_app_exact. auto. }
  rewrite G by auto. f_equal. rewrite app_length. cbn [length]. rewrite Nat.add_sub. apply map_ext_in. intros k Hk. apply in_seq in Hk. f_equal.
  rewrite firstn_app. replace (S k - length names) with 0 by lia. cbn. rewrite app_nil_r. auto.
Qed.

(** Every directory up to l is there already or may be made. *)
Definition makeable (can : list str -> bool) (f : fs) (l : list str) : Prop :=
  forall p, prefix_of p l -> f_dir f p = true \/ (f_file f p = false /\ can p = true).

Lemma prefix_firstn p l : prefix_of p l <-> exists i, i <= length l /\ p = firstn i l.
Proof.
  split.
  - intros (r & ->). exists (length p). rewrite app_length, firstn_app_exact. split; [lia|auto].
  - intros (i & _ & ->). exists (skipn i l). rewrite firstn_skipn. auto.
Qed.
Lemma makeable_prefix can f p l : makeable can f l -> prefix_of p l -> makeable can f p.
Proof. intros M (r & ->) q (t & ->). apply M. exists (t ++ r). rewrite app_assoc. auto. Qed.
Lemma firstn_le {A} i k (l : list A) : i <= k -> firstn i (firstn k l) = firstn i l.
Proof. intro H. rewrite firstn_firstn. f_equal. lia. Qed.
Definition made (can : list str -> bool) (f : fs) (names : list str) (k : nat) (g : fs) : Prop :=
  (forall x, f_file g x = f_file f x) /\
  (forall x, f_dir g x = true <-> f_dir f x = true \/ exists j, j <= k /\ x = firstn j names /\ makeable can f x).
Lemma mk_step can f names k g cwd : fs_ok f -> Forall proper names -> S k <= length names -> made can f names k g ->
  let '(g', r) := mkdir can g cwd (text_of [slash] (firstn (S k) names)) in
  made can f names (S k) g' /\ (f_present f (firstn (S k) names) = false -> (r <> MkOther <-> makeable can f (firstn (S k) names))).
Proof.
  intros K H Hk (MF & MD). set (l := firstn (S k) names).
  assert (Ll : length l = S k) by (unfold l; rewrite firstn_length; lia).
  assert (Pl : Forall proper l) by (unfold l; rewrite <- (firstn_skipn (S k) names) in H; apply Forall_app in H; tauto).
  assert (NL : forall j, j <= k -> l <> firstn j names). { intros j Hj E. apply (f_equal (@length str)) in E. rewrite Ll, firstn_length in E. lia. }
  unfold mkdir. rewrite resolve_text by auto.
  assert (R : makeable can f l -> forallb (fun i => f_dir g (firstn i l)) (seq 0 (length l)) = true).
  { intro M. apply forallb_forall. intros i Hi. apply in_seq in Hi. apply MD. right. exists i. split; [lia|]. split; [unfold l; apply firstn_le; lia|].
    eapply makeable_prefix; eauto. apply prefix_firstn. exists i. split; [lia|auto]. }
  assert (B : forallb (fun i => f_dir g (firstn i l)) (seq 0 (length l)) = true -> (f_dir f l = true \/ (f_file f l = false /\ can l = true)) -> makeable can f l).
  { intros F Last p Hp. apply prefix_firstn in Hp as (i & Hi & ->). destruct (Nat.eq_dec i (length l)) as [->|Ne]; [rewrite firstn_all; auto|].
    rewrite forallb_forall in F. specialize (F i ltac:(apply in_seq; lia)). apply MD in F as [F|(j & _ & _ & M)]; [auto|]. apply M. exists []. rewrite app_nil_r. auto. }
  assert (GD : f_dir g l = true <-> f_dir f l = true). { rewrite MD. split; [|auto]. intros [?|(j & Hj & E & _)]; auto. exfalso. eapply NL; eauto. }
  assert (same : (makeable can f l -> f_dir f l = true) -> made can f names (S k) g).
  { intro X. split; auto. intro x. rewrite MD. split; intros [?|(j & Hj & E & M)]; auto.
    - right. exists j. auto.
    - destruct (Nat.eq_dec j (S k)) as [->|]; [left; fold l in E; subst x; auto|]. right. exists j. repeat split; auto. lia. }
  destruct (forallb _ _) eqn:F.
  - destruct (f_present g l) eqn:P.
    + unfold f_present in P. rewrite MF in P. apply orb_prop in P. split.
      * apply same. intro M. destruct P as [P|P]; [apply GD; auto|]. destruct (M l) as [?|[? _]]; auto; [exists []; rewrite app_nil_r; auto|congruence].
      * intro NP. unfold f_present in NP. apply orb_false_elim in NP as [N1 N2]. destruct P as [P|P]; [apply GD in P|]; congruence.
    + unfold f_present in P. apply orb_false_elim in P as [P1 P2]. rewrite MF in P2. assert (P1' : f_dir f l = false) by (destruct (f_dir f l) eqn:X; auto; rewrite (proj2 GD eq_refl) in P1; discriminate).
      destruct (can l) eqn:Cl.
      * assert (M : makeable can f l) by (apply B; auto). split; [|intros _; split; [auto|discriminate]].
        split; [auto|]. intro x. cbn [f_dir]. rewrite orb_true_iff, loc_eqb_spec, MD. split.
        { intros [->|[?|(j & Hj & E & Mx)]]; auto; right; [exists (S k); auto|exists j; auto]. }
        { intros [?|(j & Hj & E & Mx)]; auto. destruct (Nat.eq_dec j (S k)) as [->|]; [left; auto|]. right. right. exists j. repeat split; auto. lia. }
      * assert (M : ~ makeable can f l). { intro M. destruct (M l) as [?|[_ ?]]; try congruence. exists []. rewrite app_nil_r. auto. }
        split; [apply same; tauto|]. intros _. split; [congruence|tauto].
  - assert (M : ~ makeable can f l) by (intro M; specialize (R M); congruence). split; [apply same; tauto|]. intros _. split; [congruence|tauto].
Qed.
Lemma mkdir_empty can f cwd : mkdir can f cwd [] = (f, MkOther). Proof. reflexivity. Qed.
Lemma made_fold can f names cwd : fs_ok f -> Forall proper names -> forall k, k <= length names -> forall g, made can f names 0 g ->
  made can f names k (fold_left (fun f t => fst (mkdir can f cwd t)) (map (fun k => text_of [slash] (firstn (S k) names)) (seq 0 k)) g).
Proof.
  intros K H. induction k as [|k IH]; intros Hk g M; auto. rewrite seq_S, map_app, fold_left_app. cbn [Nat.add map fold_left].
  specialize (IH ltac:(lia) g M). set (g' := fold_left _ _ g) in *. pose proof (mk_step can f names k g' cwd K H Hk IH) as X.
  destruct (mkdir can g' cwd (text_of [slash] (firstn (S k) names))). apply X.
Qed.
(** C88: MakeDirectory on a canonical full path.  It says true exactly when
    afterwards the path is a directory, which is so exactly when it was one or
    could be made with the directories above it; what it adds are the
    directories on the way, as far as possible; files are untouched. *)
Theorem C88_make_directory e can f cwd names : fs_ok f -> Forall proper names ->
  exists f' ok, make_directory e can f cwd (text_of [slash] names) = Some (f', ok) /\
    (ok = true <-> f_dir f names = true \/ (f_file f names = false /\ makeable can f names)) /\
    (ok = true <-> f_dir f' names = true) /\
    (forall x, f_file f' x = f_file f x) /\
    (forall x, f_dir f x = true -> f_dir f' x = true) /\
    (forall x, f_dir f' x = true -> f_dir f x = true \/ (prefix_of x names /\ makeable can f x)).
Proof.
  intros K H. unfold make_directory. rewrite exists_text, isdir_text by auto. destruct (f_present f names) eqn:P.
  - exists f, (f_dir f names). split; auto. split; [|repeat split; auto]. split; auto. intros [?|[F M]]; auto. unfold f_present in P. apply orb_prop in P as [?|?]; [auto|congruence].
  - destruct names as [|n names _] using rev_ind. { destruct K as (K & _). unfold f_present in P. rewrite K in P. discriminate. }
    assert (M : forall x : option (fs * bool), match text_of [slash] (names ++ [n]) with [] => Some (f, false) | _ :: _ => x end = x) by reflexivity. rewrite M; clear M.
    rewrite convert_text by auto. rewrite tops_text by auto. cbn [fold_left]. rewrite mkdir_empty. cbn [fst].
    assert (M0 : made can f (names ++ [n]) 0 f). { split; auto. intro x. split; auto. intros [?|(j & Hj & -> & Mk)]; auto. replace j with 0 by lia. cbn. apply K. }
    assert (E : map (fun k => text_of [slash] (firstn (S k) names)) (seq 0 (length names)) = map (fun k => text_of [slash] (firstn (S k) (names ++ [n]))) (seq 0 (length names))).
    { apply map_ext_in. intros k Hk. apply in_seq in Hk. f_equal. rewrite firstn_app. replace (S k - length names) with 0 by lia. cbn [firstn]. rewrite app_nil_r. auto. }
    rewrite E. pose proof (made_fold can f (names ++ [n]) cwd K H (length names) ltac:(rewrite app_length; lia) f M0) as MF. set (g := fold_left _ _ f) in *.
    assert (Hk : S (length names) <= length (names ++ [n])) by (rewrite app_length; cbn; lia).
    pose proof (mk_step can f (names ++ [n]) (length names) g cwd K H Hk MF) as X.
    assert (Fn : firstn (S (length names)) (names ++ [n]) = names ++ [n]) by (apply firstn_all2; rewrite app_length; cbn; lia). rewrite Fn in X.
    destruct (mkdir can g cwd (text_of [slash] (names ++ [n]))) as [g' r]. destruct X as [(XF & XD) XR]. specialize (XR P).
    assert (OK : match r with MkOther => false | _ => true end = true <-> r <> MkOther) by (destruct r; split; congruence).
    unfold f_present in P. apply orb_false_elim in P as [P1 P2].
    exists g', (match r with MkOther => false | _ => true end). split; auto. rewrite OK, XR. repeat split; auto.
    + intros [?|[_ ?]]; auto. congruence.
    + intro Mk. apply XD. right. exists (S (length names)). rewrite Fn. auto.
    + intro D. apply XD in D as [D|(j & _ & _ & Mk)]; [congruence|auto].
    + intros x D. apply XD. auto.
    + intros x D. apply XD in D as [D|(j & Hj & -> & Mk)]; auto. right. split; auto. exists (skipn j (names ++ [n])). rewrite firstn_skipn. auto.
Qed.
(** When nothing forbids it, MakeDirectory fails only because a file is in the way, and then changes nothing. *)
Theorem C88_make_directory_free e f cwd names : fs_ok f -> Forall proper names ->
  exists f' ok, make_directory e (fun _ => true) f cwd (text_of [slash] names) = Some (f', ok) /\
    (ok = false <-> exists p, prefix_of p names /\ f_file f p = true) /\ (ok = false -> forall x, f_dir f' x = f_dir f x).
Proof.
  intros K H. destruct (C88_make_directory e (fun _ => true) f cwd names K H) as (f' & ok & E & O1 & O2 & XF & D1 & D2). exists f', ok. split; auto.
  assert (MK : forall l, makeable (fun _ => true) f l <-> ~ exists p, prefix_of p l /\ f_file f p = true).
  { intro l. split.
    - intros M (p & Hp & F). destruct (M p Hp) as [D|[D _]]; [|congruence]. destruct K as (_ & _ & K). rewrite K in F by auto. discriminate.
    - intros N p Hp. right. split; auto. destruct (f_file f p) eqn:F; auto. exfalso. apply N. eauto. }
  assert (DEC : forall l, {p | prefix_of p l /\ f_file f p = true} + {~ exists p, prefix_of p l /\ f_file f p = true}).
  { intro l. destruct (find (fun i => f_file f (firstn i l)) (seq 0 (S (length l)))) as [i|] eqn:F.
    - left. apply find_some in F as [F1 F2]. exists (firstn i l). split; auto. exists (skipn i l). rewrite firstn_skipn. auto.
    - right. intros (p & Hp & X). apply prefix_firstn in Hp as (i & Hi & ->). pose proof (find_none _ _ F i ltac:(apply in_seq; lia)) as Y. cbn in Y. congruence. }
  assert (NF : forall p, f_dir f names = true -> prefix_of p names -> f_file f p = false).
  { intros p D (r & Hr). destruct K as (K0 & K1 & K2). destruct r as [|x r]; [rewrite app_nil_r in Hr; subst; auto|]. apply K2. eapply fs_ok_prefix with (r := x :: r); [split; [|split]; eauto| |discriminate].
    rewrite <- Hr. unfold f_present. rewrite D. auto. }
  split.
  - split.
    + intro O. destruct (DEC names) as [(p & ?)|N]; [eauto|]. exfalso. assert (ok = true) as T; [|congruence]. apply O1. right. split; [|apply MK; auto].
      destruct (f_file f names) eqn:F; auto. exfalso. apply N. exists names. split; auto. exists []. rewrite app_nil_r. auto.
    + intros (p & Hp & F). destruct ok; auto. exfalso. destruct (proj1 O1 eq_refl) as [D|[_ M]]; [rewrite (NF p) in F; auto; discriminate|]. apply (proj1 (MK names) M). eauto.
  - intros O x. subst ok. destruct (f_dir f' x) eqn:D; [|destruct (f_dir f x) eqn:D0; auto; rewrite D1 in D; auto].
    destruct (D2 x D) as [->|[Hx M]]; auto.
    destruct (DEC names) as [(p & Hp & F)|N].
    + destruct Hx as (r & Hr). destruct Hp as (r' & Hr').
      assert (PX : prefix_of p x \/ exists t, p = x ++ t).
      { assert (E' : x ++ r = p ++ r') by congruence. clear - E'. revert p r r' E'. induction x as [|a x IH]; intros p r r' E; [right; exists p; auto|]. destruct p as [|b p]; [left; exists (a :: x); auto|]. cbn in E. injection E as <- E. destruct (IH p r r' E) as [(t & ->)|(t & ->)]; [left; exists t; auto|right; exists t; auto]. }
      destruct PX as [PX|(t & ->)]; [exfalso; apply (proj1 (MK x) M); eauto|]. destruct t as [|y t].
      * rewrite app_nil_r in F. exfalso. apply (proj1 (MK x) M). exists x. split; auto. exists []. rewrite app_nil_r. auto.
      * symmetry. eapply fs_ok_prefix with (r := y :: t); eauto; [|discriminate]. unfold f_present. rewrite F. apply orb_true_r.
    + exfalso. destruct O1 as [_ O1]. assert (false = true); [|discriminate]. apply O1. right. split; [|apply MK; auto].
      destruct (f_file f names) eqn:F; auto. exfalso. apply N. exists names. split; auto. exists []. rewrite app_nil_r. auto.
Qed.
(** What the text of a path asks for is not always what is made: with a leading
    tilde MakeDirectory makes the directory in HOME and says true, although no
    directory of the given name exists afterwards. *)
Definition empty_fs : fs := mkFs (fun l => loc_eqb l []) (fun _ => false).
Lemma empty_ok : fs_ok empty_fs.
Proof.
  split; [reflexivity|]. split; [|reflexivity]. intros l n H. exfalso. unfold f_present in H. cbn in H. rewrite orb_false_r in H. apply loc_eqb_spec in H. destruct l; discriminate.
Qed.
Theorem C88_tilde_refuted : exists e f', fs_ok empty_fs /\ make_directory e (fun _ => true) empty_fs [] (L "~/x") = Some (f', true) /\
  file_exists f' [] (L "~/x") = false /\ f_dir f' [L "home"; L "u"; L "x"] = true.
Proof. exists demo_env. eexists. split; [apply empty_ok|]. split; [reflexivity|]. split; vm_compute; reflexivity. Qed.
Example C88_nonvacuous : exists f', make_directory demo_env (fun _ => true) empty_fs [] (L "/a/b") = Some (f', true) /\ f_dir f' [L "a"] = true /\ f_dir f' [L "a"; L "b"] = true /\ f_dir f' [L "b"] = false.
Proof. eexists. split; [reflexivity|]. repeat split; vm_compute; reflexivity. Qed.

(** image_io: load_ is called exactly for an existing file that is no directory. *)
Theorem C88_image_load f cwd p : fs_ok f ->
  (image_load_guard f cwd p = None <-> exists l, resolve f cwd p = Some l /\ f_file f l = true) /\
  (image_load_guard f cwd p = Some (PathNotExists p) <-> forall l, resolve f cwd p = Some l -> f_present f l = false) /\
  (image_load_guard f cwd p = Some (PathNotAFile p) <-> exists l, resolve f cwd p = Some l /\ f_dir f l = true).
Proof.
  intros (_ & _ & X). unfold image_load_guard, file_exists, file_is_directory. destruct (resolve f cwd p) as [l|].
  - specialize (X l). unfold f_present. destruct (f_dir f l) eqn:D, (f_file f l) eqn:F; cbn; [discriminate (X eq_refl)| | |]; repeat split; intros; try discriminate; eauto;
      try (match goal with H : exists _, _ |- _ => destruct H as (? & E & ?); injection E as <-; congruence end);
      try (match goal with H : forall l', Some _ = Some l' -> _ |- _ => specialize (H _ eq_refl); rewrite ?D, ?F in H; discriminate end);
      match goal with E : Some _ = Some _ |- _ => injection E as <-; rewrite ?D, ?F; auto end.
  - cbn. repeat split; intros; try discriminate; auto; match goal with H : exists _, _ |- _ => destruct H as (? & E & ?); discriminate end.
Qed.
(** image_io: save_ is called exactly if the location holding the one the name
    leads to is a directory. *)
Lemma colon_resolve f cwd : resolve f cwd (L "/:/") = resolve f cwd (L "/:").
Proof. reflexivity. Qed.
Theorem C88_image_save e f cwd p names : fs_ok f -> e_trans e = [] -> located e None p [slash] names -> exists n dir, forall m, n <= m ->
  image_save_guard m e f cwd p = Some (if f_dir f (removelast names) then None else if f_file f (removelast names) then Some (PathNotADirectory dir) else Some (PathNotExists dir)).
Proof.
  intros K T Hl. pose proof (located_proper _ _ _ _ _ Hl) as Pn. destruct (C85_collapse _ _ _ _ _ Hl) as (n & C).
  assert (G : exists dir, get_filename_path e (text_of [slash] names) = Some dir /\ file_exists f cwd dir = f_present f (removelast names) /\ file_is_directory f cwd dir = f_dir f (removelast names)).
  { destruct names as [|x names _] using rev_ind.
    - exists [slash]. split; [reflexivity|]. change [slash] with (text_of [slash] []). rewrite exists_text, isdir_text by auto. auto.
    - destruct (C83_parent e names x Pn) as [_ Gp]. rewrite removelast_last. apply Forall_app in Pn as [Pn _].
      destruct (list_eq_dec _ _ _) as [->|_] in Gp.
      + exists (L "/:/"). split; auto. rewrite <- (exists_text f cwd), <- (isdir_text f cwd) by auto. split; reflexivity.
      + exists (text_of [slash] names). rewrite exists_text, isdir_text by auto. auto. }
  destruct G as (dir & G1 & G2 & G3). exists n, dir. intros m Hm. unfold image_save_guard. rewrite C by auto. rewrite check_no_translation, G1, G2, G3 by auto.
  destruct K as (_ & _ & X). specialize (X (removelast names)). unfold f_present. destruct (f_dir f (removelast names)), (f_file f (removelast names)); reflexivity.
Qed.
Example C88_image_nonvacuous : image_save_guard 3 demo_env empty_fs [] (L "/x.png") = Some None /\ image_save_guard 3 demo_env empty_fs [] (L "x.png") = Some (Some (PathNotExists (L "/work/dir"))) /\
  image_load_guard empty_fs [] (L "/") = Some (PathNotAFile (L "/")) /\ located demo_env None (L "x.png") [slash] [L "work"; L "dir"; L "x.png"].
Proof.
  repeat split; try (vm_compute; reflexivity). change [L "work"; L "dir"; L "x.png"] with (fold_left walk (pieces (L "x.png")) (fold_left walk (pieces (L "work/dir")) [])).
  eapply located_cwd with (cwd := L "/work/dir"); auto; apply parts_plain; try reflexivity; discriminate.
Qed.
Print Assumptions C88_make_directory.
Print Assumptions C88_make_directory_free.
Print Assumptions C88_tilde_refuted.
Print Assumptions C88_image_load.
Print Assumptions C88_image_save.
