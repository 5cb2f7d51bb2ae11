(** PathProps3.v -- C86 (rest) and C87: subdirectories and searching. *)
From Coq Require Import List Ascii Bool Arith Lia.
Import ListNotations.
From Verif Require Import Base PathModel PathSpec PathProofs PathProps PathProps2.

(** Where the relative path starts with a name taken for a drive or home
    directory, it does not lead back. *)
Theorem C86_relative_refuted : exists e local remote rel, e_trans e = [] /\ rooted [slash] local /\ rooted [slash] remote /\
  relative_path 3 e local remote = Some rel /\ collapse_full_path 3 e rel (Some local) <> collapse_full_path 3 e remote None.
Proof.
  exists demo_env, (L "/a"), (L "/a/c:/x"), (L "c:/x"). split; [reflexivity|].
  split; [exists (L "a"); split; auto|]. split; [exists (L "a/c:/x"); split; auto|]. split; [vm_compute; reflexivity|vm_compute; discriminate].
Qed.
(** Paths that are not full give no relative path. *)
Theorem C86_relative_not_full m e local remote : file_is_full_path local = false \/ file_is_full_path remote = false -> relative_path m e local remote = Some [].
Proof. intros H. unfold relative_path. destruct H as [->| ->]; cbn [negb]; auto. destruct (file_is_full_path local); auto. Qed.
Example C86_nonvacuous : rooted [slash] (L "/usr/share/../lib") /\ rooted [slash] (L "/usr/bin/x") /\
  relative_path 3 demo_env (L "/usr/share/../lib") (L "/usr/bin/x") = Some (L "../bin/x") /\
  collapse_full_path 3 demo_env (L "../bin/x") (Some (L "/usr/share/../lib")) = Some (L "/usr/bin/x") /\
  relative_path 3 demo_env (L "usr") (L "/usr/bin/x") = Some [].
Proof. split; [exists (L "usr/share/../lib"); auto|]. split; [exists (L "usr/bin/x"); auto|]. repeat split; vm_compute; reflexivity. Qed.

(** C86: for canonical full paths, IsSubDirectory holds exactly for the proper
    descendants -- unless the directory is the root. *)
Lemma firstn_app_exact {A} (a b : list A) : firstn (length a) (a ++ b) = a.
Proof. rewrite firstn_app, Nat.sub_diag, firstn_all. cbn. apply app_nil_r. Qed.
Lemma nth_app_exact {A} (a b : list A) d : nth (length a) (a ++ b) d = nth 0 b d.
Proof. rewrite app_nth2, Nat.sub_diag; auto. Qed.
Lemma slashed_app a b : a <> [] -> b <> [] -> slashed (a ++ b) = slashed a ++ slash :: slashed b.
Proof.
  intros Ha Hb. induction a as [|n a IH]; [congruence|]. destruct a as [|m a].
  - destruct b; [congruence|]. reflexivity.
  - change (slashed ((n :: m :: a) ++ b)) with (n ++ slash :: slashed ((m :: a) ++ b)). rewrite IH by discriminate. change (slashed (n :: m :: a)) with (n ++ slash :: slashed (m :: a)). rewrite <- app_assoc. reflexivity.
Qed.
Lemma slashed_prefix : forall d s t, Forall proper d -> d <> [] -> Forall proper s -> slashed s = slashed d ++ slash :: t -> exists m r, s = d ++ m :: r.
Proof.
  intros d s t Hd Nd Hs E.
  assert (P : pieces_from [] (slashed s) = pieces_from [] (slashed d ++ slash :: t)) by congruence.
  assert (Q : forall l acc, Forall proper l -> no_sep acc -> l <> [] -> pieces_from acc (slashed l ++ slash :: t) = (acc ++ hd [] l) :: tl l ++ pieces_from [] t).
  { clear. induction l as [|n l IH]; intros acc H Ha N; [congruence|]. inversion H as [|? ? P H']; subst. destruct l as [|m l].
    - cbn [slashed hd tl app]. apply pieces_from_sep; [apply P|reflexivity].
    - change (slashed (n :: m :: l)) with (n ++ slash :: slashed (m :: l)). rewrite <- app_assoc. cbn [app]. rewrite pieces_from_sep; [|apply P|reflexivity].
      rewrite (IH [] H' (fun c F => match F with end) ltac:(discriminate)). reflexivity. }
  rewrite (Q d [] Hd (fun c F => match F with end) Nd) in P.
  destruct s as [|n s]. { destruct d as [|x d]; [congruence|]. cbn in E. symmetry in E. apply app_eq_nil in E as [_ E]. discriminate. }
  inversion Hs as [|? ? Pn Hs']; subst. rewrite pieces_from_slashed in P; [|apply Pn|intros x Hx; rewrite Forall_forall in Hs'; apply Hs'; auto].
  destruct d as [|x d]; [congruence|]. cbn [hd tl app] in P. injection P as -> P. pose proof (pieces_from_nonnil [] t). destruct (pieces_from [] t) as [|m r]; [congruence|].
  exists m, r. cbn. congruence.
Qed.
Theorem C86_subdirectory e dir sub : Forall proper dir -> Forall proper sub ->
  is_sub_directory e (text_of [slash] sub) (text_of [slash] dir) = Some true <-> dir <> [] /\ exists m r, sub = dir ++ m :: r.
Proof.
  intros Hd Hs. unfold is_sub_directory. rewrite !convert_text by auto. assert (M : forall x : option bool, match text_of [slash] dir with [] => Some false | _ :: _ => x end = x) by reflexivity. rewrite M; clear M.
  split.
  - intro H. destruct (andb _ _) eqn:B in H; [|discriminate]. apply andb_prop in B as [B1 B2]. apply Nat.ltb_lt in B1. apply Ascii.eqb_eq in B2. assert (H' : firstn (length (text_of [slash] dir)) (text_of [slash] sub) = text_of [slash] dir) by (apply str_eqb_eq; congruence). clear H; rename H' into H.
    pose proof (firstn_skipn (length (text_of [slash] dir)) (text_of [slash] sub)) as FS. rewrite H in FS.
    destruct (skipn (length (text_of [slash] dir)) (text_of [slash] sub)) as [|c t] eqn:SK.
    { rewrite <- FS in B1. rewrite app_length in B1. cbn in B1. lia. }
    rewrite <- FS in B2. rewrite nth_app_exact in B2. cbn in B2. subst c. unfold text_of in FS. cbn [app] in FS. injection FS as FS.
    destruct dir as [|d0 dir].
    + exfalso. cbn in FS. pose proof (slashed_starts sub Hs) as X. rewrite <- FS in X. discriminate.
    + split; [discriminate|]. eapply slashed_prefix with (t := t); eauto. discriminate.
  - intros (Nd & m & r & ->). assert (E : text_of [slash] (dir ++ m :: r) = text_of [slash] dir ++ slash :: slashed (m :: r)).
    { unfold text_of. rewrite slashed_app by (auto; discriminate). rewrite app_assoc. auto. }
    rewrite E, nth_app_exact, firstn_app_exact. cbn [nth]. rewrite Ascii.eqb_refl, str_eqb_refl.
    replace (length (text_of [slash] dir) <? length (text_of [slash] dir ++ slash :: slashed (m :: r))) with true; auto.
    symmetry. apply Nat.ltb_lt. rewrite app_length. cbn. lia.
Qed.
(** Nothing is a subdirectory of "/". *)
Theorem C86_subdirectory_of_root_refuted : forall e sub, Forall proper sub -> is_sub_directory e (text_of [slash] sub) [slash] = Some false.
Proof.
  intros e sub Hs. pose proof (C86_subdirectory e [] sub (Forall_nil _) Hs) as [H _]. change (text_of [slash] []) with [slash] in H.
  destruct (is_sub_directory e (text_of [slash] sub) [slash]) as [[|]|] eqn:E; auto; [destruct (H eq_refl); congruence|].
  exfalso. unfold is_sub_directory in E. rewrite convert_text in E by auto. change [slash] with (text_of [slash] []) in E. rewrite convert_text in E by constructor. destruct (andb _ _) in E; discriminate.
Qed.
Example C86_subdirectory_nonvacuous : is_sub_directory demo_env (L "/a/b/c") (L "/a/b") = Some true /\ is_sub_directory demo_env (L "/a/bc") (L "/a/b") = Some false /\
  is_sub_directory demo_env (L "/a/b") (L "/a/b/") = Some false /\ is_sub_directory demo_env (L "/a/../b") (L "/a") = Some true.
Proof. repeat split; vm_compute; reflexivity. Qed.

(** C87: GetPath.  The elements of the variable, in order; text after the last colon counts if not empty. *)
Fixpoint joined (sep : str) (l : list str) : str := match l with [] => [] | [a] => a | a :: r => a ++ sep ++ joined sep r end.
Lemma split_colons_snoc s : forall cur, split_colons cur (s ++ L ":") = (match fsplit ":" s with None => [cur ++ s] | Some (a, b) => (cur ++ a) :: split_colons [] (b ++ L ":") end).
Proof.
  induction s as [|c s IH]; intro cur; [cbn; rewrite app_nil_r; auto|]. cbn [app split_colons fsplit]. destruct (Ascii.eqb_spec c ":") as [->|N]; [rewrite app_nil_r; auto|].
  rewrite IH. destruct (fsplit ":" s) as [[a b]|]; rewrite <- app_assoc; auto.
Qed.
Lemma split_colons_joined l : l <> [] -> (forall x, In x l -> ~ In ":"%char x) -> split_colons [] (joined (L ":") l ++ L ":") = l.
Proof.
  intros N H. induction l as [|a l IH]; [congruence|]. rewrite split_colons_snoc. destruct l as [|b l].
  - cbn [joined]. assert (fsplit ":" a = None) as -> by (apply fsplit_none; apply H; left; auto). auto.
  - change (joined (L ":") (a :: b :: l)) with (a ++ ":"%char :: joined (L ":") (b :: l)). rewrite fsplit_app by (apply H; left; auto). cbn [app]. f_equal. apply IH; [discriminate|]. intros x Hx. apply H. right. auto.
Qed.
Theorem C87_get_path e var elems : e_var e var = Some (joined (L ":") elems) -> elems <> [] -> (forall x, In x elems -> ~ In ":"%char x) -> last elems [] <> [] ->
  get_path e var = map_opt (convert_to_unix_slashes e) elems /\ exists dirs, get_path e var = Some dirs /\ length dirs = length elems.
Proof.
  intros V N H Lst. assert (E : get_path e var = map_opt (convert_to_unix_slashes e) elems).
  { unfold get_path. rewrite V. assert (J : joined (L ":") elems <> [] /\ last (joined (L ":") elems) " "%char <> ":"%char).
    { clear V. induction elems as [|a l IH]; [congruence|]. destruct l as [|b l].
      - cbn in *. split; auto. destruct a as [|x a _] using rev_ind; [congruence|]. rewrite last_last. intros ->. eapply H; [left; reflexivity|]. apply in_or_app. right. left. auto.
      - destruct IH as [I1 I2]; [discriminate|intros x Hx; apply H; right; auto|exact Lst|]. change (joined (L ":") (a :: b :: l)) with (a ++ ":"%char :: joined (L ":") (b :: l)).
        split; [destruct a; discriminate|]. revert I1 I2. generalize (joined (L ":") (b :: l)). intros j I1 I2.
        destruct j as [|x j _] using rev_ind; [congruence|]. rewrite last_last in I2. change (a ++ ":"%char :: j ++ [x]) with (a ++ (":"%char :: j) ++ [x]). rewrite app_assoc, last_last. auto. }
    destruct J as [J1 J2]. destruct (joined (L ":") elems) as [|c j] eqn:EJ; [congruence|]. destruct (Ascii.eqb_spec (last (c :: j) " "%char) ":"); [congruence|]. rewrite <- EJ, split_colons_joined; auto. }
  split; auto. rewrite E. clear. induction elems as [|a l (ds & IH & IL)]; [exists []; auto|]. cbn [map_opt]. destruct (C84_exact e a) as (q & _ & ->). rewrite IH. eexists. split; [reflexivity|]. cbn. auto.
Qed.
Theorem C87_get_path_unset e var : e_var e var = None \/ e_var e var = Some [] -> get_path e var = Some [].
Proof. unfold get_path. intros [->| ->]; reflexivity. Qed.

(** C87: FindName gives the first existing candidate, in the order
    CMAKE_FILE_PATH, PATH, then the caller's directories. *)
Lemma get_path_some e var : exists dirs, get_path e var = Some dirs.
Proof.
  unfold get_path. destruct (e_var e var) as [v|]; [|eauto]. match goal with |- exists d, map_opt _ ?x = _ => generalize x end. clear. intro l.
  induction l as [|a l (ds & IH)]; [exists []; auto|]. cbn [map_opt]. destruct (C84_exact e a) as (q & _ & ->). rewrite IH. eauto.
Qed.
Definition searched (e : penv) (user : list str) (no_system : bool) (dirs : list str) : Prop :=
  if no_system then dirs = user
  else exists a b, get_path e (L "CMAKE_FILE_PATH") = Some a /\ get_path e (L "PATH") = Some b /\ dirs = a ++ b ++ user.
Definition candidate (name dir : str) : str := add_slash dir ++ name.
Theorem C87_find_name e name user no_system : exists dirs, searched e user no_system dirs /\
  (  (exists before d after, dirs = before ++ d :: after /\ e_exists e (candidate name d) = true /\
        (forall x, In x before -> e_exists e (candidate name x) = false) /\ find_name e name user no_system = Some (candidate name d))
  \/ ((forall x, In x dirs -> e_exists e (candidate name x) = false) /\ find_name e name user no_system = Some [])).
Proof.
  assert (F : forall dirs, (exists before d after, dirs = before ++ d :: after /\ e_exists e (candidate name d) = true /\ (forall x, In x before -> e_exists e (candidate name x) = false) /\
              find (fun p => e_exists e (p ++ name)) (map add_slash dirs) = Some (add_slash d))
            \/ ((forall x, In x dirs -> e_exists e (candidate name x) = false) /\ find (fun p => e_exists e (p ++ name)) (map add_slash dirs) = None)).
  { induction dirs as [|d dirs IH]; [right; split; [intros x []|auto]|]. cbn [map find]. destruct (e_exists e (add_slash d ++ name)) eqn:X.
    - left. exists [], d, dirs. repeat split; auto. intros x [].
    - destruct IH as [(b & d' & a & -> & E & B & I)|(N & I)].
      + left. exists (d :: b), d', a. repeat split; auto. intros x [<-|Hx]; auto.
      + right. split; auto. intros x [<-|Hx]; auto. }
  unfold find_name, searched. destruct no_system.
  - exists user. split; auto. cbn [app]. destruct (F user) as [(b & d & a & E & X & B & ->)|(N & ->)]; [left|right]; eauto 10.
  - destruct (get_path_some e (L "CMAKE_FILE_PATH")) as (a & Ha). destruct (get_path_some e (L "PATH")) as (b & Hb). rewrite Ha, Hb. exists (a ++ b ++ user). split; [eauto|].
    rewrite <- app_assoc. destruct (F (a ++ b ++ user)) as [(b' & d & a' & E & X & B & ->)|(N & ->)]; [left|right]; eauto 10.
Qed.
(** FindFile gives the collapsed path of that candidate if it is no directory,
    FindDirectory if it is one, and otherwise nothing. *)
Theorem C87_find_file n e name user no_system : e_trans e = [] -> exists t, find_name e name user no_system = Some t /\
  find_file n e name user no_system = (if (nonempty t && negb (e_isdir e t))%bool then collapse_full_path n e t None else Some []) /\
  find_directory n e name user no_system = (if (nonempty t && e_isdir e t)%bool then collapse_full_path n e t None else Some []) /\
  (forall r, find_file n e name user no_system = Some r -> r <> [] -> e_exists e t = true /\ e_isdir e t = false /\ exists root names, located e None t root names /\ r = text_of root names) /\
  (forall r, find_directory n e name user no_system = Some r -> r <> [] -> e_exists e t = true /\ e_isdir e t = true /\ exists root names, located e None t root names /\ r = text_of root names).
Proof.
  intro T. destruct (C87_find_name e name user no_system) as (dirs & _ & H). unfold find_file, find_directory.
  assert (C : forall t r, collapse_full_path n e t None = Some r -> exists root names, located e None t root names /\ r = text_of root names).
  { intros t r Hc. destruct (C85_only _ _ _ _ _ Hc) as (root & names & Ll & R). rewrite check_no_translation in R by auto. eauto. }
  destruct H as [(b & d & a & E & X & B & ->)|(N & ->)].
  - exists (candidate name d). split; auto. split; auto. split; auto. destruct (e_isdir e (candidate name d)); rewrite ?andb_false_r, ?andb_true_r; cbn [negb];
      destruct (nonempty (candidate name d)); cbn [andb]; repeat split; auto; try congruence; eapply C; eauto.
  - exists []. cbn [nonempty andb]. repeat split; auto; congruence.
Qed.
(** What a user might expect instead is false: a directory of that name found
    first hides the file; the caller's directories do not come first (the
    comment in the source says so); an empty element of PATH means the root. *)
Definition two_dirs (v : str) (ex : list str) (dirs : list str) : penv :=
  mkPenv None (fun _ => None) (Some (L "/w")) (fun x => if str_eqb x (L "PATH") then Some v else None) (fun p => existsb (str_eqb p) ex) (fun p => existsb (str_eqb p) dirs) [].
Theorem C87_directory_hides_file_refuted : exists e, e_exists e (L "/b/f") = true /\ e_isdir e (L "/b/f") = false /\ find_file 2 e (L "f") [L "/a"; L "/b"] true = Some [].
Proof. exists (two_dirs [] [L "/a/f"; L "/b/f"] [L "/a/f"]). repeat split; vm_compute; reflexivity. Qed.
Theorem C87_user_paths_first_refuted : exists e, e_exists e (L "/conf/f") = true /\ find_file 2 e (L "f") [L "/conf"] false = Some (L "/bin/f").
Proof. exists (two_dirs (L "/bin") [L "/conf/f"; L "/bin/f"] []). repeat split; vm_compute; reflexivity. Qed.
Theorem C87_empty_element_refuted : exists e, e_exists e (L "/w/f") = true /\ find_file 2 e (L "f") [] false = Some (L "/f").
Proof. exists (two_dirs (L ":/bin") [L "/w/f"; L "/f"] []). repeat split; vm_compute; reflexivity. Qed.
Example C87_nonvacuous : get_path demo_env (L "PATH") = Some [L "/bin"; L "/usr/bin"] /\ find_file 2 demo_env (L "tool") [L "x"] false = Some (L "/usr/bin/tool") /\
  find_file 2 demo_env (L "tool") [L "x"] true = Some [] /\ e_var demo_env (L "PATH") = Some (joined (L ":") [L "/bin"; L "/usr/bin/"]).
Proof. repeat split; vm_compute; reflexivity. Qed.
(** Split: the lines put together again are the text (with a final separator added if it had none). *)
Theorem C87_split sep s : let '(lines, whole) := split_sep sep s in
  concat (map (fun l => l ++ [sep]) lines) = (if whole then s else s ++ [sep]) /\ (forall l, In l lines -> ~ In sep l) /\ (whole = false -> last lines [] <> []).
Proof.
  unfold split_sep. assert (H : forall s cur, ~ In sep cur -> let '(lines, whole) := split_sep_from sep cur s in
    concat (map (fun l => l ++ [sep]) lines) = (if whole then cur ++ s else cur ++ s ++ [sep]) /\ (forall l, In l lines -> ~ In sep l) /\ (whole = false -> last lines [] <> [])).
  { clear s. induction s as [|c s IH]; intros cur Hc; cbn [split_sep_from].
    - destruct cur as [|x cur]; [repeat split; auto; discriminate|]. cbn [map concat]. rewrite app_nil_r. repeat split; auto; [intros l [<-|[]]; auto|intros _; discriminate].
    - destruct (Ascii.eqb_spec c sep) as [->|N].
      + specialize (IH [] (fun F => F)). destruct (split_sep_from sep [] s) as [l b]. destruct IH as (E & I & W). cbn [map concat]. rewrite E. split; [|split].
        * rewrite <- app_assoc. destruct b; reflexivity.
        * intros x [<-|Hx]; auto.
        * intro Hb. specialize (W Hb). destruct l; [cbn in W; congruence|exact W].
      + assert (Hc' : ~ In sep (cur ++ [c])) by (rewrite in_app_iff; cbn; intros [?|[?|[]]]; congruence).
        specialize (IH _ Hc'). destruct (split_sep_from sep (cur ++ [c]) s) as [l b]. destruct IH as (E & I & W). rewrite E, <- !app_assoc. cbn [app]. auto. }
  specialize (H s [] (fun F => F)). destruct (split_sep_from sep [] s). exact H.
Qed.
Example C87_split_nonvacuous : split_sep ":" (L "a::b") = ([L "a"; []; L "b"], false) /\ split_sep ":" (L "a:b:") = ([L "a"; L "b"], true).
Proof. split; vm_compute; reflexivity. Qed.
Print Assumptions C86_subdirectory.
Print Assumptions C86_subdirectory_of_root_refuted.
Print Assumptions C87_get_path.
Print Assumptions C87_find_name.
Print Assumptions C87_find_file.
Print Assumptions C87_directory_hides_file_refuted.
Print Assumptions C87_user_paths_first_refuted.
Print Assumptions C87_empty_element_refuted.
Print Assumptions C87_split.
(** C84: which characters change: exactly the backslashes not followed by a blank. *)
Theorem C84_backslashes s : length (conv_slashes s) = length s /\ forall i c, nth_error s i = Some c ->
  (c = backslash /\ nth_error s (S i) <> Some " "%char -> nth_error (conv_slashes s) i = Some slash) /\
  (~ (c = backslash /\ nth_error s (S i) <> Some " "%char) -> nth_error (conv_slashes s) i = Some c).
Proof.
  induction s as [|x s [IHl IH]]; [split; [reflexivity|intros [|i] c H; discriminate]|]. cbn [conv_slashes length]. split; [lia|]. intros [|i] c; [|apply IH]. cbn [nth_error]. intro E. injection E as <-.
  destruct (Ascii.eqb x backslash) eqn:Ex.
  - apply Ascii.eqb_eq in Ex. subst x. cbn [andb]. destruct s as [|d s]; cbn [nth_error]; [cbn [negb]; split; [reflexivity|intros F; exfalso; apply F; split; [reflexivity|discriminate]]|].
    destruct (Ascii.eqb d " ") eqn:Ed; cbn [negb].
    + apply Ascii.eqb_eq in Ed. subst d. split; [intros [_ F]; exfalso; apply F; reflexivity|reflexivity].
    + split; [reflexivity|]. intro F. exfalso. apply F. split; [reflexivity|]. intro G. injection G as ->. rewrite Ascii.eqb_refl in Ed. discriminate.
  - cbn [andb]. split; [|reflexivity]. intros [F _]. subst x. rewrite Ascii.eqb_refl in Ex. discriminate.
Qed.
Print Assumptions C84_backslashes.
Example C84_backslashes_nonvacuous : conv_slashes (L "a\b\ c") = L "a/b\ c". Proof. reflexivity. Qed.
(** C86: full paths are those starting with a slash or a tilde. *)
Theorem C86_full_path p : file_is_full_path p = true <-> exists r, p = slash :: r \/ p = "~"%char :: r.
Proof.
  destruct p as [|c r]; cbn [file_is_full_path]; [split; [discriminate|intros [x [H|H]]; discriminate]|]. rewrite orb_true_iff, !Ascii.eqb_eq. split.
  - intros [-> | ->]; eauto.
  - intros [x [H|H]]; injection H as -> _; auto.
Qed.
Print Assumptions C86_full_path.
Example C86_full_path_nonvacuous : file_is_full_path (L "~/x") = true /\ file_is_full_path (L "x/y") = false. Proof. split; reflexivity. Qed.
