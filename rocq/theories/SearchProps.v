(** SearchProps.v -- C126: looking for programs, libraries and files. *)
From Verif Require Import Base ConfigModel PathModel PathSpec PathProofs PathProps PathProps2 PathProps3 SearchModel SearchSpec.

Lemma last_rev (l : str) d : last l d = match rev l with c :: _ => c | [] => d end.
Proof. induction l as [|a l _] using rev_ind; [reflexivity|]. rewrite last_last, rev_app_distr. reflexivity. Qed.
Lemma add_slash_in d n : add_slash d ++ n = in_dir d n.
Proof.
  unfold add_slash, in_dir. destruct d as [|c d]; [reflexivity|]. rewrite last_rev. destruct (rev (c :: d)) as [|x r] eqn:E.
  - apply (f_equal (@length ascii)) in E. rewrite rev_length in E. discriminate.
  - reflexivity.
Qed.
Lemma find_first e name dirs : exists r, first_of (usable e) (map (fun d => in_dir d name) dirs) r /\
  match find (fun p => usable e (p ++ name)) (map add_slash dirs) with Some p => Some (p ++ name) | None => None end = r.
Proof.
  induction dirs as [|d dirs IH]; [exists None; split; [constructor|reflexivity]|]. cbn [map find]. rewrite add_slash_in.
  destruct (usable e (in_dir d name)) eqn:U.
  - exists (Some (in_dir d name)). split; [constructor; auto|]. rewrite add_slash_in. reflexivity.
  - destruct IH as (r & F & E). exists r. split; [constructor; auto|exact E].
Qed.

(** FindProgram: the name as given, then in each directory of PATH, then in the
    caller's directories; the first file that exists and is no directory. *)
Theorem C126_find_program fuel e name user no_system : exists dirs r, search_dirs e user no_system dirs /\
  first_of (usable e) (name :: map (fun d => in_dir d name) dirs) r /\ find_program fuel e name user no_system = answer fuel e r.
Proof.
  assert (S : exists sys, (if no_system then Some [] else get_path e (L "PATH")) = Some sys /\ search_dirs e user no_system (sys ++ user)).
  { unfold search_dirs. destruct no_system; [exists []; auto|]. destruct (get_path_some e (L "PATH")) as (sys & H). exists sys. split; auto. exists sys. auto. }
  destruct S as (sys & Hs & D). exists (sys ++ user). unfold find_program. rewrite Hs.
  destruct (usable e name) eqn:U.
  - exists (Some name). split; [exact D|]. split; [constructor; auto|reflexivity].
  - destruct (find_first e name (sys ++ user)) as (r & F & E). exists r. split; [exact D|]. split; [constructor; auto|].
    rewrite <- E. destruct (find _ _); reflexivity.
Qed.
Lemma first_of_ok ok l c : first_of ok l (Some c) -> In c l /\ ok c = true.
Proof. intro H. remember (Some c) as r eqn:E. induction H as [|c' l U|c' l r U H IH]; [discriminate| |]. - injection E as ->. split; [left|]; auto. - destruct (IH E). split; [right|]; auto. Qed.
Lemma first_of_none ok l : first_of ok l None -> forall c, In c l -> ok c = false.
Proof. intro H. remember None as r eqn:E. induction H as [|c' l U|c' l r U H IH]; [intros c []|discriminate|]. intros c [<-|I]; auto. Qed.
Lemma first_of_fun ok l r : first_of ok l r -> forall r', first_of ok l r' -> r = r'.
Proof. induction 1 as [|c l U|c l r U H IH]; intros r' H'; inversion H'; subst; auto; congruence. Qed.
(** What a path that is found refers to: a candidate that exists and is no
    directory, written as its collapsed path. *)
Theorem C126_found fuel e name user no_system p : e_trans e = [] -> find_program fuel e name user no_system = Some p -> p <> [] ->
  exists dirs c root names, search_dirs e user no_system dirs /\ (c = name \/ exists d, In d dirs /\ c = in_dir d name) /\
    e_exists e c = true /\ e_isdir e c = false /\ located e None c root names /\ p = text_of root names.
Proof.
  intros T F P. destruct (C126_find_program fuel e name user no_system) as (dirs & r & D & O & E). rewrite F in E.
  destruct r as [c|]; [|cbn in E; congruence]. cbn [answer] in E. symmetry in E. destruct (C85_only _ _ _ _ _ E) as (root & names & Ll & R). rewrite check_no_translation in R by auto.
  destruct (first_of_ok _ _ _ O) as (I & U). unfold usable in U. apply andb_prop in U as (U1 & U2). apply negb_true_iff in U2.
  exists dirs, c, root, names. split; [exact D|]. split; [|auto]. destruct I as [<-|I]; [auto|right]. apply in_map_iff in I as (d & <- & I). eauto.
Qed.
(** Nothing found if no candidate is a file. *)
Theorem C126_not_found fuel e name user no_system dirs : search_dirs e user no_system dirs -> usable e name = false ->
  (forall d, In d dirs -> usable e (in_dir d name) = false) -> find_program fuel e name user no_system = Some [].
Proof.
  intros D U N. destruct (C126_find_program fuel e name user no_system) as (dirs' & r & D' & O & ->).
  assert (dirs' = dirs) as ->. { unfold search_dirs in *. destruct no_system; [congruence|]. destruct D as (s & H & ->), D' as (s' & H' & ->). congruence. }
  destruct r as [c|]; [|reflexivity]. destruct (first_of_ok _ _ _ O) as ([<-|I] & Ok'); [congruence|]. apply in_map_iff in I as (d & <- & I). rewrite N in Ok' by auto. discriminate.
Qed.
Theorem C126_c_string fuel e name user no_system : find_program_c fuel e name user no_system =
  match name with Some (c :: n) => find_program fuel e (c :: n) user no_system | _ => Some [] end.
Proof. destruct name as [[|c n]|]; reflexivity. Qed.
(** Several names: the first name that is found anywhere; the order of the
    names comes before the order of the directories. *)
Theorem C126_names fuel e user no_system names p : p <> [] ->
  find_programs fuel e names user no_system = Some p <->
  exists before n after, names = before ++ n :: after /\ find_program fuel e n user no_system = Some p /\
    forall b, In b before -> find_program fuel e b user no_system = Some [].
Proof.
  intro P. induction names as [|n names IH].
  - split; [intro H; cbn in H; congruence|]. intros ([|] & n & a & E & _); discriminate.
  - cbn [find_programs]. destruct (find_program fuel e n user no_system) as [[|c q]|] eqn:F.
    + rewrite IH. split.
      * intros (b & m & a & -> & Fm & B). exists (n :: b), m, a. split; [auto|]. split; [auto|]. intros x [<-|I]; auto.
      * intros ([|x b] & m & a & E & Fm & B); injection E as -> ->; [congruence|]. exists b, m, a. split; [auto|]. split; [auto|]. intros y I. apply B. right. auto.
    + split.
      * intro H. exists [], n, names. split; [auto|]. split; [congruence|]. intros x [].
      * intros ([|x b] & m & a & E & Fm & B); injection E as -> ->; [congruence|]. rewrite (B x (or_introl eq_refl)) in F. discriminate.
    + split; [discriminate|]. intros ([|x b] & m & a & E & Fm & B); injection E as -> ->; [congruence|]. rewrite (B x (or_introl eq_refl)) in F. discriminate.
Qed.
Theorem C126_no_names fuel e user no_system names : (forall n, In n names -> find_program fuel e n user no_system = Some []) -> find_programs fuel e names user no_system = Some [].
Proof. induction names as [|n names IH]; intro H; [reflexivity|]. cbn [find_programs]. rewrite (H n (or_introl eq_refl)). apply IH. intros m I. apply H. right. auto. Qed.

(** FindLibrary: the name as given, then lib<name> with .so, .a, .sl, .dylib,
    .dll (in this order) in each directory of PATH, then in the caller's. *)
Lemma lib_loop_first fuel e name dirs : exists r, first_of (usable e) (flat_map (fun d => library_files d name) dirs) r /\ lib_loop fuel e name (map add_slash dirs) = answer fuel e r.
Proof.
  induction dirs as [|d dirs (r & F & E)]; [exists None; split; [constructor|reflexivity]|].
  cbn [map lib_loop flat_map]. unfold library_files at 1. cbn [map app]. unfold lib_try. rewrite !add_slash_in.
  repeat match goal with |- context [usable e (in_dir d ?x)] => destruct (usable e (in_dir d x)) eqn:?; [exists (Some (in_dir d x)); split; [repeat (first [apply fo_here; assumption | apply fo_next; [assumption|]])|reflexivity]|] end.
  exists r. split; [|exact E]. repeat (apply fo_next; [assumption|]). exact F.
Qed.
Theorem C126_find_library fuel e name user : exists dirs r, search_dirs e user false dirs /\
  first_of (usable e) (name :: flat_map (fun d => library_files d name) dirs) r /\ find_library fuel e name user = answer fuel e r.
Proof.
  destruct (get_path_some e (L "PATH")) as (sys & Hs). unfold find_library, search_dirs. rewrite Hs. exists (sys ++ user).
  destruct (usable e name) eqn:U.
  - exists (Some name). split; [eauto|]. split; [constructor; auto|reflexivity].
  - destruct (lib_loop_first fuel e name (sys ++ user)) as (r & F & E). exists r. split; [eauto|]. split; [constructor; auto|exact E].
Qed.

(** ---- what the comments say and is false ---- *)
Theorem C126_user_paths_first_refuted : exists e, usable e (L "/mine/ls") = true /\
  find_program 3 e (L "ls") [L "/mine"] false = Some (L "/bin/ls") /\ find_program 3 e (L "ls") [L "/mine"] true = Some (L "/mine/ls").
Proof. exists (two_dirs (L "/bin") [L "/mine/ls"; L "/bin/ls"] []). vm_compute. auto. Qed.
(** A file of that name in the working directory comes before PATH, and a name
    with a slash is also tried below the directories of PATH. *)
Theorem C126_working_directory_first_refuted : exists e, usable e (L "/bin/ls") = true /\ find_program 3 e (L "ls") [] false = Some (L "/w/ls") /\
  find_program 3 e (L "x/y") [] false = Some (L "/bin/x/y").
Proof. exists (two_dirs (L "/bin") [L "ls"; L "/bin/ls"; L "/bin/x/y"] []). vm_compute. auto. Qed.
(** The path returned need not name an existing file: "a/../b" is collapsed
    lexically to "b". *)
Theorem C126_result_exists_refuted : exists e p, find_program 3 e (L "b") [L "/a/.."] true = Some p /\ p <> [] /\ e_exists e p = false.
Proof. exists (two_dirs [] [L "/a/../b"] []), (L "/b"). vm_compute. repeat split; discriminate. Qed.
Example C126_nonvacuous : find_program 3 (two_dirs (L "/bin:/usr/bin") [L "/bin/x"; L "/usr/bin/x"] [L "/bin/x"]) (L "x") [] false = Some (L "/usr/bin/x") /\
  find_programs 3 (two_dirs (L "/bin:/usr/bin") [L "/bin/y"; L "/usr/bin/x"] []) [L "q"; L "x"; L "y"] [] false = Some (L "/usr/bin/x") /\
  find_library 3 (two_dirs (L "/lib") [L "/lib/libm.a"; L "/u/libm.so"] []) (L "m") [L "/u"] = Some (L "/lib/libm.a") /\
  find_library 3 (two_dirs [] [] []) (L "m") [] = Some [].
Proof. vm_compute. auto. Qed.

(** ---- SplitProgramPath ---- *)
Theorem C126_split_program e p : exists q, convert_to_unix_slashes e p = Some q /\
  (  (e_isdir e q = true /\ q <> [] /\ split_program_path e p = Some (true, q, []))
  \/ (exists d f, q = d ++ L "/" ++ f /\ ~ In "/"%char f /\ e_isdir e q = false /\ (d = [] \/ e_isdir e d = true) /\ split_program_path e p = Some (true, d, f))
  \/ (exists d f, q = d ++ L "/" ++ f /\ ~ In "/"%char f /\ e_isdir e q = false /\ d <> [] /\ e_isdir e d = false /\ split_program_path e p = Some (false, p, f))
  \/ (~ In "/"%char q /\ (e_isdir e q = false \/ q = []) /\ split_program_path e p = Some (true, [], q))).
Proof.
  destruct (C84_exact e p) as (q' & _ & Q). match type of Q with _ = Some ?x => set (q := x) in Q end. clearbody q. exists q. split; [exact Q|]. unfold split_program_path. rewrite Q.
  destruct (e_isdir e q) eqn:Dq.
  - destruct q as [|c q]; [right; right; right; cbn; auto|]. left. rewrite Dq. rewrite andb_comm. cbn. repeat split; discriminate.
  - right. destruct (rsplit slash q) as [(a, b)|] eqn:R.
    + destruct (rsplit_some _ _ _ _ R) as (E & N). destruct a as [|c a].
      * left. exists [], b. cbn. repeat split; auto.
      * destruct (e_isdir e (c :: a)) eqn:Da; cbn [nonempty andb negb].
        -- left. exists (c :: a), b. repeat split; auto.
        -- right. left. exists (c :: a), b. repeat split; auto. discriminate.
    + right. right. apply rsplit_none in R. cbn. repeat split; auto.
Qed.
(** A file directly below the root and a name without any directory give the
    same directory, the empty one; on failure dir is the whole input. *)
Theorem C126_split_program_refuted : exists e, split_program_path e (L "/vmlinuz") = Some (true, [], L "vmlinuz") /\ split_program_path e (L "vmlinuz") = Some (true, [], L "vmlinuz") /\
  split_program_path e (L "a\b/c") = Some (false, L "a\b/c", L "c") /\ get_program_path e (L "a\b/c") = Some (L "a\b/c").
Proof. exists (two_dirs [] [] []). vm_compute. auto. Qed.
Example C126_split_program_nonvacuous : split_program_path (two_dirs [] [] [L "/usr/bin"]) (L "/usr/bin/ls") = Some (true, L "/usr/bin", L "ls") /\
  split_program_path (two_dirs [] [] [L "/usr/bin"]) (L "/usr/bin/") = Some (true, L "/usr/bin", []).
Proof. vm_compute. auto. Qed.
