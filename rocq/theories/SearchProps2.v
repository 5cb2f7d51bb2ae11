(** SearchProps2.v -- C126 (FindProgramPath, LocateFileInDir) and C127 (SplitProgramFromArgs). *)
From Verif Require Import Base ConfigModel PathModel PathSpec PathProofs PathProps PathProps2 PathProps3 SearchModel SearchSpec SearchProps.

(** ---- FindProgramPath ---- *)
Ltac fo := first [apply fo_here; assumption | apply fo_next; [assumption|fo] | apply fo_none].
Definition build_path (b x : str) : str := b ++ L "/bin/./" ++ x.
Definition install_path (i x : str) : str := i ++ L "/bin/" ++ x.
Definition opt_list (o : option str) : list str := match o with Some x => [x] | None => [] end.
(** The program is what FindProgram finds for argv[0], else the one of the build
    directory, else the one of the installation, whichever exists first; if none
    does, the message lists argv[0] and the paths tried. *)
Theorem C126_program_path fuel e argv0 x build prefix q p1 :
  convert_to_unix_slashes e (match argv0 with Some a => a | None => [] end) = Some q -> find_program fuel e q [] false = Some p1 ->
  exists r, first_of (e_exists e) (p1 :: opt_list (option_map (fun b => build_path b x) build) ++ opt_list (option_map (fun i => install_path i x) prefix)) r /\
    find_program_path fuel e argv0 (Some x) build prefix = Some (match r with
      | Some p => Found p
      | None => Failed (L "Can not find the command line program " ++ x ++ [ascii_of_nat 10] ++
                  match argv0 with Some a => L "  argv[0] = """ ++ a ++ L """" ++ [ascii_of_nat 10] | None => [] end ++
                  L "  Attempted paths:" ++ [ascii_of_nat 10] ++
                  concat (map (fun t => L "    """ ++ t ++ L """" ++ [ascii_of_nat 10])
                    ((match argv0 with Some a => a | None => [] end) :: match build with Some b => build_path b x | None => p1 end :: opt_list (option_map (fun i => install_path i x) prefix))))
      end).
Proof.
  intros C F. unfold find_program_path. rewrite C, F.
  change (fun t => L "    """ ++ t ++ L """" ++ [ascii_of_nat 10]) with quoted.
  destruct (e_exists e p1) eqn:E1.
  - exists (Some p1). split; [constructor; auto|]. cbn [negb]. rewrite E1. cbn [negb]. destruct prefix; cbn [negb]; rewrite E1; reflexivity.
  - destruct build as [b|]; cbn [option_map opt_list negb app].
    + change (b ++ L "/bin/" ++ L "." ++ L "/" ++ x) with (build_path b x). destruct (e_exists e (build_path b x)) eqn:E2.
      * exists (Some (build_path b x)). split; [apply fo_next; auto; apply fo_here; auto|]. destruct prefix; cbn [negb]; rewrite E2; reflexivity.
      * destruct prefix as [i|]; cbn [negb option_map opt_list app].
        -- change (i ++ L "/bin/" ++ x) with (install_path i x). destruct (e_exists e (install_path i x)) eqn:E3.
           ++ exists (Some (install_path i x)). split; [fo|]. cbn [negb]. reflexivity.
           ++ exists None. split; [fo|]. cbn [negb]. reflexivity.
        -- exists None. split; [fo|]. rewrite E2. reflexivity.
    + destruct prefix as [i|]; cbn [negb option_map opt_list app].
      * change (i ++ L "/bin/" ++ x) with (install_path i x). destruct (e_exists e (install_path i x)) eqn:E3.
        -- exists (Some (install_path i x)). split; [fo|]. rewrite E1. cbn [negb]. rewrite E3. reflexivity.
        -- exists None. split; [fo|]. rewrite E1. cbn [negb]. rewrite E3. reflexivity.
      * exists None. split; [fo|]. rewrite E1. reflexivity.
Qed.
(** Without a program name (NULL) it may only be called without directories:
    when argv[0] is not found, a directory makes it append a NULL pointer. *)
Theorem C126_program_path_null fuel e argv0 build prefix q p1 :
  convert_to_unix_slashes e (match argv0 with Some a => a | None => [] end) = Some q -> find_program fuel e q [] false = Some p1 ->
  (find_program_path fuel e argv0 None build prefix = Some Null <-> e_exists e p1 = false /\ (build <> None \/ prefix <> None)) /\
  (e_exists e p1 = true -> find_program_path fuel e argv0 None build prefix = Some (Found p1)).
Proof.
  intros C F. unfold find_program_path. rewrite C, F. destruct (e_exists e p1) eqn:E1; cbn [negb].
  - assert (X : match (match prefix with Some i => if negb (e_exists e p1) then None else Some (p1, [match argv0 with Some a => a | None => [] end]) | None => Some (p1, [match argv0 with Some a => a | None => [] end]) end) with
       | Some (p, _) => p = p1 | None => False end) by (destruct prefix; rewrite ?E1; reflexivity).
    split; [|intros _; destruct prefix; rewrite ?E1; cbn [negb]; rewrite ?E1; reflexivity].
    split; [|intros (K & _); discriminate]. destruct prefix; rewrite ?E1; cbn [negb]; rewrite ?E1; discriminate.
  - split; [|discriminate]. destruct build as [b|]; [split; auto; intros _; split; auto; left; discriminate|].
    destruct prefix as [i|]; rewrite E1; cbn [negb]; [split; auto; intros _; split; auto; right; discriminate|].
    split; [discriminate|]. intros (_ & [K|K]); congruence.
Qed.
Example C126_program_path_nonvacuous : find_program_path 3 (two_dirs (L "/bin") [L "/inst/bin/tool"] []) (Some (L "tool")) (Some (L "tool")) (Some (L "/build")) (Some (L "/inst")) = Some (Found (L "/inst/bin/tool")) /\
  find_program_path 3 (two_dirs (L "/bin") [] []) (Some (L "tool")) None None (Some (L "/inst")) = Some Null.
Proof. vm_compute. auto. Qed.

(** ---- LocateFileInDir ---- *)
Lemma sep_after_spec d : d ++ sep_after d = slashed_dir d.
Proof.
  unfold sep_after, slashed_dir. destruct d as [|c d]; [reflexivity|]. rewrite last_rev. destruct (rev (c :: d)) as [|x r] eqn:E.
  - apply (f_equal (@length ascii)) in E. rewrite rev_length in E. discriminate.
  - reflexivity.
Qed.
Lemma gfp_some e t : exists d, get_filename_path e t = Some d.
Proof.
  unfold get_filename_path. destruct (C84_exact e t) as (q & _ & ->). destruct (rsplit slash _) as [(a, b)|]; [|eauto].
  match goal with |- context [if ?c then _ else _] => destruct c end; [eauto|]. destruct a; eauto.
Qed.
Lemma real_dir_looks e t : exists d, real_dir e t = Some d /\ looks_in e t d.
Proof. unfold real_dir, looks_in. destruct (e_isdir e t) eqn:D; [eauto|]. destruct (gfp_some e t) as (d & H). eauto. Qed.
Lemma looks_real e t d : looks_in e t d -> real_dir e t = Some d.
Proof. unfold real_dir, looks_in. intros [(-> & ->)|(-> & H)]; auto. Qed.
Lemma name_noslash s : ~ In slash s -> get_filename_name s = s.
Proof. intro N. unfold get_filename_name. apply rsplit_none in N. rewrite N. reflexivity. Qed.
Lemma locate0_spec e base t d : ~ In slash base -> base <> [] -> looks_in e t d ->
  locate0 e base t = Some (if e_exists e (slashed_dir d ++ base) then Some (slashed_dir d ++ base) else None).
Proof.
  intros N B H. unfold locate0. rewrite (looks_real _ _ _ H), (name_noslash _ N). rewrite app_assoc, sep_after_spec.
  destruct base; [congruence|]. cbn [nonempty andb]. destruct (e_exists e _); reflexivity.
Qed.
Lemma ends_snoc names n : ends_of (names ++ [n]) = [n] :: map (fun s => s ++ [n]) (ends_of names).
Proof. induction names as [|a names IH]; [reflexivity|]. cbn [app ends_of]. rewrite IH. cbn [app]. rewrite map_app. reflexivity. Qed.
Lemma below_app a b : below (a ++ b) = below a ++ below b.
Proof. unfold below. rewrite map_app, concat_app. reflexivity. Qed.
Lemma locate_loop_spec e base d : ~ In slash base -> base <> [] -> forall names x tail, Forall proper (names ++ [x]) -> hd [] names <> L ":" ->
  exists r, tries e base d (map (fun s => s ++ tail) (ends_of names)) r /\
    forall fuel, length names < fuel -> locate_loop fuel e base d (text_of [slash] (names ++ [x])) (below tail) = Some r.
Proof.
  intros N B names. induction names as [|n names IH] using rev_ind; intros x tail P C.
  - exists None. split; [constructor|]. intros [|fuel] Hf; [inversion Hf|]. cbn [locate_loop]. destruct (C83_parent e [] x P) as (_ & ->).
    destruct (list_eq_dec (list_eq_dec ascii_dec) [] [L ":"]); [discriminate|]. reflexivity.
  - assert (P1 : Forall proper (names ++ [n])) by (apply Forall_app in P; tauto).
    destruct (C83_parent e (names ++ [n]) x P) as (_ & G). destruct (list_eq_dec (list_eq_dec ascii_dec) (names ++ [n]) [L ":"]) as [E|E].
    { exfalso. apply C. rewrite E. reflexivity. }
    destruct (C83_parent e names n P1) as (G1 & _).
    assert (NN : n <> []). { apply Forall_app in P1 as (_ & P2). inversion P2 as [|? ? K _]. apply K. }
    assert (C1 : hd [] names <> L ":"). { destruct names; [discriminate|exact C]. }
    destruct (IH n (n :: tail) P1 C1) as (r & T & R).
    rewrite ends_snoc. cbn [map app].
    assert (M : map (fun s => s ++ tail) (map (fun s => s ++ [n]) (ends_of names)) = map (fun s => s ++ n :: tail) (ends_of names)).
    { rewrite map_map. apply map_ext. intro s. rewrite <- app_assoc. reflexivity. }
    rewrite M. destruct (real_dir_looks e (slashed_dir d ++ below (n :: tail))) as (d' & _ & K).
    pose proof (locate0_spec e base _ d' N B K) as L0.
    assert (St : forall fuel, locate_loop (S fuel) e base d (text_of [slash] ((names ++ [n]) ++ [x])) (below tail) =
       match Some (if e_exists e (slashed_dir d' ++ base) then Some (slashed_dir d' ++ base) else None) with
       | None => None | Some (Some f) => Some (Some f) | Some None => locate_loop fuel e base d (text_of [slash] (names ++ [n])) (below (n :: tail)) end).
    { intro fuel. cbn [locate_loop]. rewrite G, G1. destruct n as [|c n]; [congruence|].
      replace ((c :: n) ++ [slash] ++ below tail) with (below ((c :: n) :: tail)) by (unfold below; cbn [map concat]; rewrite <- app_assoc; reflexivity).
      rewrite (app_assoc d (sep_after d)), sep_after_spec. match goal with |- match ?X with _ => _ end = _ => replace X with (Some (if e_exists e (slashed_dir d' ++ base) then Some (slashed_dir d' ++ base) else None)) by (symmetry; exact L0) end. reflexivity. }
    destruct (e_exists e (slashed_dir d' ++ base)) eqn:X.
    + exists (Some (slashed_dir d' ++ base)). split; [eapply tr_here; eauto|]. intros [|fuel] Hf; [inversion Hf|]. rewrite St. reflexivity.
    + exists r. split; [eapply tr_next; eauto|]. intros [|fuel] Hf; [inversion Hf|]. rewrite St. apply R. rewrite app_length in Hf. cbn in Hf. lia.
Qed.
(** For an absolute file /n1/../nk/base: [dir] itself (or its parent, if it is no
    directory) is tried; then, if asked for, dir/nk, dir/n(k-1)/nk, ..,
    dir/n1/../nk, in this order. *)
Theorem C126_locate e names base dir : Forall proper (names ++ [base]) -> hd [] names <> L ":" ->
  exists d, looks_in e dir d /\ forall try_dirs : bool, exists r,
    (if e_exists e (slashed_dir d ++ base) then r = Some (slashed_dir d ++ base)
     else tries e base d (if try_dirs then ends_of names else []) r) /\
    forall fuel, length names < fuel -> locate_file_in_dir fuel e (Some (text_of (L "/") (names ++ [base]))) (Some dir) try_dirs = Some r.
Proof.
  intros P C. destruct (real_dir_looks e dir) as (d & R & K). exists d. split; [exact K|]. intro try_dirs.
  assert (PB : proper base). { apply Forall_app in P as (_ & P2). inversion P2; auto. }
  assert (N : ~ In slash base). { intro I. pose proof (proper_nosep _ _ PB I). discriminate. }
  assert (B : base <> []) by apply PB.
  destruct (C83_parent e names base P) as (G & _).
  assert (U : forall fuel, locate_file_in_dir fuel e (Some (text_of (L "/") (names ++ [base]))) (Some dir) try_dirs =
    if e_exists e (slashed_dir d ++ base) then Some (Some (slashed_dir d ++ base))
    else if try_dirs then locate_loop fuel e base d (text_of (L "/") (names ++ [base])) [] else Some None).
  { intro fuel. unfold locate_file_in_dir. change (L "/") with [slash]. rewrite G, R, app_assoc, sep_after_spec. destruct base; [congruence|]. reflexivity. }
  destruct (e_exists e (slashed_dir d ++ base)).
  - exists (Some (slashed_dir d ++ base)). split; [auto|]. intros fuel _. apply U.
  - destruct try_dirs.
    + destruct (locate_loop_spec e base d N B names base [] P C) as (r & T & H). exists r. split; [|intros fuel Hf; rewrite U; apply H; auto].
      rewrite map_ext with (g := fun s => s) in T by (intro; apply app_nil_r). rewrite map_id in T. exact T.
    + exists None. split; [constructor|]. intros fuel _. apply U.
Qed.
(** If all the directories tried exist, the file found is the first of the list. *)
Lemma tries_dirs e base d l r : (forall s, In s l -> e_isdir e (slashed_dir d ++ below s) = true) -> tries e base d l r ->
  first_of (e_exists e) (map (fun s => slashed_dir (slashed_dir d ++ below s) ++ base) l) r.
Proof.
  intros D T. induction T as [|s l d' K X|s l d' r K X T IH]; [constructor| |]; (assert (d' = slashed_dir d ++ below s) as -> by (destruct K as [(_ & ->)|(K & _)]; [auto|rewrite D in K by (left; auto); discriminate])).
  - apply fo_here. exact X.
  - apply fo_next; [exact X|]. apply IH. intros s' I. apply D. right. auto.
Qed.
Theorem C126_locate_dirs e names base dir : Forall proper (names ++ [base]) -> hd [] names <> L ":" -> e_isdir e dir = true ->
  (forall s, In s (ends_of names) -> e_isdir e (slashed_dir dir ++ below s) = true) ->
  exists r, first_of (e_exists e) ((slashed_dir dir ++ base) :: map (fun s => slashed_dir (slashed_dir dir ++ below s) ++ base) (ends_of names)) r /\
    forall fuel, length names < fuel -> locate_file_in_dir fuel e (Some (text_of (L "/") (names ++ [base]))) (Some dir) true = Some r.
Proof.
  intros P C D A. destruct (C126_locate e names base dir P C) as (d & K & H). destruct (H true) as (r & R & F). exists r. split; [|exact F].
  assert (d = dir) as -> by (destruct K as [(_ & ->)|(K & _)]; [auto|congruence]).
  destruct (e_exists e (slashed_dir dir ++ base)) eqn:X.
  - subst r. apply fo_here. exact X.
  - apply fo_next; [exact X|]. apply tries_dirs; auto.
Qed.
(** But where dir/foo/bar does not exist, dir/foo is searched: asked for
    /foo/bar/yo.txt it returns /d/foo/yo.txt. *)
Theorem C126_locate_refuted : exists e, e_isdir e (L "/d") = true /\ locate_file_in_dir 9 e (Some (L "/foo/bar/yo.txt")) (Some (L "/d")) true = Some (Some (L "/d/foo/yo.txt")).
Proof. exists (two_dirs [] [L "/d/foo/yo.txt"] [L "/d"]). vm_compute. auto. Qed.
Example C126_locate_nonvacuous : ends_of [L "foo"; L "bar"] = [[L "bar"]; [L "foo"; L "bar"]] /\
  locate_file_in_dir 9 (two_dirs [] [L "/d/foo/bar/yo.txt"] [L "/d"; L "/d/bar/"; L "/d/foo/bar/"]) (Some (L "/foo/bar/yo.txt")) (Some (L "/d")) true = Some (Some (L "/d/foo/bar/yo.txt")) /\
  locate_file_in_dir 9 (two_dirs [] [L "/d/yo.txt"] [L "/d"]) (Some (L "/foo/bar/yo.txt")) (Some (L "/d/x")) false = Some (Some (L "/d/yo.txt")).
Proof. vm_compute. auto. Qed.
