(** TreeProps.v -- C119: RemoveADirectory and RemoveFile. *)
From Coq Require Import Ascii String List Bool Arith Lia.
Import ListNotations.
From Verif Require Import Base PathModel TreeModel TreeSpec TreeProofs TreeProofs2 TreeProofs3.

(** Whatever the file system holds (links in the tree, links in the name, refused
    calls): the recursion ends, nothing outside the directory that the name leads to
    is touched, nothing in it is changed otherwise than by removal, and true means
    that all of it is gone. *)
Theorem C119_only_that_tree : forall deny cwd f source depth n,
  WF f -> (forall x k, at_place f x = Some k -> length x <= depth) -> depth + 2 <= n ->
  exists f' b, remove_a_directory deny cwd n f source = Some (f', b) /\ WF f' /\
    match resolve f cwd true source with
    | inl l =>
        (forall x, ~ below l x -> at_place f' x = at_place f x) /\
        (forall x, below l x -> at_place f' x = at_place f x \/ at_place f' x = None) /\
        (b = true -> at_place f l = Some KDir /\ forall x, below l x -> at_place f' x = None)
    | inr _ => f' = f /\ b = false
    end.
Proof.
  intros deny cwd f source depth n Wf D N. pose proof (total deny cwd depth n f source Wf D ltac:(lia) ltac:(intros; lia)) as T. destruct (remove_a_directory deny cwd n f source) as [[f' b]|] eqn:E; [|congruence]. exists f', b. split; [reflexivity|].
  destruct (safe deny cwd n f source f' b Wf E) as [W' K]. split; [exact W'|]. destruct (resolve f cwd true source) as [l|e]; [|exact K]. destruct K as [O T']. split; [|split].
  - intros x Nb. destruct (O x) as [Q|[B _]]; [exact Q|contradiction].
  - intros x _. destruct (O x) as [Q|[_ Q]]; auto.
  - intros B. destruct (T' B) as [A G]. split; [exact A|]. intros x [t ->]. apply G.
Qed.
(** An ordinary tree goes completely: nothing in it is refused, its names do not end
    in a backslash, the last name of the path is a proper one, and the path leads to
    the directory (not through a link in its last name) also when the directory is empty. *)
Theorem C119_whole_tree : forall deny cwd f source l depth n,
  WF f -> (forall x k, at_place f x = Some k -> length x <= depth) -> depth + 2 <= n ->
  l <> [] -> at_place f l = Some KDir -> resolve (emptied f l) cwd false source = inl l -> proper (last_name source) ->
  (forall c x, below l x -> deny c x = false) -> (forall t x, at_place f (l ++ t ++ [x]) <> None -> ~ ends_backslash x) ->
  exists f', remove_a_directory deny cwd n f source = Some (f', true) /\ WF f' /\
    (forall x, below l x -> at_place f' x = None) /\ (forall x, ~ below l x -> at_place f' x = at_place f x).
Proof.
  intros deny cwd f source l depth n Wf D N Nl A R P Pm Pl. assert (remove_a_directory deny cwd n f source = Some (without f l, true)) as E by (apply (all deny cwd depth); try assumption; lia).
  exists (without f l). split; [exact E|]. destruct (safe deny cwd n f source _ _ Wf E) as [W' _]. split; [exact W'|]. unfold without. split; intros x B; rewrite at_filter by apply (wf_nodup f Wf).
  - destruct x as [|a x]; [destruct B as [t Q]; destruct l; [congruence|discriminate Q]|]. destruct (look f (a :: x)); [|reflexivity]. cbn [fst]. apply belowb_spec in B. rewrite B. reflexivity.
  - destruct x as [|a x]; [reflexivity|]. unfold at_place. destruct (look f (a :: x)); [|reflexivity]. cbn [fst]. destruct (belowb l (a :: x)) eqn:Q; [apply belowb_spec in Q; contradiction|reflexivity].
Qed.
(** RemoveFile: true means that the name leads to nothing afterwards; a directory is
    never removed; of a link, only the link is removed. *)
Theorem C119_remove_file : forall deny cwd f p f' b, WF f -> remove_file deny cwd f p = (f', b) ->
  (b = true -> stat_at f' cwd false p = None) /\
  (b = false -> f' = f) /\
  (f' <> f -> exists l k, resolve f cwd false p = inl l /\ at_place f l = Some k /\ k <> KDir /\
     forall x, at_place f' x = if place_dec x l then None else at_place f x) /\
  (forall l k, resolve f cwd false p = inl l -> at_place f l = Some k -> (b = true <-> k <> KDir /\ deny CUnlink l = false)).
Proof.
  intros deny cwd f p f' b Wf E. split; [|split; [|split]].
  - intros ->. unfold remove_file, sys_unlink in E. unfold stat_at. destruct (resolve f cwd false p) as [m|e] eqn:R.
    + destruct (at_place f m) as [k|] eqn:A; [|injection E as <-; rewrite R; exact A]. assert (f' = drop f m /\ m <> []) as [-> Nm]. { destruct k; [discriminate|..]; (destruct (deny CUnlink m); [discriminate|]; injection E as <-; split; [reflexivity|intros ->; discriminate A]). }
      destruct (resolve (drop f m) cwd false p) as [m'|] eqn:R'; [|reflexivity]. destruct (at_place (drop f m) m') eqn:A'; [|reflexivity]. pose proof (resolve_sub _ _ _ _ _ _ (drop_sub f m Nm) R' ltac:(congruence)) as R2. assert (m' = m) as -> by congruence. rewrite at_drop in A' by exact Nm. destruct (place_dec m m); congruence.
    + destruct e; try discriminate. injection E as <-. rewrite R. reflexivity.
  - intros ->. apply unlink_cases in E as [E|(m & k & _ & _ & _ & _ & _ & Q)]; [exact E|discriminate].
  - intros Nf. apply unlink_cases in E as [E|(m & k & R & Nm & A & Nk & -> & _)]; [congruence|]. exists m, k. split; [exact R|]. split; [exact A|]. split; [exact Nk|]. intros x. apply at_drop, Nm.
  - intros l k R A. unfold remove_file, sys_unlink in E. rewrite R, A in E. destruct k; [injection E as <- <-; split; [discriminate|intros [Q _]; congruence]|..]; (destruct (deny CUnlink l); injection E as <- <-; split; [discriminate|intros [_ Q]; discriminate|split; [discriminate|reflexivity]|reflexivity]).
Qed.

(** ---- the hypotheses can be met ---- *)
Definition allow (c : call) (x : place) : bool := false.
Definition disk : fsys :=
  [([L "d"], KDir); ([L "d"; L "sub"], KDir); ([L "d"; L "sub"; L "file"], KFile (L "data")); ([L "d"; L "out"], KLink (L "/keep"));
   ([L "d"; L "loop"], KLink (L "loop")); ([L "keep"], KDir); ([L "keep"; L "it"], KFile (L "x")); ([L "link"], KLink (L "d"))].
Lemma proper_dec x : (negb (str_eqb x []) && negb (str_eqb x (L ".")) && negb (str_eqb x (L "..")) && forallb (fun c => negb (Ascii.eqb c slash)) x)%bool = true -> proper x.
Proof.
  rewrite !andb_true_iff, !negb_true_iff, !str_eqb_neq, forallb_forall. intros [[[A B] C] D]. repeat split; try assumption. intros I. specialize (D _ I). rewrite Ascii.eqb_refl in D. discriminate.
Qed.
Definition wf_check (f : fsys) : bool :=
  (forallb (fun e => match fst e with [] => false | _ => true end &&
     (let x := List.last (fst e) [] in negb (str_eqb x []) && negb (str_eqb x (L ".")) && negb (str_eqb x (L "..")) && forallb (fun c => negb (Ascii.eqb c slash)) x) &&
     match at_place f (removelast (fst e)) with Some KDir => true | _ => false end) f &&
  (fix nd (l : list place) := match l with [] => true | x :: r => negb (existsb (fun y => if place_dec x y then true else false) r) && nd r end) (map fst f))%bool.
Lemma is_dir_true (o : option kind) : match o with Some KDir => true | _ => false end = true -> o = Some KDir.
Proof. destruct o as [[|d|t]|]; [reflexivity|discriminate..]. Qed.
Lemma wf_check_ok f : wf_check f = true -> WF f.
Proof.
  unfold wf_check. rewrite andb_true_iff, forallb_forall. intros [A B]. split.
  - clear A. induction (map fst f) as [|x r IH]; [constructor|]. apply andb_true_iff in B as [B C]. constructor; [|exact (IH C)]. intros I. apply negb_true_iff in B. assert (existsb (fun y => if place_dec x y then true else false) r = true) as Q by (apply existsb_exists; exists x; split; [exact I|destruct (place_dec x x); congruence]). congruence.
  - intros x k I. specialize (A _ I). cbn [fst] in A. rewrite !andb_true_iff in A. destruct A as [[A1 A2] A3]. split; [destruct x; [discriminate|discriminate]|]. split; [apply proper_dec; rewrite !andb_true_iff; tauto|]. exact (is_dir_true _ A3).
Qed.
Lemma no_bs (x : str) : match rev x with c :: _ => negb (Ascii.eqb c backslash) | [] => true end = true -> ~ ends_backslash x.
Proof. intros A [y ->]. rewrite rev_app_distr in A. cbn [rev app] in A. rewrite Ascii.eqb_refl in A. discriminate. Qed.
Example C119_example : exists f', remove_a_directory allow [] 5 disk (L "/d") = Some (f', true) /\ at_place f' [L "d"; L "sub"] = None /\ at_place f' [L "keep"; L "it"] = Some (KFile (L "x")).
Proof.
  destruct (C119_whole_tree allow [] disk (L "/d") [L "d"] 3 5) as (f' & E & _ & G & O).
  - apply wf_check_ok. vm_compute. reflexivity.
  - intros x k A. unfold at_place in A. destruct x as [|a x]; [cbn; lia|]. apply look_in in A. cbn [disk In] in A. repeat (destruct A as [A|A]; [injection A as <- <-; cbn [length]; lia|]). destruct A.
  - lia.
  - discriminate.
  - vm_compute. reflexivity.
  - vm_compute. reflexivity.
  - apply proper_dec. vm_compute. reflexivity.
  - reflexivity.
  - intros t x A [y Q]. assert (In (([L "d"] ++ t ++ [x])%list) (map fst disk)) as I. { change ([L "d"] ++ t ++ [x]) with (L "d" :: (t ++ [x])) in *. unfold at_place in A. destruct (look disk (L "d" :: t ++ [x])) as [k|] eqn:Lk; [|congruence]. apply look_in, (in_map fst) in Lk. exact Lk. }
    assert (List.last (([L "d"] ++ t) ++ [x]) [] = x) as Lx by apply last_last. rewrite <- app_assoc in Lx. assert (forallb (fun p => match rev (List.last p []) with c :: _ => negb (Ascii.eqb c backslash) | [] => true end) (map fst disk) = true) as Fa by (vm_compute; reflexivity). rewrite forallb_forall in Fa. specialize (Fa _ I). refine (no_bs x _ (ex_intro _ y Q)). rewrite <- Lx. exact Fa.
  - exists f'. split; [exact E|]. split; [apply G; exists [L "sub"]; reflexivity|]. rewrite O; [vm_compute; reflexivity|]. intros [t Q]. discriminate.
Qed.
(** A name that is itself a link to a directory: the answer is false, but the
    directory it leads to has been emptied. *)
Theorem C119_link_refuted : exists f source f', WF f /\ remove_a_directory allow [] 9 f source = Some (f', false) /\
  file_is_symlink f [] source = true /\ at_place f [L "d"; L "sub"; L "file"] = Some (KFile (L "data")) /\ at_place f' [L "d"; L "sub"; L "file"] = None /\ at_place f' [L "d"] = Some KDir.
Proof. exists disk, (L "/link"). eexists. split; [apply wf_check_ok; vm_compute; reflexivity|]. vm_compute. repeat split. Qed.
(** A name in the tree that ends in a backslash: nothing is refused, and the tree stays. *)
Theorem C119_backslash_refuted : exists f source f', WF f /\ resolve f [] false source = inl [L "d"] /\ at_place f [L "d"] = Some KDir /\
  remove_a_directory allow [] 9 f source = Some (f', false) /\ at_place f' [L "d"] = Some KDir.
Proof.
  exists [([L "d"], KDir); ([L "d"; ["a"%char; backslash]], KDir)], (L "/d"). eexists. split; [apply wf_check_ok; vm_compute; reflexivity|]. vm_compute. repeat split.
Qed.
(** A path that leads through the directory itself: the rest of the path is gone
    before the directory is. *)
Theorem C119_through_itself_refuted : exists f source f', WF f /\ resolve f [] true source = inl [L "d"] /\
  remove_a_directory allow [] 9 f source = Some (f', false) /\ at_place f' [L "d"; L "x"] = None /\ at_place f' [L "d"; L "y"] = Some (KFile (L "1")).
Proof.
  exists [([L "d"], KDir); ([L "d"; L "x"], KDir); ([L "d"; L "y"], KFile (L "1"))], (L "/d/x/.."). eexists. split; [apply wf_check_ok; vm_compute; reflexivity|]. vm_compute. repeat split.
Qed.

Print Assumptions C119_only_that_tree.
Print Assumptions C119_whole_tree.
Print Assumptions C119_remove_file.
Print Assumptions C119_link_refuted.
Print Assumptions C119_backslash_refuted.
Print Assumptions C119_through_itself_refuted.
