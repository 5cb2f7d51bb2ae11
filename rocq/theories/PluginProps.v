(** PluginProps.v -- C89, C90, C91. *)
From Coq Require Import List Lia Bool ZArith Arith.
Import ListNotations.
From Verif Require Import Base PathModel PathProofs ConfigModel AlgoModel AlgoSpec PluginModel PluginSpec.

Lemma name_of_entry dir e : ~ In slash e -> get_filename_name (dir ++ slash :: e) = e.
Proof. intro H. unfold get_filename_name. rewrite rsplit_app by exact H. reflexivity. Qed.
Lemma last_ext_iff e ext : ~ In "."%char ext -> (match rsplit "." e with Some (_, b) => "."%char :: b | None => [] end = "."%char :: ext) <-> exists stem, e = stem ++ "."%char :: ext.
Proof.
  intro H. split.
  - destruct (rsplit "." e) as [[a b]|] eqn:E; [|discriminate]. intro X. injection X as ->. apply rsplit_some in E. destruct E as [-> _]. eauto.
  - intros [s ->]. rewrite rsplit_app by exact H. reflexivity.
Qed.
Lemma first_part_iff e ext name stem : e = stem ++ "."%char :: ext -> (match fsplit "." e with Some (a, _) => a | None => e end = name) <-> ~ In "."%char name /\ exists more, e = name ++ "."%char :: more.
Proof.
  intro He. split.
  - destruct (fsplit "." e) as [[a b]|] eqn:E.
    + intros <-. apply fsplit_some in E. destruct E as [-> H]. eauto.
    + apply fsplit_none in E. exfalso. apply E. rewrite He. apply in_or_app. right. left. reflexivity.
  - intros [H [m ->]]. rewrite fsplit_app by exact H. reflexivity.
Qed.
Lemma accept_iff {R} (w : pworld R) name dir e : world_ok w -> ~ In slash e -> accept w name (dir ++ L "/" ++ e) = true <-> wanted w name dir e.
Proof.
  intros [(ext & Es & Hd & Hs) _] He. change (dir ++ L "/" ++ e) with (dir ++ slash :: e). unfold accept, wanted, get_filename_last_extension, get_filename_without_extension.
  rewrite !name_of_entry by exact He. rewrite Es, !andb_true_iff, str_eqb_eq, last_ext_iff by exact Hd. rewrite negb_true_iff, orb_true_iff, str_eqb_eq, Nat.eqb_eq.
  assert (Hn : length name = 0 <-> name = []) by (destruct name; split; try reflexivity; discriminate). rewrite Hn. split.
  - intros [[[s Hs'] B] C]. split; [eauto|]. split; [|exact C]. destruct B as [B|B]; [left; exact B|]. rewrite (first_part_iff e ext name s Hs') in B. right; exact B.
  - intros [[s Hs'] [B C]]. split; [split; [eauto|]|exact C]. destruct B as [B|B]; [left; exact B|]. right. apply (first_part_iff e ext name s Hs'). exact B.
Qed.
Lemma key_of {R} (w : pworld R) dir k : world_ok w -> ~ In slash k -> module_key (dir ++ slash :: k ++ w_suffix w) = k.
Proof.
  intros [(ext & Es & Hd & Hs) _] Hk. unfold module_key, get_filename_without_last_extension. rewrite Es. rewrite name_of_entry.
  - rewrite rsplit_app by exact Hd. unfold get_filename_name. rewrite (proj2 (rsplit_none slash k) Hk). reflexivity.
  - intro X. apply in_app_or in X. destruct X as [X|[X|X]]; [tauto|discriminate|tauto].
Qed.

Definition step {R} (w : pworld R) := fun (p : pm R) f => fst (register_from_module w p f).
Lemma step_paths {R} (w : pworld R) fs : forall p, p_paths (fold_left (step w) fs p) = p_paths p.
Proof.
  induction fs as [|f fs IH]; intro p; [reflexivity|]. cbn [fold_left]. rewrite IH. unfold step, register_from_module.
  destruct (w_lib w f) as [[e|]|]; [|reflexivity|reflexivity]. destruct (private_register e (p_reg p)) as [r n]. destruct (0 <? n)%Z; reflexivity.
Qed.
Lemma step_tried {R} (w : pworld R) fs : forall p, p_tried (fold_left (step w) fs p) = p_tried p ++ fs.
Proof.
  induction fs as [|f fs IH]; intro p; [rewrite app_nil_r; reflexivity|]. cbn [fold_left]. rewrite IH. unfold step, register_from_module.
  destruct (w_lib w f) as [[e|]|]; [|cbn; rewrite <- app_assoc; reflexivity|cbn; rewrite <- app_assoc; reflexivity].
  destruct (private_register e (p_reg p)) as [r n]. destruct (0 <? n)%Z; cbn; rewrite <- app_assoc; reflexivity.
Qed.
Lemma entries_fold {R} (w : pworld R) name dir es : world_ok w -> (forall e, In e es -> ~ In slash e) -> exists sel, picks (wanted w name dir) es sel /\
  forall p, fold_left (fun p f => let file := dir ++ L "/" ++ f in if accept w name file then fst (register_from_module w p file) else p) es p = fold_left (step w) (map (fun e => dir ++ slash :: e) sel) p.
Proof.
  intro Hw. induction es as [|e es IH]; intro Hs.
  - exists []. split; [constructor|reflexivity].
  - destruct IH as (sel & Hp & Hf); [intros x Hx; apply Hs; right; exact Hx|]. pose proof (accept_iff w name dir e Hw (Hs e (or_introl eq_refl))) as Ha.
    destruct (accept w name (dir ++ L "/" ++ e)) eqn:E.
    + exists (e :: sel). split; [constructor; tauto|]. intro p. cbn [fold_left map]. cbv zeta. rewrite E. apply Hf.
    + exists sel. split; [constructor; [intro X; apply Ha in X; congruence|exact Hp]|]. intro p. cbn [fold_left]. cbv zeta. rewrite E. apply Hf.
Qed.
Lemma load_dir {R} (w : pworld R) name dir : world_ok w ->
  ((forall fs, ~ searched w dir fs) /\ forall p, load_modules_in_directory w name p dir = p) \/
  (exists es sel, searched w dir es /\ picks (wanted w name dir) es sel /\ forall p, load_modules_in_directory w name p dir = fold_left (step w) (map (fun e => dir ++ slash :: e) sel) p).
Proof.
  intro Hw. unfold load_modules_in_directory. destruct dir as [|c d]; [left; split; [intros fs [F _]; apply F; reflexivity|reflexivity]|]. cbn [length Nat.eqb].
  destruct (w_exists w (c :: d)) eqn:E1; [|left; split; [intros fs (_ & F & _); congruence|reflexivity]].
  destruct (w_isdir w (c :: d)) eqn:E2; [|left; split; [intros fs (_ & _ & F & _); congruence|reflexivity]].
  destruct (w_list w (c :: d)) as [es|] eqn:E3; [|left; split; [intros fs (_ & _ & _ & F); congruence|reflexivity]].
  right. destruct (entries_fold w name (c :: d) es Hw) as (sel & Hp & Hf); [intros e; exact (proj2 Hw _ _ _ E3)|].
  exists es, sel. split; [repeat split; auto; discriminate|]. split; [exact Hp|]. intro p. apply Hf.
Qed.
Lemma register_fold {R} (w : pworld R) name paths : world_ok w -> exists tried, attempted w name paths tried /\
  forall p, fold_left (load_modules_in_directory w name) paths p = fold_left (step w) tried p.
Proof.
  intro Hw. induction paths as [|dir paths (tried & Ha & Hf)].
  - exists []. split; [constructor|reflexivity].
  - destruct (load_dir w name dir Hw) as [[Hn Hl]|(es & sel & Hs & Hp & Hl)].
    + exists tried. split; [constructor; assumption|]. intro p. cbn [fold_left]. rewrite Hl. apply Hf.
    + exists (map (fun e => dir ++ slash :: e) sel ++ tried). split; [econstructor; eassumption|]. intro p. cbn [fold_left]. rewrite Hl, fold_left_app. apply Hf.
Qed.

(** A demonstration world: two directories with modules; the registrar is a map
    from implementation names to the module that provided them. *)
Definition provider := smap str.
Definition good (file : str) (items : list str) : entry provider := fun r => (fold_left (fun r i => sset i file r) items r, Some 0%Z).
Definition demo_world : pworld provider := mkWorld (Some (L "/e::/none")) (L "/d") (L ".so")
  (fun p => existsb (str_eqb p) [L "/e"; L "/d"]) (fun p => existsb (str_eqb p) [L "/e"; L "/d"; L "/d/dir.so"])
  (fun p => if str_eqb p (L "/e") then Some [L "."; L "a.so"; L "x.y.so"; L "a.txt"] else if str_eqb p (L "/d") then Some [L "a.so"; L "dir.so"; L "broken.so"; L "thrower.so"] else None)
  (fun f => if str_eqb f (L "/d/broken.so") then Some (Some (fun r => (sset (L "half") f r, Some 1%Z)))
            else if str_eqb f (L "/d/thrower.so") then Some (Some (fun r => (r, None)))
            else if str_eqb f (L "/e/x.y.so") then Some None else Some (Some (good f [L "alg"]))).
Ltac notin := let X := fresh in intro X; vm_compute in X; repeat (destruct X as [X|X]; [discriminate X|]); destruct X.
Lemma demo_ok : world_ok demo_world.
Proof.
  split; [exists (L "so"); repeat split; [notin|notin]|]. intros dir files f. cbn [w_list demo_world].
  destruct (str_eqb dir (L "/e")); [intro X; injection X as <-; intros [<-|[<-|[<-|[<-|[]]]]]; notin|].
  destruct (str_eqb dir (L "/d")); [intro X; injection X as <-; intros [<-|[<-|[<-|[<-|[]]]]]; notin|discriminate].
Qed.

(** C89: register_plugins tries exactly the wanted modules of the directories
    of the search path, directory after directory in listing order. *)
Theorem C89_modules_tried {R} (w : pworld R) name p : world_ok w -> exists tried,
  attempted w name (get_search_path p) tried /\ p_tried (register_plugins w name p) = p_tried p ++ tried /\
  get_search_path (register_plugins w name p) = get_search_path p.
Proof.
  intro Hw. destruct (register_fold w name (p_paths p) Hw) as (tried & Ha & Hf). exists tried. unfold register_plugins, get_search_path. rewrite Hf, step_paths, step_tried. auto.
Qed.
Print Assumptions C89_modules_tried.
Lemma picks_det {A} (P : A -> Prop) l s1 : picks P l s1 -> forall s2, picks P l s2 -> s1 = s2.
Proof. induction 1; intros s2 H2; inversion H2; subst; try reflexivity; try tauto; [f_equal; auto|auto]. Qed.
Lemma picks_in {A} (P : A -> Prop) l s : picks P l s -> forall x, In x s <-> In x l /\ P x.
Proof. induction 1 as [|x l s Hx _ IH|x l s Hx _ IH]; intro y; cbn; [tauto| |]; specialize (IH y); intuition (subst; tauto). Qed.
Theorem C89_determined {R} (w : pworld R) name paths t1 t2 : attempted w name paths t1 -> attempted w name paths t2 -> t1 = t2.
Proof.
  intro H1. revert t2. induction H1 as [|dir paths fs Hn Hr IH|dir paths es sel fs Hs Hp Hr IH]; intros t2 H2; inversion H2; subst; auto.
  - exfalso. eapply Hn; eassumption.
  - exfalso. eapply H1; eassumption.
  - match goal with A : searched w dir ?es2 |- _ => assert (es2 = es) by (destruct A as (_ & _ & _ & A); destruct Hs as (_ & _ & _ & B); congruence) end. subst.
    f_equal; [f_equal; eapply picks_det; eassumption|auto].
Qed.
Print Assumptions C89_determined.
(** As a set: a file is tried iff it is a wanted entry of a searched directory;
    in particular nothing is tried from an empty element of the search path. *)
Theorem C89_file_tried {R} (w : pworld R) name paths tried : attempted w name paths tried -> forall file,
  In file tried <-> exists dir entries entry, In dir paths /\ searched w dir entries /\ In entry entries /\ wanted w name dir entry /\ file = dir ++ L "/" ++ entry.
Proof.
  induction 1 as [|dir paths fs Hn Hr IH|dir paths es sel fs Hs Hp Hr IH]; intro file.
  - split; [intros []|intros (d & es & e & [] & _)].
  - rewrite IH. split; intros (d & es & e & Hd & Hse & Hx); exists d, es, e; (split; [|tauto]); cbn in *; [tauto|]. destruct Hd as [<-|Hd]; [exfalso; eapply Hn; exact Hse|exact Hd].
  - rewrite in_app_iff, in_map_iff, IH. split.
    + intros [(e & <- & He)|(d & es2 & e & Hd & Hx)].
      * apply (picks_in _ _ _ Hp) in He. exists dir, es, e. cbn; tauto.
      * exists d, es2, e. cbn; tauto.
    + intros (d & es2 & e & Hd & Hse & Hie & Hwa & ->). cbn in Hd. destruct Hd as [<-|Hd]; [|right; exists d, es2, e; tauto].
      left. exists e. split; [reflexivity|]. apply (picks_in _ _ _ Hp). destruct Hse as (_ & _ & _ & A); destruct Hs as (_ & _ & _ & B). assert (es2 = es) by congruence. subst. auto.
Qed.
Print Assumptions C89_file_tried.
(** A name with a dot never loads anything, although such names can be listed
    by registered_module_names. *)
Theorem C89_dotted_name {R} (w : pworld R) name p : world_ok w -> In "."%char name -> register_plugins w name p = p.
Proof.
  intros Hw Hd. destruct (register_fold w name (p_paths p) Hw) as (tried & Ha & Hf). unfold register_plugins. rewrite Hf.
  assert (tried = []) as ->; [|reflexivity]. destruct tried as [|f t]; [reflexivity|]. exfalso.
  destruct (proj1 (C89_file_tried w name _ _ Ha f) (or_introl eq_refl)) as (dir & es & e & _ & _ & _ & (_ & [Hn|[Hn _]] & _) & _); [subst; destruct Hd|tauto].
Qed.
Print Assumptions C89_dotted_name.
(** The search path: the variable's directories, then the compiled ones, then
    the added ones in the order of the calls. *)
Theorem C89_search_path {R} (w : pworld R) r calls : get_search_path (prun w (new_manager w r) calls) =
  (match w_env w with Some s => fst (split_sep ":" s) | None => [] end ++ fst (split_sep ":" (w_default w))) ++
  flat_map (fun c => match c with AddPath d => [d] | Register _ => [] end) calls.
Proof.
  unfold prun. assert (H : forall p, p_paths (fold_left (pstep w) calls p) = p_paths p ++ flat_map (fun c => match c with AddPath d => [d] | Register _ => [] end) calls).
  { induction calls as [|c calls IH]; intro p; cbn [fold_left flat_map]; [rewrite app_nil_r; reflexivity|]. rewrite IH. destruct c as [d|n]; cbn [pstep add_search_path p_paths].
    - rewrite <- app_assoc. reflexivity.
    - cbn [app]. f_equal. unfold register_plugins. generalize (p_paths p) at 1. intro ps. revert p. induction ps as [|d ps IHp]; intro p; [reflexivity|]. cbn [fold_left]. rewrite IHp.
      unfold load_modules_in_directory. destruct (length d =? 0); [reflexivity|]. destruct (negb (w_exists w d)); [reflexivity|]. destruct (negb (w_isdir w d)); [reflexivity|].
      destruct (w_list w d) as [fs|]; [|reflexivity]. clear. revert p. induction fs as [|f fs IH]; intro p; [reflexivity|]. cbn [fold_left]. rewrite IH. cbv zeta.
      destruct (accept w n _); [|reflexivity]. apply (step_paths w [d ++ L "/" ++ f] p). }
  apply (H (new_manager w r)).
Qed.
Print Assumptions C89_search_path.
Example C89_nonvacuous : world_ok demo_world /\ get_search_path (new_manager demo_world []) = [L "/e"; []; L "/none"; L "/d"] /\
  p_tried (register_plugins demo_world [] (new_manager demo_world [])) = [L "/e/a.so"; L "/e/x.y.so"; L "/d/a.so"; L "/d/broken.so"; L "/d/thrower.so"] /\
  p_tried (register_plugins demo_world (L "x") (new_manager demo_world [])) = [L "/e/x.y.so"] /\
  p_tried (register_plugins demo_world (L "x.y") (new_manager demo_world [])) = [].
Proof. split; [exact demo_ok|]. vm_compute. auto. Qed.
