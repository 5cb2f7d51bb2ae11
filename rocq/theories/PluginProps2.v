(** PluginProps2.v -- C90, C91: what registering the modules leaves behind. *)
From Coq Require Import List Lia Bool ZArith Arith Sorting.
Import ListNotations.
From Verif Require Import Base PathModel PathProofs ConfigModel AlgoModel AlgoSpec AlgoProofs PluginModel PluginSpec PluginProps.

Lemma sset_other k k' (v : str) m : sfind k (sset k' v m) = if str_dec k k' then Some v else sfind k m.
Proof. destruct (str_dec k k') as [->|H]; [apply sfind_set_eq|apply sfind_set_ne; exact H]. Qed.
Definition set_key (m : smap str) (f : str) : smap str := sset (module_key f) f m.
Lemma steps_report {R} (w : pworld R) fs : forall p, exists es, reports w fs (p_reg p) es (p_reg (fold_left (step w) fs p)) /\
  p_open (fold_left (step w) fs p) = p_open p ++ registered es /\ p_mods (fold_left (step w) fs p) = fold_left set_key (registered es) (p_mods p).
Proof.
  induction fs as [|f fs IH]; intro p.
  - exists []. split; [constructor|]. cbn. rewrite app_nil_r. auto.
  - cbn [fold_left]. destruct (IH (step w p f)) as (es & Hr & Ho & Hm). rewrite Ho, Hm. clear Ho Hm.
    assert (Hs : (w_lib w f = None /\ p_reg (step w p f) = p_reg p /\ p_open (step w p f) = p_open p /\ p_mods (step w p f) = p_mods p) \/
      (w_lib w f = Some None /\ p_reg (step w p f) = p_reg p /\ p_open (step w p f) = p_open p /\ p_mods (step w p f) = p_mods p) \/
      (exists e n, w_lib w f = Some (Some e) /\ e (p_reg p) = (p_reg (step w p f), Some n) /\ (0 < n)%Z /\ p_open (step w p f) = p_open p /\ p_mods (step w p f) = p_mods p) \/
      (exists e n, w_lib w f = Some (Some e) /\ e (p_reg p) = (p_reg (step w p f), n) /\ (forall m, n = Some m -> (m <= 0)%Z) /\ p_open (step w p f) = p_open p ++ [f] /\ p_mods (step w p f) = set_key (p_mods p) f)).
    { unfold step, register_from_module. destruct (w_lib w f) as [[e|]|]; [|right; left; repeat split; reflexivity|left; repeat split; reflexivity]. right; right. unfold private_register. destruct (e (p_reg p)) as [r1 [n|]] eqn:Ee.
      - destruct (0 <? n)%Z eqn:En; cbn [fst p_reg p_open p_mods].
        + left. exists e, n. apply Z.ltb_lt in En. auto.
        + right. exists e, (Some n). apply Z.ltb_ge in En. split; [reflexivity|]. split; [exact Ee|]. split; [intros m X; injection X as <-; exact En|auto].
      - right. exists e, None. split; [reflexivity|]. split; [exact Ee|]. split; [discriminate|auto]. }
    destruct Hs as [(El & Hreg & -> & ->)|[(El & Hreg & -> & ->)|[(e & n & El & Ee & Hn & -> & ->)|(e & n & El & Ee & Hn & -> & ->)]]].
    + rewrite Hreg in Hr. exists ((f, NotALibrary) :: es). split; [constructor; assumption|]. cbn [registered]. auto.
    + rewrite Hreg in Hr. exists ((f, NoEntryPoint) :: es). split; [constructor; assumption|]. cbn [registered]. auto.
    + exists ((f, Failures n) :: es). split; [econstructor; eassumption|]. cbn [registered]. auto.
    + exists ((f, Registered) :: es). cbn [registered]. rewrite <- app_assoc. split; [|auto]. destruct n as [n|]; [eapply rep_good; eauto|eapply rep_throws; eauto].
Qed.
Lemma reports_subset {R} (w : pworld R) fs r es r' : reports w fs r es r' -> map fst es = fs.
Proof. induction 1; cbn; congruence. Qed.
Lemma registered_in es f : In f (registered es) -> In f (map fst es).
Proof. induction es as [|[g o] es IH]; [intros []|]. destruct o; cbn; tauto. Qed.
Lemma set_keys_find l : forall m k, sfind k (fold_left set_key l m) = match find (fun f => str_eqb (module_key f) k) (rev l) with Some f => Some f | None => sfind k m end.
Proof.
  induction l as [|f l IH] using rev_ind; intros m k; [reflexivity|]. rewrite fold_left_app, rev_app_distr. cbn [fold_left rev app find]. unfold set_key at 1. rewrite sset_other.
  destruct (str_dec k (module_key f)) as [->|H]; [rewrite str_eqb_refl; reflexivity|]. rewrite (proj2 (str_eqb_neq _ _)) by congruence. apply IH.
Qed.
Lemma find_last (P : str -> bool) l f : find P (rev l) = Some f -> exists a b, l = a ++ f :: b /\ P f = true /\ forall g, In g b -> P g = false.
Proof.
  induction l as [|x l IH] using rev_ind; [discriminate|]. rewrite rev_app_distr. cbn [rev app find]. destruct (P x) eqn:E.
  - intro X. injection X as <-. exists l, []. repeat split; auto. intros g [].
  - intro X. destruct (IH X) as (a & b & -> & Hf & Hb). exists a, (b ++ [x]). rewrite <- app_assoc. repeat split; auto. intros g Hg. apply in_app_or in Hg. destruct Hg as [Hg|[<-|[]]]; auto.
Qed.
Lemma find_last_none (P : str -> bool) l : find P (rev l) = None -> forall g, In g l -> P g = false.
Proof. intros H g Hg. apply (find_none P (rev l) H). apply in_rev in Hg. exact Hg. Qed.
(** A tried file and its module name. *)
Lemma tried_key {R} (w : pworld R) name paths tried f k : world_ok w -> attempted w name paths tried -> In f tried -> module_key f = k <-> module_name w f k /\ ~ In slash k.
Proof.
  intros Hw Ha Hf. destruct (proj1 (C89_file_tried w name paths tried Ha f) Hf) as (dir & es & e & _ & (_ & _ & _ & Hl) & He & ([s ->] & _) & ->).
  change (dir ++ L "/" ++ s ++ w_suffix w) with (dir ++ slash :: s ++ w_suffix w). pose proof (proj2 Hw _ _ _ Hl He) as Hns.
  assert (Hs : ~ In slash s) by (intro X; apply Hns, in_or_app; left; exact X). rewrite (key_of w dir s Hw Hs). split.
  - intros <-. split; [exists dir; reflexivity|exact Hs].
  - intros [[d Hd] Hk]. destruct Hw as [(ext & Es & Hdot & Hsl) _]. pose proof (f_equal (rsplit slash) Hd) as X.
    assert (Hx : forall z, ~ In slash z -> ~ In slash (z ++ w_suffix w)) by (intros z Hz Y; rewrite Es in Y; apply in_app_or in Y; destruct Y as [Y|[Y|Y]]; [tauto|discriminate|tauto]).
    rewrite !rsplit_app in X by (apply Hx; assumption). injection X as _ X. apply app_inv_tail in X. exact X.
Qed.

(** C90: what a load leaves behind. *)
Theorem C90_account {R} (w : pworld R) name p : world_ok w -> exists tried es,
  attempted w name (get_search_path p) tried /\ reports w tried (p_reg p) es (p_reg (register_plugins w name p)) /\
  p_open (register_plugins w name p) = p_open p ++ registered es /\
  (forall k file, ~ In slash k -> sfind k (p_mods (register_plugins w name p)) = Some file <->
     (exists before after, registered es = before ++ file :: after /\ module_name w file k /\ forall f, In f after -> ~ module_name w f k) \/
     (forall f, In f (registered es) -> ~ module_name w f k) /\ sfind k (p_mods p) = Some file).
Proof.
  intro Hw. destruct (register_fold w name (p_paths p) Hw) as (tried & Ha & Hf). destruct (steps_report w tried p) as (es & Hr & Ho & Hm).
  exists tried, es. unfold register_plugins, get_search_path. rewrite Hf. split; [exact Ha|]. split; [exact Hr|]. split; [exact Ho|]. intros k file Hk. rewrite Hm, set_keys_find.
  assert (Hkey : forall f, In f (registered es) -> str_eqb (module_key f) k = true <-> module_name w f k).
  { intros f Hin. rewrite str_eqb_eq. apply registered_in in Hin. rewrite (reports_subset _ _ _ _ _ Hr) in Hin. rewrite (tried_key w name _ _ f k Hw Ha Hin). tauto. }
  assert (Hkey' : forall f, In f (registered es) -> str_eqb (module_key f) k = false -> ~ module_name w f k) by (intros f Hin E X; apply Hkey in X; [congruence|exact Hin]).
  split.
  - destruct (find _ _) as [g|] eqn:E.
    + intro X. injection X as ->. apply find_last in E. destruct E as (a & b & E & Hg & Hb). left. exists a, b. split; [exact E|]. split.
      * apply Hkey; [rewrite E; apply in_or_app; right; left; reflexivity|exact Hg].
      * intros f Hf'. apply Hkey'; [rewrite E; apply in_or_app; right; right; exact Hf'|auto].
    + intro X. right. split; [|exact X]. intros f Hin. apply Hkey'; [exact Hin|]. exact (find_last_none (fun f => str_eqb (module_key f) k) _ E f Hin).
  - intros [(a & b & E & Hg & Hb)|[Hn Hs]].
    + destruct (find _ _) as [g|] eqn:F.
      * apply find_last in F. destruct F as (a' & b' & E' & Hg' & Hb'). rewrite E in E'. f_equal.
        assert (Hin : In file (registered es)) by (rewrite E; apply in_or_app; right; left; reflexivity). apply (Hkey _ Hin) in Hg. clear -E' Hg Hb Hg' Hb' Hkey E Hk Hin.
        assert (Hbk : forall f, In f b -> str_eqb (module_key f) k = false).
        { intros f Hf. destruct (str_eqb (module_key f) k) eqn:X; [|reflexivity]. exfalso. apply (Hb f Hf). apply Hkey; [rewrite E; apply in_or_app; right; right; exact Hf|exact X]. }
        clear Hkey Hb E Hin. revert a' E'. induction a as [|x a IH]; intros [|y a'] E'; cbn in E'; injection E' as -> E'; [reflexivity| | |eapply IH; eassumption].
        -- exfalso. specialize (Hbk g). rewrite E' in Hbk. rewrite Hbk in Hg'; [discriminate|]. apply in_or_app. right. left. reflexivity.
        -- exfalso. specialize (Hb' file). rewrite <- E' in Hb'. rewrite Hb' in Hg; [discriminate|]. apply in_or_app. right. left. reflexivity.
      * pose proof (find_last_none (fun f => str_eqb (module_key f) k) _ F file) as X. cbn beta in X. assert (Hin : In file (registered es)) by (rewrite E; apply in_or_app; right; left; reflexivity).
        apply (Hkey _ Hin) in Hg. rewrite X in Hg by exact Hin. discriminate.
    + destruct (find _ _) as [g|] eqn:F; [|exact Hs]. apply find_last in F. destruct F as (a & b & E & Hg & _). exfalso. assert (Hin : In g (registered es)) by (rewrite E; apply in_or_app; right; left; reflexivity).
      apply (Hn g Hin). apply Hkey; assumption.
Qed.
Print Assumptions C90_account.

(** After any calls: each listed module is a file of that name whose library
    was registered and is still open; the list is sorted without repetitions. *)
Lemma set_key_sorted l : forall m, ssorted m -> ssorted (fold_left set_key l m).
Proof. induction l as [|f l IH]; intros m H; [exact H|]. apply IH. apply sset_sorted. exact H. Qed.
Theorem C90_listed_modules_are_open {R} (w : pworld R) r calls : world_ok w -> let p := prun w (new_manager w r) calls in
  (forall k, In k (registered_module_names p) -> exists file, sfind k (p_mods p) = Some file /\ module_name w file k /\ In file (p_open p)) /\
  (forall file, In file (p_open p) -> exists k, In k (registered_module_names p) /\ module_name w file k) /\
  NoDup (registered_module_names p).
Proof.
  intros Hw. cbv zeta. unfold prun.
  set (Inv := fun p : pm R => ssorted (p_mods p) /\ (forall k file, sfind k (p_mods p) = Some file -> module_name w file k /\ In file (p_open p)) /\
    (forall file, In file (p_open p) -> exists k, sfind k (p_mods p) <> None /\ module_name w file k)).
  assert (HI : Inv (fold_left (pstep w) calls (new_manager w r))).
  { assert (H0 : Inv (new_manager w r)) by (split; [exact I|]; split; [intros k f X; discriminate|intros f []]). revert H0. generalize (new_manager w r). induction calls as [|c calls IH]; intros p Hp; [exact Hp|].
    cbn [fold_left]. apply IH. clear IH. destruct c as [d|n]; [exact Hp|]. destruct Hp as (Hs & H1 & H2). cbn [pstep].
    destruct (register_fold w n (p_paths p) Hw) as (tried & Ha & Hf). destruct (steps_report w tried p) as (es & Hr & Ho & Hm). unfold register_plugins. rewrite Hf.
    assert (Hkey : forall f, In f (registered es) -> module_name w f (module_key f)).
    { intros f Hin. apply registered_in in Hin. rewrite (reports_subset _ _ _ _ _ Hr) in Hin. apply (proj1 (tried_key w n _ _ f _ Hw Ha Hin) eq_refl). }
    unfold Inv. rewrite Hm, Ho. split; [apply set_key_sorted; exact Hs|]. split.
    - intros k file. rewrite set_keys_find. destruct (find _ _) as [g|] eqn:E.
      + intro X. injection X as ->. apply find_last in E. destruct E as (a & b & E & Hg & _). apply str_eqb_eq in Hg. subst k.
        assert (Hin : In file (registered es)) by (rewrite E; apply in_or_app; right; left; reflexivity). split; [apply Hkey; exact Hin|]. apply in_or_app. right. exact Hin.
      + intro X. destruct (H1 _ _ X). split; [assumption|]. apply in_or_app. left. assumption.
    - intros file Hin. apply in_app_or in Hin. destruct Hin as [Hin|Hin].
      + destruct (H2 _ Hin) as (k & Hk & Hn). exists k. split; [|exact Hn]. rewrite set_keys_find. destruct (find _ _); [discriminate|exact Hk].
      + exists (module_key file). split; [|apply Hkey; exact Hin]. rewrite set_keys_find. destruct (find _ _) eqn:E; [discriminate|]. pose proof (find_last_none (fun f => str_eqb (module_key f) (module_key file)) _ E file Hin) as X. cbn beta in X. rewrite str_eqb_refl in X. discriminate. }
  destruct HI as (Hs & H1 & H2). split; [|split].
  - intros k Hk. unfold registered_module_names in Hk. apply sfind_keys in Hk. destruct (sfind k (p_mods _)) as [f|] eqn:E; [|congruence]. exists f. split; [reflexivity|]. exact (H1 _ _ E).
  - intros f Hf. destruct (H2 _ Hf) as (k & Hk & Hn). exists k. split; [|exact Hn]. apply sfind_keys. exact Hk.
  - apply ssorted_NoDup. exact Hs.
Qed.
Print Assumptions C90_listed_modules_are_open.
Example C90_nonvacuous : let p := register_plugins demo_world [] (new_manager demo_world []) in
  registered_module_names p = [L "a"; L "thrower"] /\ sfind (L "a") (p_mods p) = Some (L "/d/a.so") /\ p_open p = [L "/e/a.so"; L "/d/a.so"; L "/d/thrower.so"].
Proof. vm_compute. auto. Qed.

(** The registrar as a map from implementation to providing module: entry
    points that only add entries of their own. *)
Definition adds_own (w : pworld provider) : Prop := forall f e r r' n, w_lib w f = Some (Some e) -> e r = (r', n) -> forall i m, sfind i r' = Some m -> sfind i r = Some m \/ m = f.
(** ... and add nothing when they report failures. *)
Definition all_or_nothing (w : pworld provider) : Prop := forall f e r r' n, w_lib w f = Some (Some e) -> e r = (r', Some n) -> (0 < n)%Z -> r' = r.
(** If every failing module adds nothing, every implementation in the registrar
    has its library open, after any calls. *)
Theorem C90_no_dangling (w : pworld provider) calls : world_ok w -> adds_own w -> all_or_nothing w ->
  let p := prun w (new_manager w []) calls in forall i m, sfind i (p_reg p) = Some m -> In m (p_open p).
Proof.
  intros Hw Hown Hall. cbv zeta. unfold prun. assert (H0 : forall i m, sfind i (p_reg (new_manager w [])) = Some m -> In m (p_open (new_manager w []))) by (intros i m X; discriminate).
  revert H0. generalize (new_manager w (@nil (str * str))). induction calls as [|c calls IH]; intros p Hp; [exact Hp|]. cbn [fold_left]. apply IH. clear IH. destruct c as [d|n]; [exact Hp|]. cbn [pstep].
  destruct (register_fold w n (p_paths p) Hw) as (tried & _ & Hf). destruct (steps_report w tried p) as (es & Hr & Ho & _). unfold register_plugins. rewrite Hf, Ho. clear Hf Ho.
  intros i m Hi. apply in_or_app. revert i m Hi. assert (Hq : forall i m, sfind i (p_reg p) = Some m -> In m (p_open p) \/ False) by (intros i m X; left; eauto). revert Hq. generalize (p_open p) as op. intro op.
  enough (forall Q : str -> Prop, (forall i m, sfind i (p_reg p) = Some m -> Q m) -> forall i m, sfind i (p_reg (fold_left (step w) tried p)) = Some m -> Q m \/ In m (registered es)) as H.
  { intros Hq i m Hi. apply (H (fun m => In m op)) in Hi; [exact Hi|]. intros j m' Hj. destruct (Hq _ _ Hj); [assumption|contradiction]. }
  revert Hr. generalize (p_reg p), (p_reg (fold_left (step w) tried p)). intros r r' Hr. induction Hr as [r|f fs r es r' El Hr IH|f fs r es r' El Hr IH|f fs e r r1 k es r' El Ee Hk Hr IH|f fs e r r1 k es r' El Ee Hk Hr IH|f fs e r r1 es r' El Ee Hr IH]; intros Q HQ i m Hi; cbn [registered].
  - left. eauto.
  - eapply IH; eassumption.
  - eapply IH; eassumption.
  - rewrite (Hall f e r r1 k El Ee Hk) in *. eapply IH; eassumption.
  - destruct (IH (fun m => Q m \/ m = f)) with (i := i) (m := m) as [[X|X]|X]; [|exact Hi|left; exact X|right; left; auto|right; right; exact X].
    intros j x Hj. destruct (Hown f e r r1 _ El Ee j x Hj) as [Y|Y]; [left; eauto|right; exact Y].
  - destruct (IH (fun m => Q m \/ m = f)) with (i := i) (m := m) as [[X|X]|X]; [|exact Hi|left; exact X|right; left; auto|right; right; exact X].
    intros j x Hj. destruct (Hown f e r r1 _ El Ee j x Hj) as [Y|Y]; [left; eauto|right; exact Y].
Qed.
Print Assumptions C90_no_dangling.
(** Without that: the library of a module that registered some implementations
    and reported a failure is closed, and the registrar keeps its objects. *)
Theorem C90_dangling_refuted : exists (w : pworld provider) i m, world_ok w /\ adds_own w /\
  let p := register_plugins w [] (new_manager w []) in sfind i (p_reg p) = Some m /\ ~ In m (p_open p).
Proof.
  exists demo_world, (L "half"), (L "/d/broken.so"). split; [exact demo_ok|]. split.
  - intros f e r r' n. cbn [w_lib demo_world]. destruct (str_eqb f (L "/d/broken.so")) eqn:E1.
    + intro X. injection X as <-. intro Y. injection Y as <- <-. intros i m. rewrite sset_other. destruct (str_dec i (L "half")); [|auto]. intro Z. injection Z as <-. auto.
    + destruct (str_eqb f (L "/d/thrower.so")) eqn:E2; [intro X; injection X as <-; intro Y; injection Y as <- <-; auto|].
      destruct (str_eqb f (L "/e/x.y.so")); [discriminate|]. intro X. injection X as <-. unfold good. intro Y. injection Y as <- <-. cbn [fold_left]. intros i m. rewrite sset_other. destruct (str_dec i (L "alg")); [|auto]. intro Z. injection Z as <-. auto.
  - cbv zeta. split; [vm_compute; reflexivity|]. notin.
Qed.
Print Assumptions C90_dangling_refuted.
(** A module whose entry point throws is listed as registered. *)
Theorem C90_exception_refuted : exists (w : pworld provider) e, world_ok w /\ w_lib w (L "/d/thrower.so") = Some (Some e) /\ (forall r, snd (e r) = None) /\
  In (L "thrower") (registered_module_names (register_plugins w [] (new_manager w []))).
Proof. exists demo_world, (fun r => (r, None)). split; [exact demo_ok|]. split; [reflexivity|]. split; [reflexivity|]. vm_compute. auto. Qed.
Print Assumptions C90_exception_refuted.
(** Modules that register fixed implementations, replacing earlier ones
    (registrar::register_item): the last module tried that has an implementation
    provides it. *)
Definition plain_modules (w : pworld provider) (items : str -> list str) : Prop := forall f, w_lib w f = Some (Some (good f (items f))).
Lemma good_find f l : forall r i, sfind i (fold_left (fun (r : provider) i => sset i f r) l r) = if in_dec str_dec i l then Some f else sfind i r.
Proof.
  induction l as [|x l IH]; intros r i; [reflexivity|]. cbn [fold_left]. rewrite IH, sset_other. destruct (in_dec str_dec i l) as [H|H]; destruct (in_dec str_dec i (x :: l)) as [H'|H']; cbn in *; destruct (str_dec i x) as [E|E]; try reflexivity; exfalso; intuition congruence.
Qed.
Theorem C90_last_module_wins (w : pworld provider) items name p tried : world_ok w -> plain_modules w items -> attempted w name (get_search_path p) tried ->
  forall before file after i, tried = before ++ file :: after -> In i (items file) -> (forall f, In f after -> ~ In i (items f)) ->
  sfind i (p_reg (register_plugins w name p)) = Some file.
Proof.
  intros Hw Hm Ha before file after i E Hi Hn. destruct (register_fold w name (p_paths p) Hw) as (tried' & Ha' & Hf). assert (tried' = tried) by (eapply C89_determined; eassumption). subst tried'.
  unfold register_plugins. rewrite Hf, E, fold_left_app. cbn [fold_left]. generalize (fold_left (step w) before p). intro q. clear -Hm Hi Hn.
  assert (Hs : forall q f, p_reg (step w q f) = fold_left (fun r i => sset i f r) (items f) (p_reg q)) by (intros q' f; unfold step, register_from_module; rewrite (Hm f); reflexivity).
  assert (H1 : sfind i (p_reg (step w q file)) = Some file) by (rewrite Hs, good_find; destruct (in_dec str_dec i (items file)); [reflexivity|contradiction]).
  revert H1. generalize (step w q file). induction after as [|g after IH]; intros q' H1; [exact H1|]. cbn [fold_left]. apply IH; [intros f Hf; apply Hn; right; exact Hf|].
  rewrite Hs, good_find. destruct (in_dec str_dec i (items g)) as [F|F]; [exfalso; exact (Hn g (or_introl eq_refl) F)|exact H1].
Qed.
Print Assumptions C90_last_module_wins.
(** So a module in a KWIVER_PLUGIN_PATH directory does not take precedence over
    one in the compiled directories. *)
Theorem C90_environment_first_refuted : exists (w : pworld provider), world_ok w /\ w_env w = Some (L "/e::/none") /\ w_default w = L "/d" /\
  let p := register_plugins w [] (new_manager w []) in In (L "/e/a.so") (p_open p) /\ sfind (L "alg") (p_reg p) = Some (L "/d/a.so").
Proof. exists demo_world. split; [exact demo_ok|]. vm_compute. auto. Qed.
Print Assumptions C90_environment_first_refuted.
Example C90_last_nonvacuous : plain_modules (mkWorld None (L "/d") (L ".so") (fun _ => true) (fun _ => true) (fun _ => None) (fun f => Some (Some (good f [L "alg"])))) (fun _ => [L "alg"]).
Proof. intro f. reflexivity. Qed.
