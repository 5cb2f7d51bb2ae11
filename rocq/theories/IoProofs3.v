(** The search order. *)
From Verif Require Import Base Numbers ConfigModel ConfigSpec ConfigProofs ConfigProofs2 ConfigProofs3 ConfigProofs4 ConfigProps
  ExpandModel ParserModel ParserSpec DocSpec
  TokenizeModel TokenizeSpec TokenizeProofs IoModel IoSpec IoProofs.

Lemma splits_ex s : exists ts, splits (eq ":"%char) s ts /\ forall old, tokenize s old (L ":") false = old ++ ts.
Proof.
  destruct (tokenize_splits s [] (L ":")) as (ts & Hs & E & _). exists ts. split.
  - assert (E1 : forall x, In x (L ":") <-> ":"%char = x) by (intro x; unfold L; cbn [list_ascii_of_string In]; intuition).
    clear E. induction Hs; constructor; auto.
    + intros y Hy X. apply (H y Hy). apply E1; auto. + intros y Hy X. apply (H y Hy). apply E1; auto. + apply E1; auto.
  - intro old. rewrite tokenize_eq. rewrite tokenize_eq in E. cbn [app] in E. rewrite E. reflexivity.
Qed.
Lemma splits_snoc (d : ascii -> Prop) s ts c : d c -> splits d s ts -> splits d (s ++ [c]) (ts ++ [[]]).
Proof.
  intros Hc H. induction H as [t Ht|t x s ts Ht Hx Hs IH]; cbn [app].
  - constructor; auto. apply sp_last. intros ? [].
  - rewrite <- app_assoc. cbn [app]. constructor; auto.
Qed.
Lemma splits_ne d s ts : splits d s ts -> ts <> [].
Proof. destruct 1; discriminate. Qed.
Lemma splits_end d s ts : splits d s ts -> forall ts' last, ts = ts' ++ [last] -> exists p, s = p ++ last /\ forall c, In c last -> ~ d c.
Proof.
  induction 1 as [t Ht|t c s ts Ht Hc Hs IH]; intros ts' last E.
  - destruct ts' as [|? [|]]; try discriminate. injection E as <-. exists []. auto.
  - destruct ts' as [|x ts']; [injection E as E1 E2; destruct (splits_ne _ _ _ Hs E2)|]. injection E as <- E.
    destruct (IH _ _ E) as (p & -> & H). exists (t ++ c :: p). rewrite <- app_assoc. auto.
Qed.
Lemma splits_end_d d s ts : splits d s ts -> forall p c, s = p ++ [c] -> d c -> exists ts', ts = ts' ++ [[]].
Proof.
  induction 1 as [t Ht|t x s ts Ht Hx Hs IH]; intros p c E Hc.
  - exfalso. apply (Ht c); auto. rewrite E. apply in_or_app. right; left; auto.
  - destruct (rev_case s) as [->|(y & s' & ->)].
    + inversion Hs as [t' _| t' ? ? ? _ _ _ E']; subst; [exists [t]; reflexivity|destruct t'; discriminate].
    + change (t ++ x :: s' ++ [y]) with (t ++ (x :: s') ++ [y]) in E. rewrite app_assoc in E. apply app_inj_tail in E as [_ ->].
      destruct (IH s' c eq_refl Hc) as [ts' ->]. exists (t :: ts'). reflexivity.
Qed.
Lemma splits_end_nil d s ts : splits d s ts -> forall ts', ts = ts' ++ [[]] -> s = [] \/ exists p c, s = p ++ [c] /\ d c.
Proof.
  induction 1 as [t Ht|t x s ts Ht Hx Hs IH]; intros ts' E.
  - destruct ts' as [|? [|]]; try discriminate. injection E as ->. auto.
  - destruct ts' as [|y ts']; [injection E as E1 E2; destruct (splits_ne _ _ _ Hs E2)|]. injection E as <- E.
    right. destruct (IH _ E) as [->|(p & c & -> & Hc)]; [exists t, x; auto|].
    exists (t ++ x :: p), c. rewrite <- app_assoc. auto.
Qed.
Lemma get_path_entries conv v : env_entries conv v (get_path conv v).
Proof.
  destruct v as [v|]; [|reflexivity]. cbn [env_entries get_path].
  destruct (rev_case v) as [->|(c & p & ->)].
  - exists []. split; [constructor|reflexivity].
  - rewrite rev_app_distr. cbn [rev app].
    destruct (splits_ex (p ++ [c])) as (ts & Hs & E).
    destruct (Ascii.eqb_spec c ":") as [->|N].
    + rewrite E. cbn [app]. destruct (splits_end_d _ _ _ Hs p ":"%char eq_refl eq_refl) as [ts' ->].
      exists ts'. split; [|rewrite removelast_last; reflexivity]. apply pe_final; auto. destruct p; discriminate.
    + destruct (splits_ex ((p ++ [c]) ++ L ":")) as (ts2 & Hs2 & E2). rewrite E2. cbn [app].
      pose proof (splits_snoc _ _ _ ":"%char eq_refl Hs) as Hs3.
      assert (ts2 = ts ++ [[]]).
      { eapply splits_unique; [|exact Hs2|exact Hs3]. intro x. apply ascii_dec. }
      subst ts2. rewrite removelast_last. exists ts. split; auto.
      destruct (rev_case ts) as [->|(last & ts' & ->)]; [destruct (splits_ne _ _ _ Hs eq_refl)|].
      apply pe_plain; auto. intros ->.
      destruct (splits_end_nil _ _ _ Hs _ eq_refl) as [X|(q & c' & X & Y)]; [destruct p; discriminate|].
      apply app_inj_tail in X as [_ X]. congruence.
Qed.

Lemma app_dirs_eq paths app ver : application_paths paths app ver = flat_map (app_dirs app ver) paths.
Proof.
  unfold application_paths. rewrite flat_map_concat_map. f_equal. apply map_ext. intro b. unfold app_dirs.
  destruct (str_dec ver []) as [->|N]; [reflexivity|]. destruct ver as [|c ver]; [congruence|].
  cbn [Datatypes.app]. rewrite <- app_assoc. reflexivity.
Qed.
Lemma nonstandard_iff p : negb (str_eqb p []) && negb (str_eqb p (L "/usr")) && negb (str_eqb p (L "/usr/local")) = true <-> ~ standard_prefix p.
Proof.
  unfold standard_prefix. destruct (str_eqb_spec p []), (str_eqb_spec p (L "/usr")), (str_eqb_spec p (L "/usr/local")); cbn [negb andb];
    split; intro H; try discriminate; try tauto; auto.
Qed.
Lemma search_order env conv app ver prefix : exists kwiver xdg home share local,
  env_entries conv (env (L "KWIVER_CONFIG_PATH")) kwiver /\
  env_entries conv (env (L "XDG_CONFIG_HOME")) xdg /\
  (forall h, env (L "HOME") = Some h -> h <> [] -> home = [h ++ L "/.config"]) /\
  (env (L "HOME") = None \/ env (L "HOME") = Some [] -> home = []) /\
  (standard_prefix prefix -> share = [] /\ local = []) /\
  (~ standard_prefix prefix -> share = [prefix ++ L "/share"] /\ local = [prefix ++ L "/share/config"; prefix ++ L "/config"]) /\
  config_file_paths env conv app ver prefix =
    kwiver ++
    flat_map (app_dirs app ver) (xdg ++ home ++ [L "/etc/xdg"; L "/etc"]) ++
    map (fun d => d ++ L "/config") (flat_map (app_dirs app ver) ([L "/usr/local/share"; L "/usr/share"] ++ share)) ++
    local.
Proof.
  unfold config_file_paths. rewrite !app_dirs_eq. do 5 eexists.
  split; [apply get_path_entries|]. split; [apply get_path_entries|].
  split; [|split; [|split; [|split; [|reflexivity]]]].
  - intros h -> Hh. destruct h; [congruence|]. reflexivity.
  - intros [->| ->]; reflexivity.
  - intro H. destruct (negb (str_eqb prefix []) && negb (str_eqb prefix (L "/usr")) && negb (str_eqb prefix (L "/usr/local"))) eqn:E; auto.
    apply nonstandard_iff in E. contradiction.
  - intro H. apply nonstandard_iff in H. rewrite H. auto.
Qed.

(** Round trip for reachable configurations. *)
Lemma round_trip_reachable h id keys : reachable h -> id < length h -> available_values h id = Ok keys -> keys <> [] ->
  (forall k, In k keys -> plain_key k /\ (exists v, get_string h id k = Ok v /\ ~ In "#"%char v /\ ~ In newline v /\ ~ In "$"%char v) /\
    forall f l, get_location h id k = Ok (Some (f, l)) -> ~ In newline f) ->
  exists text, write_config h id = (text, WOk) /\
   forall w file, w_fs w file = File text ->
   exists n0, forall n, n0 <= n -> exists st, parse n w file = PDone st /\
     forall k, is_read_only (p_heap st) 0 k = Ok false /\
       (In k keys -> get_string (p_heap st) 0 k = get_string h id k) /\
       (has_value (p_heap st) 0 k = Ok true <-> In k keys).
Proof.
  intros Hre Hid Hav Hne Hw. apply round_trip; auto.
  - destruct (nth_error h id) eqn:E; [eauto|]. apply nth_error_None in E. lia.
  - intros k Hk. destruct (Hw k Hk) as (Pk & (v & Hv & N1 & N2 & N3) & HL). split; auto. split; [|split; auto].
    + exists v. split; auto. split; auto. split; [|auto]. eapply get_trimmed_lemma; eauto.
    + destruct (resolves_total h id Hre Hid) as (r & p & Hres). eapply C05_description_iff_value; eauto.
      unfold get_string, get_value in Hv. destruct (has_value h id k) as [[|]| | |]; cbn in Hv; congruence.
Qed.
