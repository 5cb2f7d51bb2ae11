(** LogProps2.v -- C100, C101: loggers by name, the choice of the back end,
    locations. *)
From Coq Require Import List Ascii Bool Arith ZArith Lia.
Import ListNotations.
From Verif Require Import Base Numbers TokenizeSpec RegexModel RegexProps PathModel PathProofs ConfigModel LogModel.

(** C100 *)
Definition ok (g : mgr) : Prop :=
  g_cur g < length (g_maps g) /\ (forall f m, nth_error (g_maps g) f = Some m -> ssorted m /\ forall n h, sfind n m = Some h -> exists l, nth_error (g_heap g) h = Some l /\ lg_name l = n /\ lg_factory l = f).
Lemma ok0 : ok mgr0.
Proof. split; [cbn; lia|]. intros [|[|f]] m E; cbn in E; try discriminate. injection E as <-. split; [exact I|]. intros n h E. discriminate. Qed.
Lemma nth_map : forall (g : mgr), ok g -> nth_error (g_maps g) (g_cur g) = Some (nth (g_cur g) (g_maps g) []).
Proof. intros g [H _]. apply nth_error_nth'. exact H. Qed.
Lemma ok_get : forall n g, ok g -> ok (snd (get_logger_c n g)).
Proof.
  intros n g O. pose proof (nth_map g O) as NM. unfold get_logger_c. destruct (sfind n (nth (g_cur g) (g_maps g) [])) as [h|] eqn:F; [exact O|]. destruct O as [O1 O2]. cbn [snd]. split; cbn [g_cur g_maps g_heap].
  - rewrite lupd_length. exact O1.
  - intros f m E. destruct (Nat.eq_dec f (g_cur g)) as [->|NE].
    + rewrite nth_lupd_eq in E by exact O1. injection E as <-. destruct (O2 _ _ NM) as [S0 M]. split; [apply sset_sorted; exact S0|]. intros k h E. destruct (str_dec k n) as [->|NK].
      * rewrite sfind_set_eq in E. injection E as <-. exists (mkLg n TRACE (g_cur g)). split; [rewrite nth_error_app2, Nat.sub_diag by lia; reflexivity|auto].
      * rewrite sfind_set_ne in E by congruence. destruct (M k h E) as (l & H & R). exists l. split; [|exact R]. rewrite nth_error_app1; [exact H|]. apply nth_error_Some. congruence.
    + rewrite nth_lupd_ne in E by congruence. destruct (O2 f m E) as [S0 M]. split; [exact S0|]. intros k h K. destruct (M k h K) as (l & H & R). exists l. split; [|exact R]. rewrite nth_error_app1; [exact H|]. apply nth_error_Some. congruence.
Qed.
Lemma ok_level : forall h lev g, ok g -> ok (set_level h lev g).
Proof.
  intros h lev g [O1 O2]. unfold set_level. destruct (nth_error (g_heap g) h) as [l|] eqn:E; [|split; assumption]. split; cbn [g_cur g_maps g_heap]; [exact O1|]. intros f m Em. destruct (O2 f m Em) as [S0 M]. split; [exact S0|]. intros n k K. destruct (M n k K) as (l' & H & N & F).
  destruct (Nat.eq_dec k h) as [->|NE].
  - assert (l' = l) by congruence. subst l'. exists (mkLg (lg_name l) lev (lg_factory l)). split; [apply nth_lupd_eq, nth_error_Some; congruence|auto].
  - exists l'. split; [rewrite nth_lupd_ne by congruence; exact H|auto].
Qed.
Lemma ok_factory : forall g, ok g -> ok (set_factory g).
Proof.
  intros g [O1 O2]. split; cbn [set_factory g_cur g_maps g_heap]; [rewrite app_length; cbn; lia|]. intros f m E. destruct (le_lt_dec (length (g_maps g)) f) as [G|G].
  - rewrite nth_error_app2 in E by exact G. destruct (f - length (g_maps g)) as [|[|k]]; try discriminate. injection E as <-. split; [exact I|]. intros n h K. discriminate.
  - rewrite nth_error_app1 in E by exact G. exact (O2 f m E).
Qed.
Lemma ok_run : forall ops g, ok g -> ok (lrun ops g).
Proof. induction ops as [|[n|h lev|] ops IH]; intros g O; [exact O|..]; cbn [lrun fold_left lrun1]; apply IH; [apply ok_get; exact O|apply ok_level; exact O|apply ok_factory; exact O]. Qed.
(** What a name maps to at the current factory. *)
Definition bound (n : str) (h : nat) (g : mgr) : Prop := sfind n (nth (g_cur g) (g_maps g) []) = Some h.
Lemma bound_get : forall n g, ok g -> bound n (fst (get_logger_c n g)) (snd (get_logger_c n g)).
Proof.
  intros n g O. unfold get_logger_c, bound. destruct (sfind n (nth (g_cur g) (g_maps g) [])) as [h|] eqn:F; [exact F|]. cbn [fst snd g_cur g_maps].
  assert (E : nth_error (lupd (g_maps g) (g_cur g) (sset n (length (g_heap g)) (nth (g_cur g) (g_maps g) []))) (g_cur g) = Some (sset n (length (g_heap g)) (nth (g_cur g) (g_maps g) []))) by (apply nth_lupd_eq; apply O).
  rewrite (nth_error_nth _ _ _ E). apply sfind_set_eq.
Qed.
Lemma bound_step : forall o n h g, ok g -> o <> LFactory -> bound n h g -> bound n h (lrun1 g o).
Proof.
  intros [k|k lev|] n h g O NF B; [|unfold lrun1, set_level; destruct (nth_error (g_heap g) k); exact B|congruence]. cbn [lrun1]. unfold get_logger, get_logger_c. set (q := c_str k).
  destruct (sfind q (nth (g_cur g) (g_maps g) [])) as [h'|] eqn:F; [exact B|]. unfold bound in *. cbn [snd g_cur g_maps].
  assert (E : nth_error (lupd (g_maps g) (g_cur g) (sset q (length (g_heap g)) (nth (g_cur g) (g_maps g) []))) (g_cur g) = Some (sset q (length (g_heap g)) (nth (g_cur g) (g_maps g) []))) by (apply nth_lupd_eq; apply O).
  rewrite (nth_error_nth _ _ _ E). rewrite sfind_set_ne; [exact B|intros ->; congruence].
Qed.
Lemma bound_run : forall ops n h g, ok g -> ~ In LFactory ops -> bound n h g -> bound n h (lrun ops g).
Proof.
  induction ops as [|o ops IH]; intros n h g O NF B; [exact B|]. cbn [lrun fold_left]. apply IH; [exact (ok_run [o] g O)|intro K; apply NF; now right|]. apply bound_step; [exact O|intros ->; apply NF; now left|exact B].
Qed.
(** The same name gives the same logger for as long as the factory is not
    replaced, and different names (up to the first NUL) different loggers. *)
Theorem C100_same_name_same_logger : forall before after n1 n2, ~ In LFactory after ->
  let g1 := lrun before mgr0 in let h1 := fst (get_logger n1 g1) in let g2 := lrun after (snd (get_logger n1 g1)) in
  fst (get_logger n2 g2) = h1 <-> c_str n2 = c_str n1.
Proof.
  intros before after n1 n2 NF g1 h1 g2. assert (O1 : ok g1) by (apply ok_run, ok0). assert (O1' : ok (snd (get_logger n1 g1))) by (apply ok_get; exact O1). assert (O2 : ok g2) by (apply ok_run; exact O1').
  assert (B : bound (c_str n1) h1 g2) by (apply bound_run; [exact O1'|exact NF|]; apply bound_get; exact O1).
  split.
  - intro E. assert (B2 : bound (c_str n2) h1 (snd (get_logger n2 g2))) by (rewrite <- E; apply bound_get; exact O2).
    assert (B1 : bound (c_str n1) h1 (snd (get_logger n2 g2))) by (apply (bound_step (LGet n2) _ _ _ O2); [discriminate|exact B]).
    assert (O3 : ok (snd (get_logger n2 g2))) by (apply ok_get; exact O2). destruct O3 as [C3 M3]. destruct (M3 _ _ (nth_map _ (conj C3 M3))) as [_ M]. destruct (M _ _ B1) as (l1 & H1 & N1 & _). destruct (M _ _ B2) as (l2 & H2 & N2 & _). congruence.
  - intro E. unfold get_logger, get_logger_c. rewrite E. unfold bound in B. now rewrite B.
Qed.
Print Assumptions C100_same_name_same_logger.
Example C100_ex : fst (get_logger (L "a") (lrun [LGet (L "b"); LLevel 0 WARN] mgr0)) = 1.
Proof. reflexivity. Qed.
(** A logger keeps its name; a new logger lets everything through; setting a
    level shows in that logger only. *)
Lemma heap_step : forall o g h l, nth_error (g_heap g) h = Some l -> exists l', nth_error (g_heap (lrun1 g o)) h = Some l' /\ lg_name l' = lg_name l /\ lg_factory l' = lg_factory l /\ (lg_level l' = lg_level l \/ exists lev, o = LLevel h lev /\ lg_level l' = lev).
Proof.
  intros [n|k lev|] g h l E; cbn [lrun1].
  - exists l. split; [|auto]. unfold get_logger, get_logger_c. destruct (sfind _ _); [exact E|]. cbn [snd g_heap]. rewrite nth_error_app1; [exact E|]. apply nth_error_Some. congruence.
  - unfold set_level. destruct (nth_error (g_heap g) k) as [l0|] eqn:K; [|exists l; auto]. cbn [g_heap]. destruct (Nat.eq_dec k h) as [->|NE].
    + exists (mkLg (lg_name l0) lev (lg_factory l0)). assert (l0 = l) by congruence. subst l0. split; [apply nth_lupd_eq, nth_error_Some; congruence|]. split; [reflexivity|]. split; [reflexivity|]. right. eauto.
    + exists l. split; [rewrite nth_lupd_ne by congruence; exact E|auto].
  - exists l. auto.
Qed.
Theorem C100_level_is_own : forall ops g h lev, get_level h g = Some lev -> (forall lev', ~ In (LLevel h lev') ops) -> get_level h (lrun ops g) = Some lev.
Proof.
  induction ops as [|o ops IH]; intros g h lev E NI; [exact E|]. cbn [lrun fold_left]. apply IH; [|intros lev' K; apply (NI lev'); now right]. unfold get_level in *. destruct (nth_error (g_heap g) h) as [l|] eqn:H; [|discriminate]. cbn in E. injection E as <-.
  destruct (heap_step o g h l H) as (l' & H' & _ & _ & [LV|(lv & -> & _)]); [rewrite H'; cbn; now rewrite LV|exfalso; apply (NI lv); now left].
Qed.
Print Assumptions C100_level_is_own.
Theorem C100_set_then_get : forall h lev g, get_level h g <> None -> get_level h (set_level h lev g) = Some lev.
Proof.
  intros h lev g. unfold get_level, set_level. destruct (nth_error (g_heap g) h) as [l|] eqn:E; [|intro K; now elim K]. intros _. cbn [g_heap]. rewrite nth_lupd_eq; [reflexivity|]. apply nth_error_Some. congruence.
Qed.
Print Assumptions C100_set_then_get.
Theorem C100_name : forall before after n, let g1 := lrun before mgr0 in get_name (fst (get_logger n g1)) (lrun after (snd (get_logger n g1))) = Some (c_str n).
Proof.
  intros before after n g1. assert (O1 : ok g1) by (apply ok_run, ok0). pose proof (bound_get (c_str n) g1 O1) as B. assert (O2 : ok (snd (get_logger n g1))) by (apply ok_get; exact O1).
  destruct (proj2 O2 _ _ (nth_map _ O2)) as [_ M]. destruct (M _ _ B) as (l & H & N & _). fold (get_logger n g1) in H. set (h := fst (get_logger n g1)) in *. clearbody h. set (g2 := snd (get_logger n g1)) in *. clearbody g2. clear - H N. revert g2 l H N.
  induction after as [|o ops IH]; intros g l H N; [unfold get_name; cbn [lrun fold_left]; rewrite H; cbn; now rewrite N|]. cbn [lrun fold_left]. destruct (heap_step o g h l H) as (l' & H' & N' & _). apply (IH _ l' H'). congruence.
Qed.
Print Assumptions C100_name.
(** A logger kept across set_logger_factory points to a factory that is gone. *)
Theorem C100_stale_factory_refuted : exists n, let '(h, g) := get_logger n mgr0 in factory_name h g = Ok (L "default_logger factory") /\ factory_name h (set_factory g) = UB /\ get_name h (set_factory g) = Some n.
Proof. exists (L "main"). vm_compute. split; [reflexivity|]. split; reflexivity. Qed.
Print Assumptions C100_stale_factory_refuted.
(** The back end: the plug-in named by the environment, or the default plug-in;
    if it cannot be loaded, the built-in logger and one note. *)
Theorem C100_backend : forall env open, let lib := match env with Some l => l | None => L "vital_logger_plugin.so" end in
  (forall f, open lib = Some (Some (Some f)) -> choose env open = (Some (Plugin lib f), [])) /\
  (open lib = None \/ open lib = Some None -> fst (choose env open) = Some Builtin /\ length (snd (choose env open)) = 1).
Proof. intros env open lib. unfold choose, load_factory. fold lib. split; [intros f ->; reflexivity|intros [-> | ->]; split; reflexivity]. Qed.
Print Assumptions C100_backend.
(** A plug-in whose entry point gives NULL leaves no back end at all. *)
Theorem C100_null_plugin_refuted : exists env open, fst (choose env open) = None.
Proof. exists None, (fun _ => Some (Some None)). reflexivity. Qed.
Print Assumptions C100_null_plugin_refuted.

(** C101: locations *)
Lemma fsplit_at c a b : ~ In c a -> fsplit c (a ++ c :: b) = Some (a, b).
Proof. apply fsplit_app. Qed.
Lemma rsplit_non c a : ~ In c a -> rsplit c a = None.
Proof. apply rsplit_none. Qed.
Lemma rsplit_at c b a : ~ In c b -> rsplit c (a ++ c :: b) = Some (a, b).
Proof. apply rsplit_app. Qed.
Lemma colons_none : forall b, ~ In ":"%char b -> rsplit_colons b = None.
Proof. induction b as [|x b IH]; intro N; [reflexivity|]. cbn [rsplit_colons]. rewrite IH by (intro K; apply N; now right). destruct b; [reflexivity|]. destruct (Ascii.eqb_spec x ":") as [->|]; [elim N; now left|reflexivity]. Qed.
Lemma colons_at : forall b a, ~ In ":"%char b -> rsplit_colons (a ++ L "::" ++ b) = Some (a, b).
Proof.
  intros b a N. change (L "::") with [":"%char; ":"%char]. cbn [app]. induction a as [|x a IH]; cbn [app].
  - cbn [rsplit_colons]. rewrite colons_none by exact N. destruct b as [|y b]; [reflexivity|]. destruct (Ascii.eqb_spec y ":") as [->|]; [elim N; now left|]. rewrite andb_false_r. reflexivity.
  - cbn [rsplit_colons]. now rewrite IH.
Qed.
(** "ret scope::name(params...": the method is the name, the class the scope. *)
Theorem C101_member : forall ret scope name rest, ~ In "("%char (ret ++ scope ++ name) -> ~ In ":"%char name -> ~ In " "%char (scope ++ name) ->
  method_name (ret ++ L " " ++ scope ++ L "::" ++ name ++ L "(" ++ rest) = name /\ class_name (ret ++ L " " ++ scope ++ L "::" ++ name ++ L "(" ++ rest) = scope.
Proof.
  intros ret scope name rest NP NC NS.
  assert (P : no_params (ret ++ L " " ++ scope ++ L "::" ++ name ++ L "(" ++ rest) = ret ++ L " " ++ scope ++ L "::" ++ name).
  { unfold no_params. replace (ret ++ L " " ++ scope ++ L "::" ++ name ++ L "(" ++ rest) with ((ret ++ L " " ++ scope ++ L "::" ++ name) ++ "("%char :: rest) by (rewrite <- !app_assoc; reflexivity).
    rewrite fsplit_at; [reflexivity|]. intro K. apply NP. repeat (apply in_app_or in K; destruct K as [K|K]; [try (vm_compute in K; intuition discriminate); rewrite !in_app_iff; auto|]). rewrite !in_app_iff; auto. }
  split.
  - unfold method_name. rewrite P. replace (ret ++ L " " ++ scope ++ L "::" ++ name) with ((ret ++ L " " ++ scope) ++ L "::" ++ name) by (rewrite <- !app_assoc; reflexivity). rewrite colons_at by exact NC. cbv zeta. rewrite rsplit_non; [reflexivity|]. intro K. apply NS. apply in_or_app. now right.
  - unfold class_name. rewrite P. change (ret ++ L " " ++ scope ++ L "::" ++ name) with (ret ++ " "%char :: (scope ++ L "::" ++ name)). cbv zeta. rewrite rsplit_at; [now rewrite colons_at|].
    intro K. apply in_app_or in K. destruct K as [K|K]; [apply NS; apply in_or_app; now left|]. apply in_app_or in K. destruct K as [K|K]; [vm_compute in K; intuition discriminate|apply NS; apply in_or_app; now right].
Qed.
Print Assumptions C101_member.
(** A function outside any class. *)
Theorem C101_function : forall ret name rest, ~ In "("%char (ret ++ name) -> ~ In ":"%char (ret ++ name) -> ~ In " "%char name ->
  method_name (ret ++ L " " ++ name ++ L "(" ++ rest) = name /\ class_name (ret ++ L " " ++ name ++ L "(" ++ rest) = [].
Proof.
  intros ret name rest NP NC NS.
  assert (P : no_params (ret ++ L " " ++ name ++ L "(" ++ rest) = ret ++ L " " ++ name).
  { unfold no_params. replace (ret ++ L " " ++ name ++ L "(" ++ rest) with ((ret ++ L " " ++ name) ++ "("%char :: rest) by (rewrite <- !app_assoc; reflexivity).
    rewrite fsplit_at; [reflexivity|]. intro K. apply NP. repeat (apply in_app_or in K; destruct K as [K|K]; [try (vm_compute in K; intuition discriminate); rewrite !in_app_iff; auto|]). rewrite !in_app_iff; auto. }
  assert (NN : ~ In ":"%char name) by (intro K; apply NC; apply in_or_app; now right).
  split.
  - unfold method_name. rewrite P. rewrite colons_none; [cbv zeta; change (ret ++ L " " ++ name) with (ret ++ " "%char :: name); now rewrite rsplit_at|].
    intro K. apply in_app_or in K. destruct K as [K|K]; [apply NC; apply in_or_app; now left|]. apply in_app_or in K. destruct K as [K|K]; [vm_compute in K; intuition discriminate|contradiction].
  - unfold class_name. rewrite P. cbv zeta. change (ret ++ L " " ++ name) with (ret ++ " "%char :: name). rewrite rsplit_at by exact NS. now rewrite colons_none.
Qed.
Print Assumptions C101_function.
(** The file name shown has no directory. *)
Theorem C101_file_name : forall f dir base line, f = dir ++ L "/" ++ base \/ f = base -> ~ In "/"%char base -> location_text f line = base ++ L "(" ++ dec line ++ L "): ".
Proof.
  intros f dir base line F N. unfold location_text. f_equal. unfold get_filename_name. destruct F as [-> | ->].
  - change (dir ++ L "/" ++ base) with (dir ++ slash :: base). now rewrite rsplit_at.
  - now rewrite rsplit_non.
Qed.
Print Assumptions C101_file_name.
Example C101_ex : method_name (L "void kwiver::vital::track::append(int) const") = L "append" /\ class_name (L "void kwiver::vital::track::append(int) const") = L "kwiver::vital::track".
Proof. split; reflexivity. Qed.
(** Not so for names the compiler writes with parentheses before the name. *)
Theorem C101_operator_refuted : method_name (L "bool cmp::operator()(int, int)") = L "operator" /\ method_name (L "void (anonymous namespace)::f(int)") = [].
Proof. split; reflexivity. Qed.
Print Assumptions C101_operator_refuted.
(** A logger asked for the first time lets every message through. *)
Lemma unbound_run : forall ops n g, ok g -> (forall m, In (LGet m) ops -> c_str m <> n) -> sfind n (nth (g_cur g) (g_maps g) []) = None -> sfind n (nth (g_cur (lrun ops g)) (g_maps (lrun ops g)) []) = None.
Proof.
  induction ops as [|o ops IH]; intros n g O NI B; [exact B|]. cbn [lrun fold_left]. apply IH; [exact (ok_run [o] g O)|intros m K; apply NI; now right|]. destruct o as [k|k lev|]; cbn [lrun1].
  - unfold get_logger, get_logger_c. set (q := c_str k). assert (NQ : q <> n) by (apply NI; now left). destruct (sfind q (nth (g_cur g) (g_maps g) [])) eqn:F; [exact B|]. cbn [snd g_cur g_maps].
    assert (E : nth_error (lupd (g_maps g) (g_cur g) (sset q (length (g_heap g)) (nth (g_cur g) (g_maps g) []))) (g_cur g) = Some (sset q (length (g_heap g)) (nth (g_cur g) (g_maps g) []))) by (apply nth_lupd_eq; apply O).
    rewrite (nth_error_nth _ _ _ E). rewrite sfind_set_ne by congruence. exact B.
  - unfold set_level. destruct (nth_error (g_heap g) k); exact B.
  - cbn [set_factory g_cur g_maps]. rewrite app_nth2, Nat.sub_diag by lia. reflexivity.
Qed.
Theorem C100_new_logger_is_open : forall before n, (forall m, In (LGet m) before -> c_str m <> c_str n) ->
  let g := lrun before mgr0 in get_level (fst (get_logger n g)) (snd (get_logger n g)) = Some TRACE /\ forall lev, lev <> NONE -> enabled TRACE lev = true.
Proof.
  intros before n NI g. split; [|intros [] K; reflexivity || now elim K]. assert (U := unbound_run before (c_str n) mgr0 ok0 NI eq_refl). fold g in U. unfold get_logger, get_logger_c. rewrite U. cbn [fst snd]. unfold get_level. cbn [g_heap]. rewrite nth_error_app2, Nat.sub_diag by lia. reflexivity.
Qed.
Print Assumptions C100_new_logger_is_open.
Example C100_new_ex : forall m, In (LGet m) [LGet (L "b"); LLevel 0 WARN] -> c_str m <> c_str (L "a").
Proof. intros m [E|[E|[]]]; [|discriminate]. injection E as <-. discriminate. Qed.
