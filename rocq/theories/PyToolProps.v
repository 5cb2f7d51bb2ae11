(** PyToolProps.v -- C110: the feature tracking tool. *)
From Coq Require Import Ascii ZArith List Bool Arith Lia.
Import ListNotations.
From Verif Require RegexProps.
From Verif Require Import Base ConfigModel ConfigProofs RegexModel PyConfModel PyPathModel PyPathProps PyToolModel.

(** ---- os.path ---- *)
Definition noslash (s : str) : Prop := ~ In slash s.
Definition plain_comp (c : str) : Prop := c <> [] /\ c <> dot /\ c <> dotdot /\ noslash c.
Lemma split_app c p s : ~ In c p -> py_split c (p ++ c :: s) = p :: py_split c s.
Proof.
  induction p as [|x p IH]; intro N; cbn [app py_split]; [rewrite Ascii.eqb_refl; reflexivity|].
  destruct (Ascii.eqb_spec x c) as [->|_]; [destruct N; now left|]. rewrite IH by (intro I; apply N; now right). reflexivity.
Qed.
Lemma split_one c p : ~ In c p -> py_split c p = [p].
Proof.
  induction p as [|x p IH]; intro N; cbn [py_split]; [reflexivity|]. destruct (Ascii.eqb_spec x c) as [->|_]; [destruct N; now left|]. rewrite IH by (intro I; apply N; now right). reflexivity.
Qed.
Lemma split_of_join c l : l <> [] -> (forall p, In p l -> ~ In c p) -> py_split c (py_join c l) = l.
Proof.
  induction l as [|p l IH]; intros N H; [congruence|]. destruct l as [|q l]; [apply split_one; apply H; now left|].
  change (py_join c (p :: q :: l)) with (p ++ c :: py_join c (q :: l)). rewrite split_app by (apply H; now left). f_equal. apply IH; [discriminate|]. intros x I. apply H. now right.
Qed.
Lemma norm_fold_plain l : forall acc, (forall c, In c l -> c = [] \/ c = dot \/ noslash c) -> (forall c, In c acc -> plain_comp c) -> forall c, In c (fold_left (norm_step true) l acc) -> plain_comp c.
Proof.
  induction l as [|x l IH]; intros acc H A c; cbn [fold_left]; [apply A|]. apply IH; [intros y I; apply H; now right|].
  intros y. unfold norm_step. destruct (str_eqb_spec x []) as [->|N1]; cbn [orb]; [apply A|]. destruct (str_eqb_spec x dot) as [->|N2]; cbn [orb]; [apply A|].
  destruct (str_eqb_spec x dotdot) as [->|N3]; cbn [negb orb andb].
  - destruct acc as [|a acc]; [intros []|]. destruct (str_eqb_spec a dotdot) as [->|_]; [|intro I; apply A; now right]. destruct (A dotdot (or_introl eq_refl)) as (_ & _ & Q & _). congruence.
  - intros [<-|I]; [|apply A; exact I]. split; [exact N1|]. split; [exact N2|]. split; [exact N3|]. destruct (H x (or_introl eq_refl)) as [Q|[Q|Q]]; congruence.
Qed.
Lemma norm_fold_id l acc : (forall c, In c l -> plain_comp c) -> fold_left (norm_step true) l acc = rev l ++ acc.
Proof.
  revert acc. induction l as [|x l IH]; intros acc H; cbn [fold_left rev app]; [reflexivity|]. rewrite IH by (intros c I; apply H; now right). rewrite <- app_assoc. cbn [app]. f_equal.
  destruct (H x (or_introl eq_refl)) as (N1 & N2 & N3 & _). unfold norm_step. destruct (str_eqb_spec x []); [congruence|]. destruct (str_eqb_spec x dot); [congruence|]. destruct (str_eqb_spec x dotdot); [congruence|]. reflexivity.
Qed.
Lemma fold_skip n l acc : fold_left (norm_step true) (repeat [] n ++ l) acc = fold_left (norm_step true) l acc.
Proof. induction n as [|n IH]; cbn; [reflexivity|exact IH]. Qed.
Lemma split_slashes n s : py_split slash (repeat slash n ++ s) = repeat [] n ++ py_split slash s.
Proof. induction n as [|n IH]; cbn [repeat app]; [reflexivity|]. cbn [py_split]. rewrite Ascii.eqb_refl. rewrite IH. reflexivity. Qed.
Lemma join_head l : (forall c, In c l -> plain_comp c) -> l <> [] -> exists x s, py_join slash l = x :: s /\ is_slash x = false.
Proof.
  destruct l as [|p l]; [congruence|]. intros H _. destruct (H p (or_introl eq_refl)) as (N & _ & _ & NS). destruct p as [|x p]; [congruence|]. exists x.
  assert (E : is_slash x = false) by (unfold is_slash; apply Ascii.eqb_neq; intros ->; apply NS; now left). destruct l; cbn; eauto.
Qed.
Lemma initial_of n l : 1 <= n <= 2 -> (forall c, In c l -> plain_comp c) -> initial_slashes (repeat slash n ++ py_join slash l) = n.
Proof.
  intros Hn H. destruct l as [|p l].
  - cbn [py_join]. rewrite app_nil_r. destruct n as [|[|[|n]]]; try lia; reflexivity.
  - destruct (join_head (p :: l) H ltac:(discriminate)) as (x & s & E & Hx). rewrite E. destruct n as [|[|[|n]]]; try lia; cbn; rewrite Hx; reflexivity.
Qed.
Lemma initial_le p : initial_slashes p <= 2.
Proof. unfold initial_slashes. destruct p as [|a [|b [|c p]]]; try destruct (is_slash a); try destruct (is_slash b); try destruct (is_slash c); lia. Qed.
Lemma norm_shape p : is_abs p = true -> exists n l, 1 <= n <= 2 /\ (forall c, In c l -> plain_comp c) /\ py_normpath p = repeat slash n ++ py_join slash l.
Proof.
  intro Ha. destruct p as [|x p]; [discriminate|]. exists (initial_slashes (x :: p)), (rev (fold_left (norm_step true) (py_split slash (x :: p)) [])).
  assert (Hn : 1 <= initial_slashes (x :: p)) by (cbn in Ha; cbn; rewrite Ha; destruct p as [|b p]; [lia|]; destruct (is_slash b); [destruct p as [|c p]; [lia|]; destruct (is_slash c); lia|lia]).
  pose proof (initial_le (x :: p)). split; [lia|]. split.
  - intros c I. apply in_rev in I. eapply norm_fold_plain; [| |exact I]; [|intros ? []]. intros q J. right. right. apply (split_join slash (x :: p)). exact J.
  - unfold py_normpath. replace (0 <? initial_slashes (x :: p)) with true by (symmetry; apply Nat.ltb_lt; lia).
    destruct (repeat slash (initial_slashes (x :: p)) ++ py_join slash (rev (fold_left (norm_step true) (py_split slash (x :: p)) []))) eqn:E; [|reflexivity].
    destruct (initial_slashes (x :: p)); [lia|discriminate].
Qed.
Lemma norm_fixed n l : 1 <= n <= 2 -> (forall c, In c l -> plain_comp c) -> py_normpath (repeat slash n ++ py_join slash l) = repeat slash n ++ py_join slash l.
Proof.
  intros Hn H. unfold py_normpath. rewrite (initial_of n l Hn H). replace (0 <? n) with true by (symmetry; apply Nat.ltb_lt; lia). rewrite split_slashes, fold_skip.
  assert (E : rev (fold_left (norm_step true) (py_split slash (py_join slash l)) []) = l).
  { destruct l as [|p l]; [reflexivity|]. rewrite split_of_join by (try discriminate; intros q I; apply (H q I)). rewrite norm_fold_id by exact H. rewrite app_nil_r. apply rev_involutive. }
  rewrite E. destruct n as [|n]; [lia|]. reflexivity.
Qed.
(** Paths kept by the tool are absolute, without empty, "." and ".." parts, and
    are their own full path. *)
Definition clean_path (p : str) : Prop := exists n l, 1 <= n <= 2 /\ (forall c, In c l -> plain_comp c) /\ p = repeat slash n ++ py_join slash l.
Theorem C110_full_path home cwd p : is_abs cwd = true -> clean_path (full home cwd p).
Proof.
  intro Hc. unfold full, py_abspath. set (e := py_expanduser home p).
  assert (Ha : is_abs (if is_abs e then e else path_join cwd e) = true).
  { destruct (is_abs e) eqn:E; [exact E|]. unfold path_join. rewrite E. destruct cwd as [|x c]; [discriminate|]. destruct (rev (x :: c)) as [|y q] eqn:Er; [apply (f_equal (@length ascii)) in Er; rewrite rev_length in Er; discriminate|].
    destruct (is_slash y); exact Hc. }
  destruct (norm_shape _ Ha) as (n & l & H1 & H2 & H3). exists n, l. auto.
Qed.
Print Assumptions C110_full_path.
Lemma clean_abs p : clean_path p -> is_abs p = true /\ p <> [].
Proof. intros (n & l & H & _ & ->). destruct n as [|n]; [lia|]. cbn. split; [reflexivity|discriminate]. Qed.
Theorem C110_full_twice home cwd p : clean_path p -> full home cwd p = p.
Proof.
  intro H. destruct (clean_abs p H) as [Ha Hn]. destruct H as (n & l & H1 & H2 & E). unfold full.
  assert (Ee : py_expanduser home p = p). { destruct p as [|x p]; [congruence|]. cbn in Ha. unfold is_slash in Ha. apply Ascii.eqb_eq in Ha. subst x. reflexivity. }
  rewrite Ee. unfold py_abspath. rewrite Ha. rewrite E. apply norm_fixed; assumption.
Qed.
Print Assumptions C110_full_twice.

(** ---- the configuration ---- *)
Definition storable (p : option str) : Prop := match p with Some ((_ :: _) as s) => clean_path s /\ trim s = s /\ ~ In NUL s | _ => True end.
Lemma full_opt_storable home cwd p : storable p -> full_opt home cwd (Some (or_empty p)) = Some (or_empty p).
Proof. unfold full_opt, given, or_empty. destruct p as [[|x s]|]; auto. cbn [storable]. intros [H _]. rewrite (C110_full_twice home cwd _ H). reflexivity. Qed.
Lemma cstr_id s : ~ In NUL s -> c_str s = s.
Proof. apply RegexProps.c_str_id. Qed.
Lemma storable_text p : storable p -> c_str (or_empty p) = or_empty p /\ trim (or_empty p) = or_empty p.
Proof. destruct p as [[|x s]|]; cbn [or_empty storable]; try (split; reflexivity). intros (_ & H1 & H2). split; [apply cstr_id; exact H2|exact H1]. Qed.
Definition one (b : block) : pst := mkP [b] [Some 0].
Lemma set_one b k v d : b_parent b = None -> b_ro b = [] ->
  exists b', pc_step (one b) (PcSet 0 k v d) = Some (one b') /\ b_parent b' = None /\ b_ro b' = [] /\ b_store b' = sset (c_str k) (trim (c_str v)) (b_store b).
Proof.
  intros P R. unfold pc_step, handle, one. cbn [p_obj nth p_heap]. unfold c_do, i_set_value, fuel. cbn [length i_set_value_f nth_error]. rewrite P. unfold is_read_only_b. rewrite R. cbn [shas m_has m_find fst snd].
  eexists. split; [reflexivity|]. auto.
Qed.
Lemma get_one b k v def : b_parent b = None -> sfind (c_str k) (b_store b) = Some v -> pc_get (one b) 0 k def = PRet (Some (c_str v)).
Proof.
  intros P F. unfold pc_get, handle, one. cbn [p_obj nth p_heap]. unfold get_string, get_value, has_value, i_get_value, fuel. cbn [length has_value_f i_get_value_f nth_error]. rewrite P. unfold shas, m_has. unfold sfind in F |- *.
  rewrite F. reflexivity.
Qed.
Lemma get_bool_one b k v def t : b_parent b = None -> sfind (c_str k) (b_store b) = Some v -> bool_cast v = Some t -> pc_get_bool (one b) 0 k (Some def) = PRet t.
Proof.
  intros P F C. unfold pc_get_bool, handle, one. cbn [p_obj nth p_heap]. unfold get_value_def, get_value, has_value, i_get_value, fuel. cbn [length has_value_f i_get_value_f nth_error]. rewrite P. unfold shas, m_has. unfold sfind in F |- *.
  rewrite F. cbn [rbind]. rewrite C. reflexivity.
Qed.
Lemma key_cstr k : In k [K_images; K_masks; K_invert; K_multi; K_out] -> c_str k = k.
Proof. intros [<-|[<-|[<-|[<-|[<-|[]]]]]]; reflexivity. Qed.
(** A configuration written by the tool and read by it again gives the same
    settings, whatever they were before. *)
Theorem C110_config_round_trip home cwd t t' : storable (t_images t) -> storable (t_masks t) -> storable (t_out t) -> exists s, pc_run (get_configuration t) = Some s /\
  set_configuration home cwd s 0 t' = PRet (mkTool (Some (or_empty (t_images t))) (Some (or_empty (t_masks t))) (t_invert t) (t_multi t) (Some (or_empty (t_out t)))).
Proof.
  intros H1 H2 H3. destruct t as [im mk inv mu out]. cbn [t_images t_masks t_invert t_multi t_out] in *.
  destruct (storable_text _ H1) as [A1 B1], (storable_text _ H2) as [A2 B2], (storable_text _ H3) as [A3 B3].
  pose proof (full_opt_storable home cwd _ H1) as F1. pose proof (full_opt_storable home cwd _ H2) as F2. pose proof (full_opt_storable home cwd _ H3) as F3.
  unfold get_configuration, pc_run. cbn [t_images t_masks t_invert t_multi t_out fold_left]. change (pc_step pst0 (PcNew (L "track_features"))) with (Some (one (new_block (L "track_features") None))). cbv beta iota.
  destruct (set_one (new_block (L "track_features") None) K_images (or_empty im) None eq_refl eq_refl) as (b1 & E1 & P1 & R1 & S1). rewrite E1.
  destruct (set_one b1 K_masks (or_empty mk) None P1 R1) as (b2 & E2 & P2 & R2 & S2). rewrite E2.
  destruct (set_one b2 K_invert (bool_text inv) None P2 R2) as (b3 & E3 & P3 & R3 & S3). rewrite E3.
  destruct (set_one b3 K_multi (bool_text mu) None P3 R3) as (b4 & E4 & P4 & R4 & S4). rewrite E4.
  destruct (set_one b4 K_out (or_empty out) None P4 R4) as (b5 & E5 & P5 & R5 & S5). rewrite E5.
  exists (one b5). split; [reflexivity|]. rewrite S4, S3, S2, S1 in S5. clear S1 S2 S3 S4.
  rewrite (key_cstr K_images), (key_cstr K_masks), (key_cstr K_invert), (key_cstr K_multi), (key_cstr K_out) in S5 by (cbn; auto 6). rewrite A1, A2, A3, B1, B2, B3 in S5.
  assert (G : forall k, In k [K_images; K_masks; K_invert; K_multi; K_out] -> sfind (c_str k) (b_store b5) = sfind k (b_store b5)) by (intros k I; rewrite key_cstr by exact I; reflexivity).
  unfold set_configuration.
  rewrite (get_one b5 K_images (or_empty im)); [|exact P5|rewrite G by (cbn; auto 6); rewrite S5; rewrite !sfind_set_ne by discriminate; apply sfind_set_eq].
  rewrite (get_one b5 K_masks (or_empty mk)); [|exact P5|rewrite G by (cbn; auto 6); rewrite S5; rewrite !sfind_set_ne by discriminate; apply sfind_set_eq].
  rewrite (get_bool_one b5 K_invert (trim (c_str (bool_text inv))) _ inv); [|exact P5|rewrite G by (cbn; auto 6); rewrite S5; rewrite !sfind_set_ne by discriminate; apply sfind_set_eq|destruct inv; reflexivity].
  rewrite (get_bool_one b5 K_multi (trim (c_str (bool_text mu))) _ mu); [|exact P5|rewrite G by (cbn; auto 6); rewrite S5; rewrite !sfind_set_ne by discriminate; apply sfind_set_eq|destruct mu; reflexivity].
  rewrite (get_one b5 K_out (or_empty out)); [|exact P5|rewrite G by (cbn; auto 6); rewrite S5; apply sfind_set_eq].
  rewrite A1, A2, A3, F1, F2, F3. reflexivity.
Qed.
Print Assumptions C110_config_round_trip.
(** Not for a path that ends with a space, which the tool may come to hold. *)
Theorem C110_trailing_space_refuted : exists home cwd ops s s2 t t2, pc_run ops = Some s /\ set_configuration home cwd s 0 tool0 = PRet t /\ pc_run (get_configuration t) = Some s2 /\ set_configuration home cwd s2 0 tool0 = PRet t2 /\ t_out t <> t_out t2.
Proof.
  exists (fun _ => None), (L "/w"), [PcNew []; PcSet 0 K_out (L "a /.") None]. do 4 eexists. split; [vm_compute; reflexivity|]. split; [vm_compute; reflexivity|]. split; [vm_compute; reflexivity|]. split; [vm_compute; reflexivity|]. discriminate.
Qed.
Print Assumptions C110_trailing_space_refuted.

(** ---- the lists ---- *)
Definition newline : ascii := ascii_of_nat 10.
Definition is_name (s : str) : Prop := ~ In newline s.
Lemma lines_go cur s : ~ In newline s -> lines_of cur (s ++ [newline]) = [rev cur ++ s ++ [newline]].
Proof.
  revert cur. induction s as [|x s IH]; intros cur N; cbn [app lines_of].
  - change (Ascii.eqb newline (ascii_of_nat 10)) with true. cbv iota. reflexivity.
  - destruct (Ascii.eqb_spec x (ascii_of_nat 10)) as [->|_]; [destruct N; now left|]. rewrite IH by (intro I; apply N; now right). cbn [rev]. rewrite <- app_assoc. reflexivity.
Qed.
Lemma lines_cat cur s r : ~ In newline s -> lines_of cur (s ++ newline :: r) = (rev cur ++ s ++ [newline]) :: lines_of [] r.
Proof.
  revert cur. induction s as [|x s IH]; intros cur N; cbn [app lines_of].
  - change (Ascii.eqb newline (ascii_of_nat 10)) with true. cbv iota. reflexivity.
  - destruct (Ascii.eqb_spec x (ascii_of_nat 10)) as [->|_]; [destruct N; now left|]. rewrite IH by (intro I; apply N; now right). cbn [rev]. rewrite <- app_assoc. reflexivity.
Qed.
Lemma lines_last cur s : ~ In newline s -> lines_of cur s = match rev cur ++ s with [] => [] | t => [t] end.
Proof.
  revert cur. induction s as [|x s IH]; intros cur N; cbn [app lines_of].
  - rewrite app_nil_r. destruct cur as [|c cur]; [reflexivity|]. destruct (rev (c :: cur)) eqn:E; [apply (f_equal (@length ascii)) in E; rewrite rev_length in E; discriminate|reflexivity].
  - destruct (Ascii.eqb_spec x (ascii_of_nat 10)) as [->|_]; [destruct N; now left|]. rewrite IH by (intro I; apply N; now right). cbn [rev]. rewrite <- app_assoc. reflexivity.
Qed.
Lemma lstrip_app f a b : forallb f a = true -> lstrip f (a ++ b) = lstrip f b.
Proof. induction a as [|x a IH]; cbn; [reflexivity|]. destruct (f x); [exact IH|discriminate]. Qed.
Lemma rstrip_app f a b : forallb f b = true -> rstrip f (a ++ b) = rstrip f a.
Proof. intro H. unfold rstrip. rewrite rev_app_distr, lstrip_app; [reflexivity|]. rewrite forallb_forall in *. intros x I. apply H. apply in_rev. exact I. Qed.
(** What is left of a line: the text between the white space. *)
Definition stripped (s t : str) : Prop := exists a b, s = a ++ t ++ b /\ forallb is_space a = true /\ forallb is_space b = true /\ (forall x r, t = x :: r -> is_space x = false) /\ (forall x r, t = r ++ [x] -> is_space x = false).
Lemma lstrip_split f s : exists a, s = a ++ lstrip f s /\ forallb f a = true /\ forall x r, lstrip f s = x :: r -> f x = false.
Proof.
  induction s as [|x s (a & E & H1 & H2)]; cbn; [exists []; repeat split; discriminate|]. destruct (f x) eqn:F.
  - exists (x :: a). cbn. rewrite F. split; [f_equal; exact E|]. split; [exact H1|exact H2].
  - exists []. repeat split. intros y r Q. injection Q as <- _. exact F.
Qed.
Lemma strip_spec s : stripped s (strip is_space s).
Proof.
  unfold strip, rstrip. destruct (lstrip_split is_space s) as (a & E & H1 & H2). set (u := lstrip is_space s) in *. destruct (lstrip_split is_space (rev u)) as (b & F & G1 & G2). set (v := lstrip is_space (rev u)) in *.
  assert (Fu : u = rev v ++ rev b) by (rewrite <- rev_app_distr, <- F, rev_involutive; reflexivity).
  exists a, (rev b). split; [rewrite E, Fu at 1; reflexivity|]. split; [exact H1|]. split; [rewrite forallb_forall in *; intros x I; apply G1; apply in_rev; exact I|]. split.
  - intros x r Q. apply (H2 x (r ++ rev b)). rewrite Fu, Q. reflexivity.
  - intros x r Q. apply (G2 x (rev r)). rewrite <- (rev_involutive v), Q, rev_app_distr. reflexivity.
Qed.
(** Every line of the list file is an entry, blank ones too; a last line need
    not end with a newline. *)
Theorem C110_list ls last text : (forall l, In l ls -> ~ In newline l) -> ~ In newline last -> text = concat (map (fun l => l ++ [newline]) ls) ++ last ->
  exists names, read_list text = names /\ Forall2 (fun l n => stripped l n) (ls ++ match last with [] => [] | _ => [last] end) names.
Proof.
  intros H1 H2 ->. exists (map (strip is_space) (ls ++ match last with [] => [] | _ => [last] end)). split.
  - unfold read_list. induction ls as [|l ls IH]; cbn [map concat app].
    + rewrite lines_last by exact H2. destruct last; reflexivity.
    + rewrite <- !app_assoc. cbn [app]. rewrite lines_cat by (apply H1; now left). cbn [rev app map]. f_equal; [|apply IH; intros x I; apply H1; now right].
      unfold strip. destruct (lstrip_split is_space l) as (a & E & A1 & A2). destruct (lstrip is_space l) as [|y q] eqn:Q.
      * rewrite app_nil_r in E. subst l. rewrite lstrip_app by exact A1. reflexivity.
      * rewrite E at 1. rewrite <- app_assoc. rewrite lstrip_app by exact A1. cbn [app lstrip]. rewrite (A2 y q eq_refl). change (y :: q ++ [newline]) with ((y :: q) ++ [newline]). apply rstrip_app. reflexivity.
  - clear H1. induction (ls ++ match last with [] => [] | _ => [last] end) as [|x l IH]; constructor; [apply strip_spec|exact IH].
Qed.
Print Assumptions C110_list.
