(** PyToolProps3.v -- C110: which path the tool keeps, and under which names. *)
From Coq Require Import Ascii ZArith List Bool Arith Lia.
Import ListNotations.
From Verif Require Import Base ConfigModel ConfigProofs RegexModel PyConfModel PyPathModel PyPathProps PyToolModel PyToolProps.

(** ---- specification ---- *)
(** Going from the directory [at] (its names from the root) through the parts of a
    path: an empty part and "." stay, ".." goes up if there is an up. *)
Fixpoint walk (at_ : list str) (parts : list str) : list str :=
  match parts with
  | [] => at_
  | c :: r => if str_dec c (L "") then walk at_ r else if str_dec c (L ".") then walk at_ r
              else if str_dec c (L "..") then walk (removelast at_) r else walk (at_ ++ [c]) r
  end.
Definition parts_of (p : str) (parts : list str) : Prop := parts <> [] /\ (forall c, In c parts -> ~ In "/"%char c) /\ p = py_join "/"%char parts.

(** ---- proofs ---- *)
Lemma fold_walk cs : forall acc, (forall c, In c acc -> plain_comp c) -> (forall c, In c cs -> noslash c) -> fold_left (norm_step true) cs acc = rev (walk (rev acc) cs).
Proof.
  induction cs as [|c cs IH]; intros acc A C; cbn [fold_left walk]; [symmetry; apply rev_involutive|].
  assert (C' : forall x, In x cs -> noslash x) by (intros x I; apply C; now right).
  unfold norm_step at 2. change (L "") with ([] : str). change (L ".") with dot. change (L "..") with dotdot.
  destruct (str_dec c []) as [->|N1]; [cbn [str_eqb orb]; apply IH; assumption|]. destruct (str_eqb_spec c []) as [|_]; [congruence|].
  destruct (str_dec c dot) as [->|N2]; [rewrite str_eqb_refl; cbn [orb]; apply IH; assumption|]. destruct (str_eqb_spec c dot) as [|_]; [congruence|]. cbn [orb].
  destruct (str_dec c dotdot) as [->|N3].
  - rewrite str_eqb_refl. cbn [negb orb andb]. destruct acc as [|a acc].
    + rewrite IH by assumption. reflexivity.
    + destruct (str_eqb_spec a dotdot) as [->|_]; [destruct (A dotdot (or_introl eq_refl)) as (_ & _ & Q & _); congruence|].
      rewrite IH by (try assumption; intros x I; apply A; now right). f_equal. f_equal. cbn [rev]. rewrite removelast_last. reflexivity.
  - destruct (str_eqb_spec c dotdot) as [|_]; [congruence|]. cbn [negb orb]. rewrite IH; [reflexivity| |assumption].
    intros x [<-|I]; [|apply A; exact I]. repeat split; auto. apply C. now left.
Qed.
Lemma initial_n n s : 1 <= n <= 2 -> is_abs s = false -> initial_slashes (repeat slash n ++ s) = n.
Proof.
  intros Hn Hs. assert (X : match s with [] => True | x :: _ => is_slash x = false end) by (destruct s; [exact I|exact Hs]).
  destruct n as [|[|[|n]]]; try lia; destruct s as [|x s]; cbn; try reflexivity; rewrite X; reflexivity.
Qed.
Lemma norm_abs_walk n s : 1 <= n <= 2 -> is_abs s = false -> py_normpath (repeat slash n ++ s) = repeat slash n ++ py_join slash (walk [] (py_split slash s)).
Proof.
  intros Hn Hs. unfold py_normpath. destruct (repeat slash n ++ s) as [|x q] eqn:E; [destruct n; [lia|discriminate]|]. rewrite <- E. clear E x q.
  rewrite (initial_n n s Hn Hs). replace (0 <? n) with true by (symmetry; apply Nat.ltb_lt; lia). rewrite split_slashes, fold_skip.
  rewrite fold_walk; [|intros ? []|intros c I; apply (split_join slash s); exact I]. rewrite rev_involutive. cbn [rev]. destruct n as [|n]; [lia|]. reflexivity.
Qed.
Lemma walk_plain l : forall b cs, (forall c, In c l -> plain_comp c) -> walk b (l ++ cs) = walk (b ++ l) cs.
Proof.
  induction l as [|c l IH]; intros b cs H; cbn [app walk]; [rewrite app_nil_r; reflexivity|]. destruct (H c (or_introl eq_refl)) as (N1 & N2 & N3 & _).
  destruct (str_dec c (L "")) as [e|_]; [elim (N1 e)|]. destruct (str_dec c (L ".")) as [e|_]; [elim (N2 e)|]. destruct (str_dec c (L "..")) as [e|_]; [elim (N3 e)|]. rewrite IH by (intros x I; apply H; now right). rewrite <- app_assoc. reflexivity.
Qed.
Lemma join_last_noslash l : l <> [] -> (forall c, In c l -> plain_comp c) -> exists x q, rev (py_join slash l) = x :: q /\ is_slash x = false.
Proof.
  induction l as [|c l IH]; intros N H; [congruence|]. destruct l as [|d l].
  - cbn [py_join]. destruct (H c (or_introl eq_refl)) as (N1 & _ & _ & NS). destruct (rev c) as [|x q] eqn:E; [apply (f_equal (@rev ascii)) in E; rewrite rev_involutive in E; elim (N1 E)|].
    exists x, q. split; [reflexivity|]. apply Ascii.eqb_neq. intros ->. apply NS. apply in_rev. rewrite E. now left.
  - destruct (IH ltac:(discriminate)) as (x & q & E & X); [intros y I; apply H; now right|]. change (py_join slash (c :: d :: l)) with (c ++ slash :: py_join slash (d :: l)). rewrite rev_app_distr. cbn [rev]. rewrite E. cbn [app]. eauto.
Qed.
Lemma split_join_app l s : l <> [] -> (forall c, In c l -> plain_comp c) -> py_split slash (py_join slash l ++ slash :: s) = l ++ py_split slash s.
Proof.
  induction l as [|c l IH]; intros N H; [congruence|]. destruct (H c (or_introl eq_refl)) as (_ & _ & _ & NS). destruct l as [|d l].
  - cbn [py_join app]. apply split_app, NS.
  - change (py_join slash (c :: d :: l)) with (c ++ slash :: py_join slash (d :: l)). rewrite <- app_assoc. cbn [app]. rewrite split_app by exact NS. rewrite IH; [reflexivity|discriminate|]. intros x I. apply H. now right.
Qed.
Lemma join_not_abs l s : (forall c, In c l -> plain_comp c) -> l <> [] -> is_abs (py_join slash l ++ s) = false.
Proof. intros H N. destruct (join_head l H N) as (x & q & E & X). rewrite E. exact X. Qed.
Lemma abs_relative n base p : 1 <= n <= 2 -> (forall c, In c base -> plain_comp c) -> is_abs p = false ->
  py_abspath (repeat slash n ++ py_join slash base) p = repeat slash n ++ py_join slash (walk base (py_split slash p)).
Proof.
  intros Hn Hb Hp. unfold py_abspath. rewrite Hp. unfold path_join. rewrite Hp. rewrite rev_app_distr. destruct base as [|b base].
  - cbn [py_join rev app]. assert (R : exists q, rev (repeat slash n) = slash :: q) by (destruct n as [|[|[|n]]]; try lia; cbn; eauto). destruct R as [q R]. rewrite R. cbn [is_slash]. change (Ascii.eqb slash slash) with true. cbv iota. rewrite app_nil_r. apply norm_abs_walk; assumption.
  - destruct (join_last_noslash (b :: base) ltac:(discriminate) Hb) as (x & q & E & X). rewrite E. cbn [app]. rewrite X. rewrite <- app_assoc. rewrite norm_abs_walk; [|exact Hn|apply join_not_abs; [exact Hb|discriminate]].
    rewrite split_join_app by (try discriminate; exact Hb). rewrite walk_plain by exact Hb. reflexivity.
Qed.
Lemma parts_split p parts : parts_of p parts -> py_split slash p = parts.
Proof. intros (N & H & ->). apply split_of_join; assumption. Qed.
Lemma expand_not_tilde home p : (forall r, p <> "~"%char :: r) -> py_expanduser home p = p.
Proof. intros H. destruct p as [|x p]; [reflexivity|]. unfold py_expanduser. destruct (Ascii.eqb_spec x "~"%char) as [->|_]; [elim (H p); reflexivity|reflexivity]. Qed.
Lemma cut_is user rest : ~ In "/"%char user -> match rest with [] => True | c :: _ => c = "/"%char end ->
  (fix cut (s : str) : str * str := match s with [] => ([], []) | c :: q => if is_slash c then ([], s) else let (a, b) := cut q in (c :: a, b) end) (user ++ rest) = (user, rest).
Proof.
  intros N R. induction user as [|c user IH]; cbn [app].
  - destruct rest as [|c rest]; [reflexivity|]. subst c. reflexivity.
  - assert (is_slash c = false) as -> by (apply Ascii.eqb_neq; intros ->; apply N; now left). rewrite IH by (intro I; apply N; now right). reflexivity.
Qed.
Lemma lstrip_spec f s : exists k, s = k ++ lstrip f s /\ (forall c, In c k -> f c = true) /\ match lstrip f s with [] => True | c :: _ => f c = false end.
Proof.
  induction s as [|c s (k & E & A & B)]; [exists []; repeat split; intros ? []|]. cbn [lstrip]. destruct (f c) eqn:F.
  - exists (c :: k). split; [cbn [app]; congruence|]. split; [|exact B]. intros x [<-|I]; [exact F|apply A; exact I].
  - exists []. split; [reflexivity|]. split; [intros ? []|exact F].
Qed.
Lemma rstrip_slashes h k : (forall x q, rev h = x :: q -> x <> "/"%char) -> rstrip is_slash (h ++ repeat slash k) = h.
Proof.
  intro H. unfold rstrip. rewrite rev_app_distr. assert (rev (repeat slash k) = repeat slash k) as ->.
  { induction k as [|k IH]; [reflexivity|]. cbn [repeat rev]. rewrite IH. clear. induction k; cbn; congruence. }
  induction k as [|k IH]; cbn [repeat app]; [|cbn [lstrip]; change (is_slash slash) with true; cbv iota; exact IH].
  destruct (rev h) as [|x q] eqn:E; [apply (f_equal (@rev ascii)) in E; rewrite rev_involutive in E; rewrite E; reflexivity|].
  cbn [lstrip]. assert (is_slash x = false) as -> by (apply Ascii.eqb_neq; exact (H x q eq_refl)). rewrite <- E. apply rev_involutive.
Qed.

(** A relative name goes from the working directory, an absolute one from the root
    (which is called "//" if the name starts with exactly two slashes); "~user" stands
    for the home directory of that user without the slashes at its end, "~" for that of
    the current one; a "~user" nobody has is a name like any other. *)
Theorem C110_full_which home (n : nat) (base : list str) p parts : 1 <= n <= 2 -> (forall c, In c base -> plain_comp c) ->
  let cwd := repeat "/"%char n ++ py_join "/"%char base in
  (parts_of p parts -> nth 0 parts [] <> [] \/ length parts = 1 -> (forall r, p <> "~"%char :: r) -> full home cwd p = repeat "/"%char n ++ py_join "/"%char (walk base parts)) /\
  (parts_of p parts -> nth 0 parts [] <> [] \/ length parts = 1 -> forall m, 1 <= m -> full home cwd (repeat "/"%char m ++ p) = repeat "/"%char (if m =? 2 then 2 else 1) ++ py_join "/"%char (walk [] parts)) /\
  (forall user rest, ~ In "/"%char user -> match rest with [] => True | c :: _ => c = "/"%char end ->
     (forall h k, home user = Some (h ++ repeat "/"%char k) -> (forall x q, rev h = x :: q -> x <> "/"%char) -> (forall r, h ++ rest <> "~"%char :: r) -> h ++ rest <> [] -> full home cwd ("~"%char :: user ++ rest) = full home cwd (h ++ rest)) /\
     (forall k, home user = Some (repeat "/"%char k) -> rest = [] -> full home cwd ("~"%char :: user ++ rest) = L "/") /\
     (home user = None -> parts_of ("~"%char :: user ++ rest) parts -> full home cwd ("~"%char :: user ++ rest) = repeat "/"%char n ++ py_join "/"%char (walk base parts))).
Proof.
  intros Hn Hb cwd. change "/"%char with slash in *.
  assert (NA : parts_of p parts -> nth 0 parts [] <> [] \/ length parts = 1 -> is_abs p = false).
  { intros (N & H & ->) Q. destruct parts as [|c parts]; [congruence|]. cbn [nth length] in Q. assert (NS := H c (or_introl eq_refl)).
    destruct c as [|x c]; [destruct Q as [Q|Q]; [congruence|]; destruct parts; [reflexivity|discriminate]|].
    assert (is_slash x = false) by (apply Ascii.eqb_neq; intros ->; apply NS; now left). destruct parts; cbn; assumption. }
  split; [|split].
  - intros P Q T. unfold full. rewrite expand_not_tilde by exact T. unfold cwd. rewrite abs_relative by auto. rewrite (parts_split p parts P). reflexivity.
  - intros P Q m Hm. unfold full. destruct m as [|m]; [lia|]. rewrite expand_not_tilde by (cbn [repeat app]; discriminate). unfold py_abspath. replace (is_abs (repeat slash (S m) ++ p)) with true by reflexivity.
    destruct m as [|[|m]].
    + rewrite (norm_abs_walk 1) by (auto; lia). rewrite (parts_split p parts P). reflexivity.
    + rewrite (norm_abs_walk 2) by (auto; lia). rewrite (parts_split p parts P). reflexivity.
    + cbn [Nat.eqb]. unfold py_normpath. replace (initial_slashes (repeat slash (S (S (S m))) ++ p)) with 1 by reflexivity. cbn [repeat app]. change (0 <? 1) with true.
      change (slash :: slash :: slash :: repeat slash m ++ p) with (repeat slash (S (S (S m))) ++ p). rewrite split_slashes, fold_skip, (parts_split p parts P).
      rewrite fold_walk; [|intros ? []|intros c I; apply P; exact I]. rewrite rev_involutive. reflexivity.
  - intros user rest Nu Hr. pose proof (cut_is user rest Nu Hr) as C.
    assert (EX : py_expanduser home ("~"%char :: user ++ rest) = match home user with None => "~"%char :: user ++ rest | Some h => match rstrip is_slash h ++ rest with [] => [slash] | q => q end end).
    { unfold py_expanduser. change (Ascii.eqb "~" "~") with true. cbv iota. rewrite C. reflexivity. }
    split; [|split].
    + intros h k Hh X NT NE. unfold full. rewrite EX, Hh, rstrip_slashes by exact X. rewrite (expand_not_tilde home (h ++ rest) NT). destruct (h ++ rest) eqn:E; [congruence|]. reflexivity.
    + intros k Hh ->. unfold full. rewrite EX, Hh. change (repeat slash k) with ([] ++ repeat slash k). rewrite rstrip_slashes by (intros x q; discriminate). reflexivity.
    + intros Hh P. unfold full. rewrite EX, Hh. unfold cwd. rewrite abs_relative by (auto; reflexivity). rewrite (parts_split _ _ P). reflexivity.
Qed.
Print Assumptions C110_full_which.
Example C110_full_which_ex : let home := fun u => if str_eqb u (L "ann") then Some (L "/home/ann/") else None in
  full home (L "/w/x") (L "a/../b//c/.") = L "/w/x/b/c" /\ full home (L "/w/x") (L "~ann/../z") = L "/home/z" /\ full home (L "/w/x") (L "~bob/z") = L "/w/x/~bob/z" /\
  full home (L "//w") (L "../..") = L "//" /\ full home (L "/w") (L "///a") = L "/a".
Proof. vm_compute. repeat split. Qed.

(** The five settings are kept under these names, the flags as "true" and "false"; and
    the tool reads them under the same names from any configuration. *)
Theorem C110_config_names home cwd t : storable (t_images t) -> storable (t_masks t) -> storable (t_out t) -> exists s, pc_run (get_configuration t) = Some s /\
  pc_get s 0 (L "image_list_file") None = PRet (Some (or_empty (t_images t))) /\
  pc_get s 0 (L "mask_list_file") None = PRet (Some (or_empty (t_masks t))) /\
  pc_get s 0 (L "invert_masks") None = PRet (Some (if t_invert t then L "true" else L "false")) /\
  pc_get s 0 (L "expect_multichannel_masks") None = PRet (Some (if t_multi t then L "true" else L "false")) /\
  pc_get s 0 (L "output_tracks_file") None = PRet (Some (or_empty (t_out t))) /\
  (forall s' x t0 t', set_configuration home cwd s' x t0 = PRet t' ->
     (exists im, pc_get s' x (L "image_list_file") (t_images t0) = PRet im /\ t_images t' = full_opt home cwd im) /\
     (exists mk, pc_get s' x (L "mask_list_file") (t_masks t0) = PRet mk /\ t_masks t' = full_opt home cwd mk) /\
     pc_get_bool s' x (L "invert_masks") (Some (t_invert t0)) = PRet (t_invert t') /\
     pc_get_bool s' x (L "expect_multichannel_masks") (Some (t_multi t0)) = PRet (t_multi t') /\
     (exists out, pc_get s' x (L "output_tracks_file") (t_out t0) = PRet out /\ t_out t' = full_opt home cwd out)).
Proof.
  intros H1 H2 H3. destruct t as [im mk inv mu out]. cbn [t_images t_masks t_invert t_multi t_out] in *.
  destruct (storable_text _ H1) as [A1 B1], (storable_text _ H2) as [A2 B2], (storable_text _ H3) as [A3 B3].
  unfold get_configuration, pc_run. cbn [t_images t_masks t_invert t_multi t_out fold_left]. change (pc_step pst0 (PcNew (L "track_features"))) with (Some (one (new_block (L "track_features") None))). cbv beta iota.
  destruct (set_one (new_block (L "track_features") None) K_images (or_empty im) None eq_refl eq_refl) as (b1 & E1 & P1 & R1 & S1). rewrite E1.
  destruct (set_one b1 K_masks (or_empty mk) None P1 R1) as (b2 & E2 & P2 & R2 & S2). rewrite E2.
  destruct (set_one b2 K_invert (bool_text inv) None P2 R2) as (b3 & E3 & P3 & R3 & S3). rewrite E3.
  destruct (set_one b3 K_multi (bool_text mu) None P3 R3) as (b4 & E4 & P4 & R4 & S4). rewrite E4.
  destruct (set_one b4 K_out (or_empty out) None P4 R4) as (b5 & E5 & P5 & R5 & S5). rewrite E5.
  exists (one b5). split; [reflexivity|]. rewrite S4, S3, S2, S1 in S5. clear S1 S2 S3 S4.
  rewrite (key_cstr K_images), (key_cstr K_masks), (key_cstr K_invert), (key_cstr K_multi), (key_cstr K_out) in S5 by (cbn; auto 6). rewrite A1, A2, A3, B1, B2, B3 in S5.
  assert (G : forall k, In k [K_images; K_masks; K_invert; K_multi; K_out] -> sfind (c_str k) (b_store b5) = sfind k (b_store b5)) by (intros k I; rewrite key_cstr by exact I; reflexivity).
  change (L "image_list_file") with K_images. change (L "mask_list_file") with K_masks. change (L "invert_masks") with K_invert. change (L "expect_multichannel_masks") with K_multi. change (L "output_tracks_file") with K_out.
  split; [rewrite (get_one b5 K_images (or_empty im)); [rewrite A1; reflexivity|exact P5|rewrite G by (cbn; auto 6); rewrite S5; rewrite !sfind_set_ne by discriminate; apply sfind_set_eq]|].
  split; [rewrite (get_one b5 K_masks (or_empty mk)); [rewrite A2; reflexivity|exact P5|rewrite G by (cbn; auto 6); rewrite S5; rewrite !sfind_set_ne by discriminate; apply sfind_set_eq]|].
  split; [rewrite (get_one b5 K_invert (trim (c_str (bool_text inv)))); [destruct inv; reflexivity|exact P5|rewrite G by (cbn; auto 6); rewrite S5; rewrite !sfind_set_ne by discriminate; apply sfind_set_eq]|].
  split; [rewrite (get_one b5 K_multi (trim (c_str (bool_text mu)))); [destruct mu; reflexivity|exact P5|rewrite G by (cbn; auto 6); rewrite S5; rewrite !sfind_set_ne by discriminate; apply sfind_set_eq]|].
  split; [rewrite (get_one b5 K_out (or_empty out)); [rewrite A3; reflexivity|exact P5|rewrite G by (cbn; auto 6); rewrite S5; apply sfind_set_eq]|].
  intros s' x t0 t' E. unfold set_configuration in E.
  destruct (pc_get s' x K_images (t_images t0)) as [i| |]; try discriminate. destruct (pc_get s' x K_masks (t_masks t0)) as [m| |]; try discriminate.
  destruct (pc_get_bool s' x K_invert (Some (t_invert t0))); try discriminate. destruct (pc_get_bool s' x K_multi (Some (t_multi t0))); try discriminate. destruct (pc_get s' x K_out (t_out t0)) as [u| |]; try discriminate.
  injection E as <-. cbn [t_images t_masks t_invert t_multi t_out].
  split; [exists i; auto|]. split; [exists m; auto|]. split; [reflexivity|]. split; [reflexivity|]. exists u; auto.
Qed.
Print Assumptions C110_config_names.

(** A configuration without the five entries, and no configuration at all, leave the
    tool as it was made: no files, and both flags false. *)
Lemma get_none (b : block) k def : b_parent b = None -> sfind (c_str k) (b_store b) = None -> pc_get (one b) 0 k def = PRet def.
Proof.
  intros P F. unfold pc_get, handle, one. cbn [p_obj nth p_heap]. unfold get_string, get_value, has_value, i_get_value, fuel. cbn [length has_value_f i_get_value_f nth_error]. rewrite P. unfold shas, m_has. unfold sfind in F |- *.
  rewrite F. reflexivity.
Qed.
Lemma get_bool_none (b : block) k def : b_parent b = None -> sfind (c_str k) (b_store b) = None -> pc_get_bool (one b) 0 k (Some def) = PRet def.
Proof.
  intros P F. unfold pc_get_bool, handle, one. cbn [p_obj nth p_heap]. unfold get_value_def, get_value, has_value, i_get_value, fuel. cbn [length has_value_f i_get_value_f nth_error]. rewrite P. unfold shas, m_has. unfold sfind in F |- *.
  rewrite F. reflexivity.
Qed.
Theorem C110_defaults home cwd (b : block) : b_parent b = None ->
  (forall k, In k [L "image_list_file"; L "mask_list_file"; L "invert_masks"; L "expect_multichannel_masks"; L "output_tracks_file"] -> sfind k (b_store b) = None) ->
  set_configuration home cwd (one b) 0 tool0 = PRet (mkTool None None false false None) /\ tool0 = mkTool None None false false None.
Proof.
  intros P F. split; [|reflexivity]. unfold set_configuration.
  rewrite (get_none b K_images) by (try exact P; rewrite key_cstr by (cbn; auto 6); apply F; cbn; auto 6).
  rewrite (get_none b K_masks) by (try exact P; rewrite key_cstr by (cbn; auto 6); apply F; cbn; auto 6).
  rewrite (get_bool_none b K_invert) by (try exact P; rewrite key_cstr by (cbn; auto 6); apply F; cbn; auto 6).
  rewrite (get_bool_none b K_multi) by (try exact P; rewrite key_cstr by (cbn; auto 6); apply F; cbn; auto 6).
  rewrite (get_none b K_out) by (try exact P; rewrite key_cstr by (cbn; auto 6); apply F; cbn; auto 6).
  reflexivity.
Qed.
Print Assumptions C110_defaults.
