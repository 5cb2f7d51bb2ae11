(** TransProps2.v -- C120 continued: when the start-up ends, what it keeps, and what goes
    wrong. *)
From Coq Require Import Ascii String List Bool Arith Lia.
Import ListNotations.
From Verif Require Import Base PathModel PathSpec PathProofs PathProps PathProps2 PathProps4 TreeModel TreeSpec TreeProofs TreeProps TransModel TransProofs TransProps.

(** ---- the end of the loop ---- *)
Lemma replaced_len s r : replaced [slash; slash] [slash] s r -> length r <= length s.
Proof. induction 1 as [s N|a b r M R IH]; [lia|]. rewrite !app_length. cbn [length]. lia. Qed.
Lemma convert_len e p q : is_abs p = true -> ~ In backslash p -> convert_to_unix_slashes e p = Some q -> length q <= length p.
Proof.
  intros Ha Hb E. destruct (C84_exact e p) as (q0 & Q & E'). rewrite E in E'. injection E' as ->. rewrite conv_id in Q by exact Hb.
  assert (K : length q0 <= length p /\ is_abs q0 = true). { destruct (has_double_slash p); [split; [apply replaced_len, Q|eapply replaced_abs; eassumption]|subst q0; auto]. }
  destruct K as [K1 K2]. destruct q0 as [|c q0]; [cbn; lia|]. rewrite expand_abs by exact K2. pose proof (unslashed_strip (c :: q0)) as U. remember (strip_trailing (c :: q0)) as r eqn:Er. clear Er. destruct U; rewrite ?app_length in *; cbn [length] in *; lia.
Qed.
Lemma gfp_some e p : exists q, get_filename_path e p = Some q.
Proof. unfold get_filename_path. destruct (C84_exact e p) as (q & _ & ->). destruct (rsplit _ _) as [[a b]|]; [|eauto]. destruct (_ && _)%bool; [eauto|]. destruct a; eauto. Qed.
Lemma gfp_shorter e p q : is_abs p = true -> ~ In backslash p -> ~ In ":"%char p -> p <> [slash] -> get_filename_path e p = Some q -> length q < length p.
Proof.
  intros Ha Hb Hc N. assert (L2 : 2 <= length p). { destruct p as [|c [|d p]]; [discriminate| |cbn; lia]. cbn in Ha. apply Ascii.eqb_eq in Ha as ->. congruence. }
  unfold get_filename_path. destruct (convert_abs e p Ha Hb) as (r & E & A & I & _). rewrite E. pose proof (convert_len e p r Ha Hb E) as LE. destruct (rsplit slash r) as [[a b]|] eqn:R; [|intros Q; injection Q as <-; cbn; lia].
  apply rsplit_some in R as [-> _]. rewrite app_length in LE. cbn [length] in LE. destruct ((length a =? 2) && Ascii.eqb (nth 1 a " "%char) ":")%bool eqn:D.
  - apply andb_prop in D as [D1 D2]. apply Nat.eqb_eq in D1. apply Ascii.eqb_eq in D2. elim Hc. apply I, in_or_app. left. rewrite <- D2. apply nth_In. lia.
  - destruct a; intros Q; injection Q as <-; cbn [length] in *; lia.
Qed.
Lemma shorten_ends e f cwd refused : forall n p c ch, length p < n -> is_abs p = true -> ~ In backslash p -> ~ In ":"%char p -> exists r, shorten e f cwd refused n c p ch = Some r.
Proof.
  induction n as [|n IH]; intros p c ch Hn Ha Hb Hc; [lia|]. cbn [shorten]. destruct (str_eqb c (realpath f cwd refused p) && negb (str_eqb c p))%bool eqn:Q; [|eauto].
  destruct (gfp_abs e p Ha Hb) as (q & E & A & I). destruct (gfp_some e c) as (c' & Ec). rewrite E, Ec. destruct (str_dec p [slash]) as [->|N].
  - exfalso. apply andb_prop in Q as [Q1 Q2]. apply str_eqb_eq in Q1. apply negb_true_iff, str_eqb_neq in Q2. apply Q2. rewrite Q1. unfold realpath, sys_realpath. destruct (refused [slash]); reflexivity.
  - apply IH; [|exact A|intros J; apply Hb, I, J|intros J; apply Hc, I, J]. pose proof (gfp_shorter e p q Ha Hb Hc N E). lia.
Qed.
Lemma add_some e f cwd t a b : exists t', add_translation e f cwd t a b = Some t'.
Proof.
  unfold add_translation. destruct (C84_exact e a) as (qa & _ & ->). destruct (C84_exact e b) as (qb & _ & ->). destruct (file_is_directory _ _ _); [|eauto]. destruct (_ && _)%bool; [|eauto]. destruct (str_eqb _ _); eauto.
Qed.
(** The start-up ends if $PWD starts with a slash and has no colon (and no backslash). *)
Theorem C120_ends e f cwd refused pwd getcwd : match pwd with Some p => (exists r, p = "/"%char :: r) /\ ~ In "\"%char p /\ ~ In ":"%char p | None => True end ->
  exists n, forall m, n <= m -> exists t, class_initialize e f cwd refused m pwd getcwd = Some t.
Proof.
  intros HP. exists (S (match pwd with Some p => length p | None => 0 end)). intros m Hm. destruct m as [|m]; [lia|]. unfold class_initialize, add_keep. change (collapse_full_path (S m) (with_table e []) (L "/tmp/") None) with (Some (L "/tmp")).
  destruct (add_some e f cwd [] (realpath f cwd refused (L "/tmp")) (L "/tmp/")) as (t0 & ->). destruct pwd as [p|]; [|eauto]. destruct getcwd as [c|]; [|eauto]. destruct HP as ((r & ->) & Hb & Hc).
  destruct (shorten_ends e f cwd refused (S m) ("/"%char :: r) c None ltac:(lia) eq_refl Hb Hc) as (x & ->). destruct x as [[[|a0 a] b]|]; eauto. destruct b; eauto. apply add_some.
Qed.
Print Assumptions C120_ends.
Definition env0 : penv := mkPenv None (fun _ => None) None (fun _ => None) (fun _ => false) (fun _ => false) [].
Definition fine (_ : str) : bool := false.
(** With a colon it may not: a link named ":" in the root to the root itself, and a shell
    that went through it. *)
Theorem C120_hang_refuted : exists f, WF f /\ no_backslash f /\ sys_realpath f [] fine (L "/:/") = Some (L "/") /\ forall n, class_initialize env0 f [] fine n (Some (L "/:/")) (Some (L "/")) = None.
Proof.
  exists [([L ":"], KLink (L "/"))]. split; [apply wf_check_ok; vm_compute; reflexivity|]. split; [intros x k n [E|[]] I; injection E as <- _; destruct I as [<-|[]]; intros [J|[]]; discriminate|]. split; [vm_compute; reflexivity|].
  set (f := [([L ":"], KLink (L "/"))]). assert (K : forall n ch, shorten env0 f [] fine n (L "/") (L "/:/") ch = None).
  { induction n as [|n IH]; intros ch; [reflexivity|]. cbn [shorten]. assert (realpath f [] fine (L "/:/") = L "/") as -> by (vm_compute; reflexivity). change (str_eqb (L "/") (L "/") && negb (str_eqb (L "/") (L "/:/")))%bool with true. cbv iota.
    assert (get_filename_path env0 (L "/:/") = Some (L "/:/")) as -> by (vm_compute; reflexivity). assert (get_filename_path env0 (L "/") = Some (L "/")) as -> by (vm_compute; reflexivity). apply IH. }
  intros n. unfold class_initialize. destruct (add_keep _ _ _ _ _ _ _); [|reflexivity]. rewrite K. reflexivity.
Qed.
Print Assumptions C120_hang_refuted.

(** ---- what is kept ---- *)
Lemma text_is l : text l = text_of [slash] l.
Proof.
  destruct l as [|x l]; [reflexivity|]. rewrite text_body by discriminate. unfold text_of. revert x. induction l as [|y l IH]; intros x; [cbn; rewrite app_nil_r; reflexivity|]. specialize (IH y). change (body (x :: y :: l)) with ((slash :: x) ++ body (y :: l)). rewrite IH. reflexivity.
Qed.
Lemma names_proper_path l : names_ok l -> Forall PathSpec.proper l.
Proof.
  intros H. apply Forall_forall. intros x I. destruct (H x I) as ((A & B & C & D) & E). repeat split; auto. intros c J. unfold is_sep. destruct (Ascii.eqb_spec c slash) as [->|]; [elim (D J)|]. destruct (Ascii.eqb_spec c backslash) as [->|]; [elim (E J)|]. reflexivity.
Qed.
Lemma gfp_text e l : names_ok l -> removelast l <> [L ":"] -> get_filename_path e (text l) = Some (text (removelast l)).
Proof.
  intros H N. destruct l as [|x l _] using rev_ind; [reflexivity|]. rewrite removelast_last in *. rewrite !text_is. destruct (C83_parent e l x (names_proper_path _ H)) as [_ ->]. destruct (list_eq_dec (list_eq_dec ascii_dec) l [L ":"]) as [Q|_]; [elim (N Q)|reflexivity].
Qed.
Lemma body_inj a b : names_ok a -> names_ok b -> body a = body b -> a = b.
Proof. intros A B E. pose proof (cut_body a A []) as X. pose proof (cut_body b B []) as Y. rewrite E in X. rewrite X in Y. injection Y. auto. Qed.
Lemma text_inj a b : names_ok a -> names_ok b -> text a = text b -> a = b.
Proof.
  intros A B E. destruct a as [|x a], b as [|y b]; [reflexivity| | |]; rewrite ?text_body in E by discriminate.
  - elim (body_last _ B []). symmetry. exact E.
  - elim (body_last _ A []). exact E.
  - apply body_inj; assumption.
Qed.
Lemma names_app a b : names_ok (a ++ b) -> names_ok a. Proof. intros H x I. apply H, in_or_app. left. exact I. Qed.
Lemma body_app a b : body (a ++ b) = body a ++ body b. Proof. apply flat_map_app. Qed.

(** [A ++ s] is the working directory, called [B ++ s] in $PWD; [B] is another name of
    [A], while the one above it is no longer a name of what is above [A], or is the same. Then
    exactly this name is kept: every path into [A] is given as one into [B]. *)
Theorem C120_kept e f A B s : WF f -> no_backslash f -> at_place f (A ++ s) = Some KDir ->
  let cwd := A ++ s in
  (forall x, In x (B ++ s) -> TreeSpec.proper x /\ ~ In "\"%char x) -> (forall r, A ++ s <> L ":" :: r) -> (forall r, B ++ s <> L ":" :: r) -> (forall u v, text B <> u ++ L ".." ++ v) ->
  (forall s1 s2, s = s1 ++ s2 -> resolve f cwd true (text (B ++ s1)) = inl (A ++ s1)) -> A <> B ->
  (resolve f cwd true (text (removelast B)) <> inl (removelast A) \/ removelast A = removelast B) ->
  (sys_realpath f cwd fine (L "/tmp") = None \/ sys_realpath f cwd fine (L "/tmp") = Some (L "/tmp")) ->
  exists n t, (forall m, n <= m -> class_initialize e f cwd fine m (Some (text (B ++ s))) (Some (text (A ++ s))) = Some t) /\
  forall m p base r, A ++ r <> [] -> names_ok (A ++ r) -> collapse_full_path m (with_table e []) p base = Some (text (A ++ r)) -> collapse_full_path m (with_table e t) p base = Some (text (B ++ r)).
Proof.
  intros W NB D cwd HB CA CB DD R AB ST TMP.
  assert (HA : names_ok (A ++ s)) by (eapply place_names; [exact W|exact NB|rewrite D; discriminate]).
  assert (Bne : B <> []). { intros ->. specialize (R [] s eq_refl). rewrite app_nil_r in R. cbn [app] in R. injection R as R. apply AB. rewrite app_nil_r in R. symmetry. exact R. }
  assert (AD : forall s1 s2, s = s1 ++ s2 -> at_place f (A ++ s1) = Some KDir).
  { intros s1 s2 ->. destruct s2 as [|y s2]; [rewrite app_nil_r in D; exact D|]. rewrite app_assoc in D. eapply (deep_parent f (A ++ s1) W (y :: s2)); [unfold cwd; rewrite D; discriminate|discriminate]. }
  assert (RP : forall s1 s2, s = s1 ++ s2 -> realpath f cwd fine (text (B ++ s1)) = text (A ++ s1)).
  { intros s1 s2 E. unfold realpath, sys_realpath, fine. rewrite (R s1 s2 E), (AD s1 s2 E). reflexivity. }
  assert (SH : forall s1 s2 n ch, s = s1 ++ s2 -> length s1 + 1 < n -> shorten e f cwd fine n (text (A ++ s1)) (text (B ++ s1)) ch = Some (Some (text A, text B))).
  { intros s1. induction s1 as [|x s1 IH] using rev_ind; intros s2 n ch E Hn; (destruct n as [|n]; [lia|]); cbn [shorten].
    - rewrite (RP [] s2 E), str_eqb_refl, !app_nil_r. cbn [app] in E. subst s2. assert (N : text A <> text B) by (intros Q; apply AB, text_inj; [eapply names_app; exact HA|eapply names_app; exact HB|exact Q]). apply str_eqb_neq in N. rewrite N. cbn [andb negb].
      rewrite gfp_text; [|eapply names_app; exact HB|intros Q; destruct B as [|b B]; [congruence|]; destruct B as [|b' B]; [discriminate|]; cbn in Q; injection Q as -> _; eapply CB; reflexivity].
      rewrite gfp_text; [|eapply names_app; exact HA|intros Q; destruct A as [|b A']; [discriminate|]; destruct A' as [|b' A']; [discriminate|]; cbn in Q; injection Q as -> _; eapply CA; reflexivity].
      cbn [length] in Hn. destruct n as [|n]; [lia|]. cbn [shorten]. assert ((str_eqb (text (removelast A)) (realpath f cwd fine (text (removelast B))) && negb (str_eqb (text (removelast A)) (text (removelast B))))%bool = false) as ->; [|reflexivity].
      apply andb_false_iff. destruct ST as [ST| ->]; [|right; rewrite str_eqb_refl; reflexivity]. unfold realpath. destruct (sys_realpath f cwd fine (text (removelast B))) as [q|] eqn:Q.
      + left. apply str_eqb_neq. intros E'. destruct (real_place _ _ _ _ _ Q) as (l & k & -> & Rl & Al). apply ST. rewrite Rl. f_equal. apply text_inj; [eapply place_names; [exact W|exact NB|rewrite Al; discriminate]| |symmetry; exact E'].
        intros x I. apply (names_app A s HA). destruct A as [|a A' _] using rev_ind; [destruct I|]. rewrite removelast_last in I. apply in_or_app. left. exact I.
      + destruct (str_eqb (text (removelast A)) (text (removelast B))); [right|left]; reflexivity.
    - rewrite (RP (s1 ++ [x]) s2 E), str_eqb_refl. assert (E' : s = s1 ++ ([x] ++ s2)) by (rewrite E, <- app_assoc; reflexivity).
      assert (HA1 : names_ok (A ++ s1 ++ [x])) by (rewrite E, app_assoc in HA; eapply names_app; exact HA). assert (HB1 : names_ok (B ++ s1 ++ [x])) by (change (names_ok (B ++ s)) in HB; rewrite E, app_assoc in HB; eapply names_app; exact HB).
      assert (N : text (A ++ s1 ++ [x]) <> text (B ++ s1 ++ [x])) by (intros Q; apply text_inj in Q; [apply app_inv_tail in Q; congruence|exact HA1|exact HB1]). apply str_eqb_neq in N. rewrite N. cbn [andb negb].
      assert (RA : removelast (A ++ s1 ++ [x]) = A ++ s1) by (rewrite app_assoc; apply removelast_last). assert (RB : removelast (B ++ s1 ++ [x]) = B ++ s1) by (rewrite app_assoc; apply removelast_last).
      rewrite !gfp_text; [rewrite RA, RB; apply (IH ([x] ++ s2)); [exact E'|rewrite app_length in Hn; cbn [length] in Hn; lia]|exact HA1|rewrite RA; intros Q; apply (CA ([x] ++ s2)); rewrite E', app_assoc, Q; reflexivity|exact HB1|rewrite RB; intros Q; apply (CB ([x] ++ s2)); rewrite E', app_assoc, Q; reflexivity]. }
  assert (HA0 := names_app A s HA). assert (HB0 := names_app B s HB).
  exists (length s + 2), [(body A ++ ["/"%char], body B ++ ["/"%char])]. split.
  - intros m Hm. destruct m as [|m]; [lia|]. unfold class_initialize.
    assert (add_keep e f cwd fine (S m) [] (L "/tmp/") = Some []) as ->.
    { unfold add_keep. change (collapse_full_path (S m) (with_table e []) (L "/tmp/") None) with (Some (L "/tmp")). cbv iota. assert (realpath f cwd fine (L "/tmp") = L "/tmp") as -> by (unfold realpath; destruct TMP as [-> | ->]; reflexivity).
      unfold add_translation. change (convert_to_unix_slashes e (L "/tmp")) with (Some (L "/tmp")). change (convert_to_unix_slashes e (L "/tmp/")) with (Some (L "/tmp")). cbv iota. destruct (file_is_directory f cwd (L "/tmp")); [|reflexivity]. destruct (_ && _)%bool; [|reflexivity]. rewrite str_eqb_refl. reflexivity. }
    rewrite (SH s [] (S m) None) by (rewrite ?app_nil_r; auto; lia). destruct (text A) as [|a0 a] eqn:TA; [destruct A; discriminate|]. destruct (text B) as [|b0 b] eqn:TB; [destruct B; discriminate|]. rewrite <- TA, <- TB. rewrite <- TB in DD.
    unfold add_translation. rewrite !convert_text by assumption. assert (file_is_directory f cwd (text A) = true) as ->.
    { unfold file_is_directory. rewrite TA, <- TA. rewrite chop_text by exact HA0. unfold stat_at. rewrite resolve_text; [|exact W|exact HA0|]; rewrite <- (app_nil_r A); rewrite (AD [] s eq_refl); reflexivity. }
    assert (file_is_full_path (text B) = true) as -> by (destruct B; [congruence|reflexivity]). destruct (find_sub (L "..") (text B)) as [[u v]|] eqn:FS; [apply find_sub_some in FS as [FS _]; elim (DD u v FS)|]. cbn [andb].
    rewrite !end_slash_text by assumption. destruct (str_eqb_spec (body A ++ [slash]) (body B ++ [slash])) as [Q|_]; [apply app_inj_tail in Q as [Q _]; elim AB; apply body_inj; assumption|]. reflexivity.
  - intros m p base r Nr Hr E. rewrite (collapse_table m e _ p base _ E). f_equal. destruct (C85_translation (with_table e [(body A ++ ["/"%char], body B ++ ["/"%char])]) [(body A, body B)] (text (A ++ r)) eq_refl) as [_ K]. apply K.
    + destruct (A ++ r) as [|x l]; [congruence|]. rewrite text_body by discriminate. cbn [body flat_map]. destruct (Hr x (or_introl eq_refl)) as ((Nx & _) & _). destruct x; [congruence|]. cbn. lia.
    + rewrite text_body by exact Nr. rewrite text_body by (destruct B; [congruence|discriminate]). eapply ra_cons; [|apply ra_nil]. rewrite !body_app. destruct r as [|x r]; [cbn [body flat_map]; rewrite !app_nil_r; apply rn_self|]. apply rn_below.
Qed.
Print Assumptions C120_kept.

(** ---- what goes wrong ---- *)
Definition places (l : list (list string * kind)) : fsys := map (fun x => (map L (fst x), snd x)) l.
(** Collapsing twice goes on renaming if the root has another name ... *)
Theorem C120_grows_refuted : let f := places [(["r"], KLink (L "/")); (["x"], KFile [])]%string in WF f /\
  exists t, class_initialize env0 f [] fine 9 (Some (L "/r")) (Some (L "/")) = Some t /\
  collapse_full_path 9 (with_table env0 t) (L "/x") None = Some (L "/r/x") /\ collapse_full_path 9 (with_table env0 t) (L "/r/x") None = Some (L "/r/r/x").
Proof. split; [apply wf_check_ok; vm_compute; reflexivity|]. eexists. split; [vm_compute; reflexivity|]. split; vm_compute; reflexivity. Qed.
Print Assumptions C120_grows_refuted.
(** ... and puts back the dots of $PWD. *)
Theorem C120_dots_refuted : let f := places [(["a"], KDir)]%string in WF f /\
  exists t, class_initialize env0 f [L "a"] fine 9 (Some (L "/a/.")) (Some (L "/a")) = Some t /\ collapse_full_path 9 (with_table env0 t) (L "/a/x") None = Some (L "/a/./x").
Proof. split; [apply wf_check_ok; vm_compute; reflexivity|]. eexists. split; vm_compute; reflexivity. Qed.
Print Assumptions C120_dots_refuted.
(** A backslash in $PWD makes the names lead to other files. *)
Theorem C120_backslash_refuted : let f := places [(["real"], KDir); (["real"; "x"], KFile (L "mine")); (["a\b"], KLink (L "/real")); (["a"], KDir); (["a"; "b"], KDir); (["a"; "b"; "x"], KFile (L "other"))]%string in WF f /\
  exists t q, class_initialize env0 f [L "real"] fine 9 (Some (L "/a\b")) (Some (L "/real")) = Some t /\ collapse_full_path 9 (with_table env0 t) (L "/real/x") None = Some q /\
  stat_at f [L "real"] true (L "/real/x") = Some (KFile (L "mine")) /\ stat_at f [L "real"] true q = Some (KFile (L "other")).
Proof. split; [apply wf_check_ok; vm_compute; reflexivity|]. do 2 eexists. split; [vm_compute; reflexivity|]. split; [vm_compute; reflexivity|]. split; vm_compute; reflexivity. Qed.
Print Assumptions C120_backslash_refuted.
(** So does a $PWD that is a name with a tilde. *)
Theorem C120_tilde_refuted : let f := places [(["w"], KDir); (["w"; "~"], KLink (L ".")); (["home"], KDir)]%string in let e := mkPenv (Some (L "/home")) (fun _ => None) None (fun _ => None) (fun _ => false) (fun _ => false) [] in WF f /\
  exists t, class_initialize e f [L "w"] fine 9 (Some (L "~")) (Some (L "/w")) = Some t /\ collapse_full_path 9 (with_table e t) (L "/w/x") None = Some (L "/home/x").
Proof. split; [apply wf_check_ok; vm_compute; reflexivity|]. eexists. split; vm_compute; reflexivity. Qed.
Print Assumptions C120_tilde_refuted.
(** A directory may become the link to it. *)
Theorem C120_link_itself_refuted : let f := places [(["real"], KDir); (["link"], KLink (L "real"))]%string in WF f /\
  exists t, class_initialize env0 f [L "real"] fine 9 (Some (L "/link")) (Some (L "/real")) = Some t /\ collapse_full_path 9 (with_table env0 t) (L "/real") None = Some (L "/link") /\
  file_is_symlink f [L "real"] (L "/real") = false /\ file_is_symlink f [L "real"] (L "/link") = true.
Proof. split; [apply wf_check_ok; vm_compute; reflexivity|]. eexists. split; [vm_compute; reflexivity|]. repeat split; vm_compute; reflexivity. Qed.
Print Assumptions C120_link_itself_refuted.
(** The working directory itself need not keep the name of $PWD. *)
Theorem C120_other_name_refuted : let f := places [(["real"], KDir); (["real"; "x"], KDir); (["real"; "y"], KLink (L "x")); (["link"], KLink (L "real"))]%string in WF f /\
  sys_realpath f [L "real"; L "x"] fine (L "/link/y") = Some (L "/real/x") /\
  exists t, class_initialize env0 f [L "real"; L "x"] fine 9 (Some (L "/link/y")) (Some (L "/real/x")) = Some t /\ collapse_full_path 9 (with_table env0 t) (L "/real/x") None = Some (L "/link/x").
Proof. split; [apply wf_check_ok; vm_compute; reflexivity|]. split; [vm_compute; reflexivity|]. eexists. split; vm_compute; reflexivity. Qed.
Print Assumptions C120_other_name_refuted.
(** A usual case: the home directories are on another disk. *)
Example C120_ex : let f := places [(["home"], KDir); (["home"; "ann"], KLink (L "/disk2/users/ann")); (["disk2"], KDir); (["disk2"; "users"], KDir); (["disk2"; "users"; "ann"], KDir); (["disk2"; "users"; "ann"; "src"], KDir); (["tmp"], KDir)]%string in
  let A := map L ["disk2"; "users"; "ann"]%string in let B := map L ["home"; "ann"]%string in let s := [L "src"] in
  WF f /\ no_backslash f /\ at_place f (A ++ s) = Some KDir /\ (forall s1 s2, s = s1 ++ s2 -> resolve f (A ++ s) true (text (B ++ s1)) = inl (A ++ s1)) /\ A <> B /\ resolve f (A ++ s) true (text (removelast B)) <> inl (removelast A) /\
  exists t, class_initialize env0 f (A ++ s) fine 9 (Some (text (B ++ s))) (Some (text (A ++ s))) = Some t /\ collapse_full_path 9 (with_table env0 t) (L "/disk2/users/ann/src/x.c") None = Some (L "/home/ann/src/x.c").
Proof.
  split; [apply wf_check_ok; vm_compute; reflexivity|]. split.
  { intros x k n I J Q. assert (existsb (fun e => existsb (fun n => existsb (Ascii.eqb backslash) n) (fst e)) (places [(["home"], KDir); (["home"; "ann"], KLink (L "/disk2/users/ann")); (["disk2"], KDir); (["disk2"; "users"], KDir); (["disk2"; "users"; "ann"], KDir); (["disk2"; "users"; "ann"; "src"], KDir); (["tmp"], KDir)]%string) = true); [|vm_compute in H; discriminate].
    apply existsb_exists. exists (x, k). split; [exact I|]. apply existsb_exists. exists n. split; [exact J|]. apply existsb_exists. exists backslash. split; [exact Q|reflexivity]. }
  split; [vm_compute; reflexivity|]. split.
  { intros s1 s2 E. destruct s1 as [|y [|z s1]]; [vm_compute; reflexivity| |discriminate]. injection E as <- _. vm_compute. reflexivity. }
  split; [discriminate|]. split; [vm_compute; discriminate|]. eexists. split; vm_compute; reflexivity.
Qed.
