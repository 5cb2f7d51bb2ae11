(** PyPathProps.v -- C111: finding the C library. *)
From Coq Require Import Ascii List Bool Arith Lia.
Import ListNotations.
From Verif Require Import Base PyPathModel.

(** ---- what to find ---- *)
(** A library of the C interface: [lib]vital_c, a character, so/dylib/dll, anything. *)
Definition lib_name (f : str) : Prop :=
  exists pre c ext rest, f = pre ++ L "vital_c" ++ c :: ext ++ rest /\ (pre = [] \/ pre = L "lib") /\ c <> ascii_of_nat 10 /\ In ext [L "so"; L "dylib"; L "dll"].
Fixpoint up (d : str) (n : nat) : str := match n with 0 => d | S n => up (py_dirname d) n end.
Definition lib_dir (fs : dirs) (d ld : str) : Prop := (ld = path_join d (L "lib64") \/ ld = path_join d (L "lib")) /\ d_isdir fs ld = true.
(** The first library in the listing of a directory. *)
Definition first_lib (fs : dirs) (ld p : str) : Prop :=
  exists names a f b, d_list fs ld = Some names /\ names = a ++ f :: b /\ lib_name f /\ (forall g, In g a -> ~ lib_name g) /\ p = path_join ld f.
Definition in_lib_dirs (fs : dirs) (d p : str) : Prop :=
  let l64 := path_join d (L "lib64") in let l := path_join d (L "lib") in
  (d_isdir fs l64 = true /\ first_lib fs l64 p) \/
  (d_isdir fs l = true /\ first_lib fs l p /\ (d_isdir fs l64 = true -> forall q, ~ first_lib fs l64 q)).
(** Found from [d]: in the nearest directory above with a lib64 or lib. *)
Definition finds (fs : dirs) (d p : str) : Prop :=
  exists n, (forall m ld, m < n -> ~ lib_dir fs (up d m) ld) /\ in_lib_dirs fs (up d n) p.
Definition listable (fs : dirs) : Prop := forall ld, d_isdir fs ld = true -> d_list fs ld <> None.

(** ---- proofs ---- *)
Lemma after_name_iff s : after_name s = true <-> exists c ext rest, s = c :: ext ++ rest /\ c <> ascii_of_nat 10 /\ In ext [L "so"; L "dylib"; L "dll"].
Proof.
  destruct s as [|c r]; cbn [after_name]; [split; [discriminate|intros (c & e & q & H & _); discriminate]|].
  rewrite andb_true_iff, negb_true_iff, !orb_true_iff, !is_prefix_app. split.
  - intros [N H]. apply Ascii.eqb_neq in N. destruct H as [[[q ->]|[q ->]]|[q ->]]; (eexists _, _, q; split; [reflexivity|split; [exact N|]]); [left|right; left|right; right; left]; reflexivity.
  - intros (c' & e & q & H & N & I). injection H as <- ->. split; [apply Ascii.eqb_neq; exact N|]. destruct I as [<-|[<-|[<-|[]]]]; eauto.
Qed.
Lemma with_name_iff name s : with_name name s = true <-> exists c ext rest, s = name ++ c :: ext ++ rest /\ c <> ascii_of_nat 10 /\ In ext [L "so"; L "dylib"; L "dll"].
Proof.
  unfold with_name. rewrite andb_true_iff, is_prefix_app. split.
  - intros [[q ->] H]. rewrite skipn_app, skipn_all, Nat.sub_diag in H. cbn [skipn app] in H. apply after_name_iff in H. destruct H as (c & e & r & -> & H). exists c, e, r. auto.
  - intros (c & e & r & -> & H). split; [eauto|]. rewrite skipn_app, skipn_all, Nat.sub_diag. cbn [skipn app]. apply after_name_iff. exists c, e, r. auto.
Qed.
Lemma lib_match_iff f : lib_match (L "vital_c") f = true <-> lib_name f.
Proof.
  unfold lib_match, lib_name. rewrite orb_true_iff, andb_true_iff, is_prefix_app, !with_name_iff. split.
  - intros [[[q ->] H]|(c & e & r & -> & H)].
    + change (skipn 3 (L "lib" ++ q)) with q in H. destruct H as (c & e & r & -> & H). exists (L "lib"), c, e, r. tauto.
    + exists [], c, e, r. tauto.
  - intros (pre & c & e & r & -> & [->| ->] & H); [right|left]; [exists c, e, r; tauto|]. split; [eauto|].
    change (skipn 3 (L "lib" ++ L "vital_c" ++ c :: e ++ r)) with (L "vital_c" ++ c :: e ++ r). exists c, e, r. tauto.
Qed.
Lemma find_first {A} (m : A -> bool) l f : find m l = Some f <-> exists a b, l = a ++ f :: b /\ m f = true /\ forall g, In g a -> m g = false.
Proof.
  split.
  - induction l as [|x l IH]; cbn; [discriminate|]. destruct (m x) eqn:E; intro H.
    + injection H as <-. exists [], l. repeat split; auto. intros g [].
    + destruct (IH H) as (a & b & -> & H1 & H2). exists (x :: a), b. repeat split; auto. intros g [<-|I]; auto.
  - intros (a & b & -> & H1 & H2). induction a as [|x a IH]; cbn; [rewrite H1; reflexivity|]. rewrite (H2 x) by (now left). apply IH. intros g I. apply H2. now right.
Qed.
Lemma first_lib_iff fs ld names p : d_list fs ld = Some names -> first_lib fs ld p <-> exists f, find (lib_match (L "vital_c")) names = Some f /\ p = path_join ld f.
Proof.
  intro E. split.
  - intros (ns & a & f & b & E' & -> & H1 & H2 & ->). assert (names = a ++ f :: b) as -> by congruence. exists f. split; [|reflexivity]. apply find_first. exists a, b. split; [reflexivity|]. split; [apply lib_match_iff; exact H1|].
    intros g I. destruct (lib_match (L "vital_c") g) eqn:G; [|reflexivity]. apply lib_match_iff in G. destruct (H2 g I G).
  - intros (f & F & ->). apply find_first in F. destruct F as (a & b & -> & H1 & H2). exists (a ++ f :: b), a, f, b. repeat split; auto; [apply lib_match_iff; exact H1|].
    intros g I G. apply lib_match_iff in G. rewrite (H2 g I) in G. discriminate.
Qed.
Lemma first_lib_none fs ld names : d_list fs ld = Some names -> (find (lib_match (L "vital_c")) names = None <-> forall p, ~ first_lib fs ld p).
Proof.
  intro E. split.
  - intros F p H. apply (first_lib_iff _ _ _ _ E) in H. destruct H as (f & H & _). congruence.
  - intro H. destruct (find _ names) as [f|] eqn:F; [|reflexivity]. exfalso. apply (H (path_join ld f)). apply (first_lib_iff _ _ _ _ E). eauto.
Qed.
Local Notation M := (lib_match (L "vital_c")).
Lemma try_dirs_spec fs d : listable fs ->
  match try_dirs fs M d lib_dirs false with
  | inl (Found p) => in_lib_dirs fs d p
  | inl _ => False
  | inr true => (exists ld, lib_dir fs d ld) /\ forall p, ~ in_lib_dirs fs d p
  | inr false => forall ld, ~ lib_dir fs d ld
  end.
Proof.
  intro HL. unfold lib_dirs. cbn [try_dirs]. set (l64 := path_join d (L "lib64")). set (l := path_join d (L "lib")). unfold in_lib_dirs, lib_dir. fold l64 l.
  pose proof (HL l64) as H64. pose proof (HL l) as Hl.
  destruct (d_isdir fs l64) eqn:E64.
  - destruct (d_list fs l64) as [names|] eqn:F64; [|destruct (H64 eq_refl eq_refl)]. destruct (find M names) as [f|] eqn:G.
    + left. split; [reflexivity|]. apply (first_lib_iff _ _ _ _ F64). eauto.
    + pose proof (proj1 (first_lib_none _ _ _ F64) G) as N. destruct (d_isdir fs l) eqn:El.
      * destruct (d_list fs l) as [ns|] eqn:Fl; [|destruct (Hl eq_refl eq_refl)]. destruct (find M ns) as [f|] eqn:G2.
        -- right. split; [reflexivity|]. split; [apply (first_lib_iff _ _ _ _ Fl); eauto|auto].
        -- pose proof (proj1 (first_lib_none _ _ _ Fl) G2) as N2. split; [exists l; auto|]. intros p [[_ H]|(_ & H & _)]; [exact (N p H)|exact (N2 p H)].
      * split; [exists l64; auto|]. intros p [[_ H]|(H & _)]; [exact (N p H)|discriminate].
  - destruct (d_isdir fs l) eqn:El.
    + destruct (d_list fs l) as [ns|] eqn:Fl; [|destruct (Hl eq_refl eq_refl)]. destruct (find M ns) as [f|] eqn:G2.
      * right. split; [reflexivity|]. split; [apply (first_lib_iff _ _ _ _ Fl); eauto|intro; discriminate].
      * pose proof (proj1 (first_lib_none _ _ _ Fl) G2) as N2. split; [exists l; auto|]. intros p [[H _]|(_ & H & _)]; [discriminate|exact (N2 p H)].
    + intros ld [[->| ->] H]; congruence.
Qed.

(** dirname: shorter, or the same. *)
Lemma lstrip_len f s : length (lstrip f s) <= length s.
Proof. induction s as [|x s IH]; cbn; [lia|]. destruct (f x); cbn; lia. Qed.
Lemma rstrip_len f s : length (rstrip f s) <= length s.
Proof. unfold rstrip. rewrite rev_length. pose proof (lstrip_len f (rev s)). rewrite rev_length in H. exact H. Qed.
Lemma head_rev_len s : length (head_rev s) <= length s.
Proof. induction s as [|x s IH]; cbn; [lia|]. destruct (is_slash x); cbn; lia. Qed.
Lemma head_rev_same s : length (head_rev s) = length s -> head_rev s = s.
Proof. destruct s as [|x s]; cbn; [reflexivity|]. destruct (is_slash x); [reflexivity|]. pose proof (head_rev_len s). lia. Qed.
Lemma lstrip_same f s : length (lstrip f s) = length s -> lstrip f s = s.
Proof. destruct s as [|x s]; cbn; [reflexivity|]. destruct (f x); [|reflexivity]. pose proof (lstrip_len f s). lia. Qed.
Lemma dirname_shorter p : py_dirname p = p \/ length (py_dirname p) < length p.
Proof.
  unfold py_dirname. pose proof (head_rev_len (rev p)) as H1. rewrite rev_length in H1. set (hd := rev (head_rev (rev p))). assert (Hh : length hd = length (head_rev (rev p))) by (unfold hd; apply rev_length).
  assert (E : length hd = length p -> hd = p). { intro E. unfold hd. rewrite head_rev_same by (rewrite rev_length; lia). apply rev_involutive. }
  destruct (forallb is_slash hd); [destruct (Nat.eq_dec (length hd) (length p)); [left; auto|right; lia]|].
  pose proof (rstrip_len is_slash hd). destruct (Nat.eq_dec (length (rstrip is_slash hd)) (length p)) as [E2|]; [|right; lia]. left.
  assert (hd = p) by (apply E; lia). rewrite H0 in *. unfold rstrip in *. rewrite rev_length in E2. rewrite lstrip_same by (rewrite rev_length; lia). apply rev_involutive.
Qed.
Lemma up_fix d n : py_dirname d = d -> up d n = d.
Proof. induction n as [|n IH]; cbn; intro E; [reflexivity|]. rewrite E. auto. Qed.
Lemma search_f_spec fs : listable fs -> forall n (d : str) (prev : option str), length d + 2 <= n -> prev <> Some d ->
  match search_up_f n fs M d prev with Found p => finds fs d p | Nothing => forall p, ~ finds fs d p | _ => False end.
Proof.
  intros HL. induction n as [|n IH]; intros d prev Hn Hp; [lia|]. cbn [search_up_f].
  assert (Ep : match prev with Some q => str_eqb d q | None => false end = false) by (destruct prev as [q|]; [destruct (str_eqb_spec d q); [subst; destruct (Hp eq_refl)|reflexivity]|reflexivity]).
  match goal with |- match (if ?b then _ else _) with _ => _ end => replace b with false by (symmetry; exact Ep) end. clear Ep. cbv beta iota.
  pose proof (try_dirs_spec fs d HL) as T. destruct (try_dirs fs M d lib_dirs false) as [r|[]].
  - destruct r as [p| | |]; try contradiction. exists 0. split; [intros m ld Lm; lia|exact T].
  - destruct T as [[ld T1] T2]. intros p (k & H1 & H2). destruct k as [|k]; [exact (T2 p H2)|]. exact (H1 0 ld ltac:(lia) T1).
  - assert (K : forall p, finds fs d p <-> finds fs (py_dirname d) p).
    { intro p. split.
      - intros (k & H1 & H2). destruct k as [|k].
        + exfalso. destruct H2 as [[H2 _]|[H2 _]]; [apply (T (path_join d (L "lib64")))|apply (T (path_join d (L "lib")))]; split; auto.
        + exists k. split; [intros m ld L; apply (H1 (S m) ld); lia|exact H2].
      - intros (k & H1 & H2). exists (S k). split; [|exact H2]. intros [|m] ld L; [apply T|apply (H1 m ld); lia]. }
    destruct (dirname_shorter d) as [E|E].
    + rewrite E. destruct n as [|n]; [lia|]. cbn [search_up_f]. rewrite str_eqb_refl. intros p (k & _ & H2). rewrite up_fix in H2 by exact E.
      destruct H2 as [[H2 _]|[H2 _]]; [apply (T (path_join d (L "lib64")))|apply (T (path_join d (L "lib")))]; split; auto.
    + specialize (IH (py_dirname d) (Some d) ltac:(lia)). assert (Nd : Some d <> Some (py_dirname d)) by (intro Q; injection Q as Q; rewrite <- Q in E; lia). specialize (IH Nd).
      destruct (search_up_f n fs M (py_dirname d) (Some d)); try exact IH; [apply K; exact IH|intros p Hp2; apply (IH p); apply K; exact Hp2].
Qed.
Lemma search_f_end fs m : forall n (d : str) (prev : option str), length d + 2 <= n -> prev <> Some d -> search_up_f n fs m d prev <> NoEnd.
Proof.
  assert (T : forall d ls h, try_dirs fs m d ls h <> inl NoEnd).
  { intros d ls. induction ls as [|l ls IH]; intro h; cbn; [discriminate|]. destruct (d_isdir _ _); [|apply IH]. destruct (d_list _ _); [|discriminate]. destruct (find m l0); [discriminate|apply IH]. }
  induction n as [|n IH]; intros d prev Hn Hp; [lia|]. cbn [search_up_f].
  destruct (match prev with Some q => str_eqb d q | None => false end); [discriminate|]. pose proof (T d lib_dirs false). destruct (try_dirs fs m d lib_dirs false) as [r|[]]; [congruence|discriminate|].
  destruct (dirname_shorter d) as [E|E].
  - rewrite E. destruct n as [|n]; [lia|]. cbn [search_up_f]. rewrite str_eqb_refl. discriminate.
  - apply IH; [lia|]. intro Q; injection Q as Q; rewrite <- Q in E; lia.
Qed.

(** The search always ends. *)
Theorem C111_ends fs m d : search_up fs m d <> NoEnd.
Proof. unfold search_up. apply search_f_end; [lia|discriminate]. Qed.
Print Assumptions C111_ends.
(** It finds the first library in the nearest directory, from the starting one
    upwards, that has a lib64 or lib directory: lib64 before lib; and nothing if
    that directory has no library. *)
Theorem C111_nearest fs d : listable fs ->
  (exists p, search_up fs M d = Found p /\ finds fs d p) \/ (search_up fs M d = Nothing /\ forall p, ~ finds fs d p).
Proof.
  intro HL. unfold search_up. pose proof (search_f_spec fs HL (length d + 3) d None ltac:(lia) ltac:(discriminate)) as T.
  destruct (search_up_f _ fs M d None); try contradiction; [left; eauto|right; auto].
Qed.
Print Assumptions C111_nearest.
Lemma first_lib_fun fs ld p q : first_lib fs ld p -> first_lib fs ld q -> p = q.
Proof.
  intros H1 H2. pose proof H1 as (ns & _ & _ & _ & E & _). apply (first_lib_iff _ _ _ _ E) in H1, H2. destruct H1 as (f & F1 & ->), H2 as (g & F2 & ->). congruence.
Qed.
Lemma in_lib_dirs_fun fs d p q : in_lib_dirs fs d p -> in_lib_dirs fs d q -> p = q.
Proof.
  intros [[A1 A2]|(A1 & A2 & A3)] [[B1 B2]|(B1 & B2 & B3)]; try (eapply first_lib_fun; eassumption); [destruct (B3 A1 _ A2)|destruct (A3 B1 _ B2)].
Qed.
Lemma in_lib_dirs_dir fs d p : in_lib_dirs fs d p -> exists ld, lib_dir fs d ld.
Proof. intros [[H _]|[H _]]; eexists; split; try exact H; auto. Qed.
(** There is at most one such library. *)
Theorem C111_unique fs d p q : finds fs d p -> finds fs d q -> p = q.
Proof.
  intros (n & A1 & A2) (k & B1 & B2). destruct (lt_eq_lt_dec n k) as [[H|H]|H].
  - destruct (in_lib_dirs_dir _ _ _ A2) as [ld Q]. destruct (B1 _ _ H Q).
  - subst k. eapply in_lib_dirs_fun; eassumption.
  - destruct (in_lib_dirs_dir _ _ _ B2) as [ld Q]. destruct (A1 _ _ H Q).
Qed.
(** What the whole search finds: directories in order, the build directory
    first, then that of the module, then the entries of LD_LIBRARY_PATH. *)
Definition finds_in (fs : dirs) (ds : list str) (p : str) : Prop :=
  exists a d b, ds = a ++ d :: b /\ finds fs d p /\ forall d' q, In d' a -> ~ finds fs d' q.
Lemma search_all_spec fs ds : listable fs ->
  (exists p, search_all fs M ds = Found p /\ finds_in fs ds p) \/ (search_all fs M ds = Nothing /\ forall d p, In d ds -> ~ finds fs d p).
Proof.
  intro HL. induction ds as [|d ds IH]; cbn [search_all]; [right; split; [reflexivity|intros d p []]|].
  destruct (C111_nearest fs d HL) as [(p & E & F)|[E N]]; rewrite E.
  - left. exists p. split; [reflexivity|]. exists [], d, ds. repeat split; auto.
  - destruct IH as [(p & E2 & (a & d2 & b & -> & F & N2))|[E2 N2]]; rewrite E2.
    + left. exists p. split; [reflexivity|]. exists (d :: a), d2, b. repeat split; auto. intros d' q [<-|I]; [apply N|apply N2; exact I].
    + right. split; [reflexivity|]. intros d' p [<-|I]; [apply N|apply N2; exact I].
Qed.
(** Entries of LD_LIBRARY_PATH: the pieces between colons. *)
Lemma split_join c s : py_join c (py_split c s) = s /\ (forall p, In p (py_split c s) -> ~ In c p) /\ py_split c s <> [].
Proof.
  induction s as [|x s (IH1 & IH2 & IH3)]; cbn [py_split].
  - repeat split; [intros p [<-|[]] []|discriminate].
  - destruct (Ascii.eqb_spec x c) as [->|N].
    + repeat split; [|intros p [<-|I]; [intros []|auto]|discriminate]. cbn [py_join]. destruct (py_split c s) eqn:E; [destruct (IH3 eq_refl)|]. cbn [app]. rewrite IH1. reflexivity.
    + destruct (py_split c s) as [|p ps] eqn:E; [destruct (IH3 eq_refl)|]. repeat split; [|intros q [<-|I]; [intros [H|H]; [congruence|exact (IH2 p (or_introl eq_refl) H)]|apply IH2; now right]|discriminate].
      cbn [py_join] in *. destruct ps; cbn [app] in *; rewrite IH1; reflexivity.
Qed.
Lemma found_nonempty fs d p : finds fs d p -> p <> [].
Proof.
  assert (K : forall ld q, first_lib fs ld q -> q <> []).
  { intros ld q (ns & a & f & b & _ & _ & (pre & c & e & r & -> & _) & _ & ->). unfold path_join. destruct (is_abs _); [destruct pre; discriminate|].
    destruct (rev ld); [destruct pre; discriminate|]. destruct (is_slash _); intro Q; apply app_eq_nil in Q; destruct Q as [_ Q]; [destruct pre; discriminate|discriminate]. }
  intros (n & _ & [[_ H]|(_ & H & _)]); eapply K; exact H.
Qed.
(** One call with nothing remembered: what is found, or an error that says why. *)
Theorem C111_find build here env fs : listable fs ->
  (exists ds, py_join ":"%char ds = env /\ (forall d, In d ds -> ~ In ":"%char d) /\ ds <> [] /\
   let all := (if str_eqb build [] then [] else [build]) ++ here :: ds in
   (exists p, find_path build here None (Some env) fs = (Some p, LibPath p) /\ finds_in fs all p /\ p <> []) \/
   (find_path build here None (Some env) fs = (None, LibNotFound) /\ forall d p, In d all -> ~ finds fs d p)) /\
  find_path build here None None fs = (None, LibKeyError).
Proof.
  intro HL. split; [|reflexivity]. exists (py_split ":"%char env). destruct (split_join ":"%char env) as (H1 & H2 & H3). split; [exact H1|]. split; [exact H2|]. split; [exact H3|].
  cbv zeta. assert (E : search_dirs build here env = (if str_eqb build [] then [] else [build]) ++ here :: py_split ":"%char env) by (unfold search_dirs; destruct build; reflexivity).
  rewrite <- E. unfold find_path. destruct (search_all_spec fs (search_dirs build here env) HL) as [(p & F & I)|[F N]]; rewrite F.
  - left. exists p. repeat split; auto. destruct I as (a & d & b & _ & I & _). eapply found_nonempty; exact I.
  - right. auto.
Qed.
Print Assumptions C111_find.
(** Once found, the path is the answer for ever, whatever becomes of the
    environment and the directories; until then every call looks again. *)
Theorem C111_remembered build here worlds : (forall e fs, In (e, fs) worlds -> listable fs) ->
  forall i p, nth_error (find_calls build here None worlds) i = Some (LibPath p) -> (forall j q, j < i -> nth_error (find_calls build here None worlds) j <> Some (LibPath q)) ->
  (forall j, i <= j < length worlds -> nth_error (find_calls build here None worlds) j = Some (LibPath p)) /\
  exists env fs, nth_error worlds i = Some (Some env, fs) /\ finds_in fs ((if str_eqb build [] then [] else [build]) ++ here :: py_split ":"%char env) p.
Proof.
  assert (R : forall (p : str) ws, p <> [] -> find_calls build here (Some p) ws = repeat (LibPath p) (length ws)).
  { intros p ws Np. destruct p as [|x p]; [congruence|]. induction ws as [|[e fs] ws IH]; cbn; [reflexivity|]. f_equal. exact IH. }
  induction worlds as [|[e fs] ws IH]; intros HL i p Hi Hj; [destruct i; discriminate|].
  cbn [find_calls] in *. assert (HF : listable fs) by (apply (HL e); now left). destruct e as [env|].
  - assert (E : search_dirs build here env = (if str_eqb build [] then [] else [build]) ++ here :: py_split ":"%char env) by (unfold search_dirs; destruct build; reflexivity).
    unfold find_path in *. destruct (search_all_spec fs (search_dirs build here env) HF) as [(p' & F & I)|[F N]]; rewrite F in *; cbv beta iota in *.
    + assert (Np : p' <> []) by (destruct I as (a & d & b & _ & I & _); eapply found_nonempty; exact I). rewrite (R p' ws Np) in *.
      assert (i = 0) as -> by (destruct i; [reflexivity|exfalso; apply (Hj 0 p' ltac:(lia)); reflexivity]). injection Hi as <-. split.
      * intros j Lj. destruct j; [reflexivity|]. cbn [nth_error length] in *. apply nth_error_repeat. lia.
      * exists env, fs. rewrite <- E. auto.
    + destruct i as [|i]; [discriminate|]. cbn [nth_error] in Hi. destruct (IH (fun e' f' I => HL e' f' (or_intror I)) i p Hi) as [K1 K2]; [intros j q L Q; apply (Hj (S j) q); [lia|exact Q]|].
      split; [intros [|j] L; [lia|apply K1; cbn [length] in L; lia]|exact K2].
  - cbn [find_path] in *. destruct i as [|i]; [discriminate|]. cbn [nth_error] in Hi. destruct (IH (fun e' f' I => HL e' f' (or_intror I)) i p Hi) as [K1 K2]; [intros j q L Q; apply (Hj (S j) q); [lia|exact Q]|].
    split; [intros [|j] L; [lia|apply K1; cbn [length] in L; lia]|exact K2].
Qed.
Print Assumptions C111_remembered.

(** ---- what it is not ---- *)
Definition tree (l : list (str * list str)) : dirs :=
  mkDirs (fun d => existsb (fun e => str_eqb d (fst e)) l) (fun d => option_map snd (find (fun e => str_eqb d (fst e)) l)).
Lemma tree_listable l : listable (tree l).
Proof.
  intros d. cbn. induction l as [|[k v] l IH]; cbn; [discriminate|]. destruct (str_eqb d k); [discriminate|exact IH].
Qed.
(** "Each directory above until we hit root": a lib directory without the
    library ends the search below one that has it. *)
Theorem C111_every_directory_refuted : exists fs d k p, listable fs /\ first_lib fs (path_join (up d k) (L "lib")) p /\ d_isdir fs (path_join (up d k) (L "lib")) = true /\ search_up fs M d = Nothing.
Proof.
  exists (tree [(L "/opt/v/lib", []); (L "/opt/lib", [L "libvital_c.so"])]), (L "/opt/v"), 1, (L "/opt/lib/libvital_c.so"). split; [apply tree_listable|]. split; [|split; vm_compute; reflexivity].
  exists [L "libvital_c.so"], [], (L "libvital_c.so"), []. repeat split; auto.
  exists (L "lib"), "."%char, (L "so"), []. repeat split; auto; [discriminate|now left].
Qed.
Print Assumptions C111_every_directory_refuted.
(** Without LD_LIBRARY_PATH nothing is found, whatever the build directory has. *)
Theorem C111_unset_refuted : exists fs build here p, listable fs /\ finds fs build p /\ find_path build here None None fs = (None, LibKeyError) /\ find_path build here None (Some []) fs = (Some p, LibPath p).
Proof.
  exists (tree [(L "/b/lib", [L "libvital_c.so"])]), (L "/b"), (L "/m"), (L "/b/lib/libvital_c.so"). split; [apply tree_listable|]. split; [|split; vm_compute; reflexivity].
  exists 0. split; [intros m ld H; lia|]. right. split; [reflexivity|]. split; [|intro H; vm_compute in H; discriminate].
  exists [L "libvital_c.so"], [], (L "libvital_c.so"), []. repeat split; auto. exists (L "lib"), "."%char, (L "so"), []; repeat split; auto; [discriminate|now left].
Qed.
Print Assumptions C111_unset_refuted.
(** An empty entry (an empty LD_LIBRARY_PATH, or a colon at its end) or any
    relative one has the library taken from below the current directory. *)
Theorem C111_current_directory_refuted : exists fs here, find_path [] here None (Some (L "/usr/x:")) fs = (Some (L "lib/vital_c-so"), LibPath (L "lib/vital_c-so")) /\ listable fs.
Proof. exists (tree [(L "lib", [L "vital_c-so"])]), (L "/m/vital/util"). split; [vm_compute; reflexivity|apply tree_listable]. Qed.
Print Assumptions C111_current_directory_refuted.
Example C111_nonvacuous : let fs := tree [(L "/opt/v/lib64", [L "readme"]); (L "/opt/v/lib", [L "x"; L "libvital_c.so.1"; L "vital_c.dll"])] in
  listable fs /\ search_up fs M (L "/opt/v/python/vital/util") = Found (L "/opt/v/lib/libvital_c.so.1").
Proof. split; [apply tree_listable|vm_compute; reflexivity]. Qed.
