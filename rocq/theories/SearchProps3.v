(** SearchProps3.v -- C126 (the end of LocateFileInDir) and C127 (SplitProgramFromArgs). *)
From Verif Require Import Base ConfigModel PathModel PathSpec PathProofs PathProps PathProps2 PathProps3 SearchModel SearchSpec SearchProps SearchProps2.

(** ---- LocateFileInDir always ends, if no home directory starts with "~" ---- *)
Definition tilde (s : str) : Prop := exists r, s = "~"%char :: r.
Definition no_tilde_homes (e : penv) : Prop := (forall h, e_home e = Some h -> ~ tilde h) /\ (forall u h, e_pw e u = Some h -> ~ tilde h).
Lemma conv_length s : length (conv_slashes s) = length s.
Proof. induction s as [|c s IH]; [reflexivity|]. cbn [conv_slashes length]. rewrite IH. reflexivity. Qed.
Lemma conv_tilde s : tilde (conv_slashes s) -> tilde s.
Proof.
  intros (r & H). destruct s as [|c s]; [discriminate|]. cbn [conv_slashes] in H. injection H as H _. destruct ((Ascii.eqb c backslash && _)%bool); [discriminate|]. subst c. exists s. reflexivity.
Qed.
Lemma replaced_small s r : replaced [slash; slash] [slash] s r -> length r <= length s /\ (tilde r -> tilde s).
Proof.
  induction 1 as [s H|a b r H R (IH1 & IH2)]; [auto|]. rewrite !app_length. cbn [length]. split; [lia|]. intros (t & E). destruct a as [|c a]; [discriminate|]. cbn in E. injection E as -> _. eexists. reflexivity.
Qed.
Lemma strip_small p : length (strip_trailing p) <= length p /\ (forall c r, strip_trailing p = c :: r -> exists r', p = c :: r').
Proof.
  destruct (strip_spec p) as [E|E].
  - rewrite E. split; [auto|eauto].
  - split; [rewrite E at 2; rewrite app_length; lia|]. intros c r H. rewrite H in E. rewrite E. eexists. reflexivity.
Qed.
Lemma expand_cases e p : expand_tilde e p = p \/ (tilde p /\ exists h rest, expand_tilde e p = h ++ rest /\ ((e_home e = Some h) \/ exists u, e_pw e u = Some h) /\ (rest = [] \/ exists t, rest = slash :: t)).
Proof.
  destruct p as [|c p]; [auto|]. cbn [expand_tilde]. destruct (Ascii.eqb c "~") eqn:C; [|auto]. apply Ascii.eqb_eq in C. subst c.
  assert (T : tilde ("~"%char :: p)) by (exists p; reflexivity). destruct p as [|d p].
  - destruct (e_home e) as [h|] eqn:H; [|auto]. right. split; [auto|]. exists h, []. auto.
  - destruct (Ascii.eqb d slash) eqn:D.
    + destruct (e_home e) as [h|] eqn:H; [|auto]. right. split; [auto|]. apply Ascii.eqb_eq in D. subst d. exists h, (slash :: p). eauto 6.
    + destruct (e_pw e _) as [h|] eqn:H; [|auto]. right. split; [auto|]. eexists h, _. split; [reflexivity|]. split; [eauto|].
      clear H T D. set (l := d :: p). clearbody l. clear. induction l as [|x l IH]; [auto|]. cbn [drop_while]. destruct (Ascii.eqb x slash) eqn:X; cbn [negb]; [|exact IH]. apply Ascii.eqb_eq in X. subst x. eauto.
Qed.
Lemma convert_small e p q : no_tilde_homes e -> convert_to_unix_slashes e p = Some q ->
  (length q <= length p /\ (tilde q -> tilde p)) \/ (tilde p /\ ~ tilde q).
Proof.
  intros (NH & NP) H. destruct (C84_exact e p) as (m & M & E). rewrite E in H. injection H as H.
  assert (S1 : length m <= length p /\ (tilde m -> tilde p)).
  { destruct (has_double_slash p); [apply replaced_small in M as (A & B); rewrite conv_length in A; split; [exact A|]; intro; apply conv_tilde; auto|]. subst m. rewrite conv_length. split; [auto|apply conv_tilde]. }
  destruct S1 as (S1 & S2). destruct m as [|c m].
  - subst q. left. split; [cbn; lia|]. intros (r & K). discriminate.
  - destruct (strip_small (expand_tilde e (c :: m))) as (S3 & S4). rewrite H in S3, S4. destruct (expand_cases e (c :: m)) as [X|(T & h & rest & X & O & R)].
    + rewrite X in S3, S4. left. split; [exact (Nat.le_trans _ _ _ S3 S1)|]. intros (r & K). destruct (S4 _ _ K) as (r' & K'). apply S2. exists r'. exact K'.
    + right. split; [auto|]. intros (r & K). destruct (S4 _ _ K) as (r' & K'). rewrite X in K'. destruct h as [|x h].
      * destruct R as [->|(t & ->)]; discriminate.
      * injection K' as -> _. destruct O as [O|(u & O)]; [apply (NH _ O)|apply (NP _ _ O)]; eexists; reflexivity.
Qed.
Lemma gfp_small e p fd : no_tilde_homes e -> get_filename_path e p = Some fd -> get_filename_name fd <> [] ->
  (length fd < length p /\ (tilde fd -> tilde p)) \/ (tilde p /\ ~ tilde fd).
Proof.
  intros H G N. unfold get_filename_path in G. destruct (convert_to_unix_slashes e p) as [q|] eqn:C; [|discriminate].
  destruct (rsplit slash q) as [(a, b)|] eqn:R; [|injection G as <-; cbn in N; congruence].
  destruct (rsplit_some _ _ _ _ R) as (-> & NB).
  destruct (((length a =? 2) && Ascii.eqb (nth 1 a " "%char) ":")%bool) eqn:D.
  { exfalso. injection G as <-. apply N. unfold get_filename_name. rewrite (rsplit_app slash a []) by (intros []). reflexivity. }
  destruct a as [|c a]; [injection G as <-; exfalso; apply N; reflexivity|]. injection G as <-.
  destruct (convert_small e p _ H C) as [(Le & T)|(T & NT)].
  - left. rewrite app_length in Le. cbn [length] in *. split; [lia|]. intros (r & K). apply T. injection K as -> _. eexists. reflexivity.
  - right. split; [auto|]. intros (r & K). apply NT. injection K as -> _. eexists. reflexivity.
Qed.
Lemma loop_ends e base dir : no_tilde_homes e -> forall n fd bases, ~ tilde fd -> length fd <= n -> exists r, forall fuel, n < fuel -> locate_loop fuel e base dir fd bases = Some r.
Proof.
  intro H. induction n as [|n IH]; intros fd bases T Ln.
  - destruct fd; [|cbn in Ln; lia]. exists None. intros [|fuel] Hf; [lia|]. reflexivity.
  - destruct (gfp_some e fd) as (fd1 & G). destruct (get_filename_name fd1) as [|c b] eqn:N.
    + exists None. intros [|fuel] Hf; [lia|]. cbn [locate_loop]. rewrite G, N. reflexivity.
    + assert (S1 : length fd1 < length fd /\ (tilde fd1 -> tilde fd)). { destruct (gfp_small e fd fd1 H G) as [K|(K & _)]; [rewrite N; discriminate|auto|tauto]. }
      destruct S1 as (S1 & S2). set (bases1 := (c :: b) ++ [slash] ++ bases). destruct (IH fd1 bases1) as (r & R); [tauto|lia|].
      destruct (real_dir_looks e (dir ++ sep_after dir ++ bases1)) as (d & RD & _).
      remember (locate0 e base (dir ++ sep_after dir ++ bases1)) as l0 eqn:E0. assert (L0 : exists o, l0 = Some o). { subst l0. unfold locate0. rewrite RD. match goal with |- context [if ?c then _ else _] => destruct c end; eauto. }
      destruct L0 as (o & ->). exists (match o with Some f => Some f | None => r end). intros [|fuel] Hf; [lia|]. cbn [locate_loop]. rewrite G, N. fold bases1. rewrite <- E0. destruct o; [reflexivity|]. apply R. lia.
Qed.
Theorem C126_locate_ends e filename dir try_dirs : no_tilde_homes e -> exists r n, forall fuel, n < fuel -> locate_file_in_dir fuel e filename dir try_dirs = Some r.
Proof.
  intro H. destruct filename as [f|], dir as [dir|]; try (exists None, 0; reflexivity).
  unfold locate_file_in_dir. destruct (real_dir_looks e dir) as (d & -> & _). destruct (nonempty (get_filename_name f)); [|exists None, 0; auto].
  destruct (e_exists e _); [eexists _, 0; intros; reflexivity|]. destruct try_dirs; [|exists None, 0; auto].
  assert (D : forall bases, exists r n, forall fuel, n < fuel -> locate_loop fuel e (get_filename_name f) d f bases = Some r).
  { remember (length f) as k eqn:K. assert (K' : length f <= k) by lia. clear K. revert f K'. induction k as [k IH] using lt_wf_ind. intros f K bases.
    set (nm := get_filename_name f). clearbody nm. revert bases.
    assert (G : forall k f, length f <= k -> forall bases, exists r n, forall fuel, n < fuel -> locate_loop fuel e nm d f bases = Some r).
    { clear IH K k f. intro k. induction k as [|k IH]; intros f K bases.
      - destruct (loop_ends e nm d H 0 f bases) as (r & R); [intros (x & ->); cbn in K; lia|lia|eauto].
      - destruct (gfp_some e f) as (fd1 & G). destruct (get_filename_name fd1) as [|c b] eqn:N.
        + exists None, 0. intros [|fuel] Hf; [lia|]. cbn [locate_loop]. rewrite G, N. reflexivity.
        + set (bases1 := (c :: b) ++ [slash] ++ bases).
          assert (X : exists r n, forall fuel, n < fuel -> locate_loop fuel e nm d fd1 bases1 = Some r).
          { destruct (gfp_small e f fd1 H G) as [(S1 & _)|(_ & S2)]; [rewrite N; discriminate|apply IH; lia|]. destruct (loop_ends e nm d H (length fd1) fd1 bases1 S2 (le_n _)) as (r & R). eauto. }
          destruct X as (r & n & R).
          destruct (real_dir_looks e (d ++ sep_after d ++ bases1)) as (d0 & RD & _).
          remember (locate0 e nm (d ++ sep_after d ++ bases1)) as l0 eqn:E0. assert (L0 : exists o, l0 = Some o). { subst l0. unfold locate0. rewrite RD. match goal with |- context [if ?c then _ else _] => destruct c end; eauto. }
          destruct L0 as (o & ->). exists (match o with Some f => Some f | None => r end), (S n). intros [|fuel] Hf; [lia|]. cbn [locate_loop]. rewrite G, N. fold bases1. rewrite <- E0. destruct o; [reflexivity|]. apply R. lia. }
    eauto. }
  apply D.
Qed.
(** With HOME=~/x the loop never ends: every step up is undone by the expansion. *)
Theorem C126_locate_home_refuted : exists e, forall fuel, locate_file_in_dir fuel e (Some (L "~/x/x/f")) (Some (L "/d")) true = None.
Proof.
  exists (mkPenv (Some (L "~/x")) (fun _ => None) None (fun _ => None) (fun _ => false) (fun _ => true) []).
  set (e := mkPenv _ _ _ _ _ _ _).
  assert (L1 : forall base dir, locate0 e base dir = Some None). { intros base dir. unfold locate0, real_dir. cbn. rewrite andb_comm. reflexivity. }
  assert (St : forall n base dir bases, locate_loop n e base dir (L "~/x/x/x") bases = None).
  { induction n as [|n IH]; intros base dir bases; [reflexivity|].
    change (locate_loop (S n) e base dir (L "~/x/x/x") bases) with
      (match locate0 e base (dir ++ sep_after dir ++ (L "x" ++ [slash] ++ bases)) with None => None | Some (Some f) => Some (Some f) | Some None => locate_loop n e base dir (L "~/x/x/x") (L "x" ++ [slash] ++ bases) end).
    rewrite L1. apply IH. }
  intro fuel. change (locate_file_in_dir fuel e (Some (L "~/x/x/f")) (Some (L "/d")) true) with (locate_loop fuel e (L "f") (L "/d") (L "~/x/x/f") []).
  destruct fuel as [|n]; [reflexivity|].
  change (locate_loop (S n) e (L "f") (L "/d") (L "~/x/x/f") []) with
      (match locate0 e (L "f") (L "/d" ++ sep_after (L "/d") ++ (L "x" ++ [slash] ++ [])) with None => None | Some (Some f) => Some (Some f) | Some None => locate_loop n e (L "f") (L "/d") (L "~/x/x/x") (L "x" ++ [slash] ++ []) end).
  rewrite L1. apply St.
Qed.

(** ---------------------------------------------------------------- C127 *)
Lemma rfind_space_spec s pos : match rfind_space s pos with
  | Some i => i <= pos /\ i < length s /\ nth i s "000"%char = " "%char /\ forall j, i < j <= pos -> j < length s -> nth j s "000"%char <> " "%char
  | None => forall j, j <= pos -> j < length s -> nth j s "000"%char <> " "%char
  end.
Proof.
  induction pos as [|pos IH]; cbn [rfind_space]; destruct ((Ascii.eqb (nth _ s "000"%char) " " && _)%bool) eqn:E.
  - apply andb_prop in E as (E1 & E2). apply Ascii.eqb_eq in E1. apply Nat.ltb_lt in E2. repeat split; auto. intros j K. lia.
  - intros j Hj Hl K. replace j with 0 in * by lia. rewrite K in E. apply Nat.ltb_lt in Hl. rewrite Hl in E. discriminate.
  - apply andb_prop in E as (E1 & E2). apply Ascii.eqb_eq in E1. apply Nat.ltb_lt in E2. repeat split; auto. intros j K. lia.
  - assert (X : S pos < length s -> nth (S pos) s "000"%char <> " "%char). { intros Hl K. rewrite K in E. apply Nat.ltb_lt in Hl. rewrite Hl in E. discriminate. }
    destruct (rfind_space s pos) as [i|].
    + destruct IH as (A & B & C & D). repeat split; auto. intros j K Hl. destruct (Nat.eq_dec j (S pos)) as [->|]; [auto|]. apply D; lia.
    + intros j Hj Hl. destruct (Nat.eq_dec j (S pos)) as [->|]; [auto|]. apply IH; lia.
Qed.
(** A place where the text can be split: before a blank. *)
Definition cut_at (s : str) (i : nat) : Prop := i < length s /\ nth i s "000"%char = " "%char.
Lemma cut_split s i : cut_at s i -> s = firstn i s ++ " "%char :: skipn (S i) s /\ length (firstn i s) = i /\ skipn i s = " "%char :: skipn (S i) s.
Proof.
  intros (H & E). assert (K : skipn i s = " "%char :: skipn (S i) s). { revert i H E. induction s as [|c s IH]; intros [|i] H E; cbn in H; [lia|lia| |]. - cbn in E. subst c. reflexivity. - cbn [skipn]. apply IH; [lia|exact E]. }
  split; [|split; [apply firstn_length_le; lia|exact K]]. rewrite <- K. symmetry. apply firstn_skipn.
Qed.
Lemma split_cut (p r : str) : cut_at (p ++ " "%char :: r) (length p) /\ firstn (length p) (p ++ " "%char :: r) = p.
Proof.
  split; [split|].
  - rewrite app_length. cbn. lia.
  - rewrite app_nth2, Nat.sub_diag by lia. reflexivity.
  - rewrite firstn_app, Nat.sub_diag, firstn_all. apply app_nil_r.
Qed.
Lemma rfind_at_none s : match rfind_at s None with Some i => cut_at s i /\ forall j, cut_at s j -> j <= i | None => forall j, ~ cut_at s j end.
Proof.
  unfold rfind_at. destruct s as [|c s]; [intros j (K & _); cbn in K; lia|]. set (t := c :: s). pose proof (rfind_space_spec t (length t - 1)) as H. destruct (rfind_space t _) as [i|].
  - destruct H as (A & B & C & D). split; [split; auto|]. intros j (J & K). destruct (le_lt_dec j i); [auto|]. exfalso. apply (D j); auto. lia.
  - intros j (J & K). apply (H j); auto. lia.
Qed.
Lemma rfind_at_some s p : p < length s -> match rfind_at s (Some p) with Some i => cut_at s i /\ i <= p /\ forall j, cut_at s j -> j <= p -> j <= i | None => forall j, j <= p -> ~ cut_at s j end.
Proof.
  intro P. unfold rfind_at. destruct s as [|c s]; [cbn in P; lia|]. set (t := c :: s) in *. replace (Nat.min p (length t - 1)) with p by lia. pose proof (rfind_space_spec t p) as H. destruct (rfind_space t p) as [i|].
  - destruct H as (A & B & C & D). split; [split; auto|]. split; [auto|]. intros j (J & K) Jp. destruct (le_lt_dec j i); [auto|]. exfalso. apply (D j); auto.
  - intros j Jp (J & K). apply (H j); auto.
Qed.
Lemma strip_blanks_spec p : forall n, length p <= n -> (exists q, trimmed p q /\ strip_blanks n p = Ok q) \/ (p = repeat " "%char (length p) /\ strip_blanks n p = UB).
Proof.
  induction p as [|c p IH] using rev_ind; intros n Hn.
  - right. destruct n; auto.
  - assert (U : strip_blanks n (p ++ [c]) = if Ascii.eqb c " " then match n with O => NoFuel | S n => strip_blanks n p end else Ok (p ++ [c])).
    { destruct n; cbn [strip_blanks]; rewrite last_last, ?removelast_last; destruct (p ++ [c]) eqn:E; try reflexivity; apply (f_equal (@length ascii)) in E; rewrite app_length in E; cbn in E; lia. }
    rewrite U. rewrite app_length in Hn. cbn in Hn. destruct (Ascii.eqb c " ") eqn:C.
    + apply Ascii.eqb_eq in C. subst c. destruct n as [|n]; [lia|]. destruct (IH n ltac:(lia)) as [(q & (k & E & Q) & S1)|(E & S1)].
      * left. exists q. split; [|auto]. exists (S k). split; [|auto]. rewrite E at 1. rewrite <- app_assoc. f_equal. clear. induction k; cbn; [auto|]. cbn in IHk. rewrite IHk. reflexivity.
      * right. split; [|auto]. rewrite app_length. rewrite E at 1. clear. generalize (length p) as k. induction k as [|k IHk]; cbn; [auto|]. cbn in IHk. rewrite IHk. reflexivity.
    + left. exists (p ++ [c]). split; [|auto]. exists 0. cbn. rewrite app_nil_r, last_last. split; [auto|]. split; [destruct p; discriminate|]. intros ->. discriminate.
Qed.
(** What the program text is for a known prefix: the prefix itself if it is a
    file, else what FindProgram gives. *)
Definition program_for (ex : str -> bool) (fp : str -> str) (p : str) : str := if ex p then p else fp p.
Definition peeled (ex : str -> bool) (fp : str -> str) (path : str) (r : res (str * str)) : Prop :=
  exists p rest, path = p ++ L " " ++ rest /\ known ex fp p /\
    (forall p' rest', path = p' ++ L " " ++ rest' -> length p < length p' -> ~ known ex fp p') /\
    ((exists q, trimmed (program_for ex fp p) q /\ r = Ok (q, L " " ++ rest)) \/
     ((forall c, In c (program_for ex fp p) -> c = " "%char) /\ r = UB)).
Lemma known_dec ex fp p : {known ex fp p} + {~ known ex fp p}.
Proof. unfold known. destruct (ex p); [auto|]. destruct (fp p); [right; intros [|]; congruence|left; right; discriminate]. Qed.
Lemma all_blank p : p = repeat " "%char (length p) -> forall c, In c p -> c = " "%char.
Proof. intros E c I. rewrite E in I. eapply repeat_spec. exact I. Qed.
Lemma peel_known ex fp path n pos : cut_at path pos -> (forall j, cut_at path j -> pos < j -> ~ known ex fp (firstn j path)) -> known ex fp (firstn pos path) ->
  peeled ex fp path (peel (S n) ex fp path (Some pos)).
Proof.
  intros C M K. destruct (cut_split _ _ C) as (E & Ln & Sk). exists (firstn pos path), (skipn (S pos) path). split; [exact E|]. split; [exact K|]. split.
  { intros p' r' E' Lp. rewrite Ln in Lp. destruct (split_cut p' r') as (C' & F'). change (p' ++ " "%char :: r') with (p' ++ L " " ++ r') in C', F'. rewrite <- E' in C', F'. rewrite <- F'. apply M; auto. }
  assert (P : peel (S n) ex fp path (Some pos) = rbind (strip_blanks (length (program_for ex fp (firstn pos path))) (program_for ex fp (firstn pos path))) (fun p => Ok (p, skipn pos path))).
  { unfold program_for. cbn [peel]. destruct (ex (firstn pos path)) eqn:X; [reflexivity|]. destruct K as [K|K]; [congruence|]. destruct (fp (firstn pos path)); [congruence|reflexivity]. }
  rewrite P, Sk. destruct (strip_blanks_spec (program_for ex fp (firstn pos path)) _ (le_n _)) as [(q & T & ->)|(B & ->)]; cbn [rbind].
  - left. exists q. auto.
  - right. split; [apply all_blank; exact B|reflexivity].
Qed.
Lemma peel_step ex fp path n pos : ~ known ex fp (firstn pos path) -> peel (S n) ex fp path (Some pos) = peel n ex fp path (rfind_at path (match pos with O => None | S p => Some p end)).
Proof. intro K. cbn [peel]. destruct (ex (firstn pos path)) eqn:X; [exfalso; apply K; left; auto|]. destruct (fp (firstn pos path)) eqn:F; [reflexivity|]. exfalso. apply K. right. rewrite F. discriminate. Qed.
Lemma peel_known_loop ex fp path i : cut_at path i -> known ex fp (firstn i path) -> forall pos n, pos < n -> cut_at path pos -> i <= pos ->
  (forall j, cut_at path j -> pos < j -> ~ known ex fp (firstn j path)) -> peeled ex fp path (peel n ex fp path (Some pos)).
Proof.
  intros Ci Ki pos. induction pos as [pos IH] using lt_wf_ind. intros n Hn C Ip M. destruct n as [|n]; [lia|]. destruct (known_dec ex fp (firstn pos path)) as [K|K]; [apply peel_known; auto|].
  rewrite peel_step by auto. assert (i < pos). { destruct (Nat.eq_dec i pos); [subst; tauto|lia]. } destruct pos as [|p]; [lia|].
  pose proof (rfind_at_some path p ltac:(destruct C; lia)) as R. destruct (rfind_at path (Some p)) as [m|]; [|exfalso; apply (R i); auto; lia].
  destruct R as (Cm & Mp & R). apply IH; auto; try lia. - apply R; auto; lia. - intros j Cj Mj. destruct (le_lt_dec j p) as [Jp|Jp]; [specialize (R j Cj Jp); lia|]. destruct (Nat.eq_dec j (S p)) as [->|]; [exact K|apply M; auto; lia].
Qed.
Lemma peel_unknown ex fp path : (forall j, cut_at path j -> ~ known ex fp (firstn j path)) -> nth 0 path "000"%char <> " "%char -> forall pos n, pos < n -> cut_at path pos -> peel n ex fp path (Some pos) = Ok ([], []).
Proof.
  intros U H pos. induction pos as [pos IH] using lt_wf_ind. intros n Hn C. destruct n as [|n]; [lia|]. rewrite peel_step by (apply U; auto). destruct pos as [|p]; [destruct C; tauto|].
  pose proof (rfind_at_some path p ltac:(destruct C; lia)) as R. destruct (rfind_at path (Some p)) as [m|]; [|destruct n; reflexivity]. destruct R as (Cm & Mp & R). apply IH; auto; lia.
Qed.
Lemma peel_forever ex fp path : (forall j, cut_at path j -> ~ known ex fp (firstn j path)) -> nth 0 path "000"%char = " "%char -> forall n pos, cut_at path pos -> peel n ex fp path (Some pos) = NoFuel.
Proof.
  intros U H n. induction n as [|n IH]; intros pos C; [reflexivity|]. rewrite peel_step by (apply U; auto).
  assert (C0 : cut_at path 0) by (split; auto; destruct C; lia). destruct pos as [|p].
  - pose proof (rfind_at_none path) as R. destruct (rfind_at path None) as [m|]; [apply IH; tauto|]. exfalso. exact (R 0 C0).
  - pose proof (rfind_at_some path p ltac:(destruct C; lia)) as R. destruct (rfind_at path (Some p)) as [m|]; [apply IH; tauto|]. exfalso. apply (R 0); [lia|exact C0].
Qed.

(** The whole text, if it is a program; *)
Theorem C127_whole fuel ex fp path : known ex fp path -> split_program_from_args fuel ex fp path = Ok (program_for ex fp path, []).
Proof. intro K. unfold split_program_from_args, program_for. destruct (ex path) eqn:X; [reflexivity|]. destruct K as [K|K]; [congruence|]. destruct (fp path); [congruence|reflexivity]. Qed.
(** else the longest known prefix that ends before a blank; the arguments keep
    their leading blank, the program loses its trailing ones (a program of
    blanks only: undefined); *)
Theorem C127_longest ex fp path : ~ known ex fp path -> (exists p rest, path = p ++ L " " ++ rest /\ known ex fp p) ->
  forall fuel, length path < fuel -> peeled ex fp path (split_program_from_args fuel ex fp path).
Proof.
  intros NK (p & rest & E & K) fuel Hf. unfold split_program_from_args. destruct (ex path) eqn:X; [exfalso; apply NK; left; auto|]. destruct (fp path) eqn:F; [|exfalso; apply NK; right; rewrite F; discriminate].
  destruct (split_cut p rest) as (C & Fp). change (p ++ " "%char :: rest) with (p ++ L " " ++ rest) in C, Fp. rewrite <- E in C, Fp.
  pose proof (rfind_at_none path) as R. destruct (rfind_at path None) as [m|]; [|exfalso; exact (R _ C)]. destruct R as (Cm & R).
  apply (peel_known_loop ex fp path (length p)); auto; [rewrite Fp; auto|destruct Cm; lia|]. intros j Cj Mj. specialize (R j Cj). lia.
Qed.
(** else nothing, provided the text does not start with a blank; *)
Theorem C127_nothing ex fp path : ~ known ex fp path -> (forall p rest, path = p ++ L " " ++ rest -> ~ known ex fp p) -> (forall r, path <> L " " ++ r) ->
  forall fuel, length path < fuel -> split_program_from_args fuel ex fp path = Ok ([], []).
Proof.
  intros NK U H fuel Hf. unfold split_program_from_args. destruct (ex path) eqn:X; [exfalso; apply NK; left; auto|]. destruct (fp path) eqn:F; [|exfalso; apply NK; right; rewrite F; discriminate].
  pose proof (rfind_at_none path) as R. destruct (rfind_at path None) as [m|]; [|destruct fuel; reflexivity]. destruct R as (Cm & R). apply peel_unknown; auto.
  - intros j Cj. destruct (cut_split _ _ Cj) as (E & _). apply (U _ _ E).
  - intro K. destruct path as [|c s]; [discriminate|]. cbn in K. subst c. apply (H s). reflexivity.
  - destruct Cm; lia.
Qed.
(** and if it does, the search never ends. *)
Theorem C127_forever_refuted ex fp path r : path = L " " ++ r -> ~ known ex fp path -> (forall p rest, path = p ++ L " " ++ rest -> ~ known ex fp p) ->
  forall fuel, split_program_from_args fuel ex fp path = NoFuel.
Proof.
  intros E NK U fuel. unfold split_program_from_args. destruct (ex path) eqn:X; [exfalso; apply NK; left; auto|]. destruct (fp path) eqn:F; [|exfalso; apply NK; right; rewrite F; discriminate].
  assert (C0 : cut_at path 0) by (subst path; split; [change (0 < S (length r)); apply Nat.lt_0_succ|reflexivity]).
  pose proof (rfind_at_none path) as R. destruct (rfind_at path None) as [m|]; [|exfalso; exact (R _ C0)]. apply peel_forever; [|subst path; reflexivity|apply R].
  intros j Cj. destruct (cut_split _ _ Cj) as (E' & _). apply (U _ _ E').
Qed.
(** A file whose name ends with a blank: the program returned is another one. *)
Theorem C127_program_exists_refuted : exists ex fp path prog args, split_program_from_args 20 ex fp path = Ok (prog, args) /\ ex prog = false /\ fp prog = [].
Proof. exists (str_eqb (L "tool ")), (fun _ => []), (L "tool  -v"), (L "tool"), (L " -v"). vm_compute. auto. Qed.
Example C127_nonvacuous : split_program_from_args 30 (str_eqb (L "/opt/my prog")) (fun s => if str_eqb s (L "ls") then L "/bin/ls" else []) (L "/opt/my prog -a b") = Ok (L "/opt/my prog", L " -a b") /\
  split_program_from_args 30 (fun _ => false) (fun s => if str_eqb s (L "ls") then L "/bin/ls" else []) (L "ls -a  b") = Ok (L "/bin/ls", L " -a  b") /\
  split_program_from_args 30 (fun _ => false) (fun s => []) (L "ls -a") = Ok ([], []) /\
  split_program_from_args 30 (fun _ => false) (fun s => []) (L " ls -a") = NoFuel /\
  split_program_from_args 30 (str_eqb (L " ")) (fun s => []) (L "  x") = UB.
Proof. vm_compute. auto 6. Qed.

Print Assumptions C126_find_program.
Print Assumptions C126_found.
Print Assumptions C126_not_found.
Print Assumptions C126_names.
Print Assumptions C126_find_library.
Print Assumptions C126_split_program.
Print Assumptions C126_program_path.
Print Assumptions C126_program_path_null.
Print Assumptions C126_locate.
Print Assumptions C126_locate_dirs.
Print Assumptions C126_locate_ends.
Print Assumptions C126_locate_home_refuted.
Print Assumptions C127_whole.
Print Assumptions C127_longest.
Print Assumptions C127_nothing.
Print Assumptions C127_forever_refuted.
Print Assumptions C127_program_exists_refuted.
