From Verif Require Import Base ConfigModel ConfigSpec ConfigProofs ExpandModel ExpandSpec ExpandProofs ParserModel ParserSpec.

(** ---- lines ---- *)
Lemma cut_comment_spec s : exists r, s = cut_comment s ++ r /\ ~ In "#"%char (cut_comment s) /\
  (r = [] \/ exists b, r = L "#" ++ b).
Proof.
  exists (drop_while (fun c => negb (Ascii.eqb c "#")) s). split; [symmetry; apply take_drop_while|]. split.
  - intro H. pose proof (take_while_forall (fun c => negb (Ascii.eqb c "#")) s) as F.
    rewrite forallb_forall in F. specialize (F _ H). discriminate.
  - destruct (drop_while _ s) as [|c r] eqn:E; auto. right. apply drop_while_head in E.
    destruct (Ascii.eqb_spec c "#"); [|discriminate]. subst. exists r. reflexivity.
Qed.
Lemma cut_comment_app a b : ~ In "#"%char a -> cut_comment (a ++ L "#" ++ b) = a.
Proof.
  intro H. unfold cut_comment. rewrite take_while_app.
  - change (L "#") with ["#"%char]. cbn. apply app_nil_r.
  - apply forallb_forall. intros x Hx. destruct (Ascii.eqb_spec x "#"); auto. congruence.
Qed.
Lemma cut_comment_id a : ~ In "#"%char a -> cut_comment a = a.
Proof.
  intro H. unfold cut_comment. apply take_while_all.
  apply forallb_forall. intros x Hx. destruct (Ascii.eqb_spec x "#"); auto. congruence.
Qed.
Lemma existsb_hash s : existsb (fun c => Ascii.eqb c "#") s = true <-> In "#"%char s.
Proof.
  rewrite existsb_exists. split.
  - intros (x & Hx & E). apply Ascii.eqb_eq in E. congruence.
  - intro H. exists "#"%char. auto.
Qed.

Lemma trim_app_space_l a s : forallb is_space a = true -> trim (a ++ s) = trim s.
Proof.
  intro H. symmetry. apply is_trim_unique. destruct (trim_is_trim s) as (x & y & E & Hx & Hy & H1 & H2).
  exists (a ++ x), y. rewrite E at 1. rewrite !app_assoc. split; auto. split; auto.
  intros c Hc. apply in_app_or in Hc as [Hc|Hc]; auto. rewrite forallb_forall in H. auto.
Qed.
Lemma trim_app_space_r a s : forallb is_space a = true -> trim (s ++ a) = trim s.
Proof.
  intro H. symmetry. apply is_trim_unique. destruct (trim_is_trim s) as (x & y & E & Hx & Hy & H1 & H2).
  exists x, (y ++ a). rewrite E at 1. rewrite <- !app_assoc. split; auto. split; auto. split; auto.
  intros c Hc. apply in_app_or in Hc as [Hc|Hc]; auto. rewrite forallb_forall in H. auto.
Qed.
Lemma trim_decomp s : exists a b, s = a ++ trim s ++ b /\ forallb is_space a = true /\ forallb is_space b = true.
Proof.
  destruct (trim_is_trim s) as (a & b & E & Ha & Hb & _). exists a, b. split; auto.
  split; apply forallb_forall; auto.
Qed.
Lemma is_space_not_hash a : forallb is_space a = true -> ~ In "#"%char a.
Proof. intros H Hin. rewrite forallb_forall in H. specialize (H _ Hin). discriminate. Qed.

Lemma clean_eq l : clean l = trim (cut_comment l).
Proof.
  unfold clean. destruct (trim_decomp l) as (a & b & E & Ha & Hb).
  remember (trim l) as t eqn:Et.
  assert (Hc : trim (cut_comment l) = if existsb (fun c => Ascii.eqb c "#") t then trim (cut_comment t) else t).
  { destruct (existsb (fun c => Ascii.eqb c "#") t) eqn:X.
    - apply existsb_hash in X. destruct (cut_comment_spec t) as (r & Er & Hn & [->|[r' ->]]).
      { rewrite app_nil_r in Er. rewrite <- Er in Hn. tauto. }
      rewrite E, Er. rewrite <- !app_assoc. rewrite app_assoc.
      rewrite cut_comment_app. 2:{ intro H. apply in_app_or in H as [H|H]; [exact (is_space_not_hash a Ha H)|tauto]. }
      rewrite trim_app_space_l by auto. f_equal. rewrite cut_comment_app; auto.
    - assert (~ In "#"%char t). { rewrite <- existsb_hash. congruence. }
      rewrite cut_comment_id. 2:{ rewrite E. intro HH. apply in_app_or in HH as [HH|HH]; [exact (is_space_not_hash a Ha HH)|].
        apply in_app_or in HH as [HH|HH]; [tauto|exact (is_space_not_hash b Hb HH)]. }
      congruence. }
  rewrite Hc. destruct t; auto.
Qed.
Lemma says_clean l c : says l c <-> c = clean l.
Proof.
  rewrite clean_eq. split.
  - intros (a & H & Hn & Ht). apply is_trim_unique in Ht. subst c. f_equal.
    destruct H as [->|[b ->]]; [rewrite cut_comment_id|rewrite cut_comment_app]; auto.
  - intros ->. destruct (cut_comment_spec l) as (r & Er & Hn & Hr). exists (cut_comment l).
    split; [|split; [exact Hn|apply trim_is_trim]].
    destruct Hr as [->|[b ->]]; [left; rewrite app_nil_r in Er|right; exists b]; exact Er.
Qed.

Lemma get_line_none ls : forall n, get_line ls n = None <-> forall l, In l ls -> says l [].
Proof.
  induction ls as [|l ls IH]; intro n; cbn [get_line].
  - split; auto. intros _ l [].
  - destruct (clean l) eqn:E.
    + rewrite IH. split; intros H x; [intros [<-|Hx]|intro Hx]; auto.
      { apply says_clean. auto. } { apply H. right. auto. }
    + split; [discriminate|]. intro H. specialize (H l (or_introl eq_refl)). apply says_clean in H. congruence.
Qed.

(** ---- tokens ---- *)
Lemma word_char_spec c : word_char c = true <-> word_symbol c.
Proof.
  unfold word_char, word_symbol. change (L "-.:/_") with ["-"%char; "."%char; ":"%char; "/"%char; "_"%char].
  rewrite !orb_true_iff, !Ascii.eqb_eq. simpl In. intuition congruence.
Qed.
Lemma back_off_spec s : exists b, s = back_off s ++ b /\ (forall c, In c b -> c = ":"%char) /\
  (forall r e, back_off s = r ++ [e] -> e <> ":"%char).
Proof.
  unfold back_off. exists (rev (take_while (fun c => Ascii.eqb c ":") (rev s))).
  rewrite <- rev_app_distr, take_drop_while, rev_involutive. split; auto. split.
  - intros c Hc. apply in_rev in Hc. pose proof (take_while_forall (fun c => Ascii.eqb c ":") (rev s)) as F.
    rewrite forallb_forall in F. apply Ascii.eqb_eq, F, Hc.
  - intros r e H. apply (f_equal (@rev ascii)) in H. rewrite rev_involutive, rev_app_distr in H. cbn in H.
    apply drop_while_head in H. apply Ascii.eqb_neq, H.
Qed.
Lemma last_split {A} (l : list A) : l <> [] -> exists m e, l = m ++ [e].
Proof. intro H. destruct (exists_last H) as (m & e & E). eauto. Qed.

Lemma take_while_prefix {A} (p : A -> bool) x r s : x ++ r = s -> forallb p x = true ->
  exists y, take_while p s = x ++ y /\ r = y ++ drop_while p s.
Proof.
  intros <- H. rewrite take_while_app, drop_while_app by auto. exists (take_while p r).
  split; auto. symmetry. apply take_drop_while.
Qed.

Lemma match_word_some s wd r : match_word s = Some (wd, r) ->
  s = wd ++ r /\ is_word wd /\ forall s' r', s = s' ++ r' -> is_word s' -> length s' <= length wd.
Proof.
  unfold match_word. destruct s as [|c s]; [discriminate|]. destruct (is_alpha c) eqn:Ec; [|discriminate].
  destruct (back_off_spec (take_while word_char s)) as (b & Eb & Hb & Hl).
  set (body := back_off (take_while word_char s)) in *.
  destruct (Nat.leb 2 (length body)) eqn:E2; [|discriminate]. intro H; injection H as <- <-.
  apply Nat.leb_le in E2.
  assert (Es : s = body ++ skipn (length body) s).
  { clearbody body. pose proof (take_drop_while word_char s) as P. rewrite Eb, <- app_assoc in P.
    rewrite <- P at 2. rewrite skipn_app, skipn_all, Nat.sub_diag. cbn [app skipn]. symmetry. exact P. }
  split; [cbn [app]; congruence|]. split.
  - destruct (last_split body) as (m & e & Em). { intro Z. rewrite Z in E2. cbn in E2. lia. }
    exists c, m, e. rewrite Em in *. split; auto. split; auto. split.
    { intros ->. cbn in E2. lia. }
    split; [|exact (Hl _ _ eq_refl)]. intros x Hx. apply word_char_spec.
    pose proof (take_while_forall word_char s) as F. rewrite forallb_forall in F. apply F. rewrite Eb.
    apply in_or_app. auto.
  - intros s' r' E (c' & m' & e' & -> & Hc' & Hm' & Hx' & He'). cbn [app] in E. injection E as <- E.
    assert (Fx : forallb word_char (m' ++ [e']) = true) by (apply forallb_forall; intros; apply word_char_spec; auto).
    destruct (take_while_prefix word_char (m' ++ [e']) r' s (eq_sym E) Fx) as (y & Ey & _).
    rewrite Eb in Ey. cbn [length]. apply le_n_S.
    destruct (le_lt_dec (length (m' ++ [e'])) (length body)) as [|Hlt]; auto. exfalso.
    assert (In e' b).
    { assert (nth_error (body ++ b) (length m') = Some e').
      { rewrite Ey, <- app_assoc, nth_error_app2, Nat.sub_diag by lia. reflexivity. }
      rewrite app_length in Hlt. cbn in Hlt. rewrite nth_error_app2 in H by lia.
      eapply nth_error_In; eauto. }
    apply Hb in H. congruence.
Qed.
Lemma match_word_none s : match_word s = None -> forall wd r, s = wd ++ r -> ~ is_word wd.
Proof.
  unfold match_word. intros H wd r E (c & m & e & -> & Hc & Hm & Hx & He). subst s. cbn [app] in H.
  rewrite Hc in H.
  destruct (back_off_spec (take_while word_char ((m ++ [e]) ++ r))) as (b & Eb & Hb & Hl).
  set (body := back_off (take_while word_char ((m ++ [e]) ++ r))) in *.
  destruct (Nat.leb 2 (length body)) eqn:E2; [discriminate|]. apply Nat.leb_gt in E2.
  assert (Fx : forallb word_char (m ++ [e]) = true) by (apply forallb_forall; intros; apply word_char_spec; auto).
  destruct (take_while_prefix word_char (m ++ [e]) r _ eq_refl Fx) as (y & Ey & _).
  rewrite Eb in Ey. assert (length m <> 0) by (destruct m; cbn in *; congruence).
  assert (In e b).
  { assert (nth_error (body ++ b) (length m) = Some e).
    { rewrite Ey, <- app_assoc, nth_error_app2, Nat.sub_diag by lia. reflexivity. }
    rewrite nth_error_app2 in H1 by lia. eapply nth_error_In; eauto. }
  apply Hb in H1. congruence.
Qed.

Lemma flag_char_spec x : flag_char x = true <-> is_alpha x = true \/ x = ","%char.
Proof. unfold flag_char. rewrite orb_true_iff, Ascii.eqb_eq. tauto. Qed.

Lemma match_flag_some s f r : match_flag s = Some (f, r) -> s = f ++ r /\ is_flag f.
Proof.
  unfold match_flag. destruct s as [|c s]; [discriminate|].
  destruct (Ascii.eqb_spec c "[") as [->|N].
  2:{ intro H. exfalso. revert H. destruct c as [[] [] [] [] [] [] [] []]; try discriminate. congruence. }
  destruct (take_while flag_char s) as [|x m] eqn:E; [discriminate|].
  destruct (drop_while flag_char s) as [|d rest] eqn:D; [discriminate|].
  destruct (Ascii.eqb_spec d "]") as [->|N].
  2:{ intro H. exfalso. revert H. destruct d as [[] [] [] [] [] [] [] []]; try discriminate. congruence. }
  intro H; injection H as <- <-. pose proof (take_drop_while flag_char s) as P. rewrite E, D in P. split.
  - rewrite <- P. cbn [app]. rewrite <- !app_assoc. reflexivity.
  - exists (x :: m). split; [reflexivity|]. split; [discriminate|]. intros y Hy. apply flag_char_spec.
    rewrite <- E in Hy. revert y Hy. apply forallb_forall, take_while_forall.
Qed.
Lemma match_flag_flag f r : is_flag f -> match_flag (f ++ r) = Some (f, r).
Proof.
  intros (m & -> & Hm & Hx). change (L "[") with ["["%char]. change (L "]") with ["]"%char].
  rewrite <- app_assoc. cbn [app]. unfold match_flag. rewrite <- app_assoc. cbn [app].
  assert (F : forallb flag_char m = true) by (apply forallb_forall; intros; apply flag_char_spec; auto).
  rewrite take_while_app, drop_while_app by auto. cbn [take_while drop_while].
  change (flag_char "]") with false. cbv iota. rewrite app_nil_r. destruct m; [congruence|]. reflexivity.
Qed.

Definition tokv (t : tok) (v : str) : option token :=
  match t with
  | TWord => Some (Word v) | TFlag => Some (Flag v) | TAssign => Some (Assign v) | TLocal => Some (Define v)
  | TError | TEof => None
  end.
Lemma tokv_text t v k : tokv t v = Some k -> text k = v.
Proof. destruct t; cbn; intro H; try discriminate; injection H as <-; reflexivity. Qed.

Lemma eqb_char_case (c d : ascii) {A} (P : A -> Prop) x y :
  (c = d -> P x) -> (c <> d -> P y) -> P (if Ascii.eqb c d then x else y).
Proof. destruct (Ascii.eqb_spec c d); auto. Qed.

Definition scan' (tl : str) : tok * str * str :=
  if str_eqb (firstn 2 tl) (L ":=") then (TLocal, trim (skipn 2 tl), [])
  else if is_prefix (L "=") tl then (TAssign, trim (skipn 1 tl), [])
  else
    match match_flag tl with
    | Some (f, r) => (TFlag, f, trim r)
    | None =>
      match match_word tl with
      | Some (wd, r) => (TWord, wd, trim r)
      | None => (TError, tl, [])
      end
    end.
Lemma scan_eq tl : scan tl = scan' tl.
Proof.
  unfold scan, scan'. destruct (str_eqb _ _); auto. change (L "=") with ["="%char].
  destruct tl as [|c r]; auto. cbn [is_prefix]. destruct (Ascii.eqb_spec "=" c) as [<-|N]; [reflexivity|].
  cbn [andb]. destruct c as [[] [] [] [] [] [] [] []]; try reflexivity. congruence.
Qed.
Lemma scan_sound tl t v r k : scan tl = (t, v, r) -> tokv t v = Some k -> lexes tl k r.
Proof.
  rewrite scan_eq. unfold scan'. destruct (str_eqb (firstn 2 tl) (L ":=")) eqn:E1.
  { apply str_eqb_eq in E1. intros H K. injection H as <- <- <-. injection K as <-.
    rewrite <- (firstn_skipn 2 tl) at 1. rewrite E1. constructor. apply trim_is_trim. }
  destruct (is_prefix (L "=") tl) eqn:E2.
  { apply is_prefix_app in E2 as [x ->]. intros H K. injection H as <- <- <-. injection K as <-.
    constructor. apply trim_is_trim. }
  destruct (match_flag tl) as [[f x]|] eqn:E3.
  { apply match_flag_some in E3 as [-> Hf]. intros H K. injection H as <- <- <-. injection K as <-.
    constructor; auto. apply trim_is_trim. }
  destruct (match_word tl) as [[f x]|] eqn:E4.
  { apply match_word_some in E4 as (-> & Hf & Hl). intros H K. injection H as <- <- <-. injection K as <-.
    constructor; auto. apply trim_is_trim. }
  intros H K. injection H as <- <- <-. discriminate.
Qed.
Lemma alpha_not c : is_alpha c = true -> c <> ":"%char /\ c <> "="%char /\ c <> "["%char.
Proof. intro H. repeat split; intros ->; discriminate. Qed.
Lemma match_flag_head c s : c <> "["%char -> match_flag (c :: s) = None.
Proof. intro H. cbn. destruct c as [[] [] [] [] [] [] [] []]; try reflexivity. congruence. Qed.
Lemma scan_complete tl k r : lexes tl k r -> exists t v, scan tl = (t, v, r) /\ tokv t v = Some k.
Proof.
  intro H. rewrite scan_eq. unfold scan'. destruct H as [r t Ht|r t Ht|f r t Hf Ht|s r t Hs Hl Ht].
  - exists TLocal, t. apply is_trim_unique in Ht. subst t. change (L ":=") with [":"%char; "="%char]. cbn.
    auto.
  - exists TAssign, t. apply is_trim_unique in Ht. subst t. change (L "=") with ["="%char]. cbn. auto.
  - exists TFlag, f. apply is_trim_unique in Ht. subst t.
    rewrite (match_flag_flag f r Hf). destruct Hf as (m & -> & Hm). change (L "[") with ["["%char].
    cbn [app firstn is_prefix L list_ascii_of_string str_eqb]. split; reflexivity.
  - exists TWord, s. apply is_trim_unique in Ht. subst t.
    assert (Ew : match_word (s ++ r) = Some (s, r)).
    { destruct (match_word (s ++ r)) as [[s' r']|] eqn:E.
      - apply match_word_some in E as (E & Hs' & Hl'). pose proof (Hl _ _ E Hs') as A.
        pose proof (Hl' _ _ eq_refl Hs) as B. assert (length s = length s') by lia.
        assert (s = s' /\ r = r') as [-> ->]; [|reflexivity].
        clear -E H. revert s' E H. induction s as [|x s IH]; intros [|y s'] E H; cbn in *; try lia; auto.
        injection E as -> E. injection H as H. destruct (IH _ E H). subst. auto.
      - exfalso. eapply match_word_none; eauto. }
    rewrite Ew. destruct Hs as (c & m & e & -> & Hc & _). destruct (alpha_not c Hc) as (N1 & N2 & N3).
    cbn [app]. rewrite (match_flag_head _ _ N3).
    assert (X1 : str_eqb (firstn 2 (c :: (m ++ [e]) ++ r)) (L ":=") = false).
    { apply str_eqb_neq. cbn [firstn]. intro E. injection E as E _. congruence. }
    assert (X2 : is_prefix (L "=") (c :: (m ++ [e]) ++ r) = false).
    { change (L "=") with ["="%char]. cbn [is_prefix]. destruct (Ascii.eqb_spec "=" c); auto. congruence. }
    rewrite X1, X2. auto.
Qed.

(** positions *)
Definition at_pos (st : pst) (ls : list str) : pos := mkPos (p_tl st) ls (p_line st).
Definition moved (st : pst) (p : pos) : pst := with_tl (with_line st (num p)) (here p).

Lemma get_line_next ls : forall n c ls' n', get_line ls n = Some (c, ls', n') ->
  c <> [] /\ forall t r, lexes c t r -> next (mkPos [] ls n) t (mkPos r ls' n').
Proof.
  induction ls as [|l ls IH]; intros n c ls' n'; cbn [get_line]; [discriminate|].
  destruct (clean l) as [|x c0] eqn:E.
  - intro H. destruct (IH _ _ _ _ H) as [Hc Hn]. split; auto. intros t r Hlex. apply nx_blank; auto.
    apply says_clean. auto.
  - intro H. injection H as <- <- <-. split; [discriminate|]. intros t r Hlex.
    eapply nx_line; eauto; [|discriminate]. apply says_clean. auto.
Qed.

Lemma get_token_sound st ls t v st' ls' k : get_token st ls = (t, v, st', ls') -> tokv t v = Some k ->
  next (at_pos st ls) k (mkPos (p_tl st') ls' (p_line st')) /\
  st' = moved st (mkPos (p_tl st') ls' (p_line st')).
Proof.
  unfold get_token, at_pos. destruct (p_tl st) as [|c0 tl0] eqn:Etl.
  - destruct (get_line ls (p_line st)) as [[[c ls1] n1]|] eqn:E.
    + cbn [p_tl with_tl]. destruct (scan c) as [[t0 v0] r0] eqn:S.
      intros H K. assert (t0 = t /\ v0 = v /\ ls1 = ls') as (<- & <- & <-) by (injection H; auto).
      destruct (get_line_next _ _ _ _ _ E) as [Hc Hn].
      assert (st' = with_tl (with_line st n1) r0) as ->.
      { destruct t0; try discriminate K; injection H as <-; reflexivity. }
      cbn. split; [|reflexivity]. apply Hn. eapply scan_sound; eauto.
    + intros H K. injection H as <- <- _ _. discriminate.
  - rewrite Etl. destruct (scan (c0 :: tl0)) as [[t0 v0] r0] eqn:S.
    intros H K. assert (t0 = t /\ v0 = v /\ ls = ls') as (<- & <- & <-) by (injection H; auto).
    assert (st' = with_tl st r0) as ->.
    { destruct t0; try discriminate K; injection H as <-; reflexivity. }
    cbn. split; [|destruct st; reflexivity]. apply nx_rest; [discriminate|]. eapply scan_sound; eauto.
Qed.

Lemma next_get_line p t p' : next p t p' -> here p = [] ->
  exists c, get_line (after p) (num p) = Some (c, after p', num p') /\ c <> [] /\ lexes c t (here p').
Proof.
  induction 1 as [l ls n t p Hs Hn IH|l ls n c t r Hs Hc Hlex|c ls n t r Hc Hlex]; intro He; cbn in *.
  - apply says_clean in Hs. rewrite <- Hs. apply IH. reflexivity.
  - apply says_clean in Hs. rewrite <- Hs. destruct c as [|x c]; [congruence|]. eauto.
  - congruence.
Qed.
Lemma next_here p t p' : next p t p' -> here p <> [] -> lexes (here p) t (here p') /\ after p' = after p /\ num p' = num p.
Proof. destruct 1; cbn; intros; try congruence. auto. Qed.

Lemma get_token_complete st ls k p' : next (at_pos st ls) k p' ->
  exists t v, get_token st ls = (t, v, moved st p', after p') /\ tokv t v = Some k.
Proof.
  intro H. unfold get_token. destruct (p_tl st) as [|c0 tl0] eqn:Etl.
  - destruct (next_get_line _ _ _ H) as (c & E & Hc & Hlex). { exact Etl. }
    cbn [at_pos after num] in E. rewrite E. apply scan_complete in Hlex as (t & v & S & K).
    exists t, v. cbn [p_tl with_tl]. rewrite S. split; auto. destruct t; try discriminate K; reflexivity.
  - destruct (next_here _ _ _ H) as (Hlex & E1 & E2). { cbn. congruence. }
    cbn [at_pos here after num] in *. apply scan_complete in Hlex as (t & v & S & K).
    exists t, v. rewrite S, E1. split; auto. unfold moved. rewrite E2.
    destruct t; try discriminate K; destruct st; reflexivity.
Qed.
Lemma get_token_eof st ls : (exists v st' ls', get_token st ls = (TEof, v, st', ls')) <->
  p_tl st = [] /\ forall l, In l ls -> says l [].
Proof.
  unfold get_token. split.
  - intros (v & st' & ls' & H). destruct (p_tl st) as [|c0 tl0] eqn:Etl.
    + destruct (get_line ls (p_line st)) as [[[c ls1] n1]|] eqn:E.
      * exfalso. cbn [p_tl with_tl] in H. rewrite scan_eq in H. unfold scan' in H.
        destruct (str_eqb _ _); [discriminate|]. destruct (is_prefix _ _); [discriminate|].
        destruct (match_flag _) as [[]|]; [discriminate|]. destruct (match_word _) as [[]|]; discriminate.
      * split; auto. apply (get_line_none ls (p_line st)). exact E.
    + exfalso. rewrite Etl, scan_eq in H. unfold scan' in H.
      destruct (str_eqb _ _); [discriminate|]. destruct (is_prefix _ _); [discriminate|].
      destruct (match_flag _) as [[]|]; [discriminate|]. destruct (match_word _) as [[]|]; discriminate.
  - intros [-> H]. apply (get_line_none ls (p_line st)) in H. rewrite H. eauto.
Qed.
