(** Equivalence of the parser with the declarative language. *)
From Verif Require Import Base ConfigModel ConfigSpec ConfigProofs ExpandModel ExpandSpec ExpandProofs ParserModel ParserSpec ParserProofs.

(** Each token consumed makes the rest shorter. *)
Lemma trim_length s : length (trim s) <= length s.
Proof. destruct (trim_decomp s) as (a & b & E & _). apply (f_equal (@length ascii)) in E. rewrite !app_length in E. lia. Qed.
Lemma cut_length s : length (cut_comment s) <= length s.
Proof. destruct (cut_comment_spec s) as (a & E & _). apply (f_equal (@length ascii)) in E. rewrite app_length in E. lia. Qed.
Lemma clean_length l : length (clean l) <= length l.
Proof. rewrite clean_eq. pose proof (trim_length (cut_comment l)). pose proof (cut_length l). lia. Qed.
Lemma scan_shorter tl t v r : scan tl = (t, v, r) -> tl <> [] -> length r < length tl.
Proof.
  rewrite scan_eq. unfold scan'. intros H Hne. assert (0 < length tl) by (destruct tl; cbn; [congruence|lia]).
  destruct (str_eqb _ _); [injection H as _ _ <-; exact H0|].
  destruct (is_prefix _ _); [injection H as _ _ <-; exact H0|].
  destruct (match_flag tl) as [[f x]|] eqn:E3.
  { injection H as _ _ <-. apply match_flag_some in E3 as [E Hf]. destruct Hf as (m & -> & _).
    pose proof (trim_length x). rewrite E, !app_length. change (length (L "[")) with 1. lia. }
  destruct (match_word tl) as [[f x]|] eqn:E4.
  { injection H as _ _ <-. apply match_word_some in E4 as (E & (c & m & e & -> & _) & _).
    pose proof (trim_length x). rewrite E. cbn [app length]. rewrite app_length. lia. }
  injection H as _ _ <-. exact H0.
Qed.
Lemma get_line_weight ls : forall n c ls' n', get_line ls n = Some (c, ls', n') ->
  c <> [] /\ weight c ls' < weight [] ls.
Proof.
  unfold weight. induction ls as [|l ls IH]; intros n c ls' n'; cbn [get_line]; [discriminate|].
  pose proof (clean_length l) as Hcl.
  destruct (clean l) as [|x c0] eqn:E; intro H.
  - destruct (IH _ _ _ _ H) as [A B]. split; auto. change (list_sum (map (fun l0 : list ascii => S (length l0)) (l :: ls)))
      with (S (length l) + list_sum (map (fun l0 : list ascii => S (length l0)) ls)). cbn [length] in *. lia.
  - injection H as <- <- <-. split; [discriminate|].
    change (list_sum (map (fun l0 : list ascii => S (length l0)) (l :: ls)))
      with (S (length l) + list_sum (map (fun l0 : list ascii => S (length l0)) ls)). cbn [length] in *. lia.
Qed.
Lemma get_token_weight st ls t v st' ls' : get_token st ls = (t, v, st', ls') ->
  t <> TEof -> weight (p_tl st') ls' < weight (p_tl st) ls.
Proof.
  unfold get_token. destruct (p_tl st) as [|c0 tl0] eqn:Etl.
  - destruct (get_line ls (p_line st)) as [[[c ls1] n1]|] eqn:E.
    + cbn [p_tl with_tl]. destruct (scan c) as [[t0 v0] r0] eqn:S. intros H _.
      destruct (get_line_weight _ _ _ _ _ E) as [Hc Hw]. apply scan_shorter in S; auto.
      assert (p_tl st' = r0 /\ ls' = ls1) as [-> ->].
      { injection H as _ _ <- <-. destruct t0; auto. }
      unfold weight in *. cbn [length] in *. lia.
    + intros H N. injection H as <- _ _ _. congruence.
  - rewrite Etl. destruct (scan (c0 :: tl0)) as [[t0 v0] r0] eqn:S. intros H _.
    apply scan_shorter in S; [|discriminate].
    assert (p_tl st' = r0 /\ ls' = ls) as [-> ->].
    { injection H as _ _ <- <-. destruct t0; auto. }
    unfold weight in *. lia.
Qed.
Lemma get_token_eof_state st ls v st' ls' : get_token st ls = (TEof, v, st', ls') ->
  exists n, st' = with_line st n.
Proof.
  intro H. destruct (proj1 (get_token_eof st ls)) as [E Hl]; [eauto|].
  unfold get_token in H. rewrite E in H. apply (get_line_none ls (p_line st)) in Hl. rewrite Hl in H.
  injection H as _ <- _. eauto.
Qed.

(** Error latch: everything but TEof/TError leaves p_err alone, nothing clears it. *)
Lemma get_token_err st ls t v st' ls' : get_token st ls = (t, v, st', ls') ->
  p_err st' = (p_err st || match t with TError => true | _ => false end).
Proof.
  unfold get_token. destruct (match p_tl st with [] => _ | _ => _ end) as [[st1 ls1]|] eqn:E.
  - assert (p_err st1 = p_err st).
    { destruct (p_tl st); [destruct (get_line ls (p_line st)) as [[[c ls2] n1]|]; [|discriminate]|];
      injection E as <- _; reflexivity. }
    destruct (scan (p_tl st1)) as [[t0 v0] r0]. intro H0. injection H0 as <- _ <- _.
    destruct t0; cbn; rewrite ?H, ?orb_false_r, ?orb_true_r; reflexivity.
  - intro H. injection H as <- _ <- _. cbn. rewrite orb_false_r. reflexivity.
Qed.

Lemma flag_ro s : is_flag s -> contains (L "[RO]") (map to_upper s) = true <-> map to_upper s = L "[RO]".
Proof.
  intro Hf. split; [|intros ->; reflexivity].
  destruct Hf as (m & -> & Hm & Hx). rewrite !map_app.
  change (map to_upper (L "[")) with ["["%char]. change (map to_upper (L "]")) with ["]"%char].
  change (L "[RO]") with ["["%char; "R"%char; "O"%char; "]"%char].
  assert (Hn : forall x, In x (map to_upper m) -> x <> "["%char /\ x <> "]"%char).
  { intros x Hin. apply in_map_iff in Hin as (y & <- & Hy). specialize (Hx _ Hy). split; intro Z.
    - destruct Hx as [Ha| ->]; [|vm_compute in Z; discriminate Z]. exfalso. revert Ha Z. clear. destruct y as [[] [] [] [] [] [] [] []]; vm_compute; intros; congruence.
    - destruct Hx as [Ha| ->]; [|vm_compute in Z; discriminate Z]. exfalso. revert Ha Z. clear. destruct y as [[] [] [] [] [] [] [] []]; vm_compute; intros; congruence. }
  revert Hn. generalize (map to_upper m). intros u Hn. cbn [app]. intro H.
  assert (Hp : is_prefix ["["%char; "R"%char; "O"%char; "]"%char] ("["%char :: u ++ ["]"%char]) = true).
  { cbn [contains] in H. apply orb_true_iff in H as [H|H]; auto. exfalso.
    clear -H Hn. induction u as [|x u IH]; cbn [contains is_prefix app] in H.
    - discriminate H.
    - apply orb_true_iff in H as [H|H].
      + destruct (Ascii.eqb_spec "[" x); [|discriminate]. destruct (Hn x); [left; auto|congruence].
      + apply IH; auto. intros y Hy. apply Hn. right. auto. }
  cbn [is_prefix] in Hp. change (Ascii.eqb "[" "[") with true in Hp. cbn [andb] in Hp.
  destruct u as [|a u]; cbn [app] in Hp; [discriminate|].
  destruct (Ascii.eqb_spec "R" a) as [<-|]; [|discriminate].
  destruct u as [|b u]; cbn [app andb] in Hp; [discriminate|].
  destruct (Ascii.eqb_spec "O" b) as [<-|]; [|discriminate].
  destruct u as [|c u]; [reflexivity|]. cbn [app andb] in Hp.
  destruct (Ascii.eqb_spec "]" c) as [<-|]; [|discriminate].
  destruct (Hn "]"%char); [right; right; left; auto|congruence].
Qed.

Inductive ctx_rel : list str -> str -> list str -> Prop :=
| cr_nil : ctx_rel [] [] []
| cr_snoc ns nm c bs : ctx_rel ns c bs -> ctx_rel (ns ++ [nm]) (c ++ nm ++ L ":") (c :: bs).
Lemma ctx_abs ns c bs k : ctx_rel ns c bs -> c ++ k = abs_key ns k.
Proof.
  intro H. revert k. induction H as [|ns nm c bs H IH]; intro k; [reflexivity|].
  rewrite abs_key_snoc, <- IH, <- !app_assoc. reflexivity.
Qed.
Lemma ctx_nil ns c : ctx_rel ns c [] -> ns = [].
Proof. intro H. inversion H; auto. Qed.
Lemma ctx_snoc_inv ns nm c bs : ctx_rel (ns ++ [nm]) c bs -> exists c0 bs0, bs = c0 :: bs0 /\ ctx_rel ns c0 bs0.
Proof.
  intro H. inversion H as [E|ns' nm' c' bs' H' E].
  - destruct ns; discriminate.
  - apply app_inj_tail in E as [-> ->]. eauto.
Qed.
Lemma ctx_cons_inv ns c c0 bs0 : ctx_rel ns c (c0 :: bs0) -> exists ns0 nm, ns = ns0 ++ [nm] /\ ctx_rel ns0 c0 bs0.
Proof. intro H. inversion H; subst; eauto. Qed.

Definition Rel (st : pst) (s : sst) : Prop :=
  p_heap st = s_cfg s /\ p_sym st = s_sym s /\ ctx_rel (s_names s) (p_ctx st) (p_blocks st) /\
  p_incs st = s_files s /\ p_count st = length (s_files s) /\ p_err st = false.
Definition End (st : pst) (s s' : sst) : Prop :=
  p_heap st = s_cfg s' /\ p_sym st = s_sym s' /\ ctx_rel (s_names s') (p_ctx st) (p_blocks st) /\
  s_files s' = s_files s /\
  p_incs st = tl (s_files s) /\ p_count st = pred (length (s_files s)) /\ p_err st = false /\ p_tl st = [].

Lemma Rel_moved st p s : Rel st s -> Rel (moved st p) s.
Proof. exact (fun H => H). Qed.
Lemma Rel_flush st s : Rel st s -> Rel (flush_line st) s.
Proof. exact (fun H => H). Qed.
Lemma at_moved st p : at_pos (moved st p) (after p) = p.
Proof. destruct p; reflexivity. Qed.
Lemma at_eol st p : at_pos (flush_line (moved st p)) (after p) = eol p.
Proof. destruct p; reflexivity. Qed.
Lemma moved_moved st p q : moved (moved st p) q = moved st q.
Proof. reflexivity. Qed.

Lemma lookup_macros w st s : Rel st s -> token_lookup w st = macros w s.
Proof. intros (H1 & H2 & _). unfold token_lookup, macros. rewrite H1, H2. reflexivity. Qed.

Lemma flags_sound : forall n ro t v st ls ro' t4 v4 st4 ls4 st0 ls0 k4,
  get_token st0 ls0 = (t, v, st, ls) -> flags n ro t v st ls = Some (ro', t4, v4, st4, ls4) ->
  p_err st4 = false -> tokv t4 v4 = Some k4 ->
  exists b, ro' = ro || b /\ ro_flags (at_pos st0 ls0) b k4 (at_pos st4 ls4) /\ st4 = moved st0 (at_pos st4 ls4).
Proof.
  assert (Base : forall n ro t v st ls ro' t4 v4 st4 ls4 st0 ls0 k4, t <> TFlag ->
    get_token st0 ls0 = (t, v, st, ls) -> flags n ro t v st ls = Some (ro', t4, v4, st4, ls4) ->
    tokv t4 v4 = Some k4 ->
    exists b, ro' = ro || b /\ ro_flags (at_pos st0 ls0) b k4 (at_pos st4 ls4) /\ st4 = moved st0 (at_pos st4 ls4)).
  { intros n ro t v st ls ro' t4 v4 st4 ls4 st0 ls0 k4 Ht H1 H2 K.
    assert (E : Some (ro, t, v, st, ls) = Some (ro', t4, v4, st4, ls4)).
    { rewrite <- H2. destruct n; destruct t; try reflexivity; congruence. }
    injection E as <- <- <- <- <-. destruct (get_token_sound _ _ _ _ _ _ _ H1 K) as [A B].
    exists false. rewrite orb_false_r. split; auto. split; auto. apply rf_none; auto.
    intros x ->. destruct t; try discriminate K; congruence. }
  induction n as [|n IH]; intros ro t v st ls ro' t4 v4 st4 ls4 st0 ls0 k4 H1 H2 He K.
  - destruct t; try (eapply Base; eauto; discriminate); discriminate H2.
  - destruct t; try (eapply Base; eauto; discriminate).
    cbn [flags] in H2.
    set (isro := contains (L "[RO]") (map to_upper v)) in *.
    set (st1 := if isro then st else with_err st) in *.
    destruct (get_token st1 ls) as [[[t2 v2] st2] ls2] eqn:G.
    destruct (get_token_sound _ _ _ _ _ _ (Flag v) H1 eq_refl) as [A B].
    destruct (IH _ _ _ _ _ _ _ _ _ _ _ _ _ G H2 He K) as (b & E1 & E2 & E3).
    destruct isro eqn:Eq.
    2:{ exfalso. rewrite E3 in He. cbn in He. discriminate. }
    exists true. rewrite E1, !orb_true_r. split; auto. subst st1.
    split.
    + eapply rf_one; [exact A| |exact E2].
      apply flag_ro; [|exact Eq].
      assert (HL : exists tl r, lexes tl (Flag v) r).
      { clear -A. remember (Flag v) as k. induction A; eauto. }
      destruct HL as (tl & r & HL). inversion HL; subst; auto.
    + rewrite E3. cbn. rewrite B. reflexivity.
Qed.

Lemma flags_complete p b k p' : ro_flags p b k p' -> forall st0 ls0 t v st ls ro n, p = at_pos st0 ls0 ->
  get_token st0 ls0 = (t, v, st, ls) -> weight (p_tl st) ls < n ->
  exists t4 v4, flags n ro t v st ls = Some (ro || b, t4, v4, moved st0 p', after p') /\ tokv t4 v4 = Some k.
Proof.
  induction 1 as [p t0 p' Hn Hf|p s p1 b t0 p' Hn Hs Hr IH]; intros st0 ls0 t v st ls ro n -> G Hw.
  - destruct (get_token_complete _ _ _ _ Hn) as (t4 & v4 & E & K). rewrite G in E. injection E as -> -> -> ->.
    exists t4, v4. split; auto. rewrite orb_false_r.
    destruct t4; try (destruct n; reflexivity). injection K as <-. exfalso. exact (Hf _ eq_refl).
  - destruct (get_token_complete _ _ _ _ Hn) as (t4 & v4 & E & K). rewrite G in E. injection E as -> -> -> ->.
    destruct t4; try discriminate K. injection K as ->. destruct n as [|n]; [lia|]. cbn [flags].
    rewrite Hs. change (contains (L "[RO]") (L "[RO]")) with true. cbv iota.
    destruct (get_token (moved st0 p1) (after p1)) as [[[t2 v2] st2] ls2] eqn:G2.
    destruct (IH (moved st0 p1) (after p1) t2 v2 st2 ls2 (orb ro true) n (eq_sym (at_moved st0 p1)) G2) as (t4 & v4 & E & K).
    + assert (t2 <> TEof).
      { intros ->. assert (exists k2 p2, next p1 k2 p2) as (k2 & p2 & N2) by (inversion Hr; eauto).
        rewrite <- (at_moved st0 p1) in N2. destruct (get_token_complete _ _ _ _ N2) as (t5 & v5 & E5 & K5).
        rewrite G2 in E5. injection E5 as <- _ _ _. discriminate K5. }
      pose proof (get_token_weight _ _ _ _ _ _ G2 H). lia.
    + exists t4, v4. split; auto. rewrite E. rewrite !orb_true_r. cbn. rewrite moved_moved. reflexivity.
Qed.

Lemma flags_total n : forall ro t v st ls, weight (p_tl st) ls < n -> exists r, flags n ro t v st ls = Some r.
Proof.
  induction n as [|n IH]; intros ro t v st ls Hw; [lia|]. cbn [flags].
  destruct t; eauto. set (st1 := if contains _ _ then st else _).
  destruct (get_token st1 ls) as [[[t2 v2] st2] ls2] eqn:G.
  destruct t2; try (destruct n; cbn [flags]; eauto; fail).
  apply IH. assert (TFlag <> TEof) as N by discriminate.
  pose proof (get_token_weight _ _ _ _ _ _ G N).
  assert (p_tl st1 = p_tl st) by (subst st1; destruct (contains _ _); reflexivity). rewrite H0 in H. lia.
Qed.
Lemma flags_err n : forall ro t v st ls ro' t4 v4 st4 ls4, flags n ro t v st ls = Some (ro', t4, v4, st4, ls4) ->
  p_err st4 = false -> p_err st = false.
Proof.
  induction n as [|n IH]; intros ro t v st ls ro' t4 v4 st4 ls4 H He.
  - destruct t; cbn in H; try discriminate; injection H as _ _ _ <- _; auto.
  - cbn [flags] in H. destruct t; try (injection H as _ _ _ <- _; auto; fail).
    destruct (get_token _ ls) as [[[t2 v2] st2] ls2] eqn:G.
    apply IH in H; auto. rewrite (get_token_err _ _ _ _ _ _ G) in H.
    apply orb_false_iff in H as [H _]. destruct (contains _ _); auto. discriminate.
Qed.
