From Verif Require Import Base Numbers ConfigModel ConfigSpec ConfigProofs ConfigProofs2 ConfigProofs3 ConfigProofs4
  ExpandModel ExpandSpec ExpandProofs ParserModel ParserSpec ParserProofs ParserProofs2 ParserProofs3 ParserProofs4 ParserProofs5
  ParserProofs6 DocSpec DocProofs ParserProofs7
  TokenizeModel TokenizeSpec TokenizeProofs IoModel IoSpec.

Definition sp (c : ascii) : bool := Ascii.eqb c " ".
Lemma sp_iff c : c = " "%char <-> sp c = true.
Proof. unfold sp. symmetry. apply Ascii.eqb_eq. Qed.
Definition wordsf (s : str) : list str := filter nonempty (split sp s).
Lemma words_f s ws : words s ws <-> ws = wordsf s.
Proof.
  unfold words, wordsf. split.
  - intros (ts & H & ->). apply (splits_iff _ sp) in H; [|exact sp_iff]. subst. reflexivity.
  - intros ->. eexists. split; [|reflexivity]. apply (splits_iff _ sp); auto. exact sp_iff.
Qed.
Lemma wordsf_app a b : wordsf (a ++ " "%char :: b) = wordsf a ++ wordsf b.
Proof. unfold wordsf. rewrite split_app by reflexivity. apply filter_app. Qed.
Lemma wordsf_spaces n b : wordsf (repeat " "%char n ++ b) = wordsf b.
Proof. induction n; cbn [repeat app]; auto. Qed.
Lemma wordsf_word w : w <> [] -> ~ In " "%char w -> wordsf w = [w].
Proof.
  intros Hn Hs. unfold wordsf. rewrite split_none. - destruct w; [congruence|reflexivity].
  - apply forallb_forall. intros x Hx. destruct (sp x) eqn:E; auto. apply sp_iff in E. subst. contradiction.
Qed.

Lemma fill_lines : forall ws line spaces lw, 0 < spaces ->
  (forall w, In w ws -> ~ In " "%char w /\ ~ In newline w) -> comment_line line lw ->
  exists gs, Forall2 comment_line (fill ws line spaces) gs /\ concat gs = lw ++ filter nonempty ws.
Proof.
  induction ws as [|w ws IH]; intros line spaces lw Hs Hw Hl; cbn [fill].
  - exists [lw]. split; [repeat constructor; auto|]. cbn. rewrite app_nil_r. reflexivity.
  - assert (Hw' : forall w0, In w0 ws -> ~ In " "%char w0 /\ ~ In newline w0) by (intros; apply Hw; right; auto).
    destruct w as [|c w0]; [apply (IH line (S spaces) lw); auto; lia|]. set (w := c :: w0) in *.
    destruct (Hw w (or_introl eq_refl)) as [Hsp Hnl].
    assert (Hlast : forall x r, x ++ w <> r ++ [" "%char]).
    { intros x r E. destruct (last_split w ltac:(discriminate)) as (m & e & Em). rewrite Em, app_assoc in E.
      apply app_inj_tail in E as [_ ->]. apply Hsp. rewrite Em. apply in_or_app. right. left. reflexivity. }
    destruct (Nat.ltb line_width (length line + spaces + length w)) eqn:El.
    + assert (N : comment_line (L "#" ++ repeat " "%char 1 ++ w) [w]).
      { exists (" "%char :: w). split; [reflexivity|]. split; [|split; [|split; [|split]]].
        - apply words_f. change (wordsf (" "%char :: w)) with (wordsf w). rewrite wordsf_word; auto. discriminate.
        - cbn [repeat app]. intros [X|[X|X]]; try discriminate X. auto.
        - eauto.
        - intros r E. apply (Hlast (L "# ") r). exact E.
        - right. exists w. auto. }
      destruct (IH _ 1 [w] ltac:(lia) Hw' N) as (gs & F & C). exists (lw :: gs). split; [constructor; auto|].
      cbn [concat filter]. rewrite C. reflexivity.
    + apply Nat.ltb_ge in El. destruct Hl as (body & -> & Hwd & Hn & Hb & Ht & Hlen). unfold line_width in El.
      assert (N : comment_line (("#"%char :: body) ++ repeat " "%char spaces ++ w) (lw ++ [w])).
      { exists (body ++ repeat " "%char spaces ++ w). split; [reflexivity|]. split; [|split; [|split; [|split]]].
        - apply words_f. apply words_f in Hwd. destruct spaces as [|n]; [lia|]. cbn [repeat app].
          rewrite wordsf_app, wordsf_spaces. assert (Nw : w <> []) by discriminate. rewrite (wordsf_word w Nw Hsp). subst lw. reflexivity.
        - intro X. apply in_app_or in X as [X|X]; [auto|]. apply in_app_or in X as [X|X]; [|auto].
          apply repeat_spec in X. discriminate X.
        - right. destruct Hb as [->|[r ->]]; [|eexists; reflexivity]. destruct spaces; [lia|]. eexists; reflexivity.
        - intros r E. rewrite app_assoc in E. apply (Hlast _ r E).
        - left. rewrite app_length, app_length, repeat_length. cbn [length] in *. lia. }
      destruct (IH _ 1 (lw ++ [w]) ltac:(lia) Hw' N) as (gs & F & C). exists gs. split; auto.
      rewrite C, <- app_assoc. reflexivity.
Qed.
Lemma fill_ne ws : forall line spaces, fill ws line spaces <> [].
Proof.
  induction ws as [|w ws IH]; intros line spaces; cbn [fill]; [discriminate|]. destruct w; [apply IH|].
  destruct (Nat.ltb _ _); [discriminate|apply IH].
Qed.
Lemma split_parts p s t : In t (split p s) -> forall c, In c t -> p c = false /\ In c s.
Proof.
  revert t. induction s as [|x s IH]; intros t Ht c Hc; cbn [split] in Ht.
  - destruct Ht as [<-|[]]. destruct Hc.
  - destruct (p x) eqn:E.
    + destruct Ht as [<-|Ht]; [destruct Hc|]. destruct (IH t Ht c Hc). split; auto. right; auto.
    + destruct (split_cons p s) as (t0 & ts & E2). rewrite E2 in *. destruct Ht as [<-|Ht].
      * destruct Hc as [<-|Hc]; [split; auto; left; auto|]. destruct (IH t0 (or_introl eq_refl) c Hc). split; auto. right; auto.
      * destruct (IH t (or_intror Ht) c Hc). split; auto. right; auto.
Qed.
Lemma split_words s : splits (fun c => c = " "%char) s (split sp s).
Proof. apply (splits_iff _ sp); auto. exact sp_iff. Qed.
Lemma is_delim_sp c : is_delim (L " ") c = sp c.
Proof. unfold is_delim, sp. change (existsb (Ascii.eqb c) (L " ")) with (Ascii.eqb c " " || false). apply orb_false_r. Qed.
Lemma split_ext p q s : (forall c, p c = q c) -> split p s = split q s.
Proof. intro H. induction s as [|c s IH]; cbn [split]; auto. rewrite H, IH. reflexivity. Qed.

(** The lines written for one line of the description. *)
Lemma block_lines b : ~ In newline b ->
  let ls := fill (tokenize b [] (L " ") false) (L "#") 1 in
  ls <> [] /\ exists gs, Forall2 comment_line ls gs /\ words b (concat gs).
Proof.
  intros Hb ls. split; [apply fill_ne|]. unfold ls. rewrite tokenize_eq. cbn [app].
  rewrite (split_ext _ sp) by exact is_delim_sp.
  destruct (fill_lines (split sp b) (L "#") 1 []) as (gs & F & C).
  - lia.
  - intros w Hw. split.
    + intro X. destruct (split_parts sp b w Hw _ X) as [Y _]. discriminate Y.
    + intro X. destruct (split_parts sp b w Hw _ X) as [_ Y]. auto.
  - exists []. split; [reflexivity|]. split; [apply words_f; reflexivity|]. split; [intros [X|[]]; discriminate X|].
    split; [auto|]. split; [|left; apply Nat.leb_le; reflexivity]. intros r E. destruct r as [|x [|y r]]; discriminate.
  - exists gs. split; auto. apply words_f. rewrite C. reflexivity.
Qed.
Lemma comment_spec c : exists blocks groups,
  splits (fun x => x = newline) c blocks /\
  write_cb_comment c = newline :: concat (map (fun l => l ++ [newline]) (concat groups)) /\
  Forall2 (fun b ls => ls <> [] /\ exists gs, Forall2 comment_line ls gs /\ words b (concat gs)) blocks groups.
Proof.
  destruct (tokenize_splits c [] [newline]) as (ts & Hs & E & _). cbn [app] in E.
  exists ts, (map (fun b => fill (tokenize b [] (L " ") false) (L "#") 1) ts).
  assert (Hs' : splits (fun x => x = newline) c ts).
  { assert (E1 : forall x, In x [newline] <-> x = newline) by (intro; cbn; intuition).
    clear E. revert Hs. generalize ts. intros ts0 Hs. induction Hs; constructor; auto.
    - intros y Hy X. apply (H y Hy). apply E1; auto. - intros y Hy X. apply (H y Hy). apply E1; auto. - apply E1; auto. }
  split; auto. split.
  - unfold write_cb_comment, comment_lines. change (tokenize c [] ["010"%char] false) with (tokenize c [] [newline] false). rewrite E. reflexivity.
  - assert (Hb : forall b, In b ts -> ~ In newline b).
    { clear -Hs'. induction Hs'; intros b [<-|Hb]; auto; intro X; apply (H newline X); auto. }
    clear -Hb. induction ts as [|b ts IH]; cbn [map]; constructor.
    + apply block_lines. apply Hb. left; auto.
    + apply IH. intros; apply Hb; right; auto.
Qed.

(** ---------- round trip ---------- *)
Lemma file_text_app a b : file_text (a ++ b) = file_text a ++ file_text b.
Proof. unfold file_text. rewrite map_app, concat_app. reflexivity. Qed.
Lemma reads_app a b ca cb : reads a ca -> reads b cb -> reads (a ++ b) (ca ++ cb).
Proof. intros H HB. induction H; cbn [app]; auto; [apply reads_blank|apply reads_text]; auto. Qed.
Lemma reads_comments ls : (forall l, In l ls -> exists r, l = "#"%char :: r) -> reads ls [].
Proof.
  induction ls as [|l ls IH]; intro H; [constructor|]. apply reads_blank.
  - destruct (H l (or_introl eq_refl)) as [r ->]. exists []. split; [right; exists r; reflexivity|]. split; [auto|].
    apply trim_eq_is. reflexivity.
  - apply IH. intros; apply H; right; auto.
Qed.
Lemma comment_lines_ok c : (forall l, In l (comment_lines c) -> exists r, l = "#"%char :: r) /\
  forall l, In l (comment_lines c) -> ~ In "010"%char l.
Proof.
  assert (X : forall l, In l (comment_lines c) -> exists ws, comment_line l ws).
  { unfold comment_lines. intros l Hl. apply in_concat in Hl as (ls & Hls & Hl). apply in_map_iff in Hls as (b & <- & Hb).
    destruct (tokenize_splits c [] [newline]) as (ts & Hs & E & _). cbn [app] in E.
    change (tokenize c [] ["010"%char] false) with (tokenize c [] [newline] false) in Hb. rewrite E in Hb.
    assert (Nb : ~ In newline b).
    { clear -Hs Hb. induction Hs; destruct Hb as [<-|Hb]; auto; try contradiction; intro X; apply (H newline X); left; auto. }
    destruct (block_lines b Nb) as (_ & gs & F & _). clear -F Hl.
    induction F; [destruct Hl|]. destruct Hl as [<-|Hl]; eauto. }
  split; intros l Hl; destruct (X l Hl) as (ws & body & -> & _ & H & _); eauto.
Qed.
Definition vf (h : heap) (id : nat) (k : str) : str := match get_string h id k with Ok v => v | _ => [] end.
Definition line_of (h : heap) (id : nat) (k : str) : str := k ++ L " = " ++ vf h id k.
Definition writable (h : heap) (id : nat) (k : str) : Prop :=
  plain_key k /\ (exists v, get_string h id k = Ok v /\ plain_value v /\ ~ In "$"%char v) /\
  (exists d, get_description h id k = Ok d) /\
  (forall f l, get_location h id k = Ok (Some (f, l)) -> ~ In newline f).
Lemma line_of_ok h id k : writable h id k -> ~ In "010"%char (line_of h id k) /\ clean (line_of h id k) <> [].
Proof.
  intros ([Hk _] & (v & Hv & (Ht & Hh & Hn) & _) & _). unfold line_of, vf. rewrite Hv. split.
  - intro X. apply in_app_or in X as [X|X]; [revert X; apply word_no; auto|].
    apply in_app_or in X as [X|X]; [vm_compute in X; intuition discriminate|auto].
  - rewrite clean_eq. rewrite cut_comment_id.
    + destruct (word_ends k Hk) as (c & m & e & -> & Hc & He). cbn [app].
      change (L " = " ++ v) with (L " " ++ L "= " ++ v). rewrite app_assoc.
      rewrite eqv_trim; auto; [discriminate|]. symmetry. apply is_trim_unique. auto.
    + intro X. apply in_app_or in X as [X|X]; [revert X; apply word_no; auto|].
      apply in_app_or in X as [X|X]; [vm_compute in X; intuition discriminate|auto].
Qed.
Lemma write_reads h id : (exists b, nth_error h id = Some b) -> forall keys prev, (forall k, In k keys -> writable h id k) ->
  exists ls, write_loop h id prev keys = (file_text ls, WOk) /\ (forall l, In l ls -> ~ In "010"%char l) /\
    reads ls (map (fun k => clean (line_of h id k)) keys).
Proof.
  intros [b Hb]. induction keys as [|k keys IH]; intros prev Hw; cbn [write_loop map].
  - exists []. split; [reflexivity|]. split; [intros ? []|constructor].
  - pose proof (Hw k (or_introl eq_refl)) as W. destruct (line_of_ok h id k W) as [L1 L2].
    destruct W as (Wk & (v & Hv & Wv & _) & (d & Hd) & Wl). rewrite Hd.
    assert (HD : exists hs pv, (match d with [] => if prev then (["010"%char], false) else ([], false) | _ :: _ => (write_cb_comment d, true) end)
       = (file_text hs, pv) /\ (forall l, In l hs -> ~ In "010"%char l) /\ reads hs []).
    { destruct d as [|c0 d0].
      - destruct prev; [exists [[]], false|exists [], false]; (split; [reflexivity|]); (split; [|]).
        + intros l [<-|[]]; auto. + apply reads_blank; [|constructor]. apply says_clean. reflexivity.
        + intros ? []. + constructor.
      - exists ([] :: comment_lines (c0 :: d0)), true. destruct (comment_lines_ok (c0 :: d0)) as [A B].
        split; [reflexivity|]. split; [intros l [<-|Hl]; auto|]. apply reads_blank; [apply says_clean; reflexivity|].
        apply reads_comments; auto. }
    destruct HD as (hs & pv & -> & Nh & Rh). rewrite Hv. unfold get_location. rewrite Hb.
    destruct (IH pv) as (ls & -> & Nl & Rl); [intros; apply Hw; right; auto|].
    set (here := match sfind k (b_loc b) with Some (file, line) => [L "# defined - " ++ file ++ L ":" ++ dec line] | None => [] end).
    assert (Hhere : (forall l, In l here -> ~ In "010"%char l) /\ reads here [] /\
      (match sfind k (b_loc b) with Some (file, line) => eol_of (L "# defined - " ++ file ++ L ":" ++ dec line) | None => [] end) = file_text here).
    { unfold here, get_location in *. rewrite Hb in Wl. destruct (sfind k (b_loc b)) as [[file line]|]; [|split; [intros ? []|split; [constructor|reflexivity]]].
      split; [|split].
      - intros l [<-|[]] X. apply in_app_or in X as [X|X]; [vm_compute in X; intuition discriminate|].
        apply in_app_or in X as [X|X]; [apply (Wl _ _ eq_refl X)|]. apply in_app_or in X as [X|X]; [vm_compute in X; intuition discriminate|].
        apply dec_chars in X as [X|X]; discriminate X.
      - apply reads_comments. intros l [<-|[]]. eexists. reflexivity.
      - unfold file_text. cbn [map concat]. rewrite app_nil_r. reflexivity. }
    destruct Hhere as (Nhere & Rhere & ->).
    exists (hs ++ [line_of h id k] ++ here ++ ls). split; [|split].
    + rewrite !file_text_app. replace (file_text [line_of h id k]) with (eol_of (k ++ L " = " ++ v)); [reflexivity|].
      unfold line_of, vf. rewrite Hv. unfold file_text. cbn [map concat]. rewrite app_nil_r. reflexivity.
    + intros l Hl. apply in_app_or in Hl as [Hl|Hl]; [exact (Nh l Hl)|]. cbn [app] in Hl. destruct Hl as [<-|Hl]; [exact L1|]. apply in_app_or in Hl as [Hl|Hl]; [exact (Nhere l Hl)|exact (Nl l Hl)].
    + change (clean (line_of h id k) :: map (fun k0 => clean (line_of h id k0)) keys) with ([] ++ [clean (line_of h id k)] ++ [] ++ map (fun k0 => clean (line_of h id k0)) keys).
      repeat apply reads_app; auto. apply reads_text; [apply says_clean; reflexivity|auto|constructor].
Qed.

Fixpoint doc_of (h : heap) (id : nat) (keys : list str) : doc :=
  match keys with [] => Nil | k :: r => Entry false false k (vf h id k) (doc_of h id r) end.
Lemma doc_of_facts h id keys : (forall k, In k keys -> writable h id k) ->
  well_formed (doc_of h id keys) /\ write (doc_of h id keys) = map (line_of h id) keys /\
  reads (write (doc_of h id keys)) (map (fun k => clean (line_of h id k)) keys).
Proof.
  induction keys as [|k keys IH]; intro Hw; cbn [doc_of well_formed write map].
  - repeat split; constructor.
  - destruct IH as (I1 & I2 & I3); [intros; apply Hw; right; auto|].
    pose proof (Hw k (or_introl eq_refl)) as W. destruct (line_of_ok h id k W) as [L1 L2].
    destruct W as (Wk & (v & Hv & Wv & _) & _). split; [|split].
    + split; auto. split; auto. unfold vf. rewrite Hv. exact Wv.
    + rewrite I2. reflexivity.
    + apply reads_text; auto. apply says_clean. reflexivity.
Qed.
Lemma doc_of_denote w file h id keys : (forall k, In k keys -> writable h id k) -> forall e, (forall k, e_ro e k = false) ->
  exists e', denote w file [] (doc_of h id keys) e = inl e' /\ (forall k, e_ro e' k = false) /\
    forall k, (In k keys -> e_val e' k = Some (vf h id k)) /\ (~ In k keys -> e_val e' k = e_val e k).
Proof.
  induction keys as [|k keys IH]; intros Hw e He; cbn [doc_of denote].
  - exists e. split; auto. split; auto. intro k. split; auto. intros [].
  - rewrite abs_key_nil, He. cbn [orb].
    pose proof (Hw k (or_introl eq_refl)) as (Wk & (v & Hv & Wv & Wd) & _).
    assert (Ex : trim (expand (refs w e) (vf h id k)) = vf h id k).
    { unfold vf. rewrite Hv. rewrite expand_plain by auto. symmetry. apply is_trim_unique. apply Wv. }
    rewrite Ex.
    destruct (IH (fun k0 H => Hw k0 (or_intror H)) (mkE (put k (Some (vf h id k)) (e_val e)) (put k false (e_ro e)) (e_sym e))) as (e' & -> & Hr & Hk).
    { intro k0. cbn [e_ro]. unfold put. destruct (str_eqb k0 k); auto. }
    exists e'. split; auto. split; auto. intro k0. destruct (Hk k0) as [A B]. destruct (in_dec str_dec k0 keys) as [Hin|Hin].
    + split; auto. intro N. destruct N. right; auto.
    + rewrite B by auto. cbn [e_val]. unfold put. destruct (str_eqb_spec k0 k) as [->|N].
      * split; auto. intro X. destruct X. left; auto.
      * split; auto. intros [X|X]; congruence.
Qed.

Lemma insert_in x k l : In x (insert k l) <-> x = k \/ In x l.
Proof.
  induction l as [|y l IH]; cbn; [intuition|]. destruct (str_cmp y k); cbn; rewrite ?IH; intuition.
Qed.
Lemma sort_in x l : In x (sort l) <-> In x l.
Proof. induction l as [|y l IH]; cbn; [tauto|]. unfold sort in *. cbn. rewrite insert_in, IH. intuition. Qed.

Lemma reads_all ls : reads ls (filter nonempty (map clean ls)).
Proof.
  induction ls as [|l ls IH]; [constructor|]. cbn [map filter]. destruct (clean l) eqn:E.
  - apply reads_blank; auto. apply says_clean. auto.
  - apply reads_text; auto; [apply says_clean; auto|discriminate].
Qed.
Lemma same_outcome_done r1 r2 st : same_outcome r1 r2 -> r2 = PDone st -> exists st1, r1 = PDone st1 /\ same_content (p_heap st1) (p_heap st).
Proof. intros H ->. destruct r1; try contradiction. eauto. Qed.

Lemma round_trip h id keys : (exists b, nth_error h id = Some b) -> available_values h id = Ok keys -> keys <> [] ->
  (forall k, In k keys -> writable h id k) ->
  exists text, write_config h id = (text, WOk) /\
   forall w file, w_fs w file = File text ->
   exists n0, forall n, n0 <= n -> exists st, parse n w file = PDone st /\
     forall k, is_read_only (p_heap st) 0 k = Ok false /\
       (In k keys -> get_string (p_heap st) 0 k = get_string h id k) /\
       (has_value (p_heap st) 0 k = Ok true <-> In k keys).
Proof.
  intros Hb Hav Hne Hw. unfold write_config. rewrite Hav. destruct keys as [|k0 ks] eqn:Ek; [congruence|]. rewrite <- Ek in *. clear Hne.
  assert (Hws : forall k, In k (sort keys) -> writable h id k) by (intros k Hk; apply Hw, sort_in, Hk).
  destruct (write_reads h id Hb (sort keys) false Hws) as (ls & -> & Nl & Rl).
  exists (file_text ls). split; [reflexivity|]. intros w file Hf.
  destruct (doc_of_facts h id (sort keys) Hws) as (WF & _ & Rd).
  set (d := doc_of h id (sort keys)) in *.
  set (w' := mkW (fun p => if str_eqb p file then File (file_text (write d)) else w_fs w p)
    (w_env w) (w_sysenv w) (w_full w) (w_dirname w) (w_collapse w) (w_syspath w) (w_search w)).
  assert (ST : same_texts w w').
  { split; [|repeat split]. intro p. cbn [w_fs w']. destruct (str_eqb_spec p file) as [->|N].
    - rewrite Hf. eexists. rewrite !lines_of_text; [split; [exact Rl|exact Rd]|apply write_nl; auto|auto].
    - destruct (w_fs w p); auto. eexists. split; apply reads_all. }
  assert (Hf' : w_fs w' file = File (file_text (write d))) by (cbn; rewrite str_eqb_refl; reflexivity).
  pose proof (doc_parse w' file d WF Hf') as DP.
  destruct (doc_of_denote w' file h id (sort keys) Hws empty_env (fun _ => eq_refl)) as (e' & E' & Hro & Hk). fold d in E'. rewrite E' in DP.
  destruct DP as (n0 & st & Hh & HP). exists n0. intros n Hn.
  pose proof (simr_outcome _ _ (parse_sim w w' ST n file)) as SO.
  destruct (same_outcome_done _ _ _ SO (HP n Hn)) as (st1 & E1 & (_ & SC)). exists st1. split; auto.
  intro k. destruct (SC k) as (S1 & S2 & _ & S4). destruct (Hh k) as (H1 & H2 & H3). destruct (Hk k) as [K1 K2].
  split; [congruence|]. rewrite S1, S2, H1, H2. split.
  - intro Hin. rewrite K1 by (apply sort_in; auto). destruct (Hw k Hin) as (_ & (v & Hv & _) & _). unfold vf. rewrite Hv. reflexivity.
  - split.
    + destruct (in_dec str_dec k (sort keys)) as [Hin|Hin]; [intros _; apply sort_in; auto|].
      rewrite K2 by auto. discriminate.
    + intro Hin. rewrite K1 by (apply sort_in; auto). reflexivity.
Qed.
